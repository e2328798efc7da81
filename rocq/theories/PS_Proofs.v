From Coq Require Import List ZArith Bool Lia.
From Verif Require Import PS_Model.
Import ListNotations.
Open Scope Z_scope.

Definition good_at (r : list Z) : istream := {| rest := r; failed := false; at_eof := false |}.
Definition eof_at : istream := {| rest := []; failed := true; at_eof := true |}.

(* value of a byte string, little endian *)
Fixpoint le_value (l : list Z) : Z :=
  match l with [] => 0 | b :: r => b + 256 * le_value r end.

Definition byte (b : Z) : Prop := 0 <= b < 256.

Lemma le_value_range l : Forall byte l -> 0 <= le_value l < 256 ^ Z.of_nat (length l).
Proof.
  induction 1 as [|b l Hb Hl IH]; [simpl; lia|]. unfold byte in Hb.
  cbn [le_value length]. rewrite Nat2Z.inj_succ, Z.pow_succ_r by lia. lia.
Qed.

Lemma write_le_length k : forall s, length (write_le k s) = k.
Proof. induction k; simpl; auto. Qed.

Lemma write_le_bytes k : forall s, Forall byte (write_le k s).
Proof.
  induction k; simpl; constructor; auto. unfold byte.
  change 255 with (Z.ones 8). rewrite Z.land_ones by lia. apply Z.mod_pos_bound. lia.
Qed.

Lemma le_value_write k : forall s, 0 <= s < 256 ^ Z.of_nat k -> le_value (write_le k s) = s.
Proof.
  induction k as [|k IH]; intros s H.
  - change (256 ^ Z.of_nat 0) with 1 in H. simpl. lia.
  - cbn [write_le le_value]. rewrite Nat2Z.inj_succ, Z.pow_succ_r in H by lia.
    rewrite Z.shiftr_div_pow2 by lia. change (2 ^ 8) with 256.
    rewrite IH.
    + change 255 with (Z.ones 8). rewrite Z.land_ones by lia. change (2 ^ 8) with 256.
      pose proof (Z.div_mod s 256). lia.
    + split; [apply Z.div_pos; lia|]. apply Z.div_lt_upper_bound; lia.
Qed.

Lemma get_good b r : get (good_at (b :: r)) = (good_at r, b).
Proof. reflexivity. Qed.
Lemma get_nil : get (good_at []) = (eof_at, -1).
Proof. reflexivity. Qed.
Lemma get_eof : get eof_at = (eof_at, -1).
Proof. reflexivity. Qed.

Lemma read_le_eof k : forall v, exists v', read_le k eof_at v = (eof_at, v').
Proof. induction k as [|k IH]; intros v; simpl; eauto. Qed.

Lemma read_le_short k : forall l v, (length l < k)%nat ->
  exists v', read_le k (good_at l) v = (eof_at, v').
Proof.
  induction k as [|k IH]; intros l v H; [lia|]. destruct l as [|b l].
  - cbn [read_le]. rewrite get_nil. apply read_le_eof.
  - cbn [read_le]. rewrite get_good. apply IH. simpl in H. lia.
Qed.

(* the accumulator holds the bytes read so far in its high part *)
Lemma read_le_ok k : forall l v r, Forall byte l -> length l = k ->
  0 <= v < 2 ^ 64 -> (k <= 8)%nat ->
  v mod 2 ^ (8 * Z.of_nat k) = 0 ->
  read_le k (good_at (l ++ r)) v =
    (good_at r, v / 2 ^ (8 * Z.of_nat k) + le_value l * 2 ^ (64 - 8 * Z.of_nat k)).
Proof.
  induction k as [|k IH]; intros l v r Hb Hl Hv Hk Hm.
  - destruct l; [|discriminate]. simpl. rewrite Z.div_1_r. f_equal. lia.
  - destruct l as [|b l]; [discriminate|]. inversion Hb as [|? ? Hb0 Hb1]; subst.
    cbn [read_le app]. rewrite get_good. unfold byte in Hb0.
    set (P := 2 ^ (8 * Z.of_nat k)) in *.
    assert (HP : 2 ^ (8 * Z.of_nat (S k)) = 256 * P).
    { unfold P. rewrite Nat2Z.inj_succ. replace (8 * Z.succ (Z.of_nat k)) with (8 + 8 * Z.of_nat k) by lia.
      rewrite Z.pow_add_r by lia. reflexivity. }
    assert (PP : 0 < P) by (apply Z.pow_pos_nonneg; lia).
    rewrite HP in Hm.
    assert (E1 : u64 b = b) by (unfold u64; apply Z.mod_small; lia).
    assert (E2 : u64 (Z.shiftl b 56) = b * 2 ^ 56).
    { unfold u64. rewrite Z.shiftl_mul_pow2 by lia. apply Z.mod_small. lia. }
    rewrite E1, E2.
    assert (V : exists q, v = q * (256 * P)).
    { exists (v / (256 * P)). pose proof (Z.div_mod v (256 * P)). lia. }
    destruct V as [q Hq].
    assert (E3 : Z.shiftr v 8 = q * P).
    { rewrite Z.shiftr_div_pow2 by lia. change (2 ^ 8) with 256.
      rewrite Hq. replace (q * (256 * P)) with (q * P * 256) by ring. apply Z.div_mul. lia. }
    rewrite E3.
    assert (R : 0 <= q * P + b * 2 ^ 56 < 2 ^ 64) by lia.
    assert (E4 : u64 (q * P + b * 2 ^ 56) = q * P + b * 2 ^ 56).
    { unfold u64. apply Z.mod_small. lia. }
    rewrite E4.
    assert (P56 : exists c, 2 ^ 56 = c * P /\ 2 ^ (64 - 8 * Z.of_nat k) = 256 * c /\
       2 ^ (64 - 8 * Z.of_nat (S k)) = c).
    { exists (2 ^ (56 - 8 * Z.of_nat k)). unfold P. rewrite <- Z.pow_add_r by lia.
      split; [f_equal; lia|]. split.
      - change 256 with (2 ^ 8). rewrite <- Z.pow_add_r by lia. f_equal. lia.
      - f_equal. lia. }
    destruct P56 as (c & C1 & C2 & C3).
    rewrite IH; auto; try (simpl in Hl; lia).
    + f_equal. rewrite HP, C3, C2. rewrite Hq. rewrite Z.div_mul by lia.
      cbn [le_value]. fold P. rewrite C1.
      replace (q * P + b * (c * P)) with ((q + b * c) * P) by ring.
      rewrite Z.div_mul by lia. ring.
    + fold P. rewrite C1. replace (q * P + b * (c * P)) with ((q + b * c) * P) by ring.
      apply Z.mod_mul. lia.
Qed.

Lemma read_size_ok n r : 0 <= n < 2 ^ 64 ->
  read_size (good_at (write_size n ++ r)) = (good_at r, Some n).
Proof.
  intros H. unfold read_size, write_size.
  rewrite read_le_ok; auto using write_le_bytes, write_le_length; try lia.
  - simpl failed. rewrite le_value_write by (change (256 ^ Z.of_nat 8) with (2 ^ 64); lia).
    rewrite Z.div_0_l by (apply Z.pow_nonzero; lia).
    f_equal. f_equal. change (64 - 8 * Z.of_nat 8) with 0. lia.
Qed.

Lemma read_size_short l : (length l < 8)%nat -> read_size (good_at l) = (eof_at, None).
Proof.
  intros H. unfold read_size. destruct (read_le_short 8 l 0 H) as [v ->]. reflexivity.
Qed.

Section P.
Variable msg : Type.
Variable serialize : msg -> list Z.
Variable parse : list Z -> option msg.
Variable gzip : list Z -> list Z.
Variable gunzip : list Z -> option (list Z).
Hypothesis parse_serialize : forall m, parse (serialize m) = Some m.
Hypothesis gunzip_gzip : forall d, gunzip (gzip d) = Some d.

Definition fits (m : msg) : Prop := Z.of_nat (length (gzip (serialize m))) < 2 ^ 64.

Notation rd := (read_proto msg parse gunzip).
Notation rdn := (read_n msg parse gunzip).
Notation rec := (record_of msg serialize gzip).

Lemma record_length m : length (rec m) = (8 + length (gzip (serialize m)))%nat.
Proof. unfold record_of. rewrite app_length. unfold write_size. rewrite write_le_length. auto. Qed.

Lemma read_record m r : fits m -> rd (good_at (rec m ++ r)) = (good_at r, RTrue m).
Proof.
  intros F. unfold read_proto, record_of. rewrite <- app_assoc.
  unfold fits in F. rewrite read_size_ok by lia.
  unfold read_bytes, good_at. cbn [rest failed at_eof orb].
  rewrite app_length, Nat2Z.inj_add.
  replace (Z.of_nat _ + _ <? _) with false by (symmetry; apply Z.ltb_ge; lia). rewrite Nat2Z.id. cbv zeta.
  rewrite firstn_app, Nat.sub_diag, firstn_all, firstn_O, app_nil_r.
  rewrite gunzip_gzip, parse_serialize. f_equal.
  rewrite skipn_app, skipn_all, Nat.sub_diag. reflexivity.
Qed.

Lemma read_eof : rd eof_at = (eof_at, RFalse).
Proof. reflexivity. Qed.

(* a proper prefix of a record *)
Lemma read_cut m p q : fits m -> rec m = p ++ q -> q <> [] ->
  rd (good_at p) = (eof_at, RFalse).
Proof.
  intros F E Q. unfold read_proto.
  assert (L : (length p < length (rec m))%nat).
  { rewrite E, app_length. destruct q; [congruence|simpl; lia]. }
  rewrite record_length in L.
  destruct (Nat.lt_ge_cases (length p) 8) as [C|C].
  - rewrite read_size_short by auto. reflexivity.
  - assert (Ep : exists p', p = write_size (Z.of_nat (length (gzip (serialize m)))) ++ p' /\
                            (length p' < length (gzip (serialize m)))%nat).
    { exists (skipn 8 p). split.
      - rewrite <- (firstn_skipn 8 p) at 1. f_equal.
        assert (X : firstn 8 (rec m) = firstn 8 p).
        { rewrite E. rewrite firstn_app. replace (8 - length p)%nat with O by lia.
          rewrite firstn_O. apply app_nil_r. }
        rewrite <- X. unfold record_of.
        assert (W : length (write_size (Z.of_nat (length (gzip (serialize m))))) = 8%nat)
          by apply write_le_length.
        rewrite firstn_app, W, Nat.sub_diag, firstn_O, app_nil_r. rewrite <- W at 1.
        apply firstn_all.
      - rewrite skipn_length. lia. }
    destruct Ep as (p' & -> & Lp). unfold fits in F. rewrite read_size_ok by lia.
    unfold read_bytes, good_at. cbn [rest failed at_eof orb].
    replace (_ <? _) with true by (symmetry; apply Z.ltb_lt; lia). reflexivity.
Qed.

Lemma read_nil : rd (good_at []) = (eof_at, RFalse).
Proof. reflexivity. Qed.

Lemma rdn_eof n : rdn n eof_at = (eof_at, repeat RFalse n).
Proof. induction n as [|n IH]; auto. cbn [read_n repeat]. rewrite read_eof, IH. reflexivity. Qed.

Definition expected (n : nat) (ms : list msg) : list (read_result msg) :=
  map RTrue (firstn n ms) ++ repeat RFalse (n - length ms).

Local Opaque read_proto record_of.
(* after the first failing read the stream is at its end *)
Lemma rdn_ok ms : forall n p q, Forall fits ms -> flat_map rec ms = p ++ q ->
  exists k, (k <= length ms)%nat /\
    (exists t, p = flat_map rec (firstn k ms) ++ t /\
       forall m, nth_error ms k = Some m -> (length t < length (rec m))%nat) /\
    (q = [] -> k = length ms) /\
    snd (rdn n (good_at p)) = expected n (firstn k ms) /\
    ((k < n)%nat -> fst (rdn n (good_at p)) = eof_at) /\
    ((n <= k)%nat -> failed (fst (rdn n (good_at p))) = false).
Proof.
  induction ms as [|m ms IH]; intros n p q F E.
  - simpl in E. symmetry in E. apply app_eq_nil in E. destruct E as [-> ->].
    exists O. split; [auto|]. split.
    { exists []. split; auto. intros m Hm. discriminate. }
    split; auto. unfold expected. rewrite firstn_nil. simpl.
    destruct n as [|n].
    + simpl. split; auto. split; [lia|auto].
    + cbn [read_n]. rewrite read_nil, rdn_eof. simpl. split; auto. split; [auto|lia].
  - inversion F as [|? ? F1 F2]; subst. cbn [flat_map] in E.
    destruct (Nat.lt_ge_cases (length p) (length (rec m))) as [C|C].
    + (* cut inside the first record *)
      assert (X : exists q', rec m = p ++ q' /\ q' <> []).
      { exists (skipn (length p) (rec m)). split.
        - rewrite <- (firstn_skipn (length p) (rec m)) at 1. f_equal.
          assert (Y : firstn (length p) (rec m ++ flat_map rec ms) = firstn (length p) (p ++ q)) by congruence.
          rewrite !firstn_app in Y. rewrite Nat.sub_diag, firstn_O, app_nil_r, firstn_all in Y.
          replace (length p - length (rec m))%nat with O in Y by lia.
          rewrite firstn_O, app_nil_r in Y. auto.
        - intros H. apply (f_equal (@length Z)) in H. rewrite skipn_length in H. cbn [length] in H. lia. }
      destruct X as (q' & X1 & X2).
      exists O. split; [lia|]. split.
      { exists p. split; auto. intros m' Hm. injection Hm as <-. auto. }
      split.
      { intros ->. rewrite app_nil_r in E. rewrite <- E, app_length in C. lia. }
      unfold expected. simpl.
      destruct n as [|n]; [simpl; split; auto; split; [lia|auto]|].
      cbn [read_n]. rewrite (read_cut m p q') by auto. rewrite rdn_eof. simpl.
      split; auto. split; [auto|lia].
    + assert (X : exists p', p = rec m ++ p' /\ flat_map rec ms = p' ++ q).
      { exists (skipn (length (rec m)) p).
        assert (Y : p = rec m ++ skipn (length (rec m)) p).
        { rewrite <- (firstn_skipn (length (rec m)) p) at 1. f_equal.
          assert (Y : firstn (length (rec m)) (rec m ++ flat_map rec ms) = firstn (length (rec m)) (p ++ q)) by congruence.
          rewrite !firstn_app in Y. rewrite Nat.sub_diag, firstn_O, app_nil_r, firstn_all in Y.
          replace (length (rec m) - length p)%nat with O in Y by lia.
          rewrite firstn_O, app_nil_r in Y. auto. }
        split; auto. rewrite Y in E at 1. rewrite <- app_assoc in E.
        apply app_inv_head in E. auto. }
      destruct X as (p' & -> & E').
      destruct n as [|n].
      { destruct (IH O p' q F2 E') as (k & K1 & (t & K2 & K2') & K3 & _).
        exists (S k). split; [simpl; lia|]. split.
        { exists t. split; [|intros m' Hm; apply K2'; exact Hm]. cbn [firstn flat_map].
          rewrite <- app_assoc. congruence. }
        split; [intros; simpl; f_equal; auto|]. simpl. split; [reflexivity|]. split; [lia|auto]. }
      destruct (IH n p' q F2 E') as (k & K1 & (t & K2 & K2') & K3 & K4 & K5 & K6).
      exists (S k). split; [simpl; lia|]. split.
      { exists t. split; [|intros m' Hm; apply K2'; exact Hm]. cbn [firstn flat_map].
        rewrite <- app_assoc. congruence. }
      split; [intros; simpl; f_equal; auto|].
      cbn [read_n]. rewrite read_record by auto.
      destruct (rdn n (good_at p')) as [s rs]. simpl in *.
      split; [|split; [intros; apply K5; lia|intros; apply K6; lia]].
      rewrite K4. unfold expected. simpl. reflexivity.
Qed.

Lemma open_ok r : open_reader (write_size kMagic ++ r) = Some (good_at r).
Proof.
  unfold open_reader. fold (good_at (write_size kMagic ++ r)).
  rewrite read_size_ok by (unfold kMagic; lia). rewrite Z.eqb_refl. reflexivity.
Qed.

Lemma open_short l : (length l < 8)%nat -> open_reader l = None.
Proof. intros H. unfold open_reader. fold (good_at l). now rewrite read_size_short. Qed.
End P.
