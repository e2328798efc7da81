(* Real-number meaning of the binary32 operations of Float32.v. *)
From Coq Require Import ZArith Bool SpecFloat Reals Lia Lra.
From Flocq Require Import Core.Core IEEE754.BinarySingleNaN.
From Verif Require Import Float32 FloatR.
Open Scope R_scope.

Lemma p24 : (0 < 24)%Z. Proof. lia. Qed.
Lemma m128 : (24 < 128)%Z. Proof. lia. Qed.

Notation valid32 := (fvalid 24 128).
Notation rnd32 := (frnd 24 128).

(* nearest integer, halfway cases away from zero *)
Definition nearest_away (x : R) (v : Z) : Prop :=
  (0 <= x -> IZR v - / 2 <= x < IZR v + / 2) /\
  (x < 0 -> IZR v - / 2 < x <= IZR v + / 2).

Lemma nearest_away_mono x y u v : x <= y -> nearest_away x u -> nearest_away y v -> (u <= v)%Z.
Proof.
  intros L [A1 A2] [B1 B2]. apply Z.lt_succ_r. apply lt_IZR. rewrite succ_IZR.
  destruct (Rle_or_lt 0 x), (Rle_or_lt 0 y); try lra.
Qed.

Lemma nearest_away_err x v : nearest_away x v -> Rabs (IZR v - x) <= / 2.
Proof.
  intros [A B]. apply Rabs_le. destruct (Rle_or_lt 0 x) as [H | H];
    [specialize (A H) | specialize (B H)]; lra.
Qed.

Lemma lround_ok x : ffin x -> Rabs (fval x) < IZR (2 ^ 63 - 1) ->
  exists v, lround x = Some v /\ nearest_away (fval x) v.
Proof.
  destruct x as [s | s | | s m e]; try discriminate; intros _ L.
  - exists 0%Z. split; [reflexivity|]. unfold nearest_away, fval, SF2R. lra.
  - cbn [lround]. cbv zeta.
    set (a := if (0 <=? e)%Z then (Zpos m * 2 ^ e)%Z else _).
    set (r := F2R (Float radix2 (Zpos m) e)).
    assert (Hr : 0 < r) by (apply F2R_gt_0; reflexivity).
    assert (Ha : IZR a - / 2 <= r < IZR a + / 2).
    { unfold a, r. destruct (Z.leb_spec 0 e) as [E | E].
      - unfold F2R. cbn [Fnum Fexp]. rewrite mult_IZR.
        rewrite <- (IZR_Zpower radix2) by exact E. change (radix2 ^ e)%Z with (2 ^ e)%Z. lra.
      - set (k := (2 ^ (- e))%Z). assert (K : (0 < k)%Z) by (apply Z.pow_pos_nonneg; lia).
        assert (F : F2R (Float radix2 (Zpos m) e) = IZR (Zpos m) / IZR k).
        { unfold F2R. cbn [Fnum Fexp]. unfold k.
          replace e with (- (- e))%Z at 1 by lia. rewrite bpow_opp.
          rewrite <- (IZR_Zpower radix2) by lia. reflexivity. }
        rewrite F. assert (0 < IZR k) by (apply IZR_lt; exact K).
        pose proof (Z.div_mod (2 * Zpos m + k) (2 * k) ltac:(lia)) as D.
        pose proof (Z.mod_pos_bound (2 * Zpos m + k) (2 * k) ltac:(lia)) as M.
        set (q := ((2 * Zpos m + k) / (2 * k))%Z) in *.
        set (t := ((2 * Zpos m + k) mod (2 * k))%Z) in *.
        assert (D' : 2 * IZR (Zpos m) + IZR k = 2 * IZR k * IZR q + IZR t)
          by (rewrite <- !mult_IZR, <- !plus_IZR; f_equal; exact D).
        assert (0 <= IZR t < 2 * IZR k) by (rewrite <- mult_IZR; split; [apply IZR_le | apply IZR_lt]; lia).
        split.
        + apply Rmult_le_reg_r with (IZR k); [assumption|].
          unfold Rdiv. rewrite Rmult_assoc, Rinv_l by lra. lra.
        + apply Rmult_lt_reg_r with (IZR k); [assumption|].
          unfold Rdiv. rewrite Rmult_assoc, Rinv_l by lra. lra. }
    assert (V : fval (S754_finite s m e) = if s then - r else r).
    { unfold fval, SF2R, r. destruct s; [|reflexivity]. cbn [cond_Zopp].
      change (Z.neg m) with (- Zpos m)%Z. now rewrite F2R_Zopp. }
    rewrite V in *. assert (La : Rabs (if s then - r else r) = r)
      by (destruct s; [rewrite Rabs_Ropp|]; apply Rabs_pos_eq; lra).
    rewrite La in L. rewrite minus_IZR in L.
    assert (B1 : (a < 2 ^ 63)%Z) by (apply lt_IZR; lra).
    assert (B0 : (0 <= a)%Z) by (apply Z.lt_succ_r, lt_IZR; rewrite succ_IZR; lra).
    set (v := if s then (- a)%Z else a).
    exists v. split.
    + replace ((- 2 ^ 63 <=? v)%Z && (v <? 2 ^ 63)%Z)%bool with true; [reflexivity|].
      symmetry. apply andb_true_intro. unfold v. clearbody a. split;
        [apply Z.leb_le | apply Z.ltb_lt]; destruct s; lia.
    + unfold nearest_away, v. destruct s; [rewrite opp_IZR|]; split; intros; lra.
Qed.

Lemma round_to_int_ok x : ffin x -> Rabs (fval x) < IZR (2 ^ 31 - 1) ->
  exists v, f_round_to_int x = Some v /\ nearest_away (fval x) v.
Proof.
  intros F L. destruct (lround_ok x F) as [v [E N]].
  { eapply Rlt_trans; [exact L|]. apply IZR_lt. lia. }
  exists v. split; [|exact N]. unfold f_round_to_int. rewrite E.
  pose proof (nearest_away_err _ _ N) as Er. rewrite minus_IZR in L.
  apply Rabs_def2 in L. apply Rabs_le_inv in Er.
  replace ((- 2 ^ 31 <=? v)%Z && (v <? 2 ^ 31)%Z)%bool with true; [reflexivity|].
  symmetry. apply andb_true_intro. split; [apply Z.leb_le | apply Z.ltb_lt].
  - apply le_IZR. rewrite opp_IZR. lra.
  - apply lt_IZR. lra.
Qed.

Lemma fadd_ok x y : valid32 x -> valid32 y -> ffin x -> ffin y ->
  Rabs (rnd32 (fval x + fval y)) < bpow radix2 128 ->
  ffin (fadd x y) /\ fval (fadd x y) = rnd32 (fval x + fval y).
Proof. exact (add_ok 24 128 p24 m128 x y). Qed.
Lemma fsub_ok x y : valid32 x -> valid32 y -> ffin x -> ffin y ->
  Rabs (rnd32 (fval x - fval y)) < bpow radix2 128 ->
  ffin (fsub x y) /\ fval (fsub x y) = rnd32 (fval x - fval y).
Proof. exact (sub_ok 24 128 p24 m128 x y). Qed.
Lemma fmul_ok x y : valid32 x -> valid32 y -> ffin x -> ffin y ->
  Rabs (rnd32 (fval x * fval y)) < bpow radix2 128 ->
  ffin (fmul x y) /\ fval (fmul x y) = rnd32 (fval x * fval y).
Proof. exact (mul_ok 24 128 p24 m128 x y). Qed.
Lemma fdiv_ok x y : valid32 x -> valid32 y -> ffin x -> fval y <> 0 ->
  Rabs (rnd32 (fval x / fval y)) < bpow radix2 128 ->
  ffin (fdiv x y) /\ fval (fdiv x y) = rnd32 (fval x / fval y).
Proof. exact (div_ok 24 128 p24 m128 x y). Qed.
Lemma fadd_valid x y : valid32 x -> valid32 y -> valid32 (fadd x y).
Proof. exact (add_valid 24 128 p24 m128 x y). Qed.
Lemma fsub_valid x y : valid32 x -> valid32 y -> valid32 (fsub x y).
Proof. exact (sub_valid 24 128 p24 m128 x y). Qed.
Lemma fmul_valid x y : valid32 x -> valid32 y -> valid32 (fmul x y).
Proof. exact (mul_valid 24 128 p24 m128 x y). Qed.
Lemma fdiv_valid x y : valid32 x -> valid32 y -> valid32 (fdiv x y).
Proof. exact (div_valid 24 128 p24 m128 x y). Qed.
Lemma fltb_ok x y : valid32 x -> valid32 y -> ffin x -> ffin y ->
  fltb x y = true <-> fval x < fval y.
Proof. exact (ltb_ok 24 128 x y). Qed.
Lemma fleb_ok x y : valid32 x -> valid32 y -> ffin x -> ffin y ->
  fleb x y = true <-> fval x <= fval y.
Proof. exact (leb_ok 24 128 x y). Qed.
Lemma rnd32_le x y : x <= y -> rnd32 x <= rnd32 y.
Proof. exact (frnd_le 24 128 p24 x y). Qed.
Lemma rnd32_val x : valid32 x -> rnd32 (fval x) = fval x.
Proof. exact (frnd_val 24 128 x). Qed.
Lemma rnd32_err r : Rabs (rnd32 r - r) <=
  / 16777216 * Rabs r + / IZR (2 ^ 150).
Proof.
  eapply Rle_trans; [exact (frnd_err 24 128 p24 r)|].
  apply Req_le. f_equal.
  - f_equal. simpl. lra.
  - change (3 - 128 - 24)%Z with (- (149))%Z. rewrite bpow_opp.
    rewrite <- (IZR_Zpower radix2) by lia. change (radix2 ^ 149)%Z with (2 ^ 149)%Z.
    replace (IZR (2 ^ 150)) with (2 * IZR (2 ^ 149)).
    + field. apply IZR_neq. lia.
    + rewrite <- mult_IZR. reflexivity.
Qed.
Lemma f_of_Z_valid z : valid32 (f_of_Z z).
Proof. exact (of_Z_valid 24 128 p24 m128 z 0). Qed.
