From Coq Require Import ZArith List Bool Lia Reals Lra.
From Verif Require Import Float32 FloatR Float32_Proofs ZMap VF_Model VF_Spec.
Import ListNotations.
Open Scope Z_scope.

(* The rounded quotient is the voxel of the specification *)
Lemma nearest_away_fun x u v : nearest_away x u -> nearest_away x v -> u = v.
Proof.
  intros A B.
  assert ((u <= v)%Z) by (eapply nearest_away_mono; [apply Rle_refl|..]; eauto).
  assert ((v <= u)%Z) by (eapply nearest_away_mono; [apply Rle_refl|..]; eauto).
  lia.
Qed.

Lemma in_voxel_fun r p u v : in_voxel r p u -> in_voxel r p v -> u = v.
Proof.
  destruct p as [[x y] z], u as [[a b] c], v as [[a' b'] c']; simpl.
  intros ((_ & A) & (_ & B) & (_ & C)) ((_ & A') & (_ & B') & (_ & C')).
  rewrite (nearest_away_fun _ _ _ A A'), (nearest_away_fun _ _ _ B B'),
    (nearest_away_fun _ _ _ C C'); auto.
Qed.

Lemma round_spec q n : ffin q -> nearest_away (fval q) n ->
  Z.abs n < 2 ^ 31 - 2 -> f_round_to_int q = Some n.
Proof.
  intros F N B.
  assert (E := nearest_away_err _ _ N).
  assert (Rabs (fval q) < IZR (2 ^ 31 - 1))%R.
  { replace (2 ^ 31 - 1) with ((2 ^ 31 - 2) + 1) by lia. rewrite plus_IZR.
    assert (IZR (Z.abs n) < IZR (2 ^ 31 - 2))%R by (apply IZR_lt; lia).
    rewrite abs_IZR in H.
    assert (Rabs (fval q) <= Rabs (IZR n) + Rabs (IZR n - fval q))%R.
    { replace (fval q) with (IZR n - (IZR n - fval q))%R at 1 by ring.
      unfold Rminus at 1. eapply Rle_trans; [apply Rabs_triang|].
      rewrite Rabs_Ropp. lra. }
    lra. }
  destruct (round_to_int_ok q F H) as (v & Ev & Nv).
  rewrite Ev. f_equal. eapply nearest_away_fun; eauto.
Qed.

Lemma cell_index_of r p v : in_voxel r p v -> in_key_range v -> cell_index r p = Some v.
Proof.
  destruct p as [[x y] z], v as [[a b] c]. unfold in_voxel, in_key_range.
  intros ((Fx & Nx) & (Fy & Ny) & (Fz & Nz)) (Rx & Ry & Rz).
  unfold cell_index.
  rewrite (round_spec _ _ Fx Nx), (round_spec _ _ Fy Ny), (round_spec _ _ Fz Nz); auto; lia.
Qed.

(* The packed key is injective in range *)
Lemma pack_key_eq x y z : pack_key (x, y, z) = (x * 2 ^ 42 + y * 2 ^ 21 + z) mod 2 ^ 64.
Proof.
  unfold pack_key, to_u64.
  rewrite Zmult_mod_idemp_l, Zmult_mod_idemp_l.
  rewrite <- Zplus_mod, <- Z.add_assoc, Zplus_mod_idemp_l.
  replace (x * 2 ^ 42 + ((y * 2 ^ 21) mod 2 ^ 64 + z))
    with ((y * 2 ^ 21) mod 2 ^ 64 + (x * 2 ^ 42 + z)) by ring.
  rewrite Zplus_mod_idemp_l. f_equal. ring.
Qed.

Lemma pack_key_inj u v : in_key_range u -> in_key_range v -> pack_key u = pack_key v -> u = v.
Proof.
  destruct u as [[a b] c], v as [[a' b'] c']. unfold in_key_range.
  rewrite !pack_key_eq. intros (A & B & C) (A' & B' & C') E.
  assert (exists t, a * 2 ^ 42 + b * 2 ^ 21 + c - (a' * 2 ^ 42 + b' * 2 ^ 21 + c') = t * 2 ^ 64).
  { exists ((a * 2 ^ 42 + b * 2 ^ 21 + c) / 2 ^ 64
            - (a' * 2 ^ 42 + b' * 2 ^ 21 + c') / 2 ^ 64).
    pose proof (Z.div_mod (a * 2 ^ 42 + b * 2 ^ 21 + c) (2 ^ 64) ltac:(lia)).
    pose proof (Z.div_mod (a' * 2 ^ 42 + b' * 2 ^ 21 + c') (2 ^ 64) ltac:(lia)).
    lia. }
  destruct H as (t & H).
  assert (c = c') by lia. subst.
  assert (b = b') by lia. subst.
  assert (a = a') by lia. subst. auto.
Qed.

(* The flags *)
Lemma points_used_length n m : length (points_used n m) = n.
Proof. unfold points_used. now rewrite map_length, seq_length. Qed.

Lemma points_used_nth n m i : (i < n)%nat ->
  nth i (points_used n m) false = true <-> exists k c, In (k, (c, i)) m.
Proof.
  intros L. unfold points_used.
  rewrite nth_indep with (d' := existsb (fun e : Z * (Z * nat) => Nat.eqb (snd (snd e)) O) m)
    by (rewrite map_length, seq_length; auto).
  rewrite (map_nth (fun i => existsb (fun e : Z * (Z * nat) => Nat.eqb (snd (snd e)) i) m)).
  rewrite seq_nth by auto. simpl. rewrite existsb_exists. split.
  - intros ((k & c & j) & I & E). simpl in E. apply Nat.eqb_eq in E. subst. eauto.
  - intros (k & c & I). exists (k, (c, i)). split; auto. simpl. apply Nat.eqb_refl.
Qed.

Section Sample.
Variable draw : nat -> Z -> Z.

Definition sampled (ks : list Z) (m : reservoir) : Prop :=
  zsorted m /\
  (forall k c j, In (k, (c, j)) m -> (j < length ks)%nat /\ nth j ks 0 = k /\ 1 <= c) /\
  (forall k, In k ks -> exists v, In (k, v) m).

Lemma sample_inv : forall ks pre m, sampled pre m ->
  sampled (pre ++ ks) (sample draw (length pre) ks m).
Proof.
  induction ks as [|k r IH]; intros pre m (S1 & S2 & S3).
  { simpl. rewrite app_nil_r. split; auto. }
  simpl sample.
  destruct (match zfind k m with Some v => v | None => (0, O) end) as [cnt idx] eqn:E.
  replace (pre ++ k :: r) with ((pre ++ [k]) ++ r) by (rewrite <- app_assoc; auto).
  replace (S (length pre)) with (length (pre ++ [k])) by (rewrite app_length; simpl; lia).
  apply IH. clear IH.
  set (idx' := if cnt + 1 =? 1 then length pre
               else if draw (length pre) (cnt + 1) =? cnt + 1 then length pre else idx).
  assert (J : (idx' < length (pre ++ [k]))%nat /\ nth idx' (pre ++ [k]) 0 = k /\ 1 <= cnt + 1).
  { assert (L : (length pre < length (pre ++ [k]))%nat /\
                nth (length pre) (pre ++ [k]) 0 = k).
    { rewrite app_length, app_nth2, Nat.sub_diag by lia. simpl. split; auto; lia. }
    assert (cnt = 0 \/ (1 <= cnt /\ (idx < length pre)%nat /\ nth idx pre 0 = k)).
    { destruct (zfind k m) eqn:F; [|injection E; auto].
      subst. apply zfind_In in F. apply S2 in F. destruct F as (F1 & F2 & F3).
      auto. }
    unfold idx'. destruct (Z.eqb_spec (cnt + 1) 1); [split; [|split]; try tauto; lia|].
    destruct H as [?|(H1 & H2 & H3)]; [lia|].
    destruct (draw (length pre) (cnt + 1) =? cnt + 1); [split; [|split]; try tauto; lia|].
    rewrite app_length, app_nth1 by lia. split; [lia|split; auto; lia]. }
  clearbody idx'. split; [|split].
  - apply zput_sorted; auto.
  - intros k' c' j' I. apply In_zput in I. destruct I as [I|I].
    + inversion I; subst. auto.
    + apply S2 in I. destruct I as (I1 & I2 & I3).
      rewrite app_length, app_nth1 by lia. repeat split; auto; lia.
  - intros k' I. rewrite in_app_iff in I.
    destruct (Z.eq_dec k' k) as [->|N].
    + exists (cnt + 1, idx'). apply zfind_In. rewrite zfind_zput by auto.
      now rewrite Z.eqb_refl.
    + destruct I as [I|[I|[]]]; [|congruence].
      destruct (S3 _ I) as (v & Hv). exists v. apply zfind_In.
      rewrite zfind_zput by auto. rewrite (proj2 (Z.eqb_neq k' k)) by auto.
      now apply In_zfind.
Qed.

Lemma sample_sampled ks : sampled ks (sample draw 0 ks []).
Proof.
  apply (sample_inv ks [] []). split; [constructor|split; simpl; tauto].
Qed.

(* two used points never share a key *)
Lemma used_unique ks i j : (i < length ks)%nat -> (j < length ks)%nat ->
  nth i (points_used (length ks) (sample draw 0 ks [])) false = true ->
  nth j (points_used (length ks) (sample draw 0 ks [])) false = true ->
  nth i ks 0 = nth j ks 0 -> i = j.
Proof.
  intros Li Lj Ui Uj E. destruct (sample_sampled ks) as (S1 & S2 & S3).
  apply points_used_nth in Ui; auto. apply points_used_nth in Uj; auto.
  destruct Ui as (k & c & I), Uj as (k' & c' & I').
  assert (k = k') by (apply S2 in I; apply S2 in I'; intuition congruence). subst k'.
  apply In_zfind in I; auto. apply In_zfind in I'; auto. congruence.
Qed.

(* every key has a used point *)
Lemma used_exists ks i : (i < length ks)%nat -> exists j,
  (j < length ks)%nat /\
  nth j (points_used (length ks) (sample draw 0 ks [])) false = true /\
  nth j ks 0 = nth i ks 0.
Proof.
  intros L. destruct (sample_sampled ks) as (S1 & S2 & S3).
  destruct (S3 (nth i ks 0)) as ((c & j) & I); [now apply nth_In|].
  exists j. destruct (S2 _ _ _ I) as (A & B & _). split; auto. split; auto.
  apply points_used_nth; eauto.
Qed.
End Sample.

(* keep *)
Lemma keep_subsequence {T} : forall flags (l : list T), subsequence (keep flags l) l.
Proof.
  induction flags as [|b fs IH]; intros l.
  - simpl. induction l; constructor; auto.
  - destruct l as [|x r]; simpl; [constructor|]. destruct b; [apply ss_take|apply ss_drop]; auto.
Qed.

Lemma keep_In {T} (d : T) : forall flags l j, (j < length l)%nat ->
  nth j flags false = true -> In (nth j l d) (keep flags l).
Proof.
  induction flags as [|b fs IH]; intros l j L H.
  - destruct j; discriminate.
  - destruct l as [|x r]; simpl in L; [lia|]. simpl.
    destruct j as [|j]; simpl in H |- *.
    + subst. left; auto.
    + assert (In (nth j r d) (keep fs r)) by (apply IH; auto; lia).
      destruct b; simpl; auto.
Qed.

Lemma keep_at {T} (d : T) : forall flags l a p b, keep flags l = a ++ p :: b ->
  exists i, (i < length l)%nat /\ nth i flags false = true /\ nth i l d = p /\
    keep (skipn (S i) flags) (skipn (S i) l) = b.
Proof.
  induction flags as [|f fs IH]; intros l a p b E.
  - destruct a; discriminate.
  - destruct l as [|x r]; simpl in E; [destruct a; discriminate|].
    destruct f.
    + destruct a as [|a0 a]; simpl in E; inversion E; subst.
      * exists O. simpl. repeat split; auto; lia.
      * destruct (IH r a p b H1) as (i & A & B & C & D). exists (S i). simpl. repeat split; auto; lia.
    + destruct (IH r a p b E) as (i & A & B & C & D). exists (S i). simpl. repeat split; auto; lia.
Qed.

Lemma nth_skipn' {T} (d : T) : forall n l i, nth i (skipn n l) d = nth (n + i) l d.
Proof. induction n; destruct l; simpl; intros; auto. destruct i; auto. Qed.

Lemma keep_at2 {T} (d : T) flags l a p b q c : keep flags l = a ++ p :: b ++ q :: c ->
  exists i j, (i < j)%nat /\ (j < length l)%nat /\ nth i flags false = true /\
    nth j flags false = true /\ nth i l d = p /\ nth j l d = q.
Proof.
  intros E. destruct (keep_at d _ _ _ _ _ E) as (i & A & B & C & D).
  destruct (keep_at d _ _ _ _ _ D) as (j & A' & B' & C' & D').
  rewrite skipn_length in A'. rewrite nth_skipn' in B'. rewrite nth_skipn' in C'.
  exists i, (S i + j)%nat. repeat split; auto; lia.
Qed.

Lemma keep_map {T U} (f : T -> U) : forall flags l, map f (keep flags l) = keep flags (map f l).
Proof.
  induction flags as [|b fs IH]; intros [|x r]; simpl; auto.
  destruct b; simpl; now rewrite IH.
Qed.

Lemma keep_all {T} : forall flags (l : list T), length flags = length l ->
  (forall i, (i < length l)%nat -> nth i flags false = true) -> keep flags l = l.
Proof.
  induction flags as [|b fs IH]; intros [|x r] L H; simpl in *; auto; try discriminate.
  assert (b = true) by (apply (H O); lia). subst. f_equal. apply IH; [lia|].
  intros i Li. apply (H (S i)). lia.
Qed.

Lemma keep_length {T U} : forall flags (l : list T) (l' : list U), length l = length l' ->
  length (keep flags l) = length (keep flags l').
Proof.
  induction flags as [|b fs IH]; intros [|x r] [|y s] L; simpl in *; auto; try discriminate.
  destruct b; simpl; [f_equal|]; apply IH; lia.
Qed.

Lemma keep_combine {T U} : forall flags (l : list T) (l' : list U), length l = length l' ->
  combine (keep flags l) (keep flags l') = keep flags (combine l l').
Proof.
  induction flags as [|b fs IH]; intros [|x r] [|y s] L; simpl in *; auto; try discriminate.
  destruct b; simpl; [f_equal|]; apply IH; lia.
Qed.

Lemma keep_filter {T} (f : T -> bool) : forall l, keep (map f l) l = filter f l.
Proof. induction l; simpl; auto. destruct (f a); now rewrite IHl. Qed.

(* The keys of points in range *)
Lemma keys_of_ok r : forall ps, (forall p, In p ps -> point_ok r p) ->
  exists vs, keys_of r ps = Some (map pack_key vs) /\ Forall2 (in_voxel r) ps vs /\
    Forall in_key_range vs.
Proof.
  induction ps as [|p ps IH]; intros H.
  - exists []. repeat split; constructor.
  - destruct IH as (vs & E & F & G); [intros; apply H; simpl; auto|].
    destruct (H p) as (v & V & K); [simpl; auto|].
    exists (v :: vs). simpl. unfold voxel_key. rewrite (cell_index_of _ _ _ V K), E.
    repeat split; constructor; auto.
Qed.

Lemma Forall2_nth {A B} (R : A -> B -> Prop) d d' : forall l l' i, Forall2 R l l' ->
  (i < length l)%nat -> R (nth i l d) (nth i l' d').
Proof.
  intros l l' i H. revert i. induction H; simpl; intros i L; [lia|].
  destruct i; auto. apply IHForall2. lia.
Qed.

Lemma Forall2_len {A B} (R : A -> B -> Prop) l l' : Forall2 R l l' -> length l = length l'.
Proof. induction 1; simpl; auto. Qed.

Section Filter.
Context {T : Type}.
Variable pos : T -> vec3f.
Variable draw : nat -> Z -> Z.
Variable r : f32.

Lemma filter_flags (l : list T) : (forall p, In p l -> point_ok r (pos p)) ->
  exists flags, filter_indices draw r (map pos l) = Some flags /\
    length flags = length l /\ one_per_voxel pos r (keep flags l) l.
Proof.
  intros H. destruct (keys_of_ok r (map pos l)) as (vs & E & F & G).
  { intros p I. apply in_map_iff in I. destruct I as (q & <- & I). auto. }
  unfold filter_indices. rewrite E. eexists. split; [reflexivity|].
  rewrite map_length, points_used_length. split; auto.
  pose proof (Forall2_len _ _ _ F) as L. rewrite map_length in L.
  set (ks := map pack_key vs).
  assert (Lk : length ks = length l) by (unfold ks; rewrite map_length; lia).
  rewrite <- Lk.
  (* voxel of the i-th point *)
  assert (V : forall d i, (i < length l)%nat -> in_voxel r (pos (nth i l d)) (nth i vs (0,0,0))).
  { intros d i Li.
    pose proof (Forall2_nth _ (pos d) (0,0,0) _ _ i F ltac:(rewrite map_length; auto)) as P.
    now rewrite map_nth in P. }
  assert (K : forall i, nth i ks 0 = pack_key (nth i vs (0,0,0))).
  { intros i. unfold ks. change 0 with (pack_key (0,0,0)) at 1. apply map_nth. }
  assert (R : forall i, (i < length l)%nat -> in_key_range (nth i vs (0,0,0))).
  { intros i Li. rewrite Forall_forall in G. apply G. apply nth_In. lia. }
  split.
  - intros a p b q c v Eo Vp Vq.
    destruct (keep_at2 p _ _ _ _ _ _ _ Eo) as (i & j & Lij & Lj & Ui & Uj & Pi & Pj).
    assert (i = j); [|lia].
    eapply (used_unique draw ks); eauto; try lia.
    rewrite !K. f_equal.
    transitivity v; [|symmetry].
    + eapply in_voxel_fun; [apply (V p); lia|]. now rewrite Pi.
    + eapply in_voxel_fun; [apply (V p); lia|]. now rewrite Pj.
  - intros p v I Vp. destruct (In_nth _ _ p I) as (i & Li & Pi).
    destruct (used_exists draw ks i) as (j & Lj & Uj & Kj); [lia|].
    exists (nth j l p). split; [apply keep_In; auto; lia|].
    rewrite !K in Kj. apply pack_key_inj in Kj; [|apply R; lia|apply R; lia].
    assert (v = nth i vs (0,0,0)).
    { eapply in_voxel_fun; [exact Vp|]. pose proof (V p i Li) as Q. now rewrite Pi in Q. }
    subst v. rewrite <- Kj. apply V. lia.
Qed.

(* A list with at most one point per voxel is left alone *)
Lemma filter_fixed (l : list T) : (forall p, In p l -> point_ok r (pos p)) ->
  (forall a p b q c v, l = a ++ p :: b ++ q :: c ->
     in_voxel r (pos p) v -> in_voxel r (pos q) v -> False) ->
  filter_indices draw r (map pos l) = Some (repeat true (length l)) .
Proof.
  intros H U. destruct (keys_of_ok r (map pos l)) as (vs & E & F & G).
  { intros p I. apply in_map_iff in I. destruct I as (q & <- & I). auto. }
  unfold filter_indices. rewrite E. f_equal. rewrite map_length.
  pose proof (Forall2_len _ _ _ F) as L. rewrite map_length in L.
  set (ks := map pack_key vs).
  assert (Lk : length ks = length l) by (unfold ks; rewrite map_length; lia).
  apply nth_ext with (d := false) (d' := false).
  { now rewrite points_used_length, repeat_length. }
  intros i Li. rewrite points_used_length in Li. rewrite <- Lk in *.
  destruct (used_exists draw ks i Li) as (j & Lj & Uj & Kj).
  assert (j = i); [|subst; rewrite Uj; symmetry].
  { destruct l as [|d l0] eqn:El; [simpl in Lk; lia|]. rewrite <- El in *.
    assert (V : forall i, (i < length l)%nat -> in_voxel r (pos (nth i l d)) (nth i vs (0,0,0))).
    { intros n Ln.
      pose proof (Forall2_nth _ (pos d) (0,0,0) _ _ n F ltac:(rewrite map_length; auto)) as P.
      now rewrite map_nth in P. }
    assert (K : forall i, nth i ks 0 = pack_key (nth i vs (0,0,0))).
    { intros n. unfold ks. change 0 with (pack_key (0,0,0)) at 1. apply map_nth. }
    assert (R : forall i, (i < length l)%nat -> in_key_range (nth i vs (0,0,0))).
    { intros n Ln. rewrite Forall_forall in G. apply G. apply nth_In. lia. }
    rewrite !K in Kj. apply pack_key_inj in Kj; [|apply R; lia|apply R; lia].
    assert (W : forall m n, (m < n)%nat -> (n < length l)%nat ->
              nth m vs (0,0,0) = nth n vs (0,0,0) -> False).
    { intros m n Lmn Ln Emn.
      destruct (nth_split l d (n := n) Ln) as (a & c & E1 & E2).
      assert (La : (m < length a)%nat) by lia.
      destruct (nth_split a d (n := m) La) as (a1 & b & E3 & E4).
      eapply (U a1 (nth m l d) b (nth n l d) c (nth m vs (0,0,0))).
      - rewrite E1 at 1. rewrite E3 at 1. rewrite <- app_assoc. simpl.
        replace (nth m a d) with (nth m l d); auto.
        rewrite E1. apply app_nth1; auto.
      - apply V; lia.
      - rewrite Emn. apply V; lia. }
    destruct (Nat.lt_trichotomy i j) as [C|[C|C]]; auto; exfalso.
    - eapply (W i j); eauto; lia.
    - eapply (W j i); eauto; lia. }
  apply (repeat_spec (length ks) true). apply nth_In. rewrite repeat_length. lia.
Qed.
End Filter.
