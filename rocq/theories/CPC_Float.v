(* Rounding in the compressed point cloud: which coordinates are accepted and
   to which raster point they go. *)
From Coq Require Import ZArith List Bool Lia Reals Lra Permutation.
From Flocq Require Import Core IEEE754.BinarySingleNaN.
From Verif Require Import Vec Float32 FloatR Float32_Proofs PV_Bounded VF_Adaptive
  G2_Model HG_Model HG_Spec CPC_Model CPC_Spec CPC_Proofs.
Import ListNotations.
Open Scope Z_scope.

Lemma step_pos : (0 < step)%R. Proof. unfold step. lra. Qed.

Lemma k_val : valid32 kPrecision /\ ffin kPrecision /\ fval kPrecision = step.
Proof.
  replace kPrecision with (SpecFloat.S754_finite false 8589935 (-33)) by (vm_compute; reflexivity).
  split; [vm_compute; reflexivity|]. split; [reflexivity|].
  rewrite fval_pos. change (-33)%Z with (- (33))%Z. rewrite bpow_neg.
  replace (IZR (2 ^ 33)) with 8589934592%R by (simpl; lra). reflexivity.
Qed.

Lemma fabs_ok x : valid32 x -> ffin x ->
  valid32 (fabs x) /\ ffin (fabs x) /\ fval (fabs x) = Rabs (fval x).
Proof.
  intros V F. destruct x as [s|s| |s m e]; try discriminate; unfold fabs, SpecFloat.SFabs.
  - split; [exact V|]. split; [reflexivity|]. unfold fval. simpl. now rewrite Rabs_R0.
  - split; [exact V|]. split; [reflexivity|]. unfold fval. cbn [BinarySingleNaN.SF2R].
    rewrite <- F2R_Zabs. f_equal. destruct s; reflexivity.
Qed.

Lemma rnd32_opp r : rnd32 (- r) = (- rnd32 r)%R.
Proof. unfold rnd32, frnd. apply round_NE_opp. Qed.
Lemma rnd32_abs r : rnd32 (Rabs r) = Rabs (rnd32 r).
Proof.
  unfold Rabs at 1. destruct (Rcase_abs r).
  - rewrite rnd32_opp. assert (rnd32 r <= 0)%R by (rewrite <- rnd32_0; apply rnd32_le; lra).
    now rewrite Rabs_left1.
  - assert (0 <= rnd32 r)%R by (rewrite <- rnd32_0; apply rnd32_le; lra).
    now rewrite Rabs_pos_eq.
Qed.

Local Instance vexp : Valid_exp (FLT_exp (-149) 24).
Proof. apply FLT_exp_valid. reflexivity. Qed.

(* a binary32 number is at least as near as any other *)
Lemma rnd32_nearest r z : (Z.abs z <= 2 ^ 24) -> (Rabs (rnd32 r - r) <= Rabs (IZR z - r))%R.
Proof.
  intros Hz. unfold rnd32, frnd. change (SpecFloat.fexp 24 128) with (FLT_exp (-149) 24).
  destruct (round_N_pt radix2 (FLT_exp (-149) 24) (fun n => negb (Z.even n)) r) as (_ & H).
  apply H. rewrite <- (rnd32_int z Hz). unfold rnd32, frnd.
  change (SpecFloat.fexp 24 128) with (FLT_exp (-149) 24).
  apply generic_format_round; [exact vexp|apply valid_rnd_N].
Qed.

(* binary32 numbers from 2^13 on are multiples of 2^-10 *)
Lemma lattice x : valid32 x -> (8192 <= fval x)%R -> exists m, fval x = (IZR m / 1024)%R.
Proof.
  intros V H.
  assert (G : generic_format radix2 (FLT_exp (-149) 24) (fval x)).
  { rewrite <- (rnd32_val x V). unfold rnd32, frnd.
    change (SpecFloat.fexp 24 128) with (FLT_exp (-149) 24).
    apply generic_format_round; [exact vexp|apply valid_rnd_N]. }
  unfold generic_format in G.
  set (e := cexp radix2 (FLT_exp (-149) 24) (fval x)) in *.
  assert (He : -10 <= e).
  { unfold e, cexp, FLT_exp.
    assert (14 <= mag radix2 (fval x)); [|lia].
    apply mag_ge_bpow. rewrite Rabs_pos_eq by lra. simpl. lra. }
  set (m := Ztrunc (scaled_mantissa radix2 (FLT_exp (-149) 24) (fval x))) in *.
  exists (m * 2 ^ (e + 10)).
  rewrite G. unfold F2R. cbn [Fnum Fexp]. rewrite mult_IZR.
  replace (IZR (2 ^ (e + 10))) with (bpow radix2 (e + 10))
    by (rewrite <- (IZR_Zpower radix2) by lia; reflexivity).
  rewrite bpow_plus. change (bpow radix2 10) with 1024%R. unfold Rdiv. field.
Qed.

(* The largest accepted raster index is 2^23 - 1: the quotient of an accepted
   coordinate is never 2^23 - 1/2 *)
Lemma quotient_top x : valid32 x -> (rnd32 (fval x / step) < 8388608)%R ->
  (rnd32 (fval x / step) <= 8388607.2)%R.
Proof.
  intros V H. pose proof step_pos as P.
  assert (S1 : (fval x < 8589935 / 1024)%R).
  { destruct (Rlt_le_dec (fval x) (8589935 / 1024)) as [L|L]; auto. exfalso.
    assert (8388608 <= fval x / step)%R.
    { replace 8388608%R with (8589935 / 1024 / step)%R by (unfold step; field).
      unfold Rdiv at 1 3. apply Rmult_le_compat_r; [|exact L].
      left. now apply Rinv_0_lt_compat. }
    apply rnd32_le in H0. rewrite (rnd32_int 8388608) in H0 by lia. lra. }
  assert (S2 : (fval x / step <= 8388607.1)%R).
  { assert (fval x <= 8589934 / 1024)%R.
    { destruct (Rlt_le_dec (fval x) 8192) as [L|L]; [lra|].
      destruct (lattice x V L) as (m & E). rewrite E in *.
      assert (IZR m < 8589935)%R by lra. apply lt_IZR in H0.
      assert (IZR m <= 8589934)%R by (apply IZR_le; lia). lra. }
    apply Rmult_le_reg_r with step; [lra|]. unfold Rdiv. rewrite Rmult_assoc, Rinv_l by lra.
    unfold step. lra. }
  apply rnd32_le in S2. eapply Rle_trans; [exact S2|].
  pose proof (rnd32_nearest 8388607.1 8388607 ltac:(lia)) as N.
  rewrite (Rabs_left1 (8388607 - 8388607.1)) in N by lra. apply Rabs_le_inv in N. lra.
Qed.

Lemma coord_raster x : coord_in x -> exists n,
  nearest_away (rnd32 (fval x / step)) n /\ -8388608 <= n <= 8388607 /\
  raster1 x = Some (Z.shiftr n kBits, Z.land n kMask).
Proof.
  intros (V & F & B). destruct k_val as (Vk & Fk & Ek). pose proof step_pos as P.
  destruct (fdiv_ok x kPrecision V Vk F) as (Fq & Eq).
  { rewrite Ek. lra. }
  { rewrite Ek. eapply Rlt_trans; [exact B|]. eapply Rlt_trans; [|exact bpow128].
    apply IZR_lt. lia. }
  rewrite Ek in Eq.
  destruct (round_to_int_ok (fdiv x kPrecision) Fq) as (n & En & Nn).
  { rewrite Eq. eapply Rlt_trans; [exact B|]. apply IZR_lt. lia. }
  rewrite Eq in Nn. exists n. split; auto. split.
  - pose proof (nearest_away_err _ _ Nn) as E. apply Rabs_le_inv in E.
    apply Rabs_def2 in B.
    assert (U := quotient_top x V ltac:(lra)).
    split.
    + apply Zlt_succ_le. apply lt_IZR. unfold Z.succ. rewrite plus_IZR. lra.
    + apply Zlt_succ_le. apply lt_IZR. unfold Z.succ. simpl. lra.
  - unfold raster1. rewrite En. reflexivity.
Qed.

Lemma coord_ok n : (Z.abs n <= 2 ^ 24) ->
  valid32 (coord n) /\ ffin (coord n) /\ fval (coord n) = rnd32 (IZR n * step).
Proof.
  intros H. destruct (f_of_Z_exact n H) as (V & F & E), k_val as (Vk & Fk & Ek).
  destruct (fmul_ok (f_of_Z n) kPrecision V Vk F Fk) as (Fp & Ep).
  { rewrite E, Ek. apply rnd32_small. rewrite Rabs_mult. rewrite (Rabs_pos_eq step) by (unfold step; lra).
    rewrite <- abs_IZR. apply Rle_trans with (IZR (2 ^ 24) * 1)%R.
    - apply Rmult_le_compat; [apply IZR_le; lia|unfold step; lra|apply IZR_le; lia|unfold step; lra].
    - rewrite Rmult_1_r. apply IZR_le. lia. }
  rewrite E, Ek in Ep. split; [now apply fmul_valid|]. auto.
Qed.

(* The range check *)
Lemma div_overflow x : valid32 x -> ffin x -> (0 < fval x)%R ->
  (bpow radix2 128 <= rnd32 (fval x / step))%R -> fdiv x kPrecision = SpecFloat.S754_infinity false.
Proof.
  intros V F P H. destruct k_val as (Vk & Fk & Ek).
  destruct (fvalid_B 24 128 x V) as (b & Eb).
  destruct (fvalid_B 24 128 kPrecision Vk) as (k & Ekk).
  unfold fdiv. rewrite Eb, Ekk. rewrite (div_equiv 24 128 p24 m128).
  assert (Rk : B2R k = step) by (rewrite <- Ek, Ekk; symmetry; apply fval_B2SF).
  assert (Rb : B2R b = fval x) by (rewrite Eb; symmetry; apply fval_B2SF).
  pose proof (@Bdiv_correct 24 128 p24 m128 mode_NE b k) as C.
  rewrite Rk, Rb in C. specialize (C ltac:(pose proof step_pos; lra)).
  rewrite Rlt_bool_false in C.
  - refine (eq_trans C _).
    assert (Sb : Bsign b = false).
    { destruct b as [s|s| |s m e Hb]; cbn [B2R] in Rb; try lra.
      destruct s; auto. exfalso. cbn [cond_Zopp] in Rb.
      assert (F2R (Float radix2 (Z.neg m) e) < 0)%R by (apply F2R_lt_0; reflexivity).
      cbn [Z.opp] in Rb. lra. }
    assert (Sk : Bsign k = false).
    { destruct k as [s|s| |s m e Hk]; cbn [B2R] in Rk; try (pose proof step_pos; lra).
      destruct s; auto. exfalso. cbn [cond_Zopp] in Rk.
      assert (F2R (Float radix2 (Z.neg m) e) < 0)%R by (apply F2R_lt_0; reflexivity).
      cbn [Z.opp] in Rk. pose proof step_pos. lra. }
    rewrite Sb, Sk. reflexivity.
  - eapply Rle_trans; [exact H|]. apply RRle_abs.
Qed.

Lemma fmax_ok a b : valid32 a -> ffin a -> valid32 b -> ffin b ->
  valid32 (fmax a b) /\ ffin (fmax a b) /\ fval (fmax a b) = Rmax (fval a) (fval b).
Proof.
  intros Va Fa Vb Fb. unfold fmax. pose proof (fltb_ok a b Va Vb Fa Fb) as I.
  destruct (fltb a b).
  - split; [auto|split; auto]. rewrite Rmax_right; auto. left. now apply I.
  - split; [auto|split; auto]. rewrite Rmax_left; auto.
    apply Rnot_lt_le. intros L. apply I in L. discriminate.
Qed.

(* whether a coordinate is below the bound is monotone in its absolute value *)
Lemma below_mono a b : (Rabs a <= b)%R -> (rnd32 (b / step) < 8388608)%R ->
  (Rabs (rnd32 (a / step)) < 8388608)%R.
Proof.
  intros L H. rewrite <- rnd32_abs. eapply Rle_lt_trans; [|exact H]. apply rnd32_le.
  pose proof step_pos as P. unfold Rdiv. rewrite Rabs_mult, Rabs_inv, (Rabs_pos_eq step) by lra.
  apply Rmult_le_compat_r; auto. left. now apply Rinv_0_lt_compat.
Qed.

Lemma accepts_ok : forall p, coords_valid p -> (in_bounds p = true <-> point_in p).
Proof.
  intros [[x y] z] ((Vx & Fx) & (Vy & Fy) & (Vz & Fz)).
  destruct (fabs_ok x Vx Fx) as (Vx' & Fx' & Ex), (fabs_ok y Vy Fy) as (Vy' & Fy' & Ey),
    (fabs_ok z Vz Fz) as (Vz' & Fz' & Ez).
  destruct (fmax_ok _ _ Vx' Fx' Vy' Fy') as (Vm & Fm & Em).
  destruct (fmax_ok _ _ Vm Fm Vz' Fz') as (Vm2 & Fm2 & Em2).
  rewrite Em, Ex, Ey, Ez in Em2.
  set (M := Rmax (Rmax (Rabs (fval x)) (Rabs (fval y))) (Rabs (fval z))) in *.
  destruct k_val as (Vk & Fk & Ek). pose proof step_pos as P.
  destruct (f_of_Z_exact 8388608 ltac:(lia)) as (Vb & Fb & Eb).
  assert (C : in_bounds (x, y, z) = true <-> (rnd32 (M / step) < 8388608)%R).
  { unfold in_bounds, max_coeff. change (Z.shiftl 1 kMaxBits) with 8388608.
    set (mc := fmax (fmax (fabs x) (fabs y)) (fabs z)) in *.
    destruct (Rlt_le_dec (Rabs (rnd32 (M / step))) (bpow radix2 128)) as [L|L].
    - destruct (fdiv_ok mc kPrecision Vm2 Vk Fm2) as (Fq & Eq); [rewrite Ek; lra|rewrite Ek, Em2; exact L|].
      rewrite Ek, Em2 in Eq. rewrite (fltb_ok _ _ (fdiv_valid _ _ Vm2 Vk) Vb Fq Fb), Eq, Eb. tauto.
    - (* the quotient overflows: M <= 2^128, so this needs M / 0.001 >= 2^128 *)
      assert (M0 : (0 <= M)%R) by (unfold M; eapply Rle_trans; [apply (Rabs_pos (fval z))|apply Rmax_r]).
      assert (Q0 : (0 <= rnd32 (M / step))%R).
      { rewrite <- rnd32_0. apply rnd32_le. unfold Rdiv. apply Rmult_le_pos; auto.
        left. now apply Rinv_0_lt_compat. }
      rewrite Rabs_pos_eq in L by auto.
      assert (OV : fltb (fdiv mc kPrecision) (f_of_Z 8388608) = false).
      { rewrite (div_overflow mc Vm2 Fm2); [reflexivity| |rewrite Em2; exact L].
        rewrite Em2. destruct M0 as [M0|M0]; auto. exfalso. rewrite <- M0 in L.
        replace (0 / step)%R with 0%R in L by (unfold Rdiv; lra).
        rewrite rnd32_0 in L. pose proof (bpow_gt_0 radix2 128). lra. }
      rewrite OV. split; [discriminate|]. intros Q. exfalso.
      assert (8388608 < bpow radix2 128)%R by (eapply Rlt_trans; [|exact bpow128]; apply IZR_lt; lia).
      lra. }
  rewrite C. unfold point_in, coord_in. split.
  - intros H. assert (B : forall a, (Rabs a <= M)%R -> (Rabs (rnd32 (a / step)) < 8388608)%R)
      by (intros a L; now apply (below_mono a M)).
    split; [|split]; (split; [auto|split; [auto|apply B]]); unfold M.
    + eapply Rle_trans; [apply Rmax_l|apply Rmax_l].
    + eapply Rle_trans; [apply Rmax_r|apply Rmax_l].
    + apply Rmax_r.
  - intros ((_ & _ & Bx) & (_ & _ & By) & (_ & _ & Bz)).
    assert (Q : forall a, (Rabs (rnd32 (a / step)) < 8388608)%R -> (rnd32 (Rabs a / step) < 8388608)%R).
    { intros a L. rewrite <- rnd32_abs in L.
      unfold Rdiv in *. rewrite Rabs_mult, Rabs_inv, (Rabs_pos_eq step) in L by lra. exact L. }
    unfold M. apply Rmax_case; [apply Rmax_case|]; apply Q; auto.
Qed.
