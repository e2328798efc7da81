(* Proofs about seconds and ticks. *)
From Coq Require Import ZArith Bool SpecFloat Reals Lia Lra.
From Flocq Require Import Core.Core IEEE754.BinarySingleNaN.
From Verif Require Import Float32 Float64 FloatR Float32_Proofs FRS_Proofs TM_Model.
Open Scope R_scope.

Lemma fval_finite s m e : fval (S754_finite s m e) = (if s then - IZR (Zpos m) else IZR (Zpos m)) * bpow radix2 e.
Proof. unfold fval, SF2R, F2R. cbn [Fnum Fexp]. destruct s; cbn [cond_Zopp]; [now rewrite <- opp_IZR | reflexivity]. Qed.
Lemma pow2 n : (0 <= n)%Z -> IZR (2 ^ n) = bpow radix2 n.
Proof. intros H. now rewrite <- (IZR_Zpower radix2 n H). Qed.

Lemma trunc_ok x : ffin x -> d_trunc x = Some (Ztrunc (fval x)).
Proof.
  destruct x as [s|s| |s m e]; intros Fx; try discriminate; unfold d_trunc.
  - unfold fval, SF2R. now rewrite Ztrunc_IZR.
  - f_equal. rewrite fval_finite. set (a := if (0 <=? e)%Z then _ else _).
    assert (A : a = Ztrunc (IZR (Zpos m) * bpow radix2 e)).
    { subst a. destruct (Z.leb_spec 0 e) as [L|L].
      - rewrite <- pow2 by exact L. rewrite <- mult_IZR. now rewrite Ztrunc_IZR.
      - rewrite Ztrunc_floor by (apply Rmult_le_pos; [apply IZR_le; lia | apply bpow_ge_0]).
        replace (bpow radix2 e) with (/ IZR (2 ^ (- e))) by (rewrite pow2 by lia; rewrite <- bpow_opp; f_equal; lia).
        symmetry. apply Zfloor_div. assert (0 < 2 ^ (- e))%Z by (apply Z.pow_pos_nonneg; lia). lia. }
    destruct s; [|exact A]. rewrite A, <- Ztrunc_opp. f_equal. lra.
Qed.

Lemma bn64_ok z e s : Rabs (rnd64 (IZR z * bpow radix2 e)) < bpow radix2 1024 ->
  ffin (SpecFloat.binary_normalize 53 1024 z e s) /\
  fval (SpecFloat.binary_normalize 53 1024 z e s) = rnd64 (IZR z * bpow radix2 e).
Proof.
  intros L. rewrite (bn_equiv 53 1024 p53 m1024), fval_B2SF, ffin_B2SF.
  pose proof (binary_normalize_correct 53 1024 p53 m1024 mode_NE z e s) as C. cbv zeta in C.
  unfold F2R in C. cbn [Fnum Fexp] in C. rewrite Rlt_bool_true in C by exact L. destruct C as [C1 [C2 _]]. now split.
Qed.
Lemma bn32_ok z e s : Rabs (rnd32 (IZR z * bpow radix2 e)) < bpow radix2 128 ->
  ffin (SpecFloat.binary_normalize 24 128 z e s) /\
  fval (SpecFloat.binary_normalize 24 128 z e s) = rnd32 (IZR z * bpow radix2 e).
Proof.
  intros L. rewrite (bn_equiv 24 128 p24 m128), fval_B2SF, ffin_B2SF.
  pose proof (binary_normalize_correct 24 128 p24 m128 mode_NE z e s) as C. cbv zeta in C.
  unfold F2R in C. cbn [Fnum Fexp] in C. rewrite Rlt_bool_true in C by exact L. destruct C as [C1 [C2 _]]. now split.
Qed.

(* values of binary32 *)
Lemma format32 x : valid32 x -> exists m e, fval x = IZR m * bpow radix2 e /\ (Z.abs m < 2 ^ 24)%Z /\ (-149 <= e)%Z.
Proof.
  intros V. assert (G : generic_format radix2 (FLT_exp (-149) 24) (fval x)).
  { rewrite <- (rnd32_val x V). unfold frnd. change (SpecFloat.fexp 24 128) with (FLT_exp (-149) 24).
    apply generic_format_round; [apply FLT_exp_valid; reflexivity|apply valid_rnd_N]. }
  apply FLT_format_generic in G; [|reflexivity]. destruct G as [[m e] E1 E2 E3].
  exists m, e. cbn [Fnum Fexp] in *. split; [exact E1|]. split; [exact E2 | exact E3].
Qed.
Lemma exact64 m e : (Z.abs m < 2 ^ 53)%Z -> (-1074 <= e)%Z -> rnd64 (IZR m * bpow radix2 e) = IZR m * bpow radix2 e.
Proof.
  intros A B. unfold frnd. apply round_generic; [apply valid_rnd_N|].
  change (SpecFloat.fexp 53 1024) with (FLT_exp (-1074) 53). apply generic_format_FLT.
  exists (Float radix2 m e); [reflexivity | exact A | exact B].
Qed.
Lemma rnd64_le x y : x <= y -> rnd64 x <= rnd64 y.
Proof. apply frnd_le. exact p53. Qed.
Lemma below64 x : Rabs x <= IZR (2 ^ 53) -> Rabs (rnd64 x) < bpow radix2 1024.
Proof.
  intros H. apply Rabs_le_inv in H as [H1 H2]. apply Rle_lt_trans with (IZR (2 ^ 53)); [|exact pow_1024].
  apply Rabs_le. rewrite <- opp_IZR in *. split; [rewrite <- (rnd64_int (- 2 ^ 53)) by lia | rewrite <- (rnd64_int (2 ^ 53)) by lia]; now apply rnd64_le.
Qed.
Lemma rnd64_pow n : (0 <= n <= 900)%Z -> rnd64 (IZR (2 ^ n)) = IZR (2 ^ n).
Proof.
  intros H. rewrite pow2 by lia. replace (bpow radix2 n) with (IZR 1 * bpow radix2 n) by lra. apply exact64; lia.
Qed.
Lemma small64 n x : (0 <= n <= 900)%Z -> Rabs x <= IZR (2 ^ n) -> Rabs (rnd64 x) <= IZR (2 ^ n) /\ Rabs (rnd64 x) < bpow radix2 1024.
Proof.
  intros N H. assert (A : Rabs (rnd64 x) <= IZR (2 ^ n)).
  { apply Rabs_le_inv in H as [H1 H2]. apply Rabs_le. split.
    - rewrite <- (rnd64_pow n N) at 1.
      assert (E : rnd64 (- IZR (2 ^ n)) = - rnd64 (IZR (2 ^ n))) by (unfold frnd; apply round_NE_opp).
      rewrite <- E. now apply rnd64_le.
    - rewrite <- (rnd64_pow n N). now apply rnd64_le. }
  split; [exact A|]. eapply Rle_lt_trans; [exact A|]. rewrite pow2 by lia. apply bpow_lt. lia.
Qed.

Lemma tps : valid64 (d_of_Z ticks_per_second) /\ ffin (d_of_Z ticks_per_second) /\ fval (d_of_Z ticks_per_second) = 10000000.
Proof. split; [apply d_of_Z_valid|]. apply (d_of_Z_ok ticks_per_second). unfold ticks_per_second. lia. Qed.

Lemma signed_val s m e : fval (S754_finite s m e) = IZR (if s then Zneg m else Zpos m) * bpow radix2 e.
Proof. rewrite fval_finite. destruct s; [now rewrite <- opp_IZR | reflexivity]. Qed.
Lemma below32 x : valid32 x -> Rabs (fval x) < bpow radix2 128.
Proof.
  intros V. destruct (fvalid_B 24 128 x V) as [b ->]. rewrite fval_B2SF. apply abs_B2R_lt_emax.
Qed.
Lemma widen_ok x : valid32 x -> ffin x -> valid64 (widen x) /\ ffin (widen x) /\ fval (widen x) = fval x.
Proof.
  intros V Fx. destruct (format32 x V) as (m' & e' & E & A & B).
  assert (R : rnd64 (fval x) = fval x) by (rewrite E; apply exact64; lia).
  pose proof (below32 x V) as L.
  destruct x as [s|s| |s m e]; try discriminate; [repeat split|]. cbn [widen].
  rewrite signed_val in R, L |- *. split; [rewrite (bn_equiv 53 1024 p53 m1024); apply fvalid_B2SF|].
  destruct (bn64_ok (if s then Zneg m else Zpos m) e s) as (F1 & V1).
  - rewrite R. eapply Rlt_trans; [exact L|]. apply bpow_lt. lia.
  - split; [exact F1 | now rewrite V1].
Qed.
Lemma narrow_ok x : ffin x -> Rabs (rnd32 (fval x)) < bpow radix2 128 ->
  valid32 (narrow x) /\ ffin (narrow x) /\ fval (narrow x) = rnd32 (fval x).
Proof.
  intros Fx L. destruct x as [s|s| |s m e]; try discriminate.
  - repeat split. cbn [narrow]. unfold fval, SF2R, frnd. now rewrite round_0 by apply valid_rnd_N.
  - cbn [narrow]. rewrite signed_val in L |- *. split; [rewrite (bn_equiv 24 128 p24 m128); apply fvalid_B2SF|]. now apply bn32_ok.
Qed.

(* FromSeconds of a float is exact before the truncation *)
Lemma product_exact x : valid32 x -> rnd64 (fval x * 10000000) = fval x * 10000000.
Proof.
  intros V. destruct (format32 x V) as (m & e & E & A & B). rewrite E.
  replace (IZR m * bpow radix2 e * 10000000) with (IZR (m * 10000000) * bpow radix2 e) by (rewrite mult_IZR; lra).
  apply exact64; lia.
Qed.
Lemma point_ticks_ok t : valid32 t -> ffin t -> from_seconds (widen t) = Some (point_ticks t) /\ point_ticks t = Ztrunc (fval t * 10000000).
Proof.
  intros V Fx. destruct (widen_ok t V Fx) as (V1 & F1 & E1). destruct tps as (V2 & F2 & E2).
  assert (D : from_seconds (widen t) = Some (Ztrunc (fval t * 10000000))).
  { unfold from_seconds, dmul. destruct (mul_ok 53 1024 p53 m1024 (widen t) (d_of_Z ticks_per_second)) as (F3 & E3); auto.
    - rewrite E1, E2, product_exact by exact V. pose proof (below32 t V) as L. rewrite Rabs_mult. rewrite (Rabs_pos_eq 10000000) by lra.
      apply Rlt_trans with (bpow radix2 128 * bpow radix2 24).
      + apply Rmult_gt_0_lt_compat; [lra | apply bpow_gt_0 | exact L | rewrite <- (pow2 24) by lia; apply IZR_lt; lia].
      + rewrite <- bpow_plus. apply bpow_lt. lia.
    - rewrite (trunc_ok _ F3), E3, E1, E2, product_exact by exact V. reflexivity. }
  split; [unfold point_ticks; now rewrite D | unfold point_ticks; now rewrite D].
Qed.

(* times as sent: finite, not positive, within 2^40 s; after the shift *)
Definition time_sent (t : f32) : Prop := valid32 t /\ ffin t /\ - IZR (2 ^ 40) <= fval t <= 0.
Definition time_shifted (t : f32) : Prop := valid32 t /\ ffin t /\ fval t <= 0.

Lemma ticks_mono a b : valid32 a -> valid32 b -> ffin a -> ffin b -> fval a <= fval b -> (point_ticks a <= point_ticks b)%Z.
Proof.
  intros V1 V2 F1 F2 L. rewrite (proj2 (point_ticks_ok a V1 F1)), (proj2 (point_ticks_ok b V2 F2)). apply Ztrunc_le. lra.
Qed.
Lemma ticks_past t : time_shifted t -> (point_ticks t <= 0)%Z.
Proof.
  intros (V & Fx & L). rewrite (proj2 (point_ticks_ok t V Fx)). apply Z.le_trans with (Ztrunc 0); [apply Ztrunc_le; lra | rewrite (Ztrunc_IZR 0); lia].
Qed.
Lemma zero32 : valid32 (f_of_Z 0) /\ ffin (f_of_Z 0) /\ fval (f_of_Z 0) = 0.
Proof. split; [reflexivity|]. split; reflexivity. Qed.
Lemma rnd32_pow n : (0 <= n <= 100)%Z -> rnd32 (IZR (2 ^ n)) = IZR (2 ^ n).
Proof.
  intros H. unfold frnd. apply round_generic; [apply valid_rnd_N|].
  change (SpecFloat.fexp 24 128) with (FLT_exp (-149) 24). rewrite pow2 by lia. apply generic_format_bpow. unfold FLT_exp. lia.
Qed.
Lemma rnd32_neg_pow n : (0 <= n <= 100)%Z -> rnd32 (- IZR (2 ^ n)) = - IZR (2 ^ n).
Proof. intros H. unfold frnd. rewrite round_NE_opp. f_equal. now apply rnd32_pow. Qed.
Lemma small32 n x : (0 <= n <= 100)%Z -> Rabs x <= IZR (2 ^ n) -> Rabs (rnd32 x) <= IZR (2 ^ n) /\ Rabs (rnd32 x) < bpow radix2 128.
Proof.
  intros N H. assert (A : Rabs (rnd32 x) <= IZR (2 ^ n)).
  { apply Rabs_le_inv in H as [H1 H2]. apply Rabs_le. split;
      [rewrite <- (rnd32_neg_pow n N) | rewrite <- (rnd32_pow n N)]; now apply rnd32_le. }
  split; [exact A|]. eapply Rle_lt_trans; [exact A|]. rewrite pow2 by lia. apply bpow_lt. lia.
Qed.

Lemma to_seconds_ok d : (- 2 ^ 64 <= d <= 2 ^ 64)%Z ->
  ffin (to_seconds d) /\ fval (to_seconds d) = rnd64 (rnd64 (IZR d) / 10000000) /\ Rabs (fval (to_seconds d)) <= IZR (2 ^ 64).
Proof.
  intros H. destruct tps as (V2 & F2 & E2).
  assert (A : Rabs (IZR d) <= IZR (2 ^ 64)) by (rewrite <- abs_IZR; apply IZR_le; lia).
  destruct (small64 64 (IZR d)) as (A1 & A2); [lia | exact A|].
  destruct (of_Z_ok 53 1024 p53 m1024 d A2) as (F1 & E1). fold (d_of_Z d) in F1, E1.
  assert (B : Rabs (rnd64 (IZR d) / 10000000) <= IZR (2 ^ 64)).
  { unfold Rdiv. rewrite Rabs_mult. rewrite (Rabs_pos_eq (/ 10000000)) by lra. pose proof (Rabs_pos (rnd64 (IZR d))). lra. }
  destruct (small64 64 (rnd64 (IZR d) / 10000000)) as (B1 & B2); [lia | exact B|].
  unfold to_seconds, ddiv. destruct (div_ok 53 1024 p53 m1024 (d_of_Z d) (d_of_Z ticks_per_second)) as (F3 & E3); auto.
  - apply d_of_Z_valid.
  - rewrite E2. lra.
  - rewrite E1, E2. exact B2.
  - rewrite E1, E2 in E3. split; [exact F3|]. split; [exact E3 | now rewrite E3].
Qed.

Lemma shift_ok d t : time_sent t -> (- 2 ^ 64 <= d <= 2 ^ 64)%Z -> (d + point_ticks t <= 0)%Z -> time_shifted (shift_point d t).
Proof.
  intros (V & Fx & L1 & L2) D S. destruct (to_seconds_ok d D) as (F1 & E1 & B1).
  destruct (point_ticks_ok t V Fx) as (_ & T). rewrite T in S.
  (* in ticks *)
  assert (Q : IZR d <= - fval t * 10000000).
  { apply Rle_trans with (IZR (- Ztrunc (fval t * 10000000))); [apply IZR_le; lia|]. rewrite <- Ztrunc_opp.
    rewrite Ztrunc_floor by lra. eapply Rle_trans; [apply Zfloor_lb|]. lra. }
  assert (NE : rnd64 (- fval t) = - fval t).
  { destruct (format32 t V) as (m & e & E & A & B). rewrite E. replace (- (IZR m * bpow radix2 e)) with (IZR (- m) * bpow radix2 e) by (rewrite opp_IZR; lra).
    apply exact64; lia. }
  assert (U : fval (to_seconds d) <= - fval t).
  { rewrite E1, <- NE. apply rnd64_le.
    assert (rnd64 (IZR d) <= - fval t * 10000000).
    { replace (- fval t * 10000000) with (- (fval t * 10000000)) by lra.
      rewrite <- (product_exact t V). unfold frnd. rewrite <- round_NE_opp. fold (rnd64 (IZR d)). fold (rnd64 (- (fval t * 10000000))).
      apply rnd64_le. lra. }
    lra. }
  destruct (small32 64 (fval (to_seconds d))) as (C1 & C2); [lia | exact B1|].
  destruct (narrow_ok (to_seconds d) F1 C2) as (V3 & F3 & E3).
  assert (U3 : fval (narrow (to_seconds d)) <= - fval t).
  { rewrite E3. assert (N32 : rnd32 (- fval t) = - fval t) by (unfold frnd; rewrite round_NE_opp; f_equal; apply (rnd32_val t V)).
    rewrite <- N32. now apply rnd32_le. }
  rewrite <- E3 in C1. apply Rabs_le_inv in C1 as [C1 _].
  assert (W : Rabs (fval t + fval (narrow (to_seconds d))) <= IZR (2 ^ 65)).
  { apply Rabs_le. replace (IZR (2 ^ 65)) with (2 * IZR (2 ^ 64)) by (rewrite <- mult_IZR; reflexivity).
    assert (IZR (2 ^ 40) <= IZR (2 ^ 64)) by (apply IZR_le; lia). lra. }
  destruct (small32 65 _ ltac:(lia) W) as (_ & W2).
  destruct (fadd_ok t (narrow (to_seconds d)) V V3 Fx F3 W2) as (F4 & E4).
  split; [now apply fadd_valid|]. split; [exact F4|]. unfold shift_point. rewrite E4.
  replace 0 with (rnd32 0) by (unfold frnd; now rewrite round_0 by apply valid_rnd_N). apply rnd32_le. lra.
Qed.

(* shifting by nothing *)
Lemma shift_zero t : time_sent t -> point_ticks (shift_point 0 t) = point_ticks t.
Proof.
  intros (V & Fx & L1 & L2). unfold shift_point.
  assert (Z0 : narrow (to_seconds 0) = f_of_Z 0) by reflexivity. rewrite Z0.
  destruct zero32 as (V0 & F0 & E0).
  assert (ID : rnd32 (fval t + fval (f_of_Z 0)) = fval t).
  { rewrite E0, Rplus_0_r. destruct (format32 t V) as (m & e & -> & A & B). unfold frnd. apply round_generic; [apply valid_rnd_N|].
    change (SpecFloat.fexp 24 128) with (FLT_exp (-149) 24). apply generic_format_FLT.
    exists (Float radix2 m e); [reflexivity | exact A | exact B]. }
  destruct (fadd_ok t (f_of_Z 0) V V0 Fx F0) as (F4 & E4).
  { rewrite ID. now apply below32. }
  assert (V4 : valid32 (fadd t (f_of_Z 0))) by now apply fadd_valid.
  rewrite (proj2 (point_ticks_ok _ V4 F4)), E4, ID. symmetry. apply point_ticks_ok; auto.
Qed.

(* to seconds and back *)
Lemma rnd64_err r : Rabs (rnd64 r - r) <= / 9007199254740992 * Rabs r + / 1152921504606846976.
Proof.
  eapply Rle_trans; [exact (frnd_err 53 1024 p53 r)|].
  assert (E : / 2 * bpow radix2 (Z.opp 53 + 1) = / 9007199254740992).
  { replace (Z.opp 53 + 1)%Z with (- (52))%Z by lia. rewrite bpow_opp, <- pow2 by lia. change (2 ^ 52)%Z with 4503599627370496%Z. lra. }
  rewrite E. apply Rplus_le_compat_l. replace (3 - 1024 - 53)%Z with (- (1074))%Z by lia. rewrite bpow_opp.
  assert (H : bpow radix2 60 <= bpow radix2 1074) by (apply bpow_le; lia).
  rewrite <- (pow2 60) in H by lia. change (2 ^ 60)%Z with 1152921504606846976%Z in H.
  assert (/ bpow radix2 1074 <= / 1152921504606846976) by (apply Rinv_le; [lra | exact H]).
  assert (0 < / bpow radix2 1074) by (apply Rinv_0_lt_compat, bpow_gt_0). lra.
Qed.
Lemma roundtrip_ok d : (Z.abs d <= 2 ^ 51)%Z -> exists r, from_seconds (to_seconds d) = Some r /\ (Z.abs (d - r) <= 1)%Z /\ (Z.abs r <= Z.abs d)%Z.
Proof.
  intros H. destruct tps as (V2 & F2 & E2).
  destruct (to_seconds_ok d) as (F1 & E1 & _); [lia|]. rewrite rnd64_int in E1 by lia.
  assert (V1 : valid64 (to_seconds d)) by (apply (div_valid 53 1024 p53 m1024); apply d_of_Z_valid).
  set (q := fval (to_seconds d)) in *. change (2 ^ 51)%Z with 2251799813685248%Z in H.
  assert (A : Rabs (IZR d) <= 2251799813685248) by (rewrite <- abs_IZR; apply IZR_le; exact H).
  assert (Q : Rabs (q * 10000000 - IZR d) <= / 4 + / 1000).
  { pose proof (rnd64_err (IZR d / 10000000)) as R. rewrite <- E1 in R.
    replace (q * 10000000 - IZR d) with ((q - IZR d / 10000000) * 10000000) by field.
    rewrite Rabs_mult, (Rabs_pos_eq 10000000) by lra. unfold Rdiv in R. rewrite Rabs_mult, (Rabs_pos_eq (/ 10000000)) in R by lra. lra. }
  assert (QB : Rabs (q * 10000000) <= 2251799813685249).
  { replace (q * 10000000) with (q * 10000000 - IZR d + IZR d) by ring. eapply Rle_trans; [apply Rabs_triang|]. lra. }
  assert (P : Rabs (rnd64 (q * 10000000) - IZR d) < 1).
  { pose proof (rnd64_err (q * 10000000)) as R.
    replace (rnd64 (q * 10000000) - IZR d) with ((rnd64 (q * 10000000) - q * 10000000) + (q * 10000000 - IZR d)) by ring.
    eapply Rle_lt_trans; [apply Rabs_triang|]. lra. }
  destruct (mul_ok 53 1024 p53 m1024 (to_seconds d) (d_of_Z ticks_per_second)) as (F3 & E3); auto.
  { rewrite E2. fold q. apply below64. eapply Rle_trans; [exact QB|]. apply IZR_le. lia. }
  rewrite E2 in E3. fold q in E3. unfold from_seconds, dmul. rewrite (trunc_ok _ F3), E3.
  set (p := rnd64 (q * 10000000)) in *. clearbody p. exists (Ztrunc p). split; [reflexivity|].
  apply Rabs_def2 in P as [P1 P2].
  destruct (Z_lt_le_dec 0 d) as [D|D].
  - assert (0 <= p) by (apply IZR_le in D || idtac; assert (IZR 1 <= IZR d) by (apply IZR_le; lia); lra).
    rewrite Ztrunc_floor by assumption. pose proof (Zfloor_lb p) as L. pose proof (Zfloor_ub p) as U.
    assert (Zfloor p < d + 1)%Z by (apply lt_IZR; rewrite plus_IZR; lra).
    assert (d - 1 < Zfloor p + 1)%Z by (apply lt_IZR; rewrite plus_IZR, minus_IZR; lra). lia.
  - destruct (Z.eq_dec d 0) as [->|N].
    + assert (-1 < Ztrunc p < 1)%Z.
      { destruct (Rle_or_lt 0 p) as [S|S].
        - rewrite Ztrunc_floor by exact S. pose proof (Zfloor_lb p). pose proof (Zfloor_ub p).
          split; apply lt_IZR; [|lra]. assert (-1 < IZR (Zfloor p)) by lra. exact H2.
        - rewrite Ztrunc_ceil by lra. pose proof (Zceil_ub p). unfold Zceil in *. pose proof (Zfloor_lb (- p)) as L. pose proof (Zfloor_ub (- p)) as U.
          rewrite opp_IZR in *. split; apply lt_IZR; rewrite opp_IZR; [lra|]. lra. }
      lia.
    + assert (IZR d <= IZR (-1)) by (apply IZR_le; lia).
      rewrite Ztrunc_ceil by lra. unfold Zceil. pose proof (Zfloor_lb (- p)) as L. pose proof (Zfloor_ub (- p)) as U.
      assert (Zfloor (- p) < - d + 1)%Z by (apply lt_IZR; rewrite plus_IZR, opp_IZR; lra).
      assert (- d - 1 < Zfloor (- p) + 1)%Z by (apply lt_IZR; rewrite plus_IZR, minus_IZR, opp_IZR; lra). lia.
Qed.

(* ToSeconds is monotone, whatever the size of the duration *)
Lemma d_of_Z_cases z : (ffin (d_of_Z z) /\ fval (d_of_Z z) = rnd64 (IZR z) /\ Rabs (rnd64 (IZR z)) < bpow radix2 1024) \/
  (d_of_Z z = S754_infinity (z <? 0)%Z /\ bpow radix2 1024 <= Rabs (rnd64 (IZR z))).
Proof.
  unfold d_of_Z. rewrite (bn_equiv 53 1024 p53 m1024), fval_B2SF, ffin_B2SF.
  pose proof (binary_normalize_correct 53 1024 p53 m1024 mode_NE z 0 false) as C. cbv zeta in C.
  assert (E : F2R (Float radix2 z 0) = IZR z) by (unfold F2R; cbn [Fnum Fexp bpow]; lra). rewrite E in C.
  change (round radix2 (SpecFloat.fexp 53 1024) (round_mode mode_NE) (IZR z)) with (rnd64 (IZR z)) in C.
  destruct (Rlt_bool_spec (Rabs (rnd64 (IZR z))) (bpow radix2 1024)) as [L|L].
  - left. destruct C as (C1 & C2 & _). auto.
  - right. split; [|exact L]. rewrite C. unfold binary_overflow, overflow_to_inf. f_equal.
    destruct (Z.ltb_spec z 0) as [S|S]; [apply Rlt_bool_true; now apply IZR_lt | apply Rlt_bool_false; now apply IZR_le].
Qed.
Lemma div_inf s : ddiv (S754_infinity s) (d_of_Z ticks_per_second) = S754_infinity s.
Proof. now destruct s. Qed.
Lemma quotient_small x : Rabs x < bpow radix2 1024 -> rnd64 x = x -> Rabs (rnd64 (x / 10000000)) < bpow radix2 1024.
Proof.
  intros L E. apply Rle_lt_trans with (Rabs x); [|exact L].
  assert (B : Rabs (x / 10000000) <= Rabs x).
  { unfold Rdiv. rewrite Rabs_mult, (Rabs_pos_eq (/ 10000000)) by lra. pose proof (Rabs_pos x). lra. }
  apply Rabs_le. apply Rabs_le_inv in B as [B1 B2].
  assert (A : rnd64 (Rabs x) = Rabs x).
  { unfold Rabs. destruct (Rcase_abs x); [|exact E]. unfold frnd in *. rewrite round_NE_opp. now f_equal. }
  split; [|rewrite <- A; now apply rnd64_le].
  replace (- Rabs x) with (rnd64 (- Rabs x)); [now apply rnd64_le|]. unfold frnd in *. rewrite round_NE_opp. now f_equal.
Qed.
Lemma rnd64_idem x : rnd64 (rnd64 x) = rnd64 x.
Proof.
  unfold frnd. apply round_generic; [apply valid_rnd_N|]. apply generic_format_round; [|apply valid_rnd_N].
  change (SpecFloat.fexp 53 1024) with (FLT_exp (-1074) 53). apply FLT_exp_valid. reflexivity.
Qed.
Lemma to_seconds_cases d :
  (valid64 (to_seconds d) /\ ffin (to_seconds d) /\ fval (to_seconds d) = rnd64 (rnd64 (IZR d) / 10000000) /\ Rabs (rnd64 (IZR d)) < bpow radix2 1024) \/
  (to_seconds d = S754_infinity (d <? 0)%Z /\ bpow radix2 1024 <= Rabs (rnd64 (IZR d))).
Proof.
  destruct tps as (V2 & F2 & E2). unfold to_seconds. destruct (d_of_Z_cases d) as [(F1 & E1 & L)|(E & L)].
  - left. split; [apply (div_valid 53 1024 p53 m1024); apply d_of_Z_valid|].
    destruct (div_ok 53 1024 p53 m1024 (d_of_Z d) (d_of_Z ticks_per_second)) as (F3 & E3); auto.
    + apply d_of_Z_valid.
    + rewrite E2. lra.
    + rewrite E1, E2. apply quotient_small; [exact L | apply rnd64_idem].
    + rewrite E1, E2 in E3. auto.
  - right. rewrite E, div_inf. auto.
Qed.
Lemma to_seconds_le a b : (a <= b)%Z -> dltb (to_seconds b) (to_seconds a) = false.
Proof.
  intros H. assert (R : rnd64 (IZR a) <= rnd64 (IZR b)) by (apply rnd64_le, IZR_le, H).
  assert (Z0 : forall z, (0 <= z)%Z -> 0 <= rnd64 (IZR z)).
  { intros z P. rewrite <- (rnd64_int 0) by lia. apply rnd64_le, IZR_le, P. }
  assert (Z1 : forall z, (z <= 0)%Z -> rnd64 (IZR z) <= 0).
  { intros z P. rewrite <- (rnd64_int 0) by lia. apply rnd64_le, IZR_le, P. }
  destruct (to_seconds_cases a) as [(V1 & F1 & E1 & L1)|(E1 & L1)], (to_seconds_cases b) as [(V2 & F2 & E2 & L2)|(E2 & L2)].
  - destruct (dltb (to_seconds b) (to_seconds a)) eqn:C; [|reflexivity]. apply (ltb_ok 53 1024) in C; auto. rewrite E1, E2 in C.
    assert (rnd64 (rnd64 (IZR a) / 10000000) <= rnd64 (rnd64 (IZR b) / 10000000)) by (apply rnd64_le; lra). lra.
  - rewrite E2. destruct (Z.ltb_spec b 0) as [S|S].
    + exfalso. pose proof (Z1 a ltac:(lia)). pose proof (Z1 b ltac:(lia)). rewrite Rabs_left1 in L1, L2 by assumption. lra.
    + destruct (to_seconds a) as [s|s| |s m e]; try discriminate; reflexivity.
  - rewrite E1. destruct (Z.ltb_spec a 0) as [S|S].
    + destruct (to_seconds b) as [s|s| |s m e]; try discriminate; reflexivity.
    + exfalso. pose proof (Z0 a S). pose proof (Z0 b ltac:(lia)). rewrite Rabs_pos_eq in L1, L2 by assumption. lra.
  - rewrite E1, E2. destruct (Z.ltb_spec a 0), (Z.ltb_spec b 0); try lia; reflexivity.
Qed.
Lemma to_seconds_trans a b c : (a <= b)%Z -> dltb (to_seconds a) (to_seconds c) = false -> dltb (to_seconds b) (to_seconds c) = false.
Proof.
  intros H. destruct (Z_le_gt_dec c b) as [L|L]; [intros _; now apply to_seconds_le|]. intros C.
  (* b < c, so that a, b and c give the same value *)
  assert (R1 : rnd64 (IZR a) <= rnd64 (IZR b)) by (apply rnd64_le, IZR_le; lia).
  assert (R2 : rnd64 (IZR b) <= rnd64 (IZR c)) by (apply rnd64_le, IZR_le; lia).
  assert (Z0 : forall z, (0 <= z)%Z -> 0 <= rnd64 (IZR z)).
  { intros z P. rewrite <- (rnd64_int 0) by lia. apply rnd64_le, IZR_le, P. }
  assert (Z1 : forall z, (z <= 0)%Z -> rnd64 (IZR z) <= 0).
  { intros z P. rewrite <- (rnd64_int 0) by lia. apply rnd64_le, IZR_le, P. }
  destruct (to_seconds_cases a) as [(V1 & F1 & E1 & L1)|(E1 & L1)], (to_seconds_cases b) as [(V2 & F2 & E2 & L2)|(E2 & L2)],
    (to_seconds_cases c) as [(V3 & F3 & E3 & L3)|(E3 & L3)].
  - destruct (dltb (to_seconds b) (to_seconds c)) eqn:D; [|reflexivity]. apply (ltb_ok 53 1024) in D; auto.
    assert (T : dltb (to_seconds a) (to_seconds c) = true); [|congruence]. apply (ltb_ok 53 1024); auto. rewrite E1. rewrite E2, E3 in D. rewrite E3.
    assert (rnd64 (rnd64 (IZR a) / 10000000) <= rnd64 (rnd64 (IZR b) / 10000000)) by (apply rnd64_le; lra). lra.
  - exfalso. rewrite E3 in C. destruct (Z.ltb_spec c 0) as [S|S].
    + pose proof (Z1 b ltac:(lia)). pose proof (Z1 c ltac:(lia)). rewrite Rabs_left1 in L2, L3 by assumption. lra.
    + destruct (to_seconds a) as [s|s| |s m e]; discriminate.
  - exfalso. destruct (Z_lt_le_dec b 0) as [S|S].
    + pose proof (Z1 a ltac:(lia)). pose proof (Z1 b ltac:(lia)). rewrite Rabs_left1 in L1, L2 by assumption. lra.
    + pose proof (Z0 b S). pose proof (Z0 c ltac:(lia)). rewrite Rabs_pos_eq in L2, L3 by assumption. lra.
  - rewrite E2, E3. destruct (Z.ltb_spec b 0), (Z.ltb_spec c 0); try reflexivity.
    exfalso. pose proof (Z1 a ltac:(lia)). pose proof (Z1 b ltac:(lia)). rewrite Rabs_left1 in L1, L2 by assumption. lra.
  - exfalso. rewrite E1 in C. destruct (Z.ltb_spec a 0) as [S|S].
    + destruct (to_seconds c) as [s|s| |s m e]; discriminate.
    + pose proof (Z0 a S). pose proof (Z0 b ltac:(lia)). rewrite Rabs_pos_eq in L1, L2 by assumption. lra.
  - exfalso. rewrite E1, E3 in C. destruct (Z.ltb_spec a 0), (Z.ltb_spec c 0); try discriminate; try lia.
    + pose proof (Z1 b ltac:(lia)). pose proof (Z1 c ltac:(lia)). rewrite Rabs_left1 in L2, L3 by assumption. lra.
    + pose proof (Z0 a ltac:(lia)). pose proof (Z0 b ltac:(lia)). rewrite Rabs_pos_eq in L1, L2 by assumption. lra.
  - exfalso. destruct (Z_lt_le_dec b 0) as [S|S].
    + pose proof (Z1 b ltac:(lia)). pose proof (Z1 a ltac:(lia)). rewrite E1 in C. replace (a <? 0)%Z with true in C by (symmetry; apply Z.ltb_lt; lia).
      destruct (to_seconds c) as [s|s| |s m e]; discriminate.
    + pose proof (Z0 b S). pose proof (Z0 c ltac:(lia)). rewrite Rabs_pos_eq in L2, L3 by assumption. lra.
  - rewrite E2, E3. rewrite E1, E3 in C. destruct (Z.ltb_spec a 0), (Z.ltb_spec b 0), (Z.ltb_spec c 0); try discriminate; try reflexivity; lia.
Qed.
