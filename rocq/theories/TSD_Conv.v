(* The conversion between floats and 15-bit values for arbitrary bounds lo <= 0 <= hi:
   rounding errors are a few units of 2^-24 of the width, and a quantization step is 512
   such units. *)
From Coq Require Import ZArith Bool Reals Lia Lra SpecFloat.
From Flocq Require Import Core.Core IEEE754.BinarySingleNaN.
From Verif Require Import Float32 FloatR Float32_Proofs PV_Model PV_Bounded PV_Near.
Open Scope R_scope.

Lemma rnd32_int z : (Z.abs z <= 2 ^ 24)%Z -> rnd32 (IZR z) = IZR z.
Proof.
  intros H. apply round_generic; [typeclasses eauto|].
  apply generic_format_FLT.
  destruct (Z.eq_dec (Z.abs z) (2 ^ 24)) as [E | N].
  - exists (Float radix2 (Z.sgn z * 2 ^ 23) 1).
    + unfold F2R; cbn [Fnum Fexp]. change (bpow radix2 1) with 2. rewrite <- mult_IZR. f_equal. lia.
    + cbn [Fnum]. change (radix2 ^ 24)%Z with (2 * 2 ^ 23)%Z. rewrite Z.abs_mul, (Z.abs_eq (2 ^ 23)) by lia.
      assert (Z.abs (Z.sgn z) <= 1)%Z by lia. assert (0 < 2 ^ 23)%Z by lia. nia.
    + vm_compute. discriminate.
  - exists (Float radix2 z 0).
    + unfold F2R; cbn [Fnum Fexp]. rewrite Rmult_1_r. reflexivity.
    + cbn [Fnum]. change (radix2 ^ 24)%Z with (2 ^ 24)%Z. lia.
    + vm_compute. discriminate.
Qed.

Definition tiny : R := / IZR (2 ^ 150).
Lemma tiny_pos : 0 < tiny.
Proof. apply Rinv_0_lt_compat. apply IZR_lt. reflexivity. Qed.

Lemma rnd_abs r m : Rabs r <= m -> Rabs (rnd32 r - r) <= u24 * m + tiny.
Proof.
  intros H. eapply Rle_trans; [apply rnd32_err|]. unfold tiny.
  apply Rplus_le_compat_r. apply Rmult_le_compat_l; [lra | exact H].
Qed.

Section Gen.
Variables lo hi unk : f32.
Let scale := fdiv (fsub hi lo) (f_of_Z 32766).
Let off := fsub lo scale.
Let S := fdiv (f_of_Z 32766) (fsub hi lo).
Let D := fval hi - fval lo.
Hypothesis Vlo : valid32 lo.
Hypothesis Vhi : valid32 hi.
Hypothesis Flo : ffin lo.
Hypothesis Fhi : ffin hi.
Hypothesis D1 : / IZR (2 ^ 60) <= D.
Hypothesis D2 : D <= IZR (2 ^ 60).
Hypothesis L1 : - D <= fval lo <= 0.
Hypothesis De : rnd32 D = D.

Definition exact_value (v : Z) : R := fval lo + D * ((IZR v - 1) / 32766).

Lemma D_pos : 0 < D.
Proof. eapply Rlt_le_trans; [|exact D1]. apply Rinv_0_lt_compat. apply IZR_lt. reflexivity. Qed.

Lemma tiny_small : tiny <= D / 1000000000000000000.
Proof.
  apply Rle_trans with (/ IZR (2 ^ 60) / 1000000000000000000); [|lra].
  unfold tiny, Rdiv. rewrite <- Rinv_mult. apply Rinv_le.
  - apply Rmult_lt_0_compat; [apply IZR_lt; reflexivity | lra].
  - rewrite <- mult_IZR. apply IZR_le. discriminate.
Qed.

Lemma tiny_small_inv : tiny <= / D / 1000000000000000000.
Proof.
  apply Rle_trans with (/ IZR (2 ^ 60) / 1000000000000000000).
  - unfold tiny, Rdiv. rewrite <- Rinv_mult. apply Rinv_le.
    + apply Rmult_lt_0_compat; [apply IZR_lt; reflexivity | lra].
    + rewrite <- mult_IZR. apply IZR_le. discriminate.
  - apply Rmult_le_compat_r; [lra|]. apply Rinv_le; [apply D_pos | exact D2].
Qed.

Lemma small_D r : Rabs r <= 100000 * D -> Rabs (rnd32 r) < bpow radix2 128.
Proof.
  intros H. apply rnd32_small. eapply Rle_trans; [exact H|].
  apply Rle_trans with (100000 * IZR (2 ^ 60)); [lra|]. rewrite <- mult_IZR. apply IZR_le. discriminate.
Qed.

Lemma small_inv r : Rabs r <= 100000 * / D -> Rabs (rnd32 r) < bpow radix2 128.
Proof.
  intros H. apply rnd32_small. eapply Rle_trans; [exact H|].
  apply Rle_trans with (100000 * IZR (2 ^ 60)).
  - apply Rmult_le_compat_l; [lra|]. rewrite <- (Rinv_inv (IZR (2 ^ 60))).
    apply Rinv_le; [|exact D1]. apply Rinv_0_lt_compat. apply IZR_lt. reflexivity.
  - rewrite <- mult_IZR. apply IZR_le. discriminate.
Qed.

Lemma sub_fin : ffin (fsub hi lo) /\ fval (fsub hi lo) = D /\ valid32 (fsub hi lo).
Proof.
  pose proof D_pos. destruct (fsub_ok hi lo Vhi Vlo Fhi Flo) as [F E].
  { fold D. apply small_D. rewrite Rabs_pos_eq; lra. }
  fold D in E. rewrite De in E. split; [exact F|]. split; [exact E | now apply fsub_valid].
Qed.

Lemma of_Z_fin z : (Z.abs z <= 100000)%Z -> ffin (f_of_Z z) /\ fval (f_of_Z z) = IZR z.
Proof.
  intros H. assert (A : Rabs (IZR z) <= 100000) by (rewrite <- abs_IZR; apply IZR_le; lia).
  destruct (of_Z_ok 24 128 p24 m128 z (small99 _ A)) as [F E]. split; [exact F|].
  unfold f_of_Z. rewrite E. apply rnd32_int. lia.
Qed.

Lemma inv_D_pos : 0 < / D.
Proof. apply Rinv_0_lt_compat. apply D_pos. Qed.
Lemma inv_D : D * / D = 1.
Proof. apply Rinv_r. pose proof D_pos. lra. Qed.

(* the resolution of the quantization *)
Lemma S_fin : valid32 S /\ ffin S /\ Rabs (fval S - 32766 * / D) <= 40000 * u24 * / D /\ 0 <= fval S.
Proof.
  destruct sub_fin as [F [E V]]. destruct (of_Z_fin 32766 ltac:(lia)) as [F1 E1].
  pose proof D_pos as P. pose proof inv_D_pos as Q. pose proof tiny_small_inv as T.
  assert (A : Rabs (32766 * / D) <= 32766 * / D) by (rewrite Rabs_pos_eq; lra).
  assert (Vs : valid32 S) by (apply fdiv_valid; [apply f_of_Z_valid | exact V]).
  destruct (fdiv_ok (f_of_Z 32766) (fsub hi lo) (f_of_Z_valid _) V F1) as [F2 E2].
  - rewrite E. lra.
  - rewrite E, E1. unfold Rdiv. apply small_inv. lra.
  - rewrite E, E1 in E2. unfold Rdiv in E2. fold S in F2, E2.
    split; [exact Vs|]. split; [exact F2|]. rewrite E2. split.
    + pose proof (rnd_abs _ _ A) as R. lra.
    + rewrite <- rnd32_0. apply rnd32_le. lra.
Qed.

(* what is rounded to an integer *)
Lemma quant_near y : fval lo <= y <= fval hi ->
  Rabs (rnd32 (rnd32 (y - fval lo) * fval S) - 32766 * ((y - fval lo) * / D)) <= / 100.
Proof.
  intros H. destruct S_fin as [_ [_ [Es Ps]]].
  pose proof D_pos as P. pose proof inv_D_pos as Q. pose proof tiny_small as T. pose proof inv_D as I.
  set (a := y - fval lo). assert (A : 0 <= a <= D) by (unfold a, D in *; lra).
  pose proof (rnd_abs a D ltac:(rewrite Rabs_pos_eq; lra)) as R1.
  set (d := rnd32 a) in *. apply Rabs_le_inv in R1. apply Rabs_le_inv in Es.
  assert (d0 : 0 <= d) by (unfold d; rewrite <- rnd32_0; apply rnd32_le; lra).
  assert (d1 : d <= D) by (unfold d; rewrite <- De; apply rnd32_le; lra).
  set (i := / D) in *. set (s := fval S) in *.
  assert (E1 : Rabs (d * s - 32766 * (d * i)) <= 40000 * u24).
  { replace (d * s - 32766 * (d * i)) with (d * (s - 32766 * i)) by ring.
    rewrite Rabs_mult, (Rabs_pos_eq d) by lra.
    apply Rle_trans with (D * (40000 * u24 * i)).
    - apply Rmult_le_compat; try lra; [apply Rabs_pos | apply Rabs_le; lra].
    - replace (D * (40000 * u24 * i)) with (40000 * u24 * (D * i)) by ring. lra. }
  apply Rabs_le_inv in E1.
  assert (E2 : Rabs (32766 * (d * i) - 32766 * (a * i)) <= 32766 * (2 * u24)).
  { replace (32766 * (d * i) - 32766 * (a * i)) with (32766 * ((d - a) * i)) by ring.
    rewrite Rabs_mult, Rabs_pos_eq by lra. apply Rmult_le_compat_l; [lra|].
    rewrite Rabs_mult, (Rabs_pos_eq i) by lra.
    apply Rle_trans with ((2 * u24 * D) * i).
    - apply Rmult_le_compat_r; [lra|]. apply Rabs_le. lra.
    - replace (2 * u24 * D * i) with (2 * u24 * (D * i)) by ring. lra. }
  apply Rabs_le_inv in E2.
  assert (B : 0 <= a * i <= 1).
  { split; [apply Rmult_le_pos; lra|]. rewrite <- I. apply Rmult_le_compat_r; lra. }
  assert (A2 : Rabs (d * s) <= 40000) by (apply Rabs_le; lra).
  pose proof (rnd_abs _ _ A2) as R2. apply Rabs_le_inv in R2.
  assert (T1 : tiny <= / 1000000000).
  { unfold tiny. apply Rinv_le; [lra|]. apply IZR_le. discriminate. }
  apply Rabs_le. lra.
Qed.

Lemma full_range : fval lo <= fval hi. 
Proof. pose proof D_pos. unfold D in *. lra. Qed.

Lemma gen_bounds_pre :
  Rabs (rnd32 (fval hi - fval lo)) < bpow radix2 128 /\
  fval (fmul (fsub hi lo) S) <= 65536 /\
  Rabs (rnd32 (fval (fsub hi lo) * fval S)) < bpow radix2 128 /\
  fval (fsub hi lo) <= IZR (2 ^ 100).
Proof.
  destruct sub_fin as [F [E V]]. destruct S_fin as [Vs [Fs [Es Ps]]]. pose proof D_pos as P.
  pose proof (quant_near (fval hi) ltac:(pose proof full_range; lra)) as Q.
  fold D in Q. rewrite De in Q. rewrite inv_D in Q. apply Rabs_le_inv in Q.
  assert (B : Rabs (rnd32 (fval (fsub hi lo) * fval S)) < bpow radix2 128).
  { rewrite E. apply Rle_lt_trans with 100000; [apply Rabs_le; lra|].
    eapply Rlt_trans; [|exact bpow128]. apply IZR_lt. reflexivity. }
  split; [apply small_D; fold D; rewrite Rabs_pos_eq; lra|].
  split.
  { destruct (fmul_ok _ _ V Vs F Fs B) as [_ ->]. rewrite E. lra. }
  split; [exact B|].
  rewrite E. eapply Rle_trans; [exact D2|]. apply IZR_le. discriminate.
Qed.

Lemma gen_conv x : valid32 x -> not_nan x -> exists k,
  bounded_float_to_value x lo hi = Some (k + 1)%Z /\
  exists c, nearest_away c k /\
  Rabs (c - 32766 * ((fval (fclamp x lo hi) - fval lo) * / D)) <= / 100.
Proof.
  intros V N. destruct sub_fin as [F [E Vd]]. destruct S_fin as [Vs [Fs [Es Ps]]].
  destruct gen_bounds_pre as [B1 [B2 [B3 B4]]]. pose proof full_range as FR.
  destruct (bftv_ok lo hi Vlo Vhi Flo Fhi FR Fs Ps F B4 B1 B2 B3 x V N) as [k [Ek A]].
  destruct (fclamp_ok lo hi Vlo Vhi Flo Fhi FR x V N) as [V1 [F1 C1]].
  destruct (scaled_ok lo hi Vlo Vhi Flo Fhi Fs Ps F B4 B1 B2 B3 _ V1 F1 C1) as [_ [Ec _]].
  exists k. split; [exact Ek|]. eexists. split; [exact A|]. rewrite Ec. now apply quant_near.
Qed.

Lemma clamp_id x : valid32 x -> ffin x ->
  fval (fclamp x lo hi) = Rmax (fval lo) (Rmin (fval hi) (fval x)).
Proof.
  intros V F. pose proof full_range as FR. unfold fclamp.
  destruct (fltb hi x) eqn:E1.
  - apply (fltb_ok _ _ Vhi V Fhi F) in E1. rewrite Rmin_left by lra. now rewrite Rmax_right.
  - assert (N1 : fval x <= fval hi).
    { destruct (Rle_or_lt (fval x) (fval hi)) as [H | H]; [exact H|].
      apply (fltb_ok hi x Vhi V Fhi F) in H. congruence. }
    rewrite Rmin_right by lra. destruct (fltb x lo) eqn:E2.
    + apply (fltb_ok _ _ V Vlo F Flo) in E2. now rewrite Rmax_left by lra.
    + rewrite Rmax_right; [reflexivity|].
      destruct (Rle_or_lt (fval lo) (fval x)) as [H | H]; [exact H|].
      apply (fltb_ok x lo V Vlo F Flo) in H. congruence.
Qed.

(* a float within a hundred rounding units of a value's real number is taken to it *)
Lemma gen_eq x v : valid32 x -> ffin x -> (1 <= v <= 32767)%Z ->
  Rabs (fval x - exact_value v) <= 100 * u24 * D -> bounded_float_to_value x lo hi = Some v.
Proof.
  intros V F Hv H. destruct (gen_conv x V (fin_not_nan x F)) as [k [E [c [A C]]]].
  rewrite E. f_equal. apply Rabs_le_inv in H. apply Rabs_le_inv in C.
  assert (H2 : Rabs (fval (fclamp x lo hi) - exact_value v) <= 100 * u24 * D).
  { rewrite clamp_id by assumption. pose proof D_pos as P.
    assert (B : fval lo <= exact_value v <= fval hi).
    { unfold exact_value. destruct Hv as [V1 V2]. apply IZR_le in V1. apply IZR_le in V2.
      assert (0 <= D * ((IZR v - 1) / 32766) <= D * 1).
      { split; [apply Rmult_le_pos; lra | apply Rmult_le_compat_l; lra]. }
      unfold D in *. lra. }
    apply Rabs_le. unfold Rmax, Rmin.
    destruct (Rle_dec (fval hi) (fval x)); destruct (Rle_dec (fval lo) _); lra. }
  pose proof D_pos as P. pose proof inv_D as I. pose proof inv_D_pos as Q.
  set (y := fval (fclamp x lo hi)) in *.
  assert (H3 : Rabs ((y - fval lo) * / D - (IZR v - 1) / 32766) <= 100 * u24).
  { replace ((y - fval lo) * / D - (IZR v - 1) / 32766)
      with ((y - fval lo) * / D - (D * / D) * ((IZR v - 1) / 32766)) by (rewrite I; ring).
    replace ((y - fval lo) * / D - (D * / D) * ((IZR v - 1) / 32766))
      with ((y - exact_value v) * / D) by (unfold exact_value; ring).
    rewrite Rabs_mult, (Rabs_pos_eq (/ D)) by lra.
    apply Rle_trans with ((100 * u24 * D) * / D); [apply Rmult_le_compat_r; lra|].
    replace (100 * u24 * D * / D) with (100 * u24 * (D * / D)) by ring. lra. }
  apply Rabs_le_inv in H3. set (z := (y - fval lo) * / D) in *.
  enough (k = v - 1)%Z by lia. apply Z.le_antisymm.
  - apply (nearest_le c k _ A). rewrite minus_IZR. lra.
  - apply (nearest_ge c k _ A). rewrite minus_IZR. lra.
Qed.

Lemma gen_bounds : bounds_ok lo hi.
Proof.
  destruct sub_fin as [F [E Vd]]. destruct S_fin as [Vs [Fs [Es Ps]]].
  destruct gen_bounds_pre as [B1 [B2 [B3 B4]]]. pose proof full_range as FR. pose proof D_pos as P.
  unfold bounds_ok. cbv zeta.
  repeat (split; [assumption|]). split.
  - apply gen_eq; try assumption; [lia|]. unfold exact_value.
    replace ((1 - 1) / 32766) with 0 by lra. rewrite Rmult_0_r, Rplus_0_r, Rminus_diag_eq, Rabs_R0 by reflexivity. lra.
  - apply gen_eq; try assumption; [lia|]. unfold exact_value.
    replace ((32767 - 1) / 32766) with 1 by lra. rewrite Rmult_1_r.
    rewrite Rminus_diag_eq, Rabs_R0 by (unfold D; ring). lra.
Qed.

(* from values to floats *)
Lemma scale_fin : valid32 scale /\ ffin scale /\
  Rabs (fval scale - D / 32766) <= u24 * D / 30000 /\ 0 <= fval scale.
Proof.
  destruct sub_fin as [F [E V]]. destruct (of_Z_fin 32766 ltac:(lia)) as [F1 E1].
  pose proof D_pos as P. pose proof tiny_small as T.
  assert (A : Rabs (D / 32766) <= D / 32766) by (rewrite Rabs_pos_eq; lra).
  assert (Vs : valid32 scale) by (apply fdiv_valid; [exact V | apply f_of_Z_valid]).
  destruct (fdiv_ok (fsub hi lo) (f_of_Z 32766) V (f_of_Z_valid _) F) as [F2 E2].
  - rewrite E1. lra.
  - rewrite E, E1. apply small_D. lra.
  - rewrite E, E1 in E2. fold scale in F2, E2.
    split; [exact Vs|]. split; [exact F2|]. rewrite E2. split.
    + pose proof (rnd_abs _ _ A) as R. lra.
    + rewrite <- rnd32_0. apply rnd32_le. lra.
Qed.

Lemma off_fin : valid32 off /\ ffin off /\ Rabs (fval off - (fval lo - D / 32766)) <= 2 * u24 * D.
Proof.
  destruct scale_fin as [Vs [Fs [Es Ps]]]. pose proof D_pos as P. pose proof tiny_small as T.
  apply Rabs_le_inv in Es.
  assert (A : Rabs (fval lo - fval scale) <= 3 / 2 * D) by (apply Rabs_le; lra).
  destruct (fsub_ok lo scale Vlo Vs Flo Fs) as [F E]; [apply small_D; lra|].
  split; [now apply fsub_valid|]. split; [exact F|]. fold off in E. rewrite E.
  pose proof (rnd_abs _ _ A) as R. apply Rabs_le_inv in R. apply Rabs_le. lra.
Qed.

Definition back_of (v : Z) : R := rnd32 (rnd32 (IZR v * fval scale) + fval off).

Lemma back_of_le u v : (u <= v)%Z -> back_of u <= back_of v.
Proof.
  intros H. unfold back_of. apply rnd32_le. apply Rplus_le_compat_r. apply rnd32_le.
  apply Rmult_le_compat_r; [apply scale_fin|]. now apply IZR_le.
Qed.

Lemma value_near v : (1 <= v <= 32767)%Z ->
  valid32 (table_value unk lo hi v) /\ ffin (table_value unk lo hi v) /\
  fval (table_value unk lo hi v) = back_of v /\
  Rabs (back_of v - exact_value v) <= 8 * u24 * D.
Proof.
  intros Hv. destruct scale_fin as [Vs [Fs [Es Ps]]]. destruct off_fin as [Vo [Fo Eo]].
  pose proof D_pos as P. pose proof tiny_small as T.
  destruct (of_Z_fin v ltac:(lia)) as [F1 E1].
  assert (Hr : 1 <= IZR v <= 32767) by (split; apply IZR_le; lia).
  apply Rabs_le_inv in Es. apply Rabs_le_inv in Eo.
  assert (M : Rabs (IZR v * fval scale - IZR v * (D / 32766)) <= 3 / 2 * u24 * D).
  { replace (IZR v * fval scale - IZR v * (D / 32766)) with (IZR v * (fval scale - D / 32766)) by ring.
    rewrite Rabs_mult, Rabs_pos_eq by lra.
    apply Rle_trans with (32767 * (u24 * D / 30000)); [|lra].
    apply Rmult_le_compat; try lra; [apply Rabs_pos | apply Rabs_le; lra]. }
  apply Rabs_le_inv in M.
  assert (W : 0 <= IZR v * (D / 32766) <= 32767 * (D / 32766)).
  { split; [apply Rmult_le_pos; lra | apply Rmult_le_compat_r; lra]. }
  set (w := IZR v * (D / 32766)) in *. set (m := IZR v * fval scale) in *.
  assert (A1 : Rabs m <= 2 * D) by (apply Rabs_le; lra).
  destruct (fmul_ok (f_of_Z v) scale (f_of_Z_valid v) Vs F1 Fs) as [F2 E2].
  { rewrite E1. fold m. apply small_D. lra. }
  rewrite E1 in E2. fold m in E2.
  pose proof (rnd_abs _ _ A1) as R1. apply Rabs_le_inv in R1.
  assert (A2 : Rabs (rnd32 m + fval off) <= 2 * D) by (apply Rabs_le; lra).
  assert (Vm : valid32 (fmul (f_of_Z v) scale)) by (apply fmul_valid; [apply f_of_Z_valid | exact Vs]).
  destruct (fadd_ok _ _ Vm Vo F2 Fo) as [F3 E3].
  { rewrite E2. apply small_D. lra. }
  rewrite E2 in E3.
  unfold table_value. rewrite Z.mod_small by lia. unfold slow_value, kUnknown.
  destruct (Z.eqb_spec v 0); [lia|]. cbv zeta. fold scale. fold off.
  split; [now apply fadd_valid|]. split; [exact F3|]. split; [exact E3|].
  unfold back_of. fold m.
  pose proof (rnd_abs _ _ A2) as R2. apply Rabs_le_inv in R2.
  unfold exact_value. replace (D * ((IZR v - 1) / 32766)) with (w - D / 32766) by (unfold w; field).
  apply Rabs_le. lra.
Qed.

Lemma gen_round v : (1 <= v <= 32767)%Z ->
  bounded_float_to_value (table_value unk lo hi v) lo hi = Some v.
Proof.
  intros Hv. destruct (value_near v Hv) as [V [F [E N]]]. apply gen_eq; try assumption.
  rewrite E. pose proof D_pos. lra.
Qed.

Lemma gen_strict u v : (1 <= u)%Z -> (u < v)%Z -> (v <= 32767)%Z ->
  fltb (table_value unk lo hi u) (table_value unk lo hi v) = true.
Proof.
  intros H1 H2 H3.
  destruct (value_near u ltac:(lia)) as [Vu [Fu [Eu _]]]. destruct (value_near v ltac:(lia)) as [Vv [Fv [Ev _]]].
  apply (fltb_ok _ _ Vu Vv Fu Fv). rewrite Eu, Ev.
  destruct (back_of_le u v ltac:(lia)) as [L | E]; [exact L|]. exfalso.
  assert (A : bounded_float_to_value (table_value unk lo hi u) lo hi = Some v).
  { destruct (value_near v ltac:(lia)) as [_ [_ [_ N]]]. rewrite <- E in N.
    apply gen_eq; try assumption; [lia|]. rewrite Eu. pose proof D_pos. lra. }
  rewrite gen_round in A by lia. injection A. lia.
Qed.

(* quantizing a float loses at most half a step and a little *)
Lemma gen_near x v : valid32 x -> ffin x -> bounded_float_to_value x lo hi = Some v ->
  Rabs (fval (table_value unk lo hi v) - Rmax (fval lo) (Rmin (fval hi) (fval x))) <= D / 60000.
Proof.
  intros V F H. pose proof D_pos as P. pose proof inv_D as I. pose proof inv_D_pos as Q.
  destruct (range_of lo hi x gen_bounds V (fin_not_nan x F)) as [r [Er Br]].
  rewrite H in Er. injection Er as <-.
  destruct (gen_conv x V (fin_not_nan x F)) as [k [Ek [c [A C]]]]. rewrite H in Ek. injection Ek as ->.
  destruct (value_near _ Br) as [_ [_ [-> N]]].
  rewrite <- (clamp_id x V F). set (y := fval (fclamp x lo hi)) in *.
  pose proof (nearest_away_err _ _ A) as A1.
  apply Rabs_le_inv in A1. apply Rabs_le_inv in C. apply Rabs_le_inv in N.
  assert (G : Rabs (y - exact_value (k + 1)) <= D * (51 / 100 / 32766)).
  { replace (y - exact_value (k + 1)) with (D * ((y - fval lo) * / D - IZR k / 32766)).
    - rewrite Rabs_mult, (Rabs_pos_eq D) by lra. apply Rmult_le_compat_l; [lra|].
      apply Rabs_le. set (z := (y - fval lo) * / D) in *. lra.
    - unfold exact_value. rewrite plus_IZR.
      replace (D * ((y - fval lo) * / D - IZR k / 32766))
        with ((D * / D) * (y - fval lo) - D * (IZR k / 32766)) by ring.
      rewrite I. field. }
  apply Rabs_le_inv in G. apply Rabs_le. lra.
Qed.
(* how the quantization moves with its argument *)
Lemma gen_step x y u v : valid32 x -> ffin x -> valid32 y -> ffin y ->
  fval x <= fval y + 100 * u24 * D ->
  bounded_float_to_value x lo hi = Some u -> bounded_float_to_value y lo hi = Some v -> (u <= v + 1)%Z.
Proof.
  intros Vx Fx Vy Fy H Hu Hv.
  destruct (gen_conv x Vx (fin_not_nan x Fx)) as [k [E [c [A C]]]]. rewrite Hu in E. injection E as ->.
  destruct (gen_conv y Vy (fin_not_nan y Fy)) as [k' [E' [c' [A' C']]]]. rewrite Hv in E'. injection E' as ->.
  apply Rabs_le_inv in C. apply Rabs_le_inv in C'. pose proof D_pos as P.
  rewrite clamp_id in C, C' by assumption.
  assert (B : Rmax (fval lo) (Rmin (fval hi) (fval x)) <= Rmax (fval lo) (Rmin (fval hi) (fval y)) + 100 * u24 * D).
  { pose proof full_range. unfold Rmax, Rmin.
    destruct (Rle_dec (fval hi) (fval x)); destruct (Rle_dec (fval hi) (fval y));
      repeat destruct (Rle_dec _ _); lra. }
  set (p := Rmax (fval lo) (Rmin (fval hi) (fval x))) in *.
  set (q := Rmax (fval lo) (Rmin (fval hi) (fval y))) in *.
  assert (G : (p - fval lo) * / D <= (q - fval lo) * / D + 100 * u24).
  { pose proof inv_D as I. pose proof inv_D_pos as Q.
    replace ((q - fval lo) * / D + 100 * u24) with ((q - fval lo + 100 * u24 * D) * / D)
      by (rewrite Rmult_plus_distr_r; replace (100 * u24 * D * / D) with (100 * u24 * (D * / D)) by ring; rewrite I; ring).
    apply Rmult_le_compat_r; lra. }
  pose proof (nearest_away_err _ _ A') as A1. apply Rabs_le_inv in A1.
  enough (k <= k' + 1)%Z by lia. apply (nearest_le c k _ A). rewrite plus_IZR.
  set (a := (p - fval lo) * / D) in *. set (b := (q - fval lo) * / D) in *. lra.
Qed.

Lemma gen_ge x v r : valid32 x -> ffin x -> (1 <= v <= 32767)%Z ->
  fval (table_value unk lo hi v) - 50 * u24 * D <= fval x ->
  bounded_float_to_value x lo hi = Some r -> (v <= r)%Z.
Proof.
  intros V F Hv H E. destruct (value_near v Hv) as [Vt [Ft [Et Nt]]]. rewrite Et in H.
  apply Rabs_le_inv in Nt. pose proof D_pos as P.
  destruct (Rle_or_lt (fval x) (exact_value v)) as [L | L].
  - rewrite (gen_eq x v V F Hv) in E; [injection E as <-; lia|]. apply Rabs_le. lra.
  - destruct (gen_conv x V (fin_not_nan x F)) as [k [Ek [c [A C]]]]. rewrite E in Ek. injection Ek as ->.
    apply Rabs_le_inv in C. rewrite clamp_id in C by assumption.
    assert (B : exact_value v <= Rmax (fval lo) (Rmin (fval hi) (fval x))).
    { assert (exact_value v <= fval hi).
      { unfold exact_value. destruct Hv as [V1 V2]. apply IZR_le in V1. apply IZR_le in V2.
        assert (D * ((IZR v - 1) / 32766) <= D * 1) by (apply Rmult_le_compat_l; lra). unfold D in *. lra. }
      unfold Rmax, Rmin. repeat destruct (Rle_dec _ _); lra. }
    set (p := Rmax (fval lo) (Rmin (fval hi) (fval x))) in *.
    enough (v - 1 <= k)%Z by lia. apply (nearest_ge c k _ A). rewrite minus_IZR.
    pose proof inv_D as I. pose proof inv_D_pos as Q.
    assert (G : (IZR v - 1) / 32766 <= (p - fval lo) * / D).
    { replace ((IZR v - 1) / 32766) with ((D * / D) * ((IZR v - 1) / 32766)) by (rewrite I; ring).
      replace (D * / D * ((IZR v - 1) / 32766)) with ((exact_value v - fval lo) * / D) by (unfold exact_value; ring).
      apply Rmult_le_compat_r; lra. }
    set (a := (p - fval lo) * / D) in *. lra.
Qed.

Lemma gen_le x v r : valid32 x -> ffin x -> (1 <= v <= 32767)%Z ->
  fval x <= fval (table_value unk lo hi v) + 50 * u24 * D ->
  bounded_float_to_value x lo hi = Some r -> (r <= v)%Z.
Proof.
  intros V F Hv H E. destruct (value_near v Hv) as [Vt [Ft [Et Nt]]]. rewrite Et in H.
  apply Rabs_le_inv in Nt. pose proof D_pos as P.
  destruct (Rle_or_lt (exact_value v) (fval x)) as [L | L].
  - rewrite (gen_eq x v V F Hv) in E; [injection E as <-; lia|]. apply Rabs_le. lra.
  - destruct (gen_conv x V (fin_not_nan x F)) as [k [Ek [c [A C]]]]. rewrite E in Ek. injection Ek as ->.
    apply Rabs_le_inv in C. rewrite clamp_id in C by assumption.
    assert (B : Rmax (fval lo) (Rmin (fval hi) (fval x)) <= exact_value v).
    { assert (fval lo <= exact_value v).
      { unfold exact_value. destruct Hv as [V1 V2]. apply IZR_le in V1. apply IZR_le in V2.
        assert (0 <= D * ((IZR v - 1) / 32766)) by (apply Rmult_le_pos; lra). lra. }
      unfold Rmax, Rmin. repeat destruct (Rle_dec _ _); lra. }
    set (p := Rmax (fval lo) (Rmin (fval hi) (fval x))) in *.
    enough (k <= v - 1)%Z by lia. apply (nearest_le c k _ A). rewrite minus_IZR.
    pose proof inv_D as I. pose proof inv_D_pos as Q.
    assert (G : (p - fval lo) * / D <= (IZR v - 1) / 32766).
    { replace ((IZR v - 1) / 32766) with ((D * / D) * ((IZR v - 1) / 32766)) by (rewrite I; ring).
      replace (D * / D * ((IZR v - 1) / 32766)) with ((exact_value v - fval lo) * / D) by (unfold exact_value; ring).
      apply Rmult_le_compat_r; lra. }
    set (a := (p - fval lo) * / D) in *. lra.
Qed.
End Gen.
