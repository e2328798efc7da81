(* C88: the parameterizations of rotations in the 3D optimization. *)
From Coq Require Import Reals Lra Psatz.
From Verif Require Import CF_Model CF_Spec RG_Model RG_Spec RG_Proofs RP_Model RP_Spec.
Open Scope R_scope.

Lemma clamp_limited d : clampR d (- (1 / 2)) (1 / 2) = limited d.
Proof. unfold clampR, limited, Rmax, Rmin. destruct (Rlt_dec _ _); repeat (destruct (Rle_dec _ _)); try (destruct (Rlt_dec _ _)); lra. Qed.
Lemma limited_range d : - (1 / 2) <= limited d <= 1 / 2.
Proof. unfold limited. split; [apply Rmax_l|]. apply Rmax_lub; [lra | apply Rmin_l]. Qed.
Lemma asin_sixth x : - (1 / 2) <= x <= 1 / 2 -> - (PI / 6) <= asin x <= PI / 6.
Proof.
  intros X. pose proof (asin_bound x) as [A B]. pose proof PI_RGT_0. pose proof (sin_asin x ltac:(lra)) as S.
  split.
  - destruct (Rle_dec (- (PI / 6)) (asin x)) as [L | L]; [exact L|]. exfalso.
    assert (sin (asin x) < sin (- (PI / 6))) by (apply sin_increasing_1; lra). rewrite sin_neg, sin_PI6 in *. lra.
  - destruct (Rle_dec (asin x) (PI / 6)) as [L | L]; [exact L|]. exfalso.
    assert (sin (PI / 6) < sin (asin x)) by (apply sin_increasing_1; lra). rewrite sin_PI6 in *. lra.
Qed.
Lemma yaw_about_z x d : yaw_only_plus x d = qmul (about_z (2 * asin (limited d))) x.
Proof.
  unfold yaw_only_plus. rewrite clamp_limited. pose proof (limited_range d) as L. unfold about_z.
  replace (2 * asin (limited d) / 2) with (asin (limited d)) by field. rewrite sin_asin, cos_asin by lra. unfold Rsqr. reflexivity.
Qed.

(* YawOnlyQuaternionPlus turns about the vertical axis of the world, by at most a sixth of a full
   circle, and nothing else *)
Theorem C88_yaw_only : forall x d p, is_unit x ->
  is_unit (yaw_only_plus x d) /\ qrot (yaw_only_plus x d) p = turned_z (2 * asin (limited d)) (qrot x p) /\
  - (PI / 3) <= 2 * asin (limited d) <= PI / 3.
Proof.
  intros x d p U. rewrite yaw_about_z. pose proof (about_z_unit (2 * asin (limited d))) as V. split; [apply unit_mul; assumption|]. split.
  - rewrite qrot_mul by assumption. set (q := qrot x p). clearbody q. set (t := 2 * asin (limited d)). unfold about_z, turned_z.
    replace (cos t) with (cos (2 * (t / 2))) by (f_equal; field). replace (sin t) with (sin (2 * (t / 2))) by (f_equal; field).
    rewrite sin_2a, cos_2a. pose proof (sc (t / 2)) as S. set (c := cos (t / 2)) in *. set (s := sin (t / 2)) in *. clearbody c s.
    apply vec_eq; unfold qrot, vadd, vscale, vcross, qvec; cbn [v0 v1 v2 qw qx qy qz].
    + replace (c * c) with (1 - s * s) by lra. ring.
    + replace (c * c) with (1 - s * s) by lra. ring.
    + ring.
  - pose proof (asin_sixth _ (limited_range d)). lra.
Qed.
(* every such turn can be made *)
Theorem C88_yaw_reaches : forall t, - (PI / 3) <= t <= PI / 3 -> exists d, forall x p, is_unit x -> qrot (yaw_only_plus x d) p = turned_z t (qrot x p).
Proof.
  intros t T. exists (sin (t / 2)). intros x p U. destruct (C88_yaw_only x (sin (t / 2)) p U) as [_ [E _]]. rewrite E. f_equal.
  pose proof PI_RGT_0. assert (A : - (1 / 2) <= sin (t / 2) <= 1 / 2).
  { rewrite <- sin_PI6, <- sin_neg. split; apply sin_incr_1; lra. }
  unfold limited. rewrite Rmin_right, Rmax_right by lra. rewrite asin_sin by lra. field.
Qed.

(* ConstantYawQuaternionPlus turns about a horizontal axis of the submap, by twice the length of the
   step; steps shorter than 10^-6 are not quite rotations *)
Lemma steplen_sq d0 d1 : steplen d0 d1 * steplen d0 d1 = d0 * d0 + d1 * d1.
Proof. unfold steplen. apply sqrt_sqrt. pose proof (Rle_0_sqr d0). pose proof (Rle_0_sqr d1). unfold Rsqr in *. lra. Qed.
Lemma delta_large d0 d1 : small_delta <= steplen d0 d1 ->
  exists u0 u1, u0 * u0 + u1 * u1 = 1 /\ d0 = steplen d0 d1 * u0 /\ d1 = steplen d0 d1 * u1 /\
    delta_quat d0 d1 = mk_quat (cos (steplen d0 d1)) (sin (steplen d0 d1) * u0) (sin (steplen d0 d1) * u1) 0.
Proof.
  intros L. unfold small_delta in L. exists (d0 / steplen d0 d1), (d1 / steplen d0 d1). pose proof (steplen_sq d0 d1) as Q.
  unfold delta_quat. fold (steplen d0 d1). set (n := steplen d0 d1) in *. clearbody n. unfold small_delta. destruct (Rlt_dec _ _); [lra|]. split.
  - apply Rmult_eq_reg_r with (n * n); [|nra]. replace ((d0 / n * (d0 / n) + d1 / n * (d1 / n)) * (n * n)) with (d0 * d0 + d1 * d1) by (field; lra). lra.
  - repeat split; try (field; lra). f_equal; field; lra.
Qed.
Lemma tilt_unit n u0 u1 : u0 * u0 + u1 * u1 = 1 -> is_unit (mk_quat (cos n) (sin n * u0) (sin n * u1) 0).
Proof.
  intros U. unfold is_unit, qnorm2. cbn [qw qx qy qz]. pose proof (sc n).
  replace (cos n * cos n + sin n * u0 * (sin n * u0) + sin n * u1 * (sin n * u1) + 0 * 0) with (cos n * cos n + sin n * sin n * (u0 * u0 + u1 * u1)) by ring. rewrite U. lra.
Qed.
Lemma tilt_up n u0 u1 : u0 * u0 + u1 * u1 = 1 -> qrot (mk_quat (cos n) (sin n * u0) (sin n * u1) 0) up = mk_vec3 (sin (2 * n) * u1) (- (sin (2 * n) * u0)) (cos (2 * n)).
Proof.
  intros U. rewrite sin_2a, cos_2a. pose proof (sc n) as S. set (c := cos n) in *. set (s := sin n) in *. clearbody c s.
  unfold up. apply vec_eq; unfold qrot, vadd, vscale, vcross, qvec; cbn [v0 v1 v2 qw qx qy qz]; try ring.
  replace (c * c) with (1 - s * s) by lra. replace (1 - s * s - s * s) with (1 - 2 * (s * s) * (u0 * u0 + u1 * u1)) by (rewrite U; ring). ring.
Qed.
Theorem C88_constant_yaw : forall x d0 d1, is_unit x -> small_delta <= steplen d0 d1 ->
  is_unit (constant_yaw_plus x d0 d1) /\
  qrot (constant_yaw_plus x d0 d1) (mk_vec3 d0 d1 0) = qrot x (mk_vec3 d0 d1 0) /\
  vdot (qrot (constant_yaw_plus x d0 d1) up) (qrot x up) = cos (2 * steplen d0 d1).
Proof.
  intros x d0 d1 U L. unfold constant_yaw_plus. destruct (delta_large d0 d1 L) as [u0 [u1 [N [D0 [D1 E]]]]]. rewrite E.
  set (n := steplen d0 d1) in *. pose proof (tilt_unit n u0 u1 N) as V. split; [apply unit_mul; assumption|]. split.
  - rewrite qrot_mul by assumption. f_equal. apply vec_eq; unfold qrot, vadd, vscale, vcross, qvec; cbn [v0 v1 v2 qw qx qy qz]; rewrite D0, D1; ring.
  - rewrite qrot_mul, qrot_dot by assumption. rewrite tilt_up by exact N. unfold vdot, up. cbn [v0 v1 v2]. ring.
Qed.
(* the vertical axis of the submap can be turned anywhere that is not within 2 * 10^-6 of where it is *)
Theorem C88_reaches : forall x v, is_unit x -> vdot v v = 1 -> vdot v (qrot x up) <= cos (2 * small_delta) ->
  exists d0 d1, steplen d0 d1 <= PI / 2 /\ small_delta <= steplen d0 d1 /\ qrot (constant_yaw_plus x d0 d1) up = v.
Proof.
  intros x v U V C. set (w := qrot (qconj x) v). assert (E : v = qrot x w) by (symmetry; apply qrot_inv_r; exact U).
  assert (W : vdot w w = 1) by (rewrite <- V, E, qrot_dot by exact U; reflexivity).
  rewrite E, qrot_dot in C by exact U. clearbody w. rewrite E. clear E V v.
  unfold vdot, up in C. cbn [v0 v1 v2] in C. assert (C' : v2 w <= cos (2 * small_delta)) by lra. clear C.
  unfold vdot in W. set (a := v0 w) in *. set (b := v1 w) in *. set (c := v2 w) in *.
  pose proof (Rle_0_sqr a) as A2. pose proof (Rle_0_sqr b) as B2. unfold Rsqr in A2, B2.
  assert (Cr : - 1 <= c <= 1) by (split; nra). pose proof (acos_bound c) as [T1 T2]. pose proof (cos_acos c Cr) as T3. set (t := acos c) in *.
  pose proof PI_RGT_0 as P. pose proof PI2_1 as P2.
  assert (Tl : 2 * small_delta <= t).
  { destruct (Rle_dec (2 * small_delta) t) as [G | G]; [exact G|]. exfalso. unfold small_delta in *.
    assert (cos (2 * (1 / 1000000)) < cos t) by (apply cos_decreasing_1; lra). lra. }
  unfold small_delta in Tl.
  assert (K : exists u0 u1, u0 * u0 + u1 * u1 = 1 /\ sin t * u1 = a /\ sin t * u0 = - b).
  { destruct (Req_dec (sin t) 0) as [Z | Z].
    - exists 1, 0. assert (c * c = 1) by (pose proof (sc t) as S; rewrite Z, T3 in S; lra). assert (a = 0) by nra. assert (b = 0) by nra. rewrite Z. lra.
    - exists (- b / sin t), (a / sin t). split; [|split; field; exact Z].
      apply Rmult_eq_reg_r with (sin t * sin t); [|nra]. replace ((- b / sin t * (- b / sin t) + a / sin t * (a / sin t)) * (sin t * sin t)) with (a * a + b * b) by (field; exact Z).
      pose proof (sc t) as S. rewrite T3 in S. lra. }
  destruct K as [u0 [u1 [N [K1 K2]]]]. exists (t / 2 * u0), (t / 2 * u1).
  assert (L : steplen (t / 2 * u0) (t / 2 * u1) = t / 2).
  { unfold steplen. replace (t / 2 * u0 * (t / 2 * u0) + t / 2 * u1 * (t / 2 * u1)) with (t / 2 * (t / 2) * (u0 * u0 + u1 * u1)) by ring. rewrite N, Rmult_1_r. apply sqrt_square. lra. }
  unfold small_delta. rewrite L. split; [lra|]. split; [lra|]. unfold constant_yaw_plus.
  assert (Q : delta_quat (t / 2 * u0) (t / 2 * u1) = mk_quat (cos (t / 2)) (sin (t / 2) * u0) (sin (t / 2) * u1) 0).
  { unfold delta_quat. fold (steplen (t / 2 * u0) (t / 2 * u1)). rewrite L. unfold small_delta. destruct (Rlt_dec _ _); [lra|]. f_equal; field; lra. }
  rewrite Q, qrot_mul by (try assumption; apply tilt_unit; exact N). f_equal. rewrite tilt_up by exact N. replace (2 * (t / 2)) with t by field.
  apply vec_eq; cbn [v0 v1 v2]; fold a b c; lra.
Qed.
(* the yaw is not constant *)
Lemma half_root : sqrt (PI / 4 * sqrt (1 / 2) * (PI / 4 * sqrt (1 / 2)) + PI / 4 * sqrt (1 / 2) * (PI / 4 * sqrt (1 / 2))) = PI / 4.
Proof.
  pose proof PI_RGT_0. pose proof (sqrt_sqrt (1 / 2) ltac:(lra)) as S.
  replace (_ + _) with (PI / 4 * (PI / 4)); [apply sqrt_square; lra|].
  replace (PI / 4 * sqrt (1 / 2) * (PI / 4 * sqrt (1 / 2))) with (PI / 4 * (PI / 4) * (sqrt (1 / 2) * sqrt (1 / 2))) by ring. rewrite S. field.
Qed.
Theorem C88_yaw_refuted : exists x d0 d1, is_unit x /\ small_delta <= steplen d0 d1 /\
  get_yaw x = 0 /\ get_yaw (constant_yaw_plus x d0 d1) = PI / 4.
Proof.
  exists q_one, (PI / 4 * sqrt (1 / 2)), (PI / 4 * sqrt (1 / 2)). pose proof PI_RGT_0. pose proof PI2_1. pose proof (sqrt_sqrt (1 / 2) ltac:(lra)) as S. split; [apply unit_one|].
  split; [unfold steplen, small_delta; rewrite half_root; lra|]. split.
  - unfold get_yaw. rewrite qrot_one. cbn [v0 v1]. unfold atan2. destruct (Rlt_dec 0 1); [|lra]. unfold Rdiv. rewrite Rmult_0_l. apply atan_0.
  - unfold get_yaw, constant_yaw_plus, delta_quat. rewrite qmul_1_l, half_root. unfold small_delta. destruct (Rlt_dec _ _); [lra|].
    set (r := sqrt (1 / 2)) in *. set (h := sin (PI / 4) / (PI / 4) * (PI / 4 * r)).
    assert (R0 : 0 < sin (PI / 4)) by (apply sin_gt_0; lra).
    assert (H2 : h * h = 1 / 4).
    { unfold h. replace (sin (PI / 4) / (PI / 4) * (PI / 4 * r)) with (sin (PI / 4) * r) by (field; lra).
      replace (sin (PI / 4) * r * (sin (PI / 4) * r)) with (sin (PI / 4) * sin (PI / 4) * (r * r)) by ring. rewrite S.
      assert (Q : sin (PI / 4) * sin (PI / 4) = 1 / 2).
      { pose proof (sc (PI / 4)) as Q. rewrite <- sin_cos_PI4 in Q. lra. }
      rewrite Q. field. }
    clearbody h. set (k := cos (PI / 4)).
    assert (X : v0 (qrot (mk_quat k h h 0) (mk_vec3 1 0 0)) = 1 / 2) by (unfold qrot, vadd, vscale, vcross, qvec; cbn [v0 v1 v2 qw qx qy qz]; lra).
    assert (Y : v1 (qrot (mk_quat k h h 0) (mk_vec3 1 0 0)) = 1 / 2) by (unfold qrot, vadd, vscale, vcross, qvec; cbn [v0 v1 v2 qw qx qy qz]; lra).
    rewrite X, Y. unfold atan2. destruct (Rlt_dec 0 (1 / 2)); [|lra]. replace (1 / 2 / (1 / 2)) with 1 by field. apply atan_1.
Qed.
(* a short step does not give a unit quaternion *)
Theorem C88_unit_refuted : exists x d0 d1, is_unit x /\ ~ is_unit (constant_yaw_plus x d0 d1).
Proof.
  exists q_one, (1 / 2000000), 0. split; [apply unit_one|]. unfold constant_yaw_plus, delta_quat. rewrite qmul_1_l.
  replace (1 / 2000000 * (1 / 2000000) + 0 * 0) with (1 / 2000000 * (1 / 2000000)) by ring. rewrite sqrt_square by lra. unfold small_delta. destruct (Rlt_dec _ _); [|lra].
  unfold is_unit, qnorm2. cbn [qw qx qy qz]. lra.
Qed.
Theorem C88_unit_error : forall x d0 d1, is_unit x -> 1 <= qnorm2 (constant_yaw_plus x d0 d1) <= 1 + small_delta * small_delta.
Proof.
  intros x d0 d1 U. unfold constant_yaw_plus. rewrite qnorm2_mul, U, Rmult_1_l. destruct (Rlt_dec (steplen d0 d1) small_delta) as [L | L].
  - unfold delta_quat. fold (steplen d0 d1). destruct (Rlt_dec _ _); [|contradiction]. unfold qnorm2. cbn [qw qx qy qz].
    pose proof (steplen_sq d0 d1) as Q. assert (0 <= steplen d0 d1) by apply sqrt_pos. split; nra.
  - destruct (delta_large d0 d1) as [u0 [u1 [N [_ [_ ->]]]]]; [lra|]. rewrite (tilt_unit (steplen d0 d1) u0 u1 N). unfold small_delta. lra.
Qed.

(* a step of one half turns by a sixth of a circle, larger ones by no more *)
Example C88_example : 2 * asin (limited 7) = PI / 3.
Proof.
  unfold limited. rewrite Rmin_left, Rmax_right by lra. pose proof PI_RGT_0. rewrite <- sin_PI6, asin_sin by lra. field.
Qed.

Print Assumptions C88_yaw_only.
Print Assumptions C88_yaw_reaches.
Print Assumptions C88_constant_yaw.
Print Assumptions C88_reaches.
Print Assumptions C88_yaw_refuted.
Print Assumptions C88_unit_refuted.
Print Assumptions C88_unit_error.
