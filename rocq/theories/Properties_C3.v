(* C66: the costs of the 3D pose graph and scan matcher.  C67: interpolation of node poses and
   the landmark costs. *)
From Coq Require Import Reals Lra.
From Verif Require Import CF_Model CF_Spec CF_Proofs RG_Model RG_Spec RG_Proofs RG_Angle C3_Model C3_Spec C3_Proofs.
Open Scope R_scope.

(* the constraint cost is zero exactly at the observed relative pose *)
Theorem C66_spa_zero : forall zbar tw rw a b, tw <> 0 -> rw <> 0 ->
  unit_rotation (rot zbar) -> unit_rotation (rot a) -> unit_rotation (rot b) ->
  (spa_cost3 zbar tw rw a b = (zero3, zero3) <-> same_pose b (composed a zbar)).
Proof. exact spa_zero. Qed.

(* moving both poses changes nothing *)
Theorem C66_spa_gauge : forall g zbar tw rw a b,
  unit_rotation (rot g) -> unit_rotation (rot a) -> unit_rotation (rot b) ->
  spa_cost3 zbar tw rw (composed g a) (composed g b) = spa_cost3 zbar tw rw a b.
Proof. intros. unfold spa_cost3. now rewrite unscaled_gauge. Qed.

(* nor do the signs of the quaternions, unless the rotational error is a half turn *)
Theorem C66_spa_sign : forall zbar tw rw a b,
  unit_rotation (rot zbar) -> unit_rotation (rot a) -> unit_rotation (rot b) ->
  dot4 (rot b) (qmul (rot a) (rot zbar)) <> 0 ->
  spa_cost3 zbar tw rw a (mk_rigid3 (trans b) (opposite (rot b))) = spa_cost3 zbar tw rw a b /\
  spa_cost3 zbar tw rw (mk_rigid3 (trans a) (opposite (rot a))) b = spa_cost3 zbar tw rw a b /\
  spa_cost3 (mk_rigid3 (trans zbar) (opposite (rot zbar))) tw rw a b = spa_cost3 zbar tw rw a b.
Proof.
  intros zbar tw rw a b Z A B N. unfold spa_cost3. cbn [rot trans].
  assert (D : dot4 (rot b) (qmul (rot a) (rot zbar)) = qw (qmul (qmul (qconj (rot b)) (rot a)) (rot zbar))).
  { rewrite <- qmul_assoc. unfold dot4, qmul at 5, qconj. cbn [qw qx qy qz]. ring. }
  rewrite D in N. destruct (unscaled_sign zbar (rot a) (trans a) (rot b) (trans b) Z A B N) as [E1 [E2 E3]].
  change (opposite (rot a)) with (qneg (rot a)). change (opposite (rot b)) with (qneg (rot b)).
  change (opposite (rot zbar)) with (qneg (rot zbar)). rewrite E1, E2, E3. auto.
Qed.

(* the translational residual is the weighted distance, the rotational one the weighted angle *)
Theorem C66_spa_size : forall zbar tw rw a b,
  unit_rotation (rot zbar) -> unit_rotation (rot a) -> unit_rotation (rot b) ->
  let e := spa_cost3 zbar tw rw a b in
  let angle := get_angle (mk_rigid3 zero3 (qmul (qmul (qconj (rot b)) (rot a)) (rot zbar))) in
  dot (fst e) (fst e) = tw * tw * dist2 (trans b) (trans (composed a zbar)) /\
  (1 / 10000000 <= angle -> length (snd e) = Rabs rw * angle).
Proof.
  intros zbar tw rw a b Z A B. cbv zeta. unfold spa_cost3. rewrite unscaled_form. unfold scale_error3. cbn [fst snd]. split.
  - set (t := vsub _ _).
    assert (T : qrot (rot a) t = vsub (trans (composed a zbar)) (trans b)).
    { unfold t. rewrite qrot_sub, qrot_inv_r by exact A. cbn [composed trans]. apply vec_eq; cbn; ring. }
    pose proof (qrot_dot (rot a) t t A) as D. rewrite T in D. clearbody t.
    transitivity (tw * tw * vdot t t); [unfold dot, vdot; cbn [v0 v1 v2]; ring|]. rewrite <- D.
    unfold dist2, vdot, vsub. cbn [v0 v1 v2]. ring.
  - set (x := qmul (qmul (qconj (rot b)) (rot a)) (rot zbar)).
    assert (U : is_unit x) by (repeat apply unit_mul; auto; exact (unit_conj _ B)).
    change zero3 with v_zero. intros L. rewrite get_angle_half in L |- * by exact U. cbn [rot] in L |- *.
    change (length (mk_vec3 (v0 (to_angle_axis x) * rw) (v1 (to_angle_axis x) * rw) (v2 (to_angle_axis x) * rw)))
      with (vnorm (mk_vec3 (v0 (to_angle_axis x) * rw) (v1 (to_angle_axis x) * rw) (v2 (to_angle_axis x) * rw))).
    rewrite scaled_length. f_equal. now apply to_norm.
Qed.

(* the IMU rotation cost: zero exactly if the end is the start turned by the rotation measured in
   the IMU frame; otherwise the sine of half the angle in between *)
Theorem C66_rotation : forall k d s e c, k <> 0 ->
  unit_rotation d -> unit_rotation s -> unit_rotation e -> unit_rotation c ->
  (rotation_cost3 k d s e c = zero3 <-> same_rotation e (qmul s (qmul (qmul c d) (qconj c)))) /\
  let angle := get_angle (mk_rigid3 zero3 (qmul (qconj e) (qmul s (qmul (qmul c d) (qconj c))))) in
  length (rotation_cost3 k d s e c) = Rabs k * sin (angle / 2).
Proof.
  intros k d s e c K D S E C. split; [exact (rotation_zero k d s e c K D S E C)|]. cbv zeta.
  unfold rotation_cost3.
  replace (qmul (qmul (qmul (qmul (qconj e) s) c) d) (qconj c)) with (qmul (qconj e) (qmul s (qmul (qmul c d) (qconj c))))
    by (rewrite !qmul_assoc; reflexivity).
  set (x := qmul (qconj e) _).
  assert (U : is_unit x) by (unfold x; repeat apply unit_mul; auto; apply unit_conj; assumption).
  rewrite get_angle_half by exact U. cbn [rot]. replace (2 * half (upper x) / 2) with (half (upper x)) by field.
  destruct (half_spec _ (upper_unit _ U) (upper_w x)) as [_ [_ ->]]. destruct (upper_abs x) as [_ ->].
  clearbody x. rewrite <- vnorm_scale. reflexivity.
Qed.

(* the IMU acceleration cost: for a trajectory of constant acceleration a it compares the velocity
   change measured by the IMU with that of a and gravity over half the time span; zero exactly if
   they agree *)
Theorem C66_acceleration : forall k d dt1 dt2 q c p v a g, k <> 0 -> dt1 > 0 -> dt2 > 0 ->
  unit_rotation q -> unit_rotation c ->
  (acceleration_cost3 k d dt1 dt2 q (at_time p v a (- dt1)) (at_time p v a 0) (at_time p v a dt2) g c = zero3 <->
   qrot q (qrot c d) = scaled ((dt1 + dt2) / 2) (mk_vec3 (v0 a) (v1 a) (v2 a + g))).
Proof.
  intros k d dt1 dt2 q c p v a g K D1 D2 Uq Uc.
  replace (at_time p v a 0) with p by (apply vec_eq; cbn; field).
  rewrite acceleration_ok by lra. rewrite qrot_mul by assumption. set (r := qrot q (qrot c d)).
  replace (scaled ((dt1 + dt2) / 2) (mk_vec3 (v0 a) (v1 a) (v2 a + g)))
    with (vscale ((dt1 + dt2) / 2) (vadd a (mk_vec3 0 0 g))) by (apply vec_eq; cbn; ring).
  set (w := vscale ((dt1 + dt2) / 2) _). rewrite <- (vsub_zero r w). set (x := vsub r w). clearbody x. unfold vscale, zero3. split.
  - intros E. injection E as E0 E1 E2. apply vec_eq; cbn; apply Rmult_eq_reg_l with k; (exact K || lra).
  - intros ->. cbn. f_equal; ring.
Qed.

(* the penalties of the scan matchers are zero at their targets only *)
Theorem C66_deltas : forall k, k <> 0 ->
  (forall t q, unit_rotation t -> unit_rotation q -> (rotation_delta_cost3 k t q = zero3 <-> same_rotation q t)) /\
  (forall t p, translation_delta_cost3 k t p = zero3 <-> p = t) /\
  (forall t p, translation_delta_cost2 k t p = (0, 0) <-> t = (v0 p, v1 p)) /\
  (forall t p, rotation_delta_cost2 k t p = 0 <-> v2 p = t).
Proof.
  intros k K. split; [intros t q T Q; exact (rotation_delta_zero k t q K T Q)|].
  split; [intros t p; exact (translation_delta_zero k t p K)|]. split.
  - intros [x y] p. unfold translation_delta_cost2. cbn [fst snd]. split.
    + intros E. injection E as E0 E1. apply Rmult_integral in E0 as [E0 | E0]; [contradiction|].
      apply Rmult_integral in E1 as [E1 | E1]; [contradiction|]. f_equal; lra.
    + intros E. injection E as -> ->. f_equal; ring.
  - intros t p. unfold rotation_delta_cost2. split; [|intros ->; ring].
    intros E. apply Rmult_integral in E as [E | E]; [contradiction | lra].
Qed.

(* SlerpQuaternions: for rotations that are not nearly the same, the rotation that is the given
   fraction of the way along the shorter arc *)
Theorem C67_slerp : forall a b f, unit_rotation a -> unit_rotation b -> Rabs (dot4 a b) < 1 - 1 / 100000 ->
  exists b', same_rotation b' b /\ 0 <= dot4 a b' /\
  let theta := acos (dot4 a b') in
  unit_rotation (slerp a b f) /\ dot4 (slerp a b f) a = cos (f * theta) /\ dot4 (slerp a b f) b' = cos ((1 - f) * theta).
Proof.
  intros a b f A B C. exists (toward a b). split; [exact (toward_cases a b)|]. rewrite toward_dot.
  split; [apply Rabs_pos|]. exact (slerp_arc a b f A B C).
Qed.
(* exact at both ends and for equal rotations *)
Theorem C67_slerp_ends : forall a b, unit_rotation a -> unit_rotation b ->
  slerp a b 0 = a /\ same_rotation (slerp a b 1) b /\ forall f, slerp a a f = a /\ slerp a (opposite a) f = a.
Proof.
  intros a b A B. destruct (slerp_ends a b A B) as [E0 E1]. rewrite E0, E1.
  split; [reflexivity|]. split; [exact (toward_cases a b)|]. intros f. exact (slerp_same a f A).
Qed.
(* for nearly equal rotations the interpolation is linear: not quite a unit quaternion *)
Theorem C67_slerp_near : forall a b f, unit_rotation a -> unit_rotation b -> 0 <= f <= 1 ->
  1 - 1 / 100000 <= Rabs (dot4 a b) -> 1 - 5 / 1000000 <= dot4 (slerp a b f) (slerp a b f) <= 1.
Proof. intros a b f A B F N. apply (slerp_near a b f A B F). lra. Qed.
Theorem C67_slerp_unit_refuted : exists a b, unit_rotation a /\ unit_rotation b /\ ~ unit_rotation (slerp a b (1 / 2)).
Proof.
  exists (mk_quat 1 0 0 0), (mk_quat (999999 / 1000001) (2000 / 1000001) 0 0).
  split; [unfold unit_rotation; cbn; ring|]. split; [unfold unit_rotation; cbn; field|].
  rewrite slerp_form. unfold dot4, toward, dot4. cbv zeta. cbn [qw qx qy qz].
  replace (1 * (999999 / 1000001) + 0 * (2000 / 1000001) + 0 * 0 + 0 * 0) with (999999 / 1000001) by ring.
  rewrite Rabs_pos_eq by lra. destruct (Rlt_dec _ _) as [X | _]; [lra|]. destruct (Rlt_dec _ _) as [X | _]; [lra|].
  unfold unit_rotation, combine. cbn [qw qx qy qz]. lra.
Qed.
(* turning both ends, on either side, turns the result *)
Theorem C67_slerp_frames : forall g a b f, unit_rotation g ->
  slerp (qmul g a) (qmul g b) f = qmul g (slerp a b f) /\ slerp (qmul a g) (qmul b g) f = qmul (slerp a b f) g.
Proof. intros g a b f G. split; [exact (slerp_mul_l g a b f G) | exact (slerp_mul_r g a b f G)]. Qed.
(* the way back passes through the same rotations *)
Theorem C67_slerp_back : forall a b f, same_rotation (slerp b a (1 - f)) (slerp a b f).
Proof. exact slerp_back. Qed.
(* signs of the ends do not matter, unless they are a half turn apart *)
Theorem C67_slerp_sign : forall a b f, dot4 a b <> 0 ->
  slerp a (opposite b) f = slerp a b f /\ same_rotation (slerp (opposite a) b f) (slerp a b f).
Proof. intros a b f N. split; [exact (slerp_neg_r a b f N) | right; exact (slerp_neg_l a b f N)]. Qed.
Theorem C67_slerp_sign_refuted : exists a b f, unit_rotation a /\ unit_rotation b /\
  ~ same_rotation (slerp a (opposite b) f) (slerp a b f).
Proof.
  set (a := mk_quat 1 0 0 0). set (b := mk_quat 0 1 0 0). exists a, b, (1 / 2).
  assert (A : unit_rotation a) by (unfold unit_rotation; cbn; ring).
  assert (B : unit_rotation b) by (unfold unit_rotation; cbn; ring).
  assert (B' : unit_rotation (opposite b)) by (unfold unit_rotation; cbn; ring).
  split; [exact A|]. split; [exact B|].
  assert (D : dot4 a b = 0) by (unfold dot4; cbn; ring). assert (D' : dot4 a (opposite b) = 0) by (unfold dot4; cbn; ring).
  destruct (slerp_arc a b (1 / 2) A B) as [_ [X Y]]; [rewrite D, Rabs_R0; lra|].
  destruct (slerp_arc a (opposite b) (1 / 2) A B') as [_ [X' Y']]; [rewrite D', Rabs_R0; lra|].
  rewrite D, Rabs_R0, acos_0 in X, Y. rewrite D', Rabs_R0, acos_0 in X', Y'.
  unfold toward in Y, Y'. rewrite D in Y. rewrite D' in Y'. destruct (Rlt_dec 0 0); [lra|].
  assert (P : 0 < cos (1 / 2 * (PI / 2))) by (pose proof PI_RGT_0; apply cos_gt_0; lra).
  replace ((1 - 1 / 2) * (PI / 2)) with (1 / 2 * (PI / 2)) in Y, Y' by field.
  change (opposite b) with (qneg b) in Y', X' |- *. rewrite dot4_neg_r in Y'.
  intros [E | E].
  - rewrite E in Y'. lra.
  - change (opposite (slerp a b (1 / 2))) with (qneg (slerp a b (1 / 2))) in E. rewrite E, dot4_neg_l in X'. lra.
Qed.

(* InterpolateNodes3D: translations linearly, rotations by slerp, and independent of the frame *)
Theorem C67_interpolate : forall g a b f, unit_rotation (rot g) ->
  trans (interpolate3 a b f) = between (trans a) (trans b) f /\ rot (interpolate3 a b f) = slerp (rot a) (rot b) f /\
  interpolate3 (composed g a) (composed g b) f = composed g (interpolate3 a b f).
Proof.
  intros g a b f G. split; [apply vec_eq; cbn; ring|]. split; [reflexivity | exact (interpolate3_gauge g a b f G)].
Qed.
(* InterpolateNodes2D is InterpolateNodes3D of the embedded poses with their gravity alignments *)
Theorem C67_interpolate2 : forall prev pg next ng f,
  interpolate2 prev pg next ng f =
  interpolate3 (r3_mul (embed3d prev) (mk_rigid3 zero3 pg)) (r3_mul (embed3d next) (mk_rigid3 zero3 ng)) f.
Proof. exact interpolate2_3. Qed.

(* the landmark costs are zero exactly if the landmark is where it was observed from the
   interpolated pose *)
Theorem C67_landmark3 : forall obs tw rw f prev next lm, tw <> 0 -> rw <> 0 ->
  unit_rotation (rot obs) -> unit_rotation (rot lm) -> unit_rotation (slerp (rot prev) (rot next) f) ->
  (landmark_cost3 obs tw rw f prev next lm = (zero3, zero3) <->
   same_pose lm (composed (mk_rigid3 (between (trans prev) (trans next) f) (slerp (rot prev) (rot next) f)) obs)).
Proof.
  intros obs tw rw f prev next lm T W O L S. rewrite landmark_zero by assumption.
  replace (mk_rigid3 (between (trans prev) (trans next) f) (slerp (rot prev) (rot next) f)) with (interpolate3 prev next f);
  [reflexivity|]. apply rigid_eq; [apply vec_eq; cbn; ring | reflexivity].
Qed.
Theorem C67_landmark_gauge : forall g obs tw rw f prev next lm,
  unit_rotation (rot g) -> unit_rotation (rot lm) -> unit_rotation (slerp (rot prev) (rot next) f) ->
  landmark_cost3 obs tw rw f (composed g prev) (composed g next) (composed g lm) = landmark_cost3 obs tw rw f prev next lm.
Proof. exact landmark_gauge. Qed.
(* the 2D landmark cost is the 3D one of the embedded poses *)
Theorem C67_landmark2 : forall obs tw rw f prev pg next ng lm,
  landmark_cost2 obs tw rw f prev pg next ng lm =
  landmark_cost3 obs tw rw f (r3_mul (embed3d prev) (mk_rigid3 zero3 pg)) (r3_mul (embed3d next) (mk_rigid3 zero3 ng)) lm.
Proof. intros. unfold landmark_cost2, landmark_cost3. now rewrite interpolate2_3. Qed.

(* concrete cases *)
Definition qx_half : quat := mk_quat (3 / 5) (4 / 5) 0 0.
Example spa_zero_case : spa_cost3 (mk_rigid3 (mk_vec3 1 2 3) qx_half) 10 5
  (mk_rigid3 (mk_vec3 4 5 6) (mk_quat 0 0 0 1))
  (mk_rigid3 (mk_vec3 3 3 9) (mk_quat 0 0 (- 4 / 5) (- 3 / 5))) = (zero3, zero3).
Proof.
  apply C66_spa_zero; try lra; try (unfold unit_rotation; cbn; field). split.
  - apply vec_eq; unfold composed; cbn [trans rot]; unfold qrot; qcbn; ring.
  - right. apply quat_eq; unfold composed, qx_half, opposite; qcbn; field.
Qed.
Example spa_nonzero_case : fst (spa_cost3 (mk_rigid3 (mk_vec3 1 2 3) q_one) 10 5
  (mk_rigid3 (mk_vec3 4 5 6) q_one) (mk_rigid3 (mk_vec3 5 7 8) q_one)) = mk_vec3 0 0 10.
Proof. unfold spa_cost3. rewrite unscaled_form. cbn [fst scale_error3 trans rot]. apply vec_eq; qcbn; ring. Qed.
Example acceleration_case : acceleration_cost3 7 (mk_vec3 0 1 10) (1 / 2) (3 / 2) q_one
  (at_time zero3 (mk_vec3 1 1 1) (mk_vec3 0 1 0) (- (1 / 2))) (at_time zero3 (mk_vec3 1 1 1) (mk_vec3 0 1 0) 0)
  (at_time zero3 (mk_vec3 1 1 1) (mk_vec3 0 1 0) (3 / 2)) 10 q_one = zero3.
Proof.
  apply C66_acceleration; try lra; try (unfold unit_rotation; cbn; ring).
  rewrite !qrot_one. apply vec_eq; cbn; field.
Qed.
Example slerp_middle : dot4 (slerp q_one (mk_quat 0 1 0 0) (1 / 3)) q_one = cos (PI / 6).
Proof.
  destruct (slerp_arc q_one (mk_quat 0 1 0 0) (1 / 3)) as [_ [E _]].
  - exact unit_one.
  - unfold is_unit, qnorm2; cbn; ring.
  - unfold dot4; cbn. replace (1 * 0 + 0 * 1 + 0 * 0 + 0 * 0) with 0 by ring. rewrite Rabs_R0. lra.
  - rewrite E. f_equal. unfold dot4; cbn. replace (1 * 0 + 0 * 1 + 0 * 0 + 0 * 0) with 0 by ring.
    rewrite Rabs_R0, acos_0. field.
Qed.
Example landmark_case : landmark_cost3 (mk_rigid3 (mk_vec3 0 0 1) qx_half) 2 3 (1 / 4)
  (mk_rigid3 (mk_vec3 0 0 0) q_one) (mk_rigid3 (mk_vec3 4 8 0) q_one) (mk_rigid3 (mk_vec3 1 2 1) qx_half) = (zero3, zero3).
Proof.
  assert (S : slerp q_one q_one (1 / 4) = q_one) by (apply slerp_same; exact unit_one).
  apply C67_landmark3; try lra; try (unfold unit_rotation, qx_half; cbn; field).
  - cbn [rot]. rewrite S. exact unit_one.
  - cbn [rot trans]. rewrite S. split; [|left].
    + cbn [composed trans rot]. rewrite qrot_one. apply vec_eq; cbn; field.
    + cbn [composed trans rot]. now rewrite qmul_1_l.
Qed.

Print Assumptions C66_spa_zero.
Print Assumptions C66_spa_gauge.
Print Assumptions C66_spa_sign.
Print Assumptions C66_spa_size.
Print Assumptions C66_rotation.
Print Assumptions C66_acceleration.
Print Assumptions C66_deltas.
Print Assumptions C67_slerp.
Print Assumptions C67_slerp_ends.
Print Assumptions C67_slerp_near.
Print Assumptions C67_slerp_unit_refuted.
Print Assumptions C67_slerp_frames.
Print Assumptions C67_slerp_back.
Print Assumptions C67_slerp_sign.
Print Assumptions C67_slerp_sign_refuted.
Print Assumptions C67_interpolate.
Print Assumptions C67_interpolate2.
Print Assumptions C67_landmark3.
Print Assumptions C67_landmark_gauge.
Print Assumptions C67_landmark2.
