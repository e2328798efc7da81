(* C65: rigid transforms, rotation angles and angle-axis vectors. *)
From Coq Require Import ZArith Reals Lia Lra.
From Verif Require Import CF_Model CF_Spec CF_Proofs RG_Model RG_Spec RG_Proofs RG_Angle.
Open Scope R_scope.

(* transforms with unit rotations are a group under operator* and inverse() *)
Theorem C65_group3 : forall a b c, unit_rotation (rot a) -> unit_rotation (rot b) -> unit_rotation (rot c) ->
  unit_rotation (rot (r3_mul a b)) /\ unit_rotation (rot (r3_inv a)) /\
  r3_mul a (r3_mul b c) = r3_mul (r3_mul a b) c /\
  r3_mul r3_id a = a /\ r3_mul a r3_id = a /\
  r3_mul a (r3_inv a) = r3_id /\ r3_mul (r3_inv a) a = r3_id.
Proof.
  intros a b c A B C. split; [exact (r3_mul_unit a b A B)|]. split; [exact (r3_inv_unit a A)|].
  split; [exact (r3_assoc a b c A B C)|]. split; [exact (r3_id_l a A)|]. split; [exact (r3_id_r a A)|].
  split; [exact (r3_inv_r a A) | exact (r3_inv_l a A)].
Qed.

(* the group acts on points and preserves distances *)
Theorem C65_action3 : forall a b, unit_rotation (rot a) -> unit_rotation (rot b) -> forall p q,
  r3_apply (r3_mul a b) p = r3_apply a (r3_apply b p) /\ r3_apply r3_id p = p /\
  r3_apply (r3_inv a) (r3_apply a p) = p /\
  dist2 (r3_apply a p) (r3_apply a q) = dist2 p q.
Proof.
  intros a b A B p q. split; [exact (r3_action a b p A B)|]. split; [apply r3_id_apply|]. split.
  - rewrite <- r3_action, r3_inv_l, r3_id_apply by (exact A || exact (r3_inv_unit a A)). reflexivity.
  - exact (r3_isometry a p q A).
Qed.

(* every product is a unit rotation, whatever the factors: drift cannot accumulate *)
Theorem C65_product_normalized : forall a b, (forall i, i = rot a \/ i = rot b -> i <> mk_quat 0 0 0 0) ->
  unit_rotation (rot (r3_mul a b)).
Proof.
  intros a b H. cbn [r3_mul rot]. apply (normalized_is_unit (qmul (rot a) (rot b))). intros E.
  assert (N : qnorm2 (rot a) * qnorm2 (rot b) = 0) by (rewrite <- qnorm2_mul, E; unfold qnorm2; cbn; ring).
  assert (K : forall q, qnorm2 q = 0 -> q = mk_quat 0 0 0 0).
  { intros q Z. unfold qnorm2 in Z. apply quat_eq; cbn; nra. }
  apply Rmult_integral in N as [N | N]; apply K in N; revert N; apply H; auto.
Qed.

(* IsValid tolerates rotations that are off by 1e-3; for those inverse() is not an inverse *)
Theorem C65_inverse_refuted : exists a, r3_valid a /\ r3_mul a (r3_inv a) <> r3_id /\
  v1 (r3_apply (r3_mul a (r3_inv a)) v_zero) < -4.
Proof.
  exists (mk_rigid3 (mk_vec3 0 1000 0) (mk_quat 0 (10009 / 10000) 0 0)).
  assert (L : v1 (r3_apply (r3_mul (mk_rigid3 (mk_vec3 0 1000 0) (mk_quat 0 (10009 / 10000) 0 0))
    (r3_inv (mk_rigid3 (mk_vec3 0 1000 0) (mk_quat 0 (10009 / 10000) 0 0)))) v_zero) < -4).
  { assert (T : forall s y, qrot (mk_quat 0 s 0 0) (mk_vec3 0 y 0) = mk_vec3 0 ((1 - 2 * s * s) * y) 0)
      by (intros; apply vec_eq; qcbn; ring).
    assert (Z : forall q, qrot q v_zero = v_zero) by (intros; apply vec_eq; qcbn; ring).
    unfold r3_apply, r3_mul, r3_inv. cbn [trans rot]. rewrite Z.
    replace (qconj (mk_quat 0 (10009 / 10000) 0 0)) with (mk_quat 0 (- (10009 / 10000)) 0 0) by (apply quat_eq; cbn; ring).
    rewrite T. unfold vneg. cbn [v0 v1 v2]. rewrite Ropp_0, T. unfold vadd, v_zero. cbn [v0 v1 v2]. lra. }
  split; [|split; [|exact L]].
  - unfold r3_valid, qnorm, qnorm2. cbn [rot qw qx qy qz].
    replace (0 * 0 + 10009 / 10000 * (10009 / 10000) + 0 * 0 + 0 * 0) with (10009 / 10000 * (10009 / 10000)) by ring.
    rewrite sqrt_square by lra. rewrite Rabs_left; lra.
  - intros E. rewrite E, r3_id_apply in L. cbn in L. lra.
Qed.

(* ... but it is off by less than 0.81% of the distance from the origin *)
Theorem C65_inverse_valid : forall a, r3_valid a ->
  rot (r3_mul a (r3_inv a)) = mk_quat 1 0 0 0 /\ length (trans (r3_mul a (r3_inv a))) <= 81 / 10000 * length (trans a).
Proof. exact inverse_valid. Qed.

(* the planar transforms, with the angle kept as a number *)
Theorem C65_group2 : forall a b c,
  r2_mul a (r2_mul b c) = r2_mul (r2_mul a b) c /\ r2_mul r2_id a = a /\ r2_mul a r2_id = a /\
  r2_mul a (r2_inv a) = r2_id /\ r2_mul (r2_inv a) a = r2_id.
Proof.
  intros a b c. split; [apply r2_assoc|]. split; [apply r2_id_l|]. split; [apply r2_id_r|].
  split; [apply r2_inv_r | apply r2_inv_l].
Qed.
Theorem C65_action2 : forall a b p q,
  r2_apply (r2_mul a b) p = r2_apply a (r2_apply b p) /\
  let p' := r2_apply a p in let q' := r2_apply a q in
  (fst p' - fst q') * (fst p' - fst q') + (snd p' - snd q') * (snd p' - snd q') =
  (fst p - fst q) * (fst p - fst q) + (snd p - snd q) * (snd p - snd q).
Proof. intros a b p q. split; [apply r2_action | apply r2_isometry]. Qed.

(* embedding the plane in space respects products, points and projection *)
Theorem C65_embed : forall a b p,
  embed3d (r2_mul a b) = r3_mul (embed3d a) (embed3d b) /\
  unit_rotation (rot (embed3d a)) /\
  r3_apply (embed3d a) (mk_vec3 (fst p) (snd p) 0) = mk_vec3 (fst (r2_apply a p)) (snd (r2_apply a p)) 0 /\
  v0 (project2d (embed3d a)) = v0 a /\ v1 (project2d (embed3d a)) = v1 a /\
  same_angle (v2 (project2d (embed3d a))) (v2 a).
Proof.
  intros a b p. split; [apply embed_mul|]. split; [apply about_z_unit|]. split.
  - unfold r3_apply, embed3d. cbn [rot trans]. rewrite about_z_rot. unfold r2_apply. apply vec_eq; qcbn; ring.
  - split; [reflexivity|]. split; [reflexivity|]. apply yaw_about_z.
Qed.

(* the yaw of roll, pitch and yaw, for a pitch of less than a quarter turn *)
Theorem C65_yaw : forall r p y, 0 < cos p -> same_angle (get_yaw (roll_pitch_yaw r p y)) y.
Proof. exact yaw_rpy. Qed.
(* ... and not for a larger one, although the comment of GetYaw says so *)
Theorem C65_yaw_refuted : exists r p y, ~ same_angle (get_yaw (roll_pitch_yaw r p y)) y.
Proof.
  exists 0, PI, 0. unfold get_yaw.
  assert (D : qrot (roll_pitch_yaw 0 PI 0) (mk_vec3 1 0 0) = mk_vec3 (-1) 0 0).
  { assert (Q1 : roll_pitch_yaw 0 PI 0 = mk_quat 0 0 1 0).
    { unfold roll_pitch_yaw, about_x, about_y, about_z. replace (0 / 2) with 0 by field.
      rewrite cos_0, sin_0, cos_PI2, sin_PI2. apply quat_eq; qcbn; ring. }
    rewrite Q1. apply vec_eq; qcbn; ring. }
  rewrite D. cbn [v0 v1 v2]. assert (E : atan2 0 (-1) = PI).
  { unfold atan2. destruct (Rlt_dec 0 (-1)); [lra|]. destruct (Rlt_dec (-1) 0); [|lra].
    destruct (Rle_dec 0 0); [|lra]. replace (0 / -1) with 0 by field. rewrite atan_0. ring. }
  rewrite E. intros [k K]. pose proof PI_RGT_0. assert (IZR k = 1 / 2) by nra.
  assert (X : IZR (2 * k) = IZR 1) by (rewrite mult_IZR; lra). apply eq_IZR in X. lia.
Qed.

(* GetAngle is the angle of the rotation *)
Theorem C65_angle : forall a, unit_rotation (rot a) -> 0 <= get_angle a <= PI /\
  exists u, dot u u = 1 /\ forall p, qrot (rot a) p = turned u (get_angle a) p.
Proof. exact angle_ok. Qed.

(* an angle-axis vector longer than 1e-4 turns about itself by its length *)
Theorem C65_of_angle_axis : forall v, 1 / 100000000 < dot v v ->
  unit_rotation (of_angle_axis v) /\
  forall p, qrot (of_angle_axis v) p = turned (scaled (/ length v) v) (length v) p.
Proof. intros v H. split; [exact (of_unit v H) | intros p; exact (of_turned v p H)]. Qed.

(* vector to quaternion and back: exact up to a half turn, the short way round beyond,
   and within 1e-8 where AngleAxisVectorToRotationQuaternion linearizes *)
Theorem C65_vector_round_trip : forall v,
  (1 / 100000000 < dot v v -> length v <= PI -> to_angle_axis (of_angle_axis v) = v) /\
  (PI < length v -> length v <= 2 * PI - 1 / 10000000 ->
    to_angle_axis (of_angle_axis v) = scaled ((length v - 2 * PI) / length v) v) /\
  (dot v v <= 1 / 100000000 ->
    exists k, to_angle_axis (of_angle_axis v) = scaled k v /\ Rabs (k - 1) <= 1 / 100000000).
Proof.
  intros v. split; [exact (to_of v)|]. split; [exact (to_of_long v) | exact (to_of_small v)].
Qed.

(* quaternion to vector and back: the quaternion or its opposite, which is the same rotation *)
Theorem C65_quaternion_round_trip : forall q, unit_rotation q -> exists n, (n = q \/ n = opposite q) /\ 0 <= qw n /\
  (forall p, qrot n p = qrot q p) /\
  (1 / 10000 < get_angle (mk_rigid3 v_zero q) -> of_angle_axis (to_angle_axis q) = n) /\
  (get_angle (mk_rigid3 v_zero q) <= 1 / 10000 -> close (2 / 1000000000) (of_angle_axis (to_angle_axis q)) n).
Proof.
  intros q U. exists (upper q). rewrite get_angle_half by exact U. cbn [rot].
  split; [exact (upper_cases q)|]. split; [apply upper_w|]. split; [intros p; apply upper_rot|].
  split; [exact (of_to q U) | exact (of_to_small q U)].
Qed.

(* the vector is as long as the angle, and zero for no rotation only *)
Theorem C65_vector_length : forall q, unit_rotation q ->
  (to_angle_axis q = mk_vec3 0 0 0 <-> q = mk_quat 1 0 0 0 \/ q = mk_quat (-1) 0 0 0) /\
  (1 / 10000000 <= get_angle (mk_rigid3 v_zero q) -> length (to_angle_axis q) = get_angle (mk_rigid3 v_zero q)).
Proof.
  intros q U. split.
  - pose proof (to_zero q U) as H. assert (E : qneg q_one = mk_quat (-1) 0 0 0) by (apply quat_eq; cbn; lra).
    rewrite E in H. exact H.
  - rewrite get_angle_half by exact U. exact (to_norm q U).
Qed.

(* the vector does not depend on the sign of the quaternion, except at half turns *)
Theorem C65_sign : forall q, unit_rotation q -> qw q <> 0 -> to_angle_axis (opposite q) = to_angle_axis q.
Proof. exact to_neg. Qed.
Theorem C65_sign_refuted : exists q, unit_rotation q /\ to_angle_axis (opposite q) <> to_angle_axis q.
Proof.
  assert (K : forall s, s = 1 \/ s = -1 -> to_angle_axis (mk_quat 0 s 0 0) = mk_vec3 (PI * s) 0 0).
  { intros s S. pose proof pi_big. assert (D : dot (mk_vec3 s 0 0) (mk_vec3 s 0 0) = 1) by (unfold dot; cbn; destruct S as [-> | ->]; lra).
    replace (mk_quat 0 s 0 0) with (polar (PI / 2) (mk_vec3 s 0 0)).
    - rewrite to_polar by (assumption || lra). apply vec_eq; qcbn; field.
    - unfold polar. rewrite cos_PI2, sin_PI2. apply quat_eq; cbn; ring. }
  exists (mk_quat 0 1 0 0). split; [unfold unit_rotation; cbn; ring|].
  replace (opposite (mk_quat 0 1 0 0)) with (mk_quat 0 (-1) 0 0) by (apply quat_eq; cbn; lra).
  rewrite !K by auto. intros E. injection E. pose proof PI_RGT_0. lra.
Qed.

(* concrete cases *)
Example quarter_turn : r3_apply (embed3d (mk_vec3 10 20 (PI / 2))) (mk_vec3 1 0 5) = mk_vec3 10 21 5.
Proof.
  unfold r3_apply, embed3d. cbn [rot trans]. rewrite about_z_rot. cbn [v0 v1 v2]. rewrite cos_PI2, sin_PI2.
  apply vec_eq; qcbn; ring.
Qed.
Example quarter_turn_back : r3_mul (embed3d (mk_vec3 10 20 (PI / 2))) (r3_inv (embed3d (mk_vec3 10 20 (PI / 2)))) = r3_id.
Proof. apply (C65_group3 _ r3_id r3_id); unfold unit_rotation; cbn; try ring. pose proof (sc (PI / 2 / 2)). lra. Qed.
Example vector_there_and_back : to_angle_axis (of_angle_axis (mk_vec3 0 (3 / 5) (- 4 / 5))) = mk_vec3 0 (3 / 5) (- 4 / 5).
Proof.
  assert (L : dot (mk_vec3 0 (3 / 5) (- 4 / 5)) (mk_vec3 0 (3 / 5) (- 4 / 5)) = 1) by (unfold dot; cbn; field).
  apply C65_vector_round_trip; [rewrite L; lra|]. unfold length. rewrite L, sqrt_1. pose proof pi_big. lra.
Qed.
Example yaw_case : same_angle (get_yaw (roll_pitch_yaw 3 (1 / 3) 2)) 2.
Proof. apply C65_yaw. apply cos_gt_0; pose proof pi_big; lra. Qed.

Print Assumptions C65_group3.
Print Assumptions C65_action3.
Print Assumptions C65_product_normalized.
Print Assumptions C65_inverse_refuted.
Print Assumptions C65_inverse_valid.
Print Assumptions C65_group2.
Print Assumptions C65_action2.
Print Assumptions C65_embed.
Print Assumptions C65_yaw.
Print Assumptions C65_yaw_refuted.
Print Assumptions C65_angle.
Print Assumptions C65_of_angle_axis.
Print Assumptions C65_vector_round_trip.
Print Assumptions C65_quaternion_round_trip.
Print Assumptions C65_vector_length.
Print Assumptions C65_sign.
Print Assumptions C65_sign_refuted.
