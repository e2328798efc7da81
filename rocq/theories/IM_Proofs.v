(* The IMU tracker: unit orientation, gravity fixed in the world, level after an acceleration. *)
From Coq Require Import Reals ZArith Lia Lra Bool.
From Verif Require Import CF_Model CF_Spec CF_Proofs RG_Model RG_Spec RG_Proofs RG_Angle IM_Model IM_Spec.
From Coq Require Import List.
Import ListNotations.
Open Scope R_scope.

Lemma secs d : to_seconds d = seconds d.
Proof. unfold to_seconds, seconds. f_equal. lra. Qed.
Lemma secs_nonneg d : (0 <= d)%Z -> 0 <= to_seconds d.
Proof. intros H. unfold to_seconds. apply IZR_le in H. lra. Qed.
Lemma secs_add a b : to_seconds (a + b) = to_seconds a + to_seconds b.
Proof. unfold to_seconds. rewrite plus_IZR. field. Qed.
Lemma secs_0 : to_seconds 0 = 0.
Proof. unfold to_seconds. lra. Qed.

(* normalized vectors *)
Lemma vdot_null v : vdot v v = 0 -> null v.
Proof. intros H. unfold null. qcbn. repeat split; nra. Qed.
Lemma null_vdot v : null v -> vdot v v = 0.
Proof. intros (A & B & C). qcbn. rewrite A, B, C. ring. Qed.
Lemma null_zero v : null v -> v = v_zero.
Proof. intros (A & B & C). apply vec_eq; qcbn; assumption. Qed.
Lemma nonnull_pos v : ~ null v -> 0 < vdot v v.
Proof.
  intros H. pose proof (vdot_pos v). destruct (Req_dec (vdot v v) 0) as [E|E]; [|lra].
  elim H. now apply vdot_null.
Qed.
Lemma normal_unit v : 0 < vdot v v -> vdot (vnormalized v) (vnormalized v) = 1 /\ v = vscale (vnorm v) (vnormalized v) /\ 0 < vnorm v.
Proof.
  intros H. unfold vnormalized. destruct (Rlt_dec _ _); [|contradiction]. fold (vnorm v).
  pose proof (vnorm_sq v) as N. pose proof (vnorm_pos v).
  assert (P : 0 < vnorm v) by nra. split; [|split; [|exact P]].
  - rewrite vdot_scaled, <- N. field. lra.
  - apply vec_eq; qcbn; field; lra.
Qed.
Lemma normal_of_unit v : vdot v v = 1 -> vnormalized v = v.
Proof.
  intros H. unfold vnormalized. rewrite H, sqrt_1. destruct (Rlt_dec 0 1); [|lra]. apply vec_eq; qcbn; field.
Qed.
Lemma normal_null v : null v -> vnormalized v = v.
Proof.
  intros H. unfold vnormalized. rewrite (null_vdot v H). destruct (Rlt_dec 0 0); [lra|reflexivity].
Qed.

(* the rotation between two unit vectors *)
Definition axis_quat (w k : R) (u : vec3 R) : quat := mk_quat w (v0 u * k) (v1 u * k) (v2 u * k).
Lemma rot_cross w k a b : qrot (axis_quat w k (vcross a b)) a =
  vadd (vadd a (vscale (2 * w * k) (vsub (vscale (vdot a a) b) (vscale (vdot a b) a))))
       (vscale (2 * k * k * (vdot a b * vdot a b - vdot a a * vdot b b)) a).
Proof. unfold axis_quat. apply vec_eq; qcbn; ring. Qed.
Lemma rot_axis w k u a : qrot (axis_quat w k u) a =
  vadd (vadd a (vscale (2 * w * k) (vcross u a)))
       (vscale (2 * k * k) (vsub (vscale (vdot u a) u) (vscale (vdot u u) a))).
Proof. unfold axis_quat. apply vec_eq; qcbn; ring. Qed.
Lemma axis_norm w k u : qnorm2 (axis_quat w k u) = w * w + k * k * vdot u u.
Proof. unfold axis_quat. qcbn. ring. Qed.
Lemma cross_norm a b : vdot (vcross a b) (vcross a b) = vdot a a * vdot b b - vdot a b * vdot a b.
Proof. qcbn. ring. Qed.
Lemma gram u a b : vdot (vcross u a) b * vdot (vcross u a) b =
  vdot u u * (vdot a a * vdot b b - vdot a b * vdot a b) - vdot u a * (vdot u a * vdot b b - vdot a b * vdot u b)
  + vdot u b * (vdot u a * vdot a b - vdot a a * vdot u b).
Proof. qcbn. ring. Qed.
Lemma vdot_comm a b : vdot a b = vdot b a.
Proof. qcbn. ring. Qed.
Lemma vdot_scale_l k a b : vdot (vscale k a) b = k * vdot a b.
Proof. qcbn. ring. Qed.
Lemma vdot_add_l a b c : vdot (vadd a b) c = vdot a c + vdot b c.
Proof. qcbn. ring. Qed.
Lemma unit_dot_range a b : vdot a a = 1 -> vdot b b = 1 -> -1 <= vdot a b <= 1.
Proof.
  intros A B. pose proof (vdot_pos (vcross a b)) as P. rewrite cross_norm, A, B in P. nra.
Qed.
Lemma sqrt_sq x : 0 <= x -> sqrt x * sqrt x = x.
Proof. apply sqrt_sqrt. Qed.

Section Tracker.
Variable svd : vec3 R -> vec3 R -> vec3 R.
Hypothesis SVD : svd_ok svd.

Lemma from_two_ok a b : 0 < vdot a a -> vdot b b = 1 ->
  let q := from_two_vectors svd a b in
  is_unit q /\ 0 <= qw q /\ vdot (qvec q) b = 0 /\
  1 - 4 / 1000000000000 <= vdot (qrot q (vnormalized a)) b /\
  (-1 + 1 / 1000000000000 <= vdot b (vnormalized a) -> qrot q (vnormalized a) = b).
Proof.
  intros A B. cbv zeta. unfold from_two_vectors. rewrite (normal_of_unit b B).
  destruct (normal_unit a A) as (N & _ & _). set (n := vnormalized a) in *.
  pose proof (unit_dot_range b n B N) as C. cbv zeta.
  destruct (Rlt_dec _ _) as [L|L].
  - rewrite Rmax_left by lra. destruct (SVD n b) as (U & UN & UB).
    set (u := svd n b) in *. change (dot u u) with (vdot u u) in U. change (dot u n) with (vdot u n) in UN.
    change (dot u b) with (vdot u b) in UB. set (c := vdot b n) in *.
    pose proof (sqrt_sq ((1 + c) * (1 / 2)) ltac:(lra)) as W.
    pose proof (sqrt_sq (1 - (1 + c) * (1 / 2)) ltac:(lra)) as K.
    pose proof (sqrt_pos ((1 + c) * (1 / 2))) as W0. pose proof (sqrt_pos (1 - (1 + c) * (1 / 2))) as K0.
    set (w := sqrt ((1 + c) * (1 / 2))) in *. set (k := sqrt (1 - (1 + c) * (1 / 2))) in *.
    change (mk_quat w (v0 u * k) (v1 u * k) (v2 u * k)) with (axis_quat w k u).
    split; [|split; [|split; [|split]]].
    + unfold is_unit. rewrite axis_norm, U, W, K. lra.
    + exact W0.
    + transitivity (k * vdot u b); [unfold axis_quat; qcbn; ring | rewrite UB; ring].
    + rewrite rot_axis, UN, U. rewrite !vdot_add_l, !vdot_scale_l.
      pose proof (gram u n b) as G. rewrite UN, UB, U, N, B, (vdot_comm n b) in G. fold c in G.
      replace (vdot (vsub (vscale 0 u) (vscale 1 n)) b) with (- c) by (unfold c; qcbn; ring).
      rewrite (vdot_comm n b). fold c. set (e := vdot (vcross u n) b) in *.
      assert (X : (2 * w * k * e) * (2 * w * k * e) = (1 - c * c) * (1 - c * c)).
      { transitivity (4 * (w * w) * (k * k) * (e * e)); [ring|]. rewrite W, K, G. field. }
      assert (Y : - (1 - c * c) <= 2 * w * k * e).
      { assert (0 <= 1 - c * c) by nra. nra. }
      assert (Z : 2 * k * k * - c = - (1 - c) * c) by (transitivity (2 * (k * k) * - c); [ring|]; rewrite K; field).
      rewrite Z. nra.
    + intros H. lra.
  - apply Rnot_lt_le in L. set (c := vdot b n) in *.
    pose proof (sqrt_sq ((1 + c) * 2) ltac:(lra)) as S2.
    assert (S0 : 0 < sqrt ((1 + c) * 2)) by (apply sqrt_lt_R0; lra).
    set (s := sqrt ((1 + c) * 2)) in *.
    change (mk_quat (s * (1 / 2)) (v0 (vcross n b) * (1 / s)) (v1 (vcross n b) * (1 / s)) (v2 (vcross n b) * (1 / s)))
      with (axis_quat (s * (1 / 2)) (1 / s) (vcross n b)).
    assert (KK : 1 / s * (1 / s) * (2 * (1 + c)) = 1).
    { transitivity (1 / s * (1 / s) * (s * s)); [rewrite S2; ring | field; lra]. }
    assert (E : qrot (axis_quat (s * (1 / 2)) (1 / s) (vcross n b)) n = b).
    { rewrite rot_cross, N, B, (vdot_comm n b). fold c.
      replace (2 * (s * (1 / 2)) * (1 / s)) with 1 by (field; lra).
      replace (2 * (1 / s) * (1 / s) * (c * c - 1 * 1)) with (- (1 - c)).
      2:{ transitivity (- (1 - c) * (1 / s * (1 / s) * (2 * (1 + c)))); [rewrite KK; ring | ring]. }
      apply vec_eq; qcbn; ring. }
    split; [|split; [|split; [|split]]].
    + unfold is_unit. rewrite axis_norm, cross_norm, N, B, (vdot_comm n b). fold c.
      transitivity ((s * s) / 4 + (1 - c) / 2 * (1 / s * (1 / s) * (2 * (1 + c)))); [field; lra|].
      rewrite KK, S2. field.
    + unfold axis_quat. cbn [qw]. lra.
    + unfold axis_quat. qcbn. ring.
    + rewrite E, B. lra.
    + intros _. exact E.
Qed.

Lemma from_two_null a b : null a -> v2 (qrot (from_two_vectors svd a b) a) = 0.
Proof. intros H. rewrite (null_zero a H). qcbn. ring. Qed.

(* unit orientations *)
Lemma of_norm v : 0 < qnorm2 (of_angle_axis v) /\
  (vdot v v <= 1 / 100000000 -> qnorm2 (of_angle_axis v) = 1 + vdot v v / 4).
Proof.
  destruct (Rlt_dec (1 / 100000000) (vdot v v)) as [L|L].
  - split; [rewrite (of_unit v L); lra | lra].
  - assert (E : qnorm2 (of_angle_axis v) = 1 + vdot v v / 4).
    { unfold of_angle_axis. destruct (Rlt_dec _ _); [contradiction|]. qcbn. field. }
    rewrite E. pose proof (vdot_pos v). split; [lra | reflexivity].
Qed.
Lemma pos_norm_unit q : 0 < qnorm2 q -> is_unit (qnormalized q).
Proof. intros H. apply normalized_is_unit. intros E. rewrite E in H. qcbn. lra. Qed.
Lemma unit_z_unit : vdot unit_z unit_z = 1.
Proof. unfold unit_z. qcbn. ring. Qed.
Lemma down_unit o : is_unit o -> vdot (qrot (qconj o) unit_z) (qrot (qconj o) unit_z) = 1.
Proof. intros U. rewrite qrot_dot by now apply unit_conj. apply unit_z_unit. Qed.
Lemma z_of o p : is_unit o -> v2 (qrot o p) = vdot p (qrot (qconj o) unit_z).
Proof.
  intros U. transitivity (vdot (qrot o p) unit_z); [unfold unit_z, vdot; cbn [v0 v1 v2]; ring|].
  rewrite <- (qrot_inv_r o unit_z U) at 1. now rewrite qrot_dot.
Qed.

Lemma advance_unit k t k' : is_unit (t_orientation k) -> advance k t = Some k' -> is_unit (t_orientation k').
Proof.
  unfold advance. intros U. destruct (t <? t_time k)%Z; [discriminate|]. intros [= <-]. cbn [t_orientation].
  apply pos_norm_unit. rewrite qnorm2_mul. unfold is_unit in U. rewrite U.
  destruct (of_norm (vscale (to_seconds (t - t_time k)) (t_omega k))). lra.
Qed.

(* gravity in the world frame *)
Lemma Q_qscale s q p : Q (qscale s q) p = vscale (s * s) (Q q p).
Proof. unfold Q. apply vec_eq; qcbn; ring. Qed.
Lemma vdot_neg_scaled k a : vdot (vneg (vscale k a)) (vneg (vscale k a)) = k * k * vdot a a.
Proof. qcbn. ring. Qed.
Lemma vsub_add a b : vsub a b = vadd a (vneg b).
Proof. apply vec_eq; qcbn; ring. Qed.
Lemma vscale_none a : vscale (1 - 1) a = v_zero.
Proof. apply vec_eq; qcbn; ring. Qed.
Lemma qrot_scale q k a : qrot q (vscale k a) = vscale k (qrot q a).
Proof. apply vec_eq; qcbn; ring. Qed.
Lemma qz_by o q : qz (qmul (qmul o q) (qconj o)) = v2 (Q o (qvec q)).
Proof. unfold Q. qcbn. ring. Qed.
Lemma turn_gravity o q g : is_unit o -> 0 < qnorm2 q ->
  let d := vsub (qrot (qnormalized (qmul o q)) (qrot (qconj q) g)) (qrot o g) in
  d = vscale (qnorm2 q - 1) (Q o (vsub g (vscale (/ qnorm2 q) (Q q g)))) /\
  vdot d d <= (qnorm2 q - 1) * (qnorm2 q - 1) * (4 * vdot g g).
Proof.
  intros U P. cbv zeta. set (n := qnorm2 q) in *.
  assert (E : vsub (qrot (qnormalized (qmul o q)) (qrot (qconj q) g)) (qrot o g) =
    vscale (n - 1) (Q o (vsub g (vscale (/ n) (Q q g))))).
  { assert (M : qnorm2 (qmul o q) = n) by (rewrite qnorm2_mul; unfold is_unit in U; rewrite U; unfold n; ring).
    rewrite (qrot_Q (qnormalized (qmul o q))) by (apply pos_norm_unit; lra).
    rewrite (qrot_Q o) by exact U.
    unfold qnormalized. rewrite M. destruct (Rlt_dec 0 n); [|contradiction].
    rewrite Q_qscale. unfold qnorm. rewrite M.
    replace (/ sqrt n * / sqrt n) with (/ n).
    2:{ rewrite <- Rinv_mult. f_equal. symmetry. apply sqrt_sqrt. lra. }
    rewrite Q_mul, (qrot_form (qconj q)), qnorm2_conj, Q_add, Q_scale, Q_conj. fold n.
    assert (S : forall a b, Q o (vsub a b) = vsub (Q o a) (Q o b)) by (intros; unfold Q; apply vec_eq; qcbn; ring).
    rewrite S, Q_add, !Q_scale. generalize (Q o g) (Q o (Q q g)). clear - P. intros x y. clearbody n. 
    apply vec_eq; qcbn; field; lra. }
  split; [exact E|]. rewrite E, vdot_scaled. apply Rmult_le_compat_l; [apply Rle_0_sqr|].
  rewrite Q_dot. unfold is_unit in U. rewrite U.
  assert (T := vdot_two g (vneg (vscale (/ n) (Q q g)))).
  assert (V : vdot (vneg (vscale (/ n) (Q q g))) (vneg (vscale (/ n) (Q q g))) = vdot g g).
  { rewrite vdot_neg_scaled, Q_dot. fold n. field. lra. }
  rewrite V in T. rewrite vsub_add.
  lra.
Qed.

Lemma resolved_unit v : resolved v -> is_unit (of_angle_axis v).
Proof.
  intros [H|H].
  - unfold is_unit. destruct (of_norm v) as [_ E]. rewrite E; rewrite (null_vdot v H); lra.
  - apply of_unit. change (dot v v) with (vdot v v) in H. lra.
Qed.

Lemma advance_gravity k t : is_unit (t_orientation k) -> (t_time k <= t)%Z ->
  exists k', advance k t = Some k' /\ t_time k' = t /\
    vnorm (vsub (world_gravity k') (world_gravity k)) <= 5 / 10 ^ 9 * vnorm (t_gravity k) /\
    (resolved (vscale (to_seconds (t - t_time k)) (t_omega k)) ->
     world_gravity k' = world_gravity k /\ vnorm (t_gravity k') = vnorm (t_gravity k)).
Proof.
  intros U T. unfold advance. destruct (Z.ltb_spec t (t_time k)); [lia|].
  eexists. split; [reflexivity|]. unfold world_gravity. cbn [t_time t_orientation t_gravity]. split; [reflexivity|].
  set (v := vscale _ _). destruct (of_norm v) as [P S].
  destruct (turn_gravity (t_orientation k) (of_angle_axis v) (t_gravity k) U P) as [E L].
  set (d := vsub _ _) in *. split.
  - set (n := qnorm2 (of_angle_axis v)) in *.
    assert (N : (n - 1) * (n - 1) <= (25 / 10 ^ 10) * (25 / 10 ^ 10)).
    { destruct (Rlt_dec (1 / 100000000) (vdot v v)) as [B|B].
      - unfold n. rewrite (of_unit v B). lra.
      - apply Rnot_lt_le in B. specialize (S B). pose proof (vdot_pos v). nra. }
    pose proof (vnorm_sq d) as ND. pose proof (vnorm_pos d) as PD.
    pose proof (vnorm_sq (t_gravity k)) as NG. pose proof (vnorm_pos (t_gravity k)) as PG.
    assert (X : vdot d d <= (5 / 10 ^ 9 * vnorm (t_gravity k)) * (5 / 10 ^ 9 * vnorm (t_gravity k))).
    { pose proof (vdot_pos (t_gravity k)). rewrite <- NG in *. nra. }
    rewrite <- ND in X. apply Rsqr_incr_0; unfold Rsqr; [exact X | exact PD | nra].
  - intros R. pose proof (resolved_unit v R) as RU. split.
    + unfold is_unit in RU. rewrite RU in E.
      assert (Z : d = v_zero) by (rewrite E; apply vscale_none).
      unfold d in Z. apply vec_eq; [apply (f_equal v0) in Z | apply (f_equal v1) in Z | apply (f_equal v2) in Z];
        unfold vsub, v_zero in Z; cbn [v0 v1 v2] in Z; lra.
    + unfold vnorm. f_equal. apply qrot_dot. now apply unit_conj.
Qed.

(* a constant rate: advancing twice or once *)
Lemma polar_add a b u : dot u u = 1 -> qmul (polar a u) (polar b u) = polar (a + b) u.
Proof.
  intros D. unfold dot in D. unfold polar.
  apply quat_eq; qcbn; rewrite ?cos_plus, ?sin_plus.
  - transitivity (cos a * cos b - sin a * sin b * (v0 u * v0 u + v1 u * v1 u + v2 u * v2 u)); [ring|]. rewrite D. ring.
  - ring.
  - ring.
  - ring.
Qed.
Lemma of_zero v : null v -> of_angle_axis v = q_one.
Proof.
  intros H. rewrite (null_zero v H). unfold of_angle_axis.
  destruct (Rlt_dec _ _) as [L|L]; [exfalso; qcbn; lra|]. apply quat_eq; qcbn; ring.
Qed.
Lemma sq_zero s p : 0 < p -> s * s * p = 0 -> s = 0.
Proof.
  intros P H. apply Rmult_integral in H. destruct H as [H|H]; [|lra].
  apply Rmult_integral in H. destruct H; assumption.
Qed.
Lemma of_rate w s : ~ null w -> 0 <= s -> resolved (vscale s w) ->
  of_angle_axis (vscale s w) = polar (s * vnorm w / 2) (vscale (/ vnorm w) w) /\
  dot (vscale (/ vnorm w) w) (vscale (/ vnorm w) w) = 1.
Proof.
  intros W S R. pose proof (nonnull_pos w W) as P. destruct (normal_unit w P) as (_ & _ & N).
  pose proof (vnorm_sq w) as Q2.
  assert (D : dot (vscale (/ vnorm w) w) (vscale (/ vnorm w) w) = 1).
  { transitivity (/ vnorm w * / vnorm w * (vnorm w * vnorm w)); [rewrite Q2; unfold dot; qcbn; ring | field; lra]. }
  split; [|exact D]. destruct R as [R|R].
  - assert (Z : s = 0).
    { apply null_vdot in R. rewrite vdot_scaled in R. now apply (sq_zero s (vdot w w)). }
    rewrite (of_zero _ R), Z. unfold polar. replace (0 * vnorm w / 2) with 0 by field.
    rewrite cos_0, sin_0. apply quat_eq; qcbn; ring.
  - change (dot (vscale s w) (vscale s w)) with (vdot (vscale s w) (vscale s w)) in R.
    destruct (of_polar (vscale s w) ltac:(lra)) as (-> & _ & L).
    rewrite vnorm_scale, (Rabs_pos_eq s S) in L. rewrite vnorm_scale, (Rabs_pos_eq s S).
    assert (s <> 0) by (intros Z; rewrite Z in L; lra).
    unfold polar. apply quat_eq; qcbn; try reflexivity; field; split; lra.
Qed.
Lemma resolved_add w s t : 0 <= s -> 0 <= t -> resolved (vscale s w) -> resolved (vscale t w) -> resolved (vscale (s + t) w).
Proof.
  intros S T A B. destruct (Req_dec (vdot w w) 0) as [Z|Z].
  - left. apply vdot_null. rewrite vdot_scaled, Z. ring.
  - pose proof (vdot_pos w) as P.
    assert (F : forall x, resolved (vscale x w) -> x = 0 \/ 1 / 10 ^ 4 * (1 / 10 ^ 4) < x * x * vdot w w).
    { intros x [H|H].
      - left. apply null_vdot in H. rewrite vdot_scaled in H. apply (sq_zero x (vdot w w)); [lra | exact H].
      - right. change (dot (vscale x w) (vscale x w)) with (vdot (vscale x w) (vscale x w)) in H. now rewrite vdot_scaled in H. }
    unfold resolved. change (dot (vscale (s + t) w) (vscale (s + t) w)) with (vdot (vscale (s + t) w) (vscale (s + t) w)).
    rewrite vdot_scaled.
    destruct (F s A) as [->|HA].
    + rewrite Rplus_0_l. destruct (F t B) as [->|HB]; [|now right].
      left. apply vdot_null. rewrite vdot_scaled. ring.
    + right. apply Rlt_le_trans with (1 := HA). apply Rmult_le_compat_r; [exact P|]. nra.
Qed.
Lemma of_add w s t : 0 <= s -> 0 <= t -> resolved (vscale s w) -> resolved (vscale t w) ->
  of_angle_axis (vscale (s + t) w) = qmul (of_angle_axis (vscale s w)) (of_angle_axis (vscale t w)).
Proof.
  intros S T A B. pose proof (resolved_add w s t S T A B) as C.
  destruct (Req_dec (vdot w w) 0) as [Z|Z].
  - assert (N : forall x, null (vscale x w)) by (intros x; apply vdot_null; rewrite vdot_scaled, Z; ring).
    rewrite !of_zero by apply N. now rewrite qmul_1_l.
  - assert (W : ~ null w) by (intros H; apply Z; now apply null_vdot).
    destruct (of_rate w (s + t) W ltac:(lra) C) as [-> D].
    destruct (of_rate w s W S A) as [-> _]. destruct (of_rate w t W T B) as [-> _].
    rewrite polar_add by exact D. f_equal. field.
Qed.

Lemma advance_twice k s t : is_unit (t_orientation k) -> (t_time k <= s <= t)%Z ->
  resolved (vscale (to_seconds (s - t_time k)) (t_omega k)) -> resolved (vscale (to_seconds (t - s)) (t_omega k)) ->
  match advance k s with Some k1 => advance k1 t | None => None end = advance k t.
Proof.
  intros U T A B. unfold advance. destruct (Z.ltb_spec s (t_time k)); [lia|]. cbn [t_time].
  destruct (Z.ltb_spec t s); [lia|]. destruct (Z.ltb_spec t (t_time k)); [lia|].
  cbn [t_constant t_last t_orientation t_gravity t_omega].
  pose proof (of_add (t_omega k) _ _ (secs_nonneg (s - t_time k) ltac:(lia)) (secs_nonneg (t - s) ltac:(lia)) A B) as E.
  rewrite <- secs_add in E. replace (s - t_time k + (t - s))%Z with (t - t_time k)%Z in E by lia.
  rewrite E. pose proof (resolved_unit _ A) as UA. pose proof (resolved_unit _ B) as UB.
  set (qa := of_angle_axis (vscale (to_seconds (s - t_time k)) (t_omega k))) in *.
  set (qb := of_angle_axis (vscale (to_seconds (t - s)) (t_omega k))) in *.
  f_equal. f_equal.
  - rewrite !normalized_unit; try (repeat apply unit_mul; assumption).
    + symmetry. apply qmul_assoc.
    + rewrite normalized_unit by (apply unit_mul; assumption). repeat apply unit_mul; assumption.
  - rewrite qconj_mul. symmetry. apply qrot_mul; now apply unit_conj.
Qed.

(* an acceleration *)
Definition averaged (k : tracker) (a : vec3 R) : vec3 R := vadd (vscale (1 - alpha k) (t_gravity k)) (vscale (alpha k) a).

Lemma acceleration_null k a : null (averaged k a) -> add_acceleration svd k a = None.
Proof.
  intros H. unfold add_acceleration. fold (averaged k a). rewrite (null_zero _ H).
  cbv zeta. destruct (Rlt_dec _ _) as [L|L]; [exfalso|reflexivity].
  revert L. generalize (qnormalized (qmul (t_orientation k)
    (from_two_vectors svd v_zero (qrot (qconj (t_orientation k)) unit_z)))). intros q L. qcbn. lra.
Qed.
Lemma acceleration_ok k a : is_unit (t_orientation k) -> ~ null (averaged k a) ->
  exists k', add_acceleration svd k a = Some k' /\
    t_gravity k' = averaged k a /\ t_time k' = t_time k /\ t_last k' = t_time k /\ t_constant k' = t_constant k /\ t_omega k' = t_omega k /\
    is_unit (t_orientation k') /\
    (1 - 4 / 1000000000000) * vnorm (t_gravity k') <= v2 (world_gravity k') /\
    (- (1 - 1 / 1000000000000) * vnorm (t_gravity k') <= v2 (qrot (t_orientation k) (t_gravity k')) ->
     world_gravity k' = mk_vec3 0 0 (vnorm (t_gravity k'))) /\
    qz (qmul (t_orientation k') (qconj (t_orientation k))) = 0 /\
    0 <= qw (qmul (t_orientation k') (qconj (t_orientation k))).
Proof.
  intros U H. pose proof (nonnull_pos _ H) as P. unfold add_acceleration. fold (averaged k a). cbv zeta.
  set (g := averaged k a) in *. set (o := t_orientation k) in *.
  pose proof (down_unit o U) as B. destruct (from_two_ok g _ P B) as (QU & QW & QH & QL & QE).
  destruct (normal_unit g P) as (NU & NE & NP).
  set (b := qrot (qconj o) unit_z) in *. set (q := from_two_vectors svd g b) in *.
  assert (UU : is_unit (qmul o q)) by (apply unit_mul; assumption).
  rewrite (normalized_unit _ UU).
  assert (Z : v2 (qrot (qmul o q) g) = vnorm g * vdot (qrot q (vnormalized g)) b).
  { rewrite qrot_mul by assumption. rewrite (z_of o) by exact U. fold b. rewrite NE at 1.
    rewrite qrot_scale. apply vdot_scale_l. }
  assert (ZP : (1 - 4 / 1000000000000) * vnorm g <= v2 (qrot (qmul o q) g)) by (rewrite Z; nra).
  destruct (Rlt_dec 0 (v2 (qrot (qmul o q) g))) as [L1|L1]; [|exfalso; apply L1; nra].
  assert (ZN : v2 (vnormalized (qrot (qmul o q) g)) = / vnorm g * v2 (qrot (qmul o q) g)).
  { unfold vnormalized. rewrite (qrot_dot _ g g UU). destruct (Rlt_dec 0 (vdot g g)); [reflexivity | contradiction]. }
  destruct (Rlt_dec (99 / 100) (v2 (vnormalized (qrot (qmul o q) g)))) as [L2|L2].
  2:{ exfalso. apply L2. rewrite ZN, Z. rewrite <- Rmult_assoc, Rinv_l, Rmult_1_l by lra. lra. }
  eexists. split; [reflexivity|]. unfold world_gravity. cbn [t_gravity t_time t_last t_constant t_omega t_orientation].
  repeat (split; [reflexivity|]). split; [exact UU|]. split; [exact ZP|]. split; [|split].
  - intros V. rewrite qrot_mul by assumption.
    assert (E : qrot q (vnormalized g) = b).
    { apply QE. rewrite (z_of o) in V by exact U. fold b in V. rewrite NE in V at 2. rewrite vdot_scale_l in V.
      rewrite vdot_comm. nra. }
    assert (E2 : qrot q g = vscale (vnorm g) b).
    { rewrite <- E. rewrite NE at 1. apply qrot_scale. }
    rewrite E2, qrot_scale. unfold b. rewrite qrot_inv_r by exact U. unfold unit_z. apply vec_eq; unfold vscale; cbn [v0 v1 v2]; ring.
  - rewrite qz_by.
    rewrite <- qrot_Q by exact U. rewrite z_of by exact U. exact QH.
  - rewrite qw_conj_by. unfold is_unit in U. rewrite U. lra.
Qed.

Lemma acceleration_none k a : is_unit (t_orientation k) -> (add_acceleration svd k a = None <-> null (averaged k a)).
Proof.
  intros U. split.
  - intros E. destruct (Req_dec (vdot (averaged k a) (averaged k a)) 0) as [Z|Z]; [now apply vdot_null|].
    destruct (acceleration_ok k a U) as [k' [E' _]]; [|congruence].
    intros N. apply Z. now apply null_vdot.
  - apply acceleration_null.
Qed.

(* along a run *)
Definition tracker_inv (k : tracker) : Prop :=
  is_unit (t_orientation k) /\ (t_last k <= t_time k)%Z.
Lemma step_inv k o k' : tracker_inv k -> step svd k o = Some k' -> tracker_inv k' /\ t_constant k' = t_constant k.
Proof.
  intros [U L] E. destruct o as [t|a|w]; cbn [step] in E.
  - pose proof (advance_unit k t k' U E) as U'. unfold advance in E. destruct (Z.ltb_spec t (t_time k)); [discriminate|].
    injection E as <-. split; [split; [exact U'|] | reflexivity]. cbn [t_last t_time]. lia.
  - assert (N : ~ null (averaged k a)).
    { intros N. rewrite (acceleration_null k a N) in E. discriminate. }
    destruct (acceleration_ok k a U N) as (k2 & E2 & _ & T & La & C & _ & U2 & _).
    rewrite E2 in E. injection E as <-. split; [split; [exact U2 | lia] | exact C].
  - injection E as <-. split; [split; assumption | reflexivity].
Qed.
Lemma run_inv os k k' : tracker_inv k -> run svd k os = Some k' -> tracker_inv k' /\ t_constant k' = t_constant k.
Proof.
  revert k. induction os as [|o os IH]; intros k I E; cbn [run] in E.
  - injection E as <-. split; [exact I | reflexivity].
  - destruct (step svd k o) as [k1|] eqn:S; [|discriminate].
    destruct (step_inv k o k1 I S) as [I1 C1]. destruct (IH k1 I1 E) as [I2 C2]. split; [exact I2 | congruence].
Qed.
Lemma init_inv c t : (time_min <= t)%Z -> tracker_inv (tracker_init c t).
Proof. intros H. split; [apply unit_one | exact H]. Qed.

Lemma alpha_range k : tracker_inv k -> 0 < t_constant k -> 0 <= alpha k <= 1.
Proof.
  intros [_ L] C. unfold alpha. destruct (Z.ltb_spec time_min (t_last k)); [|lra].
  pose proof (secs_nonneg (t_time k - t_last k) ltac:(lia)) as S.
  assert (E0 : 0 < exp (- to_seconds (t_time k - t_last k) / t_constant k)) by apply exp_pos.
  assert (X : - to_seconds (t_time k - t_last k) / t_constant k <= 0).
  { assert (0 <= to_seconds (t_time k - t_last k) / t_constant k) by (apply Rle_mult_inv_pos; lra).
    unfold Rdiv in *. lra. }
  assert (E1 : exp (- to_seconds (t_time k - t_last k) / t_constant k) <= 1).
  { rewrite <- exp_0. destruct X as [X|X]; [left; now apply exp_increasing | rewrite X; lra]. }
  lra.
Qed.

(* a constant acceleration without rotation *)
Definition samples (a : vec3 R) (ts : list Z) : list op := flat_map (fun t => [Advance t; Acceleration a]) ts.
Lemma still_advance k t k1 : null (t_omega k) -> advance k t = Some k1 ->
  t_gravity k1 = t_gravity k /\ t_time k1 = t /\ t_last k1 = t_last k /\ t_omega k1 = t_omega k /\ t_constant k1 = t_constant k /\ (t_time k <= t)%Z.
Proof.
  intros W E. unfold advance in E. destruct (Z.ltb_spec t (t_time k)); [discriminate|]. injection E as <-.
  cbn [t_gravity t_time t_last t_omega t_constant]. repeat split; [|lia].
  rewrite (of_zero (vscale _ _)).
  - replace (qconj q_one) with q_one by (apply quat_eq; qcbn; ring). apply qrot_one.
  - rewrite (null_zero _ W). repeat split; qcbn; ring.
Qed.
Lemma still_average a ts k k' : is_unit (t_orientation k) -> null (t_omega k) -> 0 < t_constant k ->
  (time_min < t_last k)%Z -> t_last k = t_time k -> run svd k (samples a ts) = Some k' ->
  vsub (t_gravity k') a = vscale (exp (- to_seconds (t_time k' - t_time k) / t_constant k)) (vsub (t_gravity k) a).
Proof.
  intros U W C L T. revert k U W C L T. induction ts as [|t ts IH]; intros k U W C L T E; cbn in E.
  - injection E as <-. rewrite Z.sub_diag, secs_0.
    replace (- 0 / t_constant k) with 0 by (field; lra). rewrite exp_0. apply vec_eq; qcbn; ring.
  - destruct (advance k t) as [k1|] eqn:E1; [|discriminate].
    destruct (still_advance k t k1 W E1) as (G1 & T1 & L1 & W1 & C1 & Le).
    pose proof (advance_unit k t k1 U E1) as U1.
    destruct (add_acceleration svd k1 a) as [k2|] eqn:E2; [|discriminate].
    assert (N : ~ null (averaged k1 a)).
    { intros N. rewrite (acceleration_null k1 a N) in E2. discriminate. }
    destruct (acceleration_ok k1 a U1 N) as (k3 & E3 & G2 & T2 & L2 & C2 & W2 & U2 & _).
    rewrite E3 in E2. injection E2 as <-.
    rewrite (IH k3 U2 ltac:(congruence) ltac:(congruence) ltac:(lia) ltac:(congruence) E).
    rewrite G2, C2, C1. unfold averaged, alpha. rewrite L1, T1, C1, G1.
    destruct (Z.ltb_spec time_min (t_last k)); [|lia]. rewrite T.
    replace (- to_seconds (t_time k' - t_time k) / t_constant k) with
      (- to_seconds (t_time k' - t) / t_constant k + - to_seconds (t - t_time k) / t_constant k).
    2:{ replace (t_time k' - t_time k)%Z with ((t_time k' - t) + (t - t_time k))%Z by lia. rewrite secs_add. field. lra. }
    rewrite exp_plus, T2, T1. clear. generalize (exp (- to_seconds (t_time k' - t) / t_constant k)) (exp (- to_seconds (t - t_time k) / t_constant k)) (t_gravity k).
    intros x y g. apply vec_eq; qcbn; ring.
Qed.
End Tracker.

(* an SVD exists *)
Definition orthogonal (a : vec3 R) : vec3 R :=
  let c := vcross a (mk_vec3 1 0 0) in if Req_EM_T (vdot c c) 0 then mk_vec3 0 1 0 else vnormalized c.
Definition some_svd (a b : vec3 R) : vec3 R :=
  let c := vcross a b in
  if Req_EM_T (vdot c c) 0 then (if Req_EM_T (vdot a a) 0 then orthogonal b else orthogonal a) else vnormalized c.
Lemma orthogonal_ok a : vdot (orthogonal a) (orthogonal a) = 1 /\ vdot (orthogonal a) a = 0.
Proof.
  unfold orthogonal. cbv zeta.
  destruct (Req_EM_T (vdot (vcross a (mk_vec3 1 0 0)) (vcross a (mk_vec3 1 0 0))) 0) as [Z|Z].
  - qcbn. assert (v1 a = 0) by nra. split; [ring | rewrite H; ring].
  - set (c := vcross a (mk_vec3 1 0 0)) in *.
    assert (P : 0 < vdot c c) by (pose proof (vdot_pos c); lra).
    destruct (normal_unit c P) as (N & E & _). split; [exact N|].
    unfold vnormalized. destruct (Rlt_dec _ _); [|contradiction]. rewrite vdot_scale_l. unfold c. qcbn. ring.
Qed.
Lemma some_svd_ok : svd_ok some_svd.
Proof.
  intros a b. unfold some_svd. cbv zeta. destruct (Req_EM_T (vdot (vcross a b) (vcross a b)) 0) as [Z|Z].
  - destruct (Req_EM_T (vdot a a) 0) as [A|A].
    + destruct (orthogonal_ok b) as [U B]. set (u := orthogonal b) in *. clearbody u. apply vdot_null in A. rewrite (null_zero a A).
      change (dot u u) with (vdot u u). change (dot u b) with (vdot u b). repeat split; try assumption.
      unfold dot. qcbn. ring.
    + destruct (orthogonal_ok a) as [U B]. set (u := orthogonal a) in *. clearbody u.
      change (dot u u) with (vdot u u). change (dot u b) with (vdot u b). change (dot u a) with (vdot u a).
      repeat split; try assumption.
      assert (X : vdot a a * vdot u b = vdot a b * vdot u a).
      { assert (Y : vcross a b = v_zero) by (apply null_zero; now apply vdot_null).
        assert (W : vadd (vscale (vdot a a) b) (vneg (vscale (vdot a b) a)) = vneg (vcross a (vcross a b))) by (apply vec_eq; qcbn; ring).
        rewrite Y in W. apply (f_equal (fun x => vdot u x)) in W.
        replace (vdot u (vneg (vcross a v_zero))) with 0 in W by (qcbn; ring).
        apply Rminus_diag_uniq. rewrite <- W. qcbn. ring. }
      rewrite B in X. nra.
  - set (c := vcross a b) in *.
    assert (P : 0 < vdot c c) by (pose proof (vdot_pos c); lra).
    destruct (normal_unit c P) as (N & E & _). split; [exact N|].
    unfold vnormalized. destruct (Rlt_dec _ _); [|contradiction].
    change (vdot (vscale (/ sqrt (vdot c c)) c) a = 0 /\ vdot (vscale (/ sqrt (vdot c c)) c) b = 0).
    rewrite !vdot_scale_l. unfold c. split; qcbn; ring.
Qed.
