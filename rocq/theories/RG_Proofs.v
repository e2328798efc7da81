(* Rigid transforms over the reals: group laws, angles and axes. *)
From Coq Require Import ZArith Reals Lia Lra.
From Verif Require Import CF_Model CF_Spec CF_Proofs RG_Model.
Open Scope R_scope.

Definition is_unit (q : quat) : Prop := qnorm2 q = 1.

Ltac qcbn := unfold qrot in *; unfold qmul, qconj, qneg, qscale, qnorm2, q_one, vadd, vsub, vneg, vscale, vcross, vdot,
  v_zero, qvec in *; cbn [qw qx qy qz v0 v1 v2 trans rot fst snd] in *.

Lemma quat_eq a b : qw a = qw b -> qx a = qx b -> qy a = qy b -> qz a = qz b -> a = b.
Proof. destruct a, b. cbn. intros -> -> -> ->. reflexivity. Qed.
Lemma vec_eq (a b : vec3 R) : v0 a = v0 b -> v1 a = v1 b -> v2 a = v2 b -> a = b.
Proof. destruct a, b. cbn. intros -> -> ->. reflexivity. Qed.

Lemma qnorm2_mul a b : qnorm2 (qmul a b) = qnorm2 a * qnorm2 b.
Proof. qcbn. ring. Qed.
Lemma unit_mul a b : is_unit a -> is_unit b -> is_unit (qmul a b).
Proof. unfold is_unit. intros A B. rewrite qnorm2_mul, A, B. ring. Qed.
Lemma unit_conj a : is_unit a -> is_unit (qconj a).
Proof. unfold is_unit. intros A. rewrite <- A. qcbn. ring. Qed.
Lemma unit_neg a : is_unit a -> is_unit (qneg a).
Proof. unfold is_unit. intros A. rewrite <- A. qcbn. ring. Qed.
Lemma unit_one : is_unit q_one.
Proof. unfold is_unit. qcbn. ring. Qed.
Lemma normalized_unit a : is_unit a -> qnormalized a = a.
Proof.
  intros A. unfold qnormalized, qnorm. unfold is_unit in A. rewrite A. destruct (Rlt_dec 0 1); [|lra].
  rewrite sqrt_1, Rinv_1. apply quat_eq; qcbn; ring.
Qed.
Lemma normalized_is_unit a : a <> mk_quat 0 0 0 0 -> is_unit (qnormalized a).
Proof.
  intros H. unfold qnormalized. assert (P : 0 < qnorm2 a).
  { destruct a as [w x y z]. qcbn. destruct (Rlt_dec 0 (w * w + x * x + y * y + z * z)) as [L | L]; [exact L|].
    exfalso. apply H. assert (w = 0 /\ x = 0 /\ y = 0 /\ z = 0) by (repeat split; nra). intuition congruence. }
  destruct (Rlt_dec 0 (qnorm2 a)); [|contradiction]. unfold is_unit, qnorm.
  assert (S : sqrt (qnorm2 a) * sqrt (qnorm2 a) = qnorm2 a) by (apply sqrt_sqrt; lra).
  assert (Q : 0 < sqrt (qnorm2 a)) by now apply sqrt_lt_R0.
  set (n := sqrt (qnorm2 a)) in *.
  replace (qnorm2 (qscale (/ n) a)) with (qnorm2 a * (/ n * / n)) by (qcbn; ring).
  rewrite <- S. field. lra.
Qed.

Lemma qmul_assoc a b c : qmul a (qmul b c) = qmul (qmul a b) c.
Proof. apply quat_eq; qcbn; ring. Qed.
Lemma qmul_1_l a : qmul q_one a = a.
Proof. apply quat_eq; qcbn; ring. Qed.
Lemma qmul_1_r a : qmul a q_one = a.
Proof. apply quat_eq; qcbn; ring. Qed.
Lemma qmul_conj_r a : is_unit a -> qmul a (qconj a) = q_one.
Proof. intros A. unfold is_unit in A. apply quat_eq; qcbn; try ring. rewrite <- A. ring. Qed.
Lemma qmul_conj_l a : is_unit a -> qmul (qconj a) a = q_one.
Proof. intros A. unfold is_unit in A. apply quat_eq; qcbn; try ring. rewrite <- A. ring. Qed.
Lemma qconj_mul a b : qconj (qmul a b) = qmul (qconj b) (qconj a).
Proof. apply quat_eq; qcbn; ring. Qed.
Lemma qconj_invol a : qconj (qconj a) = a.
Proof. apply quat_eq; qcbn; ring. Qed.

(* rotating a vector: the conjugation q p q^* *)
Definition Q (q : quat) (p : vec3 R) : vec3 R :=
  qvec (qmul (qmul q (mk_quat 0 (v0 p) (v1 p) (v2 p))) (qconj q)).
Lemma qrot_Q q p : is_unit q -> qrot q p = Q q p.
Proof.
  intros U. unfold is_unit in U. unfold Q. apply vec_eq.
  - apply Rminus_diag_uniq. transitivity ((1 - qnorm2 q) * v0 p); [qcbn; ring | rewrite U; ring].
  - apply Rminus_diag_uniq. transitivity ((1 - qnorm2 q) * v1 p); [qcbn; ring | rewrite U; ring].
  - apply Rminus_diag_uniq. transitivity ((1 - qnorm2 q) * v2 p); [qcbn; ring | rewrite U; ring].
Qed.
Definition pure (p : vec3 R) : quat := mk_quat 0 (v0 p) (v1 p) (v2 p).
Lemma pure_Q q p : pure (Q q p) = qmul (qmul q (pure p)) (qconj q).
Proof. unfold Q, pure. apply quat_eq; qcbn; ring. Qed.
Lemma pure_inj a b : pure a = pure b -> a = b.
Proof. unfold pure. intros E. injection E. intros. now apply vec_eq. Qed.
Lemma Q_mul a b p : Q (qmul a b) p = Q a (Q b p).
Proof. apply pure_inj. rewrite !pure_Q, qconj_mul, !qmul_assoc. reflexivity. Qed.
Lemma dot_pure a b : vdot a b = - qw (qmul (pure a) (pure b)).
Proof. unfold pure. qcbn. ring. Qed.
Lemma qw_conj_by q x : qw (qmul (qmul q x) (qconj q)) = qnorm2 q * qw x.
Proof. qcbn. ring. Qed.
Lemma qrot_mul a b p : is_unit a -> is_unit b -> qrot (qmul a b) p = qrot a (qrot b p).
Proof.
  intros A B. rewrite !qrot_Q; try assumption; [apply Q_mul | now apply unit_mul].
Qed.
Lemma qrot_one p : qrot q_one p = p.
Proof. apply vec_eq; qcbn; ring. Qed.
Lemma qrot_add q a b : qrot q (vadd a b) = vadd (qrot q a) (qrot q b).
Proof. apply vec_eq; qcbn; ring. Qed.
Lemma qrot_sub q a b : qrot q (vsub a b) = vsub (qrot q a) (qrot q b).
Proof. apply vec_eq; qcbn; ring. Qed.
Lemma qrot_vneg q a : qrot q (vneg a) = vneg (qrot q a).
Proof. apply vec_eq; qcbn; ring. Qed.
Lemma qrot_neg q p : qrot (qneg q) p = qrot q p.
Proof. apply vec_eq; qcbn; ring. Qed.
Lemma qrot_inv_l q p : is_unit q -> qrot (qconj q) (qrot q p) = p.
Proof. intros U. rewrite <- qrot_mul by auto using unit_conj. rewrite qmul_conj_l by exact U. apply qrot_one. Qed.
Lemma qrot_inv_r q p : is_unit q -> qrot q (qrot (qconj q) p) = p.
Proof. intros U. rewrite <- qrot_mul by auto using unit_conj. rewrite qmul_conj_r by exact U. apply qrot_one. Qed.
Lemma qrot_dot q a b : is_unit q -> vdot (qrot q a) (qrot q b) = vdot a b.
Proof.
  intros U. rewrite !qrot_Q, !dot_pure, !pure_Q by exact U. f_equal.
  replace (qmul (qmul (qmul q (pure a)) (qconj q)) (qmul (qmul q (pure b)) (qconj q)))
    with (qmul (qmul q (qmul (pure a) (pure b))) (qconj q)).
  - rewrite qw_conj_by. unfold is_unit in U. rewrite U. ring.
  - rewrite !qmul_assoc. f_equal. f_equal. rewrite <- (qmul_assoc (qmul q (pure a)) (qconj q) q), qmul_conj_l by exact U.
    now rewrite qmul_1_r.
Qed.

(* Rigid3 *)
Definition unit3 (a : rigid3) : Prop := is_unit (rot a).
Lemma r3_mul_rot a b : unit3 a -> unit3 b -> rot (r3_mul a b) = qmul (rot a) (rot b).
Proof. intros A B. cbn [r3_mul rot]. apply normalized_unit. now apply unit_mul. Qed.
Lemma r3_mul_unit a b : unit3 a -> unit3 b -> unit3 (r3_mul a b).
Proof. intros A B. unfold unit3. rewrite r3_mul_rot by assumption. now apply unit_mul. Qed.
Lemma rigid_eq a b : trans a = trans b -> rot a = rot b -> a = b.
Proof. destruct a, b. cbn. intros -> ->. reflexivity. Qed.
Lemma vadd_assoc a b c : vadd (vadd a b) c = vadd a (vadd b c).
Proof. apply vec_eq; qcbn; ring. Qed.
Lemma r3_assoc a b c : unit3 a -> unit3 b -> unit3 c -> r3_mul a (r3_mul b c) = r3_mul (r3_mul a b) c.
Proof.
  intros A B C. apply rigid_eq.
  - cbn [r3_mul trans]. fold (r3_mul a b). rewrite r3_mul_rot by assumption.
    rewrite qrot_add, qrot_mul by assumption. apply vadd_assoc.
  - rewrite !r3_mul_rot; auto using r3_mul_unit. apply qmul_assoc.
Qed.
Lemma r3_id_l a : unit3 a -> r3_mul r3_id a = a.
Proof.
  intros A. apply rigid_eq.
  - cbn [r3_mul trans rot r3_id]. rewrite qrot_one. apply vec_eq; qcbn; ring.
  - rewrite r3_mul_rot; [apply qmul_1_l | exact unit_one | exact A].
Qed.
Lemma r3_id_r a : unit3 a -> r3_mul a r3_id = a.
Proof.
  intros A. apply rigid_eq.
  - cbn [r3_mul trans rot r3_id]. apply vec_eq; qcbn; ring.
  - rewrite r3_mul_rot; [apply qmul_1_r | exact A | exact unit_one].
Qed.
Lemma r3_inv_unit a : unit3 a -> unit3 (r3_inv a).
Proof. apply unit_conj. Qed.
Lemma r3_inv_r a : unit3 a -> r3_mul a (r3_inv a) = r3_id.
Proof.
  intros A. apply rigid_eq.
  - cbn [r3_mul trans rot r3_inv r3_id]. rewrite qrot_vneg, qrot_inv_r by exact A. apply vec_eq; qcbn; ring.
  - rewrite r3_mul_rot by auto using r3_inv_unit. now apply qmul_conj_r.
Qed.
Lemma r3_inv_l a : unit3 a -> r3_mul (r3_inv a) a = r3_id.
Proof.
  intros A. apply rigid_eq.
  - cbn [r3_mul trans rot r3_inv r3_id]. apply vec_eq; qcbn; ring.
  - rewrite r3_mul_rot by auto using r3_inv_unit. now apply qmul_conj_l.
Qed.
Lemma r3_action a b p : unit3 a -> unit3 b -> r3_apply (r3_mul a b) p = r3_apply a (r3_apply b p).
Proof.
  intros A B. unfold r3_apply. rewrite r3_mul_rot by assumption. cbn [r3_mul trans].
  rewrite qrot_add, qrot_mul by assumption. symmetry. apply vadd_assoc.
Qed.
Lemma r3_id_apply p : r3_apply r3_id p = p.
Proof. unfold r3_apply, r3_id. cbn [rot trans]. rewrite qrot_one. apply vec_eq; qcbn; ring. Qed.
Lemma r3_isometry a p p' : unit3 a ->
  let d := vsub (r3_apply a p) (r3_apply a p') in vdot d d = vdot (vsub p p') (vsub p p').
Proof.
  intros A. cbv zeta. assert (E : vsub (r3_apply a p) (r3_apply a p') = qrot (rot a) (vsub p p')).
  { rewrite qrot_sub. unfold r3_apply. apply vec_eq; qcbn; ring. }
  rewrite E. now apply qrot_dot.
Qed.

(* Rigid2 *)
Lemma r2_assoc a b c : r2_mul a (r2_mul b c) = r2_mul (r2_mul a b) c.
Proof.
  unfold r2_mul, r2_apply. cbn [fst snd v0 v1 v2]. rewrite cos_plus, sin_plus. apply vec_eq; cbn [v0 v1 v2]; ring.
Qed.
Lemma r2_id_l a : r2_mul r2_id a = a.
Proof. unfold r2_mul, r2_apply, r2_id. cbn [fst snd v0 v1 v2]. rewrite cos_0, sin_0. apply vec_eq; cbn [v0 v1 v2]; ring. Qed.
Lemma r2_id_r a : r2_mul a r2_id = a.
Proof. unfold r2_mul, r2_apply, r2_id. cbn [fst snd v0 v1 v2]. apply vec_eq; cbn [v0 v1 v2]; ring. Qed.
Lemma sc t : sin t * sin t + cos t * cos t = 1.
Proof. exact (sin2_cos2 t). Qed.
Lemma r2_inv_r a : r2_mul a (r2_inv a) = r2_id.
Proof.
  unfold r2_mul, r2_apply, r2_inv, r2_id. cbn [fst snd v0 v1 v2]. rewrite cos_neg, sin_neg. pose proof (sc (v2 a)) as S.
  apply vec_eq; cbn [v0 v1 v2]; [| |ring].
  - apply Rminus_diag_uniq. transitivity ((1 - (sin (v2 a) * sin (v2 a) + cos (v2 a) * cos (v2 a))) * v0 a); [ring | rewrite S; ring].
  - apply Rminus_diag_uniq. transitivity ((1 - (sin (v2 a) * sin (v2 a) + cos (v2 a) * cos (v2 a))) * v1 a); [ring | rewrite S; ring].
Qed.
Lemma r2_inv_l a : r2_mul (r2_inv a) a = r2_id.
Proof. unfold r2_mul, r2_apply, r2_inv, r2_id. cbn [fst snd v0 v1 v2]. apply vec_eq; cbn [v0 v1 v2]; ring. Qed.
Lemma r2_action a b p : r2_apply (r2_mul a b) p = r2_apply a (r2_apply b p).
Proof. unfold r2_mul, r2_apply. cbn [fst snd v0 v1 v2]. rewrite cos_plus, sin_plus. f_equal; ring. Qed.
Lemma r2_isometry a p p' :
  let q := r2_apply a p in let q' := r2_apply a p' in
  (fst q - fst q') * (fst q - fst q') + (snd q - snd q') * (snd q - snd q') =
  (fst p - fst p') * (fst p - fst p') + (snd p - snd p') * (snd p - snd p').
Proof.
  cbv zeta. unfold r2_apply. cbn [fst snd]. pose proof (sc (v2 a)) as S. apply Rminus_diag_uniq.
  transitivity ((sin (v2 a) * sin (v2 a) + cos (v2 a) * cos (v2 a) - 1) *
    ((fst p - fst p') * (fst p - fst p') + (snd p - snd p') * (snd p - snd p'))); [ring | rewrite S; ring].
Qed.

(* atan2 *)
Lemma atan_range x : - (PI / 2) < atan x < PI / 2.
Proof. pose proof (atan_bound x). lra. Qed.
Lemma cos_atan_pos x : 0 < cos (atan x).
Proof. apply cos_gt_0; apply atan_range. Qed.
Lemma sin_atan_eq x : sin (atan x) = x * cos (atan x).
Proof.
  pose proof (tan_atan x) as T. unfold tan in T. pose proof (cos_atan_pos x).
  replace x with (sin (atan x) / cos (atan x)) at 2 by exact T. field. lra.
Qed.
(* the angle of a vector: x = r cos, y = r sin *)
Lemma atan2_polar y x : x <> 0 \/ y <> 0 -> exists r, 0 < r /\ r * r = x * x + y * y /\
  x = r * cos (atan2 y x) /\ y = r * sin (atan2 y x) /\ - PI < atan2 y x <= PI.
Proof.
  intros H. pose proof PI_RGT_0 as P. unfold atan2.
  assert (K : forall u, cos (atan u) * cos (atan u) * (1 + u * u) = 1).
  { intros u. pose proof (sc (atan u)) as S. rewrite sin_atan_eq in S. lra. }
  destruct (Rlt_dec 0 x) as [X | X].
  - set (u := y / x). assert (Y : y = u * x) by (unfold u; field; lra).
    pose proof (cos_atan_pos u) as C. specialize (K u). pose proof (atan_range u) as A.
    exists (x / cos (atan u)). split; [now apply Rdiv_lt_0_compat|]. split.
    { rewrite Y. replace (x * x + u * x * (u * x)) with (x * x * (1 + u * u)) by ring.
      apply Rmult_eq_reg_r with (cos (atan u) * cos (atan u)); [|nra].
      replace (x * x * (1 + u * u) * (cos (atan u) * cos (atan u))) with
        (x * x * (cos (atan u) * cos (atan u) * (1 + u * u))) by ring. rewrite K. field. lra. }
    rewrite sin_atan_eq. split; [field; lra|]. split; [rewrite Y at 1; field; lra | lra].
  - destruct (Rlt_dec x 0) as [X' | X'].
    + set (u := y / x). assert (Y : y = u * x) by (unfold u; field; lra).
      pose proof (cos_atan_pos u) as C. specialize (K u). pose proof (atan_range u) as A.
      assert (G : 0 < - x / cos (atan u)) by (apply Rdiv_lt_0_compat; lra).
      assert (G2 : - x / cos (atan u) * (- x / cos (atan u)) = x * x + y * y).
      { rewrite Y. replace (x * x + u * x * (u * x)) with (x * x * (1 + u * u)) by ring.
        apply Rmult_eq_reg_r with (cos (atan u) * cos (atan u)); [|nra].
        replace (x * x * (1 + u * u) * (cos (atan u) * cos (atan u))) with
          (x * x * (cos (atan u) * cos (atan u) * (1 + u * u))) by ring. rewrite K. field. lra. }
      destruct (Rle_dec 0 y) as [Y' | Y'].
      * exists (- x / cos (atan u)). split; [exact G|]. split; [exact G2|].
        rewrite neg_cos, neg_sin, sin_atan_eq. split; [field; lra|]. split; [rewrite Y at 1; field; lra|].
        split; [lra|]. assert (U : u <= 0).
        { unfold u. apply Rmult_le_reg_r with (- x); [lra|]. replace (y / x * - x) with (- y) by (field; lra). lra. }
        assert (atan u <= 0); [|lra]. destruct (Rle_lt_or_eq_dec _ _ U) as [U' | ->]; [|rewrite atan_0; lra].
        apply Rlt_le. rewrite <- atan_0. now apply atan_increasing.
      * exists (- x / cos (atan u)). split; [exact G|]. split; [exact G2|].
        assert (E1 : cos (atan u - PI) = - cos (atan u)).
        { unfold Rminus. rewrite cos_plus, cos_neg, sin_neg, cos_PI, sin_PI. ring. }
        assert (E2 : sin (atan u - PI) = - sin (atan u)).
        { unfold Rminus. rewrite sin_plus, cos_neg, sin_neg, cos_PI, sin_PI. ring. }
        rewrite E1, E2, sin_atan_eq. split; [field; lra|]. split; [rewrite Y at 1; field; lra|].
        split; [|lra]. assert (U : 0 < u).
        { unfold u. apply Rmult_lt_reg_r with (- x); [lra|]. replace (y / x * - x) with (- y) by (field; lra). lra. }
        assert (0 < atan u) by (rewrite <- atan_0; now apply atan_increasing). lra.
    + assert (X0 : x = 0) by lra. subst x. destruct (Rlt_dec 0 y) as [Y | Y].
      * exists y. rewrite cos_PI2, sin_PI2. repeat split; lra.
      * destruct (Rlt_dec y 0) as [Y' | Y']; [|exfalso; destruct H; lra].
        exists (- y). rewrite cos_neg, sin_neg, cos_PI2, sin_PI2. repeat split; lra.
Qed.
Lemma sincos_same a b : cos a = cos b -> sin a = sin b -> same_angle a b.
Proof.
  intros C S. assert (D : cos (a - b) = 1).
  { rewrite cos_minus, C, S. pose proof (sc b). lra. }
  assert (Z : sin ((a - b) / 2) = 0).
  { pose proof (cos_2a_sin ((a - b) / 2)) as E. replace (2 * ((a - b) / 2)) with (a - b) in E by field.
    rewrite D in E. assert (sin ((a - b) / 2) * sin ((a - b) / 2) = 0) by lra. now apply Rmult_integral in H as [H | H]. }
  apply sin_eq_0_0 in Z as [k K]. exists k. lra.
Qed.
Lemma atan2_same r t : 0 < r -> same_angle (atan2 (r * sin t) (r * cos t)) t.
Proof.
  intros H. pose proof (sc t) as S.
  destruct (atan2_polar (r * sin t) (r * cos t)) as [r' [P [E [X [Y _]]]]].
  { destruct (Req_dec (cos t) 0) as [C | C]; [right | left]; intros Z; apply Rmult_integral in Z as [Z | Z]; try lra.
    rewrite C, Z in S. lra. }
  assert (R' : r' = r).
  { assert (Q' : r' * r' = r * r) by (rewrite E; replace (r * cos t * (r * cos t) + r * sin t * (r * sin t)) with
      (r * r * (sin t * sin t + cos t * cos t)) by ring; rewrite S; ring). nra. }
  subst r'. apply sincos_same; apply Rmult_eq_reg_l with r; lra.
Qed.
Lemma atan2_exact r t : 0 < r -> - PI < t < PI -> atan2 (r * sin t) (r * cos t) = t.
Proof.
  intros H B. pose proof (sc t) as S.
  destruct (atan2_polar (r * sin t) (r * cos t)) as [r' [_ [_ [_ [_ R]]]]].
  { destruct (Req_dec (cos t) 0) as [C | C]; [right | left]; intros Z; apply Rmult_integral in Z as [Z | Z]; try lra.
    rewrite C, Z in S. lra. }
  apply same_angle_unique; [lra | exact B | now apply atan2_same].
Qed.

(* embedding planar transforms *)
Lemma about_z_unit t : is_unit (about_z t).
Proof. unfold is_unit, about_z. qcbn. pose proof (sc (t / 2)). lra. Qed.
Lemma about_y_unit t : is_unit (about_y t).
Proof. unfold is_unit, about_y. qcbn. pose proof (sc (t / 2)). lra. Qed.
Lemma about_x_unit t : is_unit (about_x t).
Proof. unfold is_unit, about_x. qcbn. pose proof (sc (t / 2)). lra. Qed.
Lemma double t : cos t = 1 - 2 * sin (t / 2) * sin (t / 2) /\ sin t = 2 * sin (t / 2) * cos (t / 2).
Proof.
  pose proof (cos_2a_sin (t / 2)) as C. pose proof (sin_2a (t / 2)) as S.
  replace (2 * (t / 2)) with t in C, S by field. split; [rewrite C | rewrite S]; ring.
Qed.
Lemma about_z_rot t p : qrot (about_z t) p = mk_vec3 (cos t * v0 p - sin t * v1 p) (sin t * v0 p + cos t * v1 p) (v2 p).
Proof.
  destruct (double t) as [C S]. rewrite C, S. unfold about_z. apply vec_eq; qcbn; ring.
Qed.
Lemma about_z_mul s t : qmul (about_z s) (about_z t) = about_z (s + t).
Proof.
  unfold about_z. replace ((s + t) / 2) with (s / 2 + t / 2) by field. rewrite cos_plus, sin_plus.
  apply quat_eq; qcbn; ring.
Qed.
Lemma embed_mul a b : embed3d (r2_mul a b) = r3_mul (embed3d a) (embed3d b).
Proof.
  apply rigid_eq.
  - cbn [embed3d trans r3_mul rot]. rewrite about_z_rot. unfold r2_mul, r2_apply. apply vec_eq; qcbn; ring.
  - rewrite r3_mul_rot; [|apply about_z_unit|apply about_z_unit]. cbn [embed3d rot r2_mul v2].
    symmetry. apply about_z_mul.
Qed.
Lemma yaw_about_z t : same_angle (get_yaw (about_z t)) t.
Proof.
  unfold get_yaw. rewrite about_z_rot. cbn [v0 v1 v2].
  replace (sin t * 1 + cos t * 0) with (1 * sin t) by ring. replace (cos t * 1 - sin t * 0) with (1 * cos t) by ring.
  apply atan2_same. lra.
Qed.
Lemma yaw_rpy r p y : 0 < cos p -> same_angle (get_yaw (roll_pitch_yaw r p y)) y.
Proof.
  intros H. unfold get_yaw, roll_pitch_yaw.
  rewrite qrot_mul; [|apply unit_mul; [apply about_z_unit | apply about_y_unit] | apply about_x_unit].
  assert (X : qrot (about_x r) (mk_vec3 1 0 0) = mk_vec3 1 0 0) by (unfold about_x; apply vec_eq; qcbn; ring).
  rewrite X, qrot_mul; [|apply about_z_unit | apply about_y_unit].
  assert (Y : qrot (about_y p) (mk_vec3 1 0 0) = mk_vec3 (cos p) 0 (- sin p)).
  { destruct (double p) as [C S]. rewrite C, S. unfold about_y. apply vec_eq; qcbn; ring. }
  rewrite Y, about_z_rot. cbn [v0 v1 v2].
  replace (sin y * cos p + cos y * 0) with (cos p * sin y) by ring.
  replace (cos y * cos p - sin y * 0) with (cos p * cos y) by ring. now apply atan2_same.
Qed.
