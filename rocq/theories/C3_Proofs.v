(* Zeros, invariance and interpolation of the 3D costs. *)
From Coq Require Import Reals Lra.
From Verif Require Import CF_Model CF_Spec CF_Proofs RG_Model RG_Spec RG_Proofs RG_Angle C3_Model C3_Spec.
Open Scope R_scope.

Lemma scaled_zero w a b c : w <> 0 -> (mk_vec3 (a * w) (b * w) (c * w) = zero3 <-> mk_vec3 a b c = zero3).
Proof.
  intros W. unfold zero3. split; intros E; injection E as E0 E1 E2; f_equal; try (subst; ring);
  apply Rmult_eq_reg_r with w; lra.
Qed.
Lemma vec_eta (v : vec3 R) : mk_vec3 (v0 v) (v1 v) (v2 v) = v.
Proof. destruct v. reflexivity. Qed.

Lemma neg_neg q : qneg (qneg q) = q.
Proof. apply quat_eq; qcbn; ring. Qed.
Lemma conj_cancel e x y : is_unit e -> qmul (qconj e) x = y -> x = qmul e y.
Proof. intros U <-. rewrite qmul_assoc, qmul_conj_r by exact U. now rewrite qmul_1_l. Qed.
Lemma mul_neg_r a b : qmul a (qneg b) = qneg (qmul a b).
Proof. apply quat_eq; qcbn; ring. Qed.
Lemma mul_neg_l a b : qmul (qneg a) b = qneg (qmul a b).
Proof. apply quat_eq; qcbn; ring. Qed.
Lemma conj_neg a : qconj (qneg a) = qneg (qconj a).
Proof. apply quat_eq; qcbn; ring. Qed.

(* conj e * x is plus or minus one iff e is x up to sign *)
Lemma quotient_one e x : is_unit e ->
  (qmul (qconj e) x = q_one \/ qmul (qconj e) x = qneg q_one) <-> same_rotation e x.
Proof.
  intros U. split.
  - intros [H | H]; apply conj_cancel in H; try exact U; rewrite H.
    + left. now rewrite qmul_1_r.
    + right. rewrite mul_neg_r, qmul_1_r. symmetry. apply neg_neg.
  - intros [-> | ->].
    + left. apply qmul_conj_l. exact U.
    + right. change (opposite x) with (qneg x) in *. rewrite conj_neg, mul_neg_l, qmul_conj_l; [reflexivity|].
      rewrite <- (neg_neg x). now apply unit_neg.
Qed.

Lemma unscaled_form rel sr st er et :
  unscaled_error3 rel sr st er et =
  (vsub (trans rel) (qrot (qconj sr) (vsub et st)), to_angle_axis (qmul (qmul (qconj er) sr) (rot rel))).
Proof. reflexivity. Qed.

Lemma vsub_zero a b : vsub a b = zero3 <-> a = b.
Proof.
  split; [|intros ->; apply vec_eq; cbn; ring]. intros E. unfold vsub, zero3 in E. injection E as E0 E1 E2.
  apply vec_eq; lra.
Qed.
Lemma trans_zero rel s e : is_unit (rot s) ->
  vsub (trans rel) (qrot (qconj (rot s)) (vsub (trans e) (trans s))) = zero3 <->
  trans e = trans (composed s rel).
Proof.
  intros U. rewrite vsub_zero. cbn [composed trans]. split; intros E.
  - rewrite E, qrot_inv_r by exact U. apply vec_eq; cbn; ring.
  - rewrite E. replace (vsub (vadd (qrot (rot s) (trans rel)) (trans s)) (trans s)) with (qrot (rot s) (trans rel))
      by (apply vec_eq; cbn; ring). now rewrite qrot_inv_l.
Qed.
Lemma rot_zero rel s e : is_unit rel -> is_unit s -> is_unit e ->
  to_angle_axis (qmul (qmul (qconj e) s) rel) = zero3 <-> same_rotation e (qmul s rel).
Proof.
  intros A B C. change zero3 with v_zero. rewrite to_zero by auto using unit_mul, unit_conj.
  rewrite <- qmul_assoc. now apply quotient_one.
Qed.

Lemma error_zero rel tw rw s e : tw <> 0 -> rw <> 0 -> is_unit (rot rel) -> is_unit (rot s) -> is_unit (rot e) ->
  scale_error3 (unscaled_error3 rel (rot s) (trans s) (rot e) (trans e)) tw rw = (zero3, zero3) <->
  same_pose e (composed s rel).
Proof.
  intros T W A B C. unfold same_pose. rewrite <- trans_zero by exact B. cbn [composed rot].
  rewrite <- rot_zero by assumption. rewrite unscaled_form. unfold scale_error3. cbn [fst snd].
  set (t := vsub _ _). set (r := to_angle_axis _). split.
  - intros E. split.
    + rewrite <- (vec_eta t). apply (scaled_zero tw); [exact T | exact (f_equal fst E)].
    + rewrite <- (vec_eta r). apply (scaled_zero rw); [exact W | exact (f_equal snd E)].
  - intros [-> ->]. unfold zero3. cbn [v0 v1 v2]. f_equal; f_equal; ring.
Qed.
Lemma spa_zero zbar tw rw a b : tw <> 0 -> rw <> 0 -> is_unit (rot zbar) -> is_unit (rot a) -> is_unit (rot b) ->
  spa_cost3 zbar tw rw a b = (zero3, zero3) <-> same_pose b (composed a zbar).
Proof. intros. now apply error_zero. Qed.

Lemma unscaled_gauge g rel s e : is_unit (rot g) -> is_unit (rot s) -> is_unit (rot e) ->
  unscaled_error3 rel (rot (composed g s)) (trans (composed g s)) (rot (composed g e)) (trans (composed g e)) =
  unscaled_error3 rel (rot s) (trans s) (rot e) (trans e).
Proof.
  intros G S E. rewrite !unscaled_form. cbn [composed rot trans]. f_equal.
  - f_equal. rewrite qconj_mul, qrot_mul by auto using unit_conj. f_equal.
    replace (vsub (vadd (qrot (rot g) (trans e)) (trans g)) (vadd (qrot (rot g) (trans s)) (trans g)))
      with (qrot (rot g) (vsub (trans e) (trans s))) by (rewrite qrot_sub; apply vec_eq; cbn; ring).
    now apply qrot_inv_l.
  - f_equal. f_equal. rewrite qconj_mul, <- qmul_assoc. rewrite (qmul_assoc (qconj (rot g))), qmul_conj_l by exact G.
    now rewrite qmul_1_l.
Qed.

(* signs *)
Lemma unscaled_sign rel s st e et : is_unit (rot rel) -> is_unit s -> is_unit e ->
  qw (qmul (qmul (qconj e) s) (rot rel)) <> 0 ->
  unscaled_error3 rel s st (qneg e) et = unscaled_error3 rel s st e et /\
  unscaled_error3 rel (qneg s) st e et = unscaled_error3 rel s st e et /\
  unscaled_error3 (mk_rigid3 (trans rel) (qneg (rot rel))) s st e et = unscaled_error3 rel s st e et.
Proof.
  intros A B C N. rewrite !unscaled_form. cbn [rot trans].
  repeat rewrite ?conj_neg, ?qrot_neg, ?mul_neg_l, ?mul_neg_r.
  rewrite to_neg; auto using unit_mul, unit_conj.
Qed.

(* the length of the rotation part *)
Lemma scaled_length k v : vnorm (mk_vec3 (v0 v * k) (v1 v * k) (v2 v * k)) = Rabs k * vnorm v.
Proof. rewrite <- vnorm_scale. f_equal. apply vec_eq; cbn; ring. Qed.

Lemma imaginary_zero k x : k <> 0 -> is_unit x ->
  (mk_vec3 (k * qx x) (k * qy x) (k * qz x) = zero3 <-> x = q_one \/ x = qneg q_one).
Proof.
  intros K U. unfold is_unit, qnorm2 in U. split.
  - intros Z. unfold zero3 in Z. injection Z as X Y Z.
    apply Rmult_integral in X as [X | X]; [contradiction|]. apply Rmult_integral in Y as [Y | Y]; [contradiction|].
    apply Rmult_integral in Z as [Z | Z]; [contradiction|]. rewrite X, Y, Z in U.
    assert (W : (qw x - 1) * (qw x + 1) = 0) by lra. apply Rmult_integral in W as [W | W]; [left | right];
    apply quat_eq; cbn; lra.
  - intros [-> | ->]; unfold zero3; cbn; f_equal; ring.
Qed.
Lemma rotation_zero k d s e c : k <> 0 -> is_unit d -> is_unit s -> is_unit e -> is_unit c ->
  rotation_cost3 k d s e c = zero3 <-> same_rotation e (qmul s (qmul (qmul c d) (qconj c))).
Proof.
  intros K D S E C. rewrite <- quotient_one by exact E. unfold rotation_cost3.
  replace (qmul (qmul (qmul (qmul (qconj e) s) c) d) (qconj c)) with (qmul (qconj e) (qmul s (qmul (qmul c d) (qconj c))))
    by (rewrite !qmul_assoc; reflexivity).
  set (x := qmul (qconj e) _). assert (U : is_unit x) by (unfold x; repeat apply unit_mul; auto using unit_conj).
  now apply imaginary_zero.
Qed.
Lemma imaginary_length k x : is_unit x ->
  k * qx x * (k * qx x) + k * qy x * (k * qy x) + k * qz x * (k * qz x) = k * k * (1 - qw x * qw x).
Proof. unfold is_unit, qnorm2. intros U. rewrite <- U. ring. Qed.

Lemma quaternion_product_mul z w : quaternion_product z w = qmul z w.
Proof. apply quat_eq; cbn; ring. Qed.
Lemma rotation_delta_zero k t q : k <> 0 -> is_unit t -> is_unit q ->
  rotation_delta_cost3 k t q = zero3 <-> same_rotation q t.
Proof.
  intros K T Q'. unfold rotation_delta_cost3. rewrite quaternion_product_mul.
  change (mk_quat (qw t) (- qx t) (- qy t) (- qz t)) with (qconj t). set (x := qmul (qconj t) q).
  assert (U : is_unit x) by (apply unit_mul; auto using unit_conj).
  assert (SR : same_rotation q t <-> same_rotation t q).
  { unfold same_rotation. change (opposite t) with (qneg t). change (opposite q) with (qneg q).
    pose proof (neg_neg t). pose proof (neg_neg q). split; (intros [H1 | H1]; [left | right]); congruence. }
  rewrite SR, <- quotient_one by exact T. now apply imaginary_zero.
Qed.
Lemma translation_delta_zero k t p : k <> 0 -> translation_delta_cost3 k t p = zero3 <-> p = t.
Proof.
  intros K. unfold translation_delta_cost3, zero3. split.
  - intros Z. injection Z as X Y Z. apply Rmult_integral in X as [X | X]; [contradiction|].
    apply Rmult_integral in Y as [Y | Y]; [contradiction|]. apply Rmult_integral in Z as [Z | Z]; [contradiction|].
    apply vec_eq; lra.
  - intros ->. f_equal; ring.
Qed.

(* acceleration *)
Lemma acceleration_ok k d dt1 dt2 q c p v a g : dt1 <> 0 -> dt2 <> 0 ->
  acceleration_cost3 k d dt1 dt2 q (at_time p v a (- dt1)) p (at_time p v a dt2) g c =
  vscale k (vsub (qrot (qmul q c) d) (vscale ((dt1 + dt2) / 2) (vadd a (mk_vec3 0 0 g)))).
Proof.
  intros A B. unfold acceleration_cost3. set (r := qrot _ _).
  apply vec_eq; unfold at_time, vscale, vsub, vadd; cbn [v0 v1 v2]; field; split; assumption.
Qed.

(* slerp *)
Lemma dot4_mul_l g a b : dot4 (qmul g a) (qmul g b) = qnorm2 g * dot4 a b.
Proof. unfold dot4. qcbn. ring. Qed.
Lemma dot4_mul_r g a b : dot4 (qmul a g) (qmul b g) = qnorm2 g * dot4 a b.
Proof. unfold dot4. qcbn. ring. Qed.
Lemma dot4_bound a b : is_unit a -> is_unit b -> -1 <= dot4 a b <= 1.
Proof.
  unfold is_unit, qnorm2, dot4. intros A B.
  assert (P : forall x y : R, 0 <= (x - y) * (x - y) /\ 0 <= (x + y) * (x + y)) by (intros; split; apply Rle_0_sqr).
  pose proof (P (qw a) (qw b)). pose proof (P (qx a) (qx b)). pose proof (P (qy a) (qy b)). pose proof (P (qz a) (qz b)).
  lra.
Qed.
(* the end that is on the side of the start *)
Definition toward (a b : quat) : quat := if Rlt_dec (dot4 a b) 0 then qneg b else b.
Lemma toward_dot a b : dot4 a (toward a b) = Rabs (dot4 a b).
Proof.
  unfold toward. destruct (Rlt_dec _ _) as [L | L].
  - rewrite Rabs_left by exact L. unfold dot4. qcbn. ring.
  - rewrite Rabs_pos_eq by lra. reflexivity.
Qed.
Lemma toward_cases a b : toward a b = b \/ toward a b = qneg b.
Proof. unfold toward. destruct (Rlt_dec _ _); auto. Qed.
Lemma toward_unit a b : is_unit b -> is_unit (toward a b).
Proof. destruct (toward_cases a b) as [-> | ->]; auto using unit_neg. Qed.
Definition combine (p n : R) (a b : quat) : quat :=
  mk_quat (p * qw a + n * qw b) (p * qx a + n * qx b) (p * qy a + n * qy b) (p * qz a + n * qz b).
Lemma slerp_form a b f : slerp a b f =
  let c := Rabs (dot4 a b) in
  if Rlt_dec c (1 - 1 / 100000)
  then combine (sin ((1 - f) * acos c) / sin (acos c)) (sin (f * acos c) / sin (acos c)) a (toward a b)
  else combine (1 - f) f a (toward a b).
Proof.
  unfold slerp. change (qw a * qw b + qx a * qx b + qy a * qy b + qz a * qz b) with (dot4 a b). cbv zeta. unfold toward.
  destruct (Rlt_dec (Rabs _) _); destruct (Rlt_dec (dot4 a b) 0); apply quat_eq; cbn; ring.
Qed.
Lemma combine_norm p n a b : is_unit a -> is_unit b -> qnorm2 (combine p n a b) = p * p + n * n + 2 * p * n * dot4 a b.
Proof.
  intros A B. transitivity (p * p * qnorm2 a + n * n * qnorm2 b + 2 * p * n * dot4 a b).
  - unfold combine, dot4. qcbn. ring.
  - unfold is_unit in *. rewrite A, B. ring.
Qed.
Lemma combine_dot_l p n a b : is_unit a -> dot4 (combine p n a b) a = p + n * dot4 a b.
Proof.
  intros A. transitivity (p * qnorm2 a + n * dot4 a b); [unfold combine, dot4; qcbn; ring|].
  unfold is_unit in A. rewrite A. ring.
Qed.
Lemma combine_dot_r p n a b : is_unit b -> dot4 (combine p n a b) b = p * dot4 a b + n.
Proof.
  intros A. transitivity (p * dot4 a b + n * qnorm2 b); [unfold combine, dot4; qcbn; ring|].
  unfold is_unit in A. rewrite A. ring.
Qed.
Lemma acos_ok c : 0 <= c < 1 -> cos (acos c) = c /\ 0 < sin (acos c) /\ 0 <= acos c <= PI / 2.
Proof.
  intros C. split; [apply cos_acos; lra|]. pose proof (acos_bound c) as B.
  assert (D : 0 < sin (acos c)).
  { rewrite sin_acos by lra. apply sqrt_lt_R0. unfold Rsqr. nra. }
  split; [exact D|]. split; [lra|]. destruct (Rle_dec (acos c) (PI / 2)) as [L | L]; [exact L|]. exfalso.
  assert (cos (acos c) < 0) by (apply cos_lt_0; pose proof PI_RGT_0; lra). rewrite cos_acos in H; lra.
Qed.
Lemma slerp_arc a b f : is_unit a -> is_unit b -> let c := Rabs (dot4 a b) in c < 1 - 1 / 100000 ->
  is_unit (slerp a b f) /\ dot4 (slerp a b f) a = cos (f * acos c) /\
  dot4 (slerp a b f) (toward a b) = cos ((1 - f) * acos c).
Proof.
  intros A B c C. pose proof (toward_unit a b B) as T. rewrite slerp_form. cbv zeta. fold c.
  destruct (Rlt_dec c _) as [_ | N]; [|contradiction].
  destruct (acos_ok c) as [E [S _]]; [split; [apply Rabs_pos | lra]|]. set (t := acos c) in *.
  set (p := sin ((1 - f) * t) / sin t). set (n := sin (f * t) / sin t).
  assert (D : dot4 a (toward a b) = cos t) by (rewrite toward_dot; fold c; congruence).
  assert (X : p + n * cos t = cos (f * t)).
  { unfold p, n. replace ((1 - f) * t) with (t - f * t) by ring. rewrite sin_minus. field. lra. }
  assert (Y : p * cos t + n = cos ((1 - f) * t)).
  { unfold p, n. replace (f * t) with (t - (1 - f) * t) by ring. rewrite sin_minus. field. lra. }
  split; [|split].
  - unfold is_unit. rewrite combine_norm, D by assumption.
    transitivity (p * (p + n * cos t) + n * (p * cos t + n)); [ring|]. rewrite X, Y. unfold p, n.
    transitivity (sin ((1 - f) * t + f * t) / sin t); [rewrite sin_plus; field; lra|].
    replace ((1 - f) * t + f * t) with t by ring. field. lra.
  - rewrite combine_dot_l, D by exact A. exact X.
  - rewrite combine_dot_r, D by exact T. exact Y.
Qed.
Lemma slerp_ends a b : is_unit a -> is_unit b -> slerp a b 0 = a /\ slerp a b 1 = toward a b.
Proof.
  intros A B. rewrite !slerp_form. cbv zeta. set (c := Rabs (dot4 a b)).
  destruct (Rlt_dec c _) as [C | C].
  - destruct (acos_ok c) as [_ [S _]]; [split; [apply Rabs_pos | lra]|]. set (t := acos c) in *.
    replace ((1 - 0) * t) with t by ring. replace (0 * t) with 0 by ring. replace ((1 - 1) * t) with 0 by ring.
    replace (1 * t) with t by ring. rewrite sin_0. split; apply quat_eq; cbn; field; lra.
  - split; apply quat_eq; cbn; ring.
Qed.
Lemma slerp_near a b f : is_unit a -> is_unit b -> 0 <= f <= 1 -> ~ Rabs (dot4 a b) < 1 - 1 / 100000 ->
  1 - 5 / 1000000 <= qnorm2 (slerp a b f) <= 1.
Proof.
  intros A B F N. rewrite slerp_form. cbv zeta. destruct (Rlt_dec _ _); [contradiction|].
  rewrite combine_norm, toward_dot by auto using toward_unit. set (c := Rabs (dot4 a b)) in *.
  assert (C : c <= 1) by (apply Rabs_le, dot4_bound; assumption).
  replace ((1 - f) * (1 - f) + f * f + 2 * (1 - f) * f * c) with (1 - 2 * (f * (1 - f)) * (1 - c)) by ring.
  assert (Q' : 0 <= f * (1 - f) <= 1 / 4).
  { pose proof (Rle_0_sqr (f - 1 / 2)) as S. unfold Rsqr in S. split; [apply Rmult_le_pos; lra | lra]. }
  set (x := f * (1 - f)) in *. assert (0 <= x * (1 - c)) by (apply Rmult_le_pos; lra).
  assert (x * (1 - c) <= 1 / 4 * (1 / 100000)) by (apply Rmult_le_compat; lra). lra.
Qed.
Lemma dot4_neg_r a b : dot4 a (qneg b) = - dot4 a b.
Proof. unfold dot4. qcbn. ring. Qed.
Lemma slerp_same a f : is_unit a -> slerp a a f = a /\ slerp a (qneg a) f = a.
Proof.
  intros A. assert (D : dot4 a a = 1) by exact A. assert (D' : dot4 a (qneg a) = -1) by (rewrite dot4_neg_r, D; lra).
  rewrite !slerp_form. cbv zeta. rewrite D, D'. rewrite Rabs_R1, (Rabs_left (-1)) by lra.
  replace (- -1) with 1 by ring. unfold toward. rewrite D, D'.
  destruct (Rlt_dec 1 (1 - 1 / 100000)); [lra|]. destruct (Rlt_dec 1 0); [lra|]. destruct (Rlt_dec (-1) 0); [|lra].
  split; apply quat_eq; cbn; ring.
Qed.
Lemma combine_mul_l g p n a b : combine p n (qmul g a) (qmul g b) = qmul g (combine p n a b).
Proof. apply quat_eq; unfold combine; qcbn; ring. Qed.
Lemma combine_mul_r g p n a b : combine p n (qmul a g) (qmul b g) = qmul (combine p n a b) g.
Proof. apply quat_eq; unfold combine; qcbn; ring. Qed.
Lemma slerp_mul_l g a b f : is_unit g -> slerp (qmul g a) (qmul g b) f = qmul g (slerp a b f).
Proof.
  intros G. rewrite !slerp_form. cbv zeta. unfold toward. rewrite dot4_mul_l. unfold is_unit in G. rewrite G, Rmult_1_l.
  destruct (Rlt_dec _ _); destruct (Rlt_dec _ 0); rewrite <- ?mul_neg_r, combine_mul_l; reflexivity.
Qed.
Lemma slerp_mul_r g a b f : is_unit g -> slerp (qmul a g) (qmul b g) f = qmul (slerp a b f) g.
Proof.
  intros G. rewrite !slerp_form. cbv zeta. unfold toward. rewrite dot4_mul_r. unfold is_unit in G. rewrite G, Rmult_1_l.
  destruct (Rlt_dec _ _); destruct (Rlt_dec _ 0); rewrite <- ?mul_neg_l, combine_mul_r; reflexivity.
Qed.
Lemma dot4_neg_l a b : dot4 (qneg a) b = - dot4 a b.
Proof. unfold dot4. qcbn. ring. Qed.
Lemma slerp_neg_r a b f : dot4 a b <> 0 -> slerp a (qneg b) f = slerp a b f.
Proof.
  intros N. rewrite !slerp_form. cbv zeta. unfold toward. rewrite dot4_neg_r, Rabs_Ropp.
  destruct (Rlt_dec (- dot4 a b) 0), (Rlt_dec (dot4 a b) 0); try lra; rewrite ?neg_neg; reflexivity.
Qed.
Lemma slerp_neg_l a b f : dot4 a b <> 0 -> slerp (qneg a) b f = qneg (slerp a b f).
Proof.
  intros N. rewrite !slerp_form. cbv zeta. unfold toward. rewrite dot4_neg_l, Rabs_Ropp.
  destruct (Rlt_dec (Rabs _) _); destruct (Rlt_dec (- dot4 a b) 0), (Rlt_dec (dot4 a b) 0); try lra;
  apply quat_eq; unfold combine; qcbn; ring.
Qed.
(* the way back *)
Lemma slerp_back a b f : slerp b a (1 - f) = slerp a b f \/ slerp b a (1 - f) = qneg (slerp a b f).
Proof.
  rewrite !slerp_form. cbv zeta. assert (S : dot4 b a = dot4 a b) by (unfold dot4; ring). unfold toward. rewrite S.
  replace (1 - (1 - f)) with f by ring.
  destruct (Rlt_dec (dot4 a b) 0); [right | left]; destruct (Rlt_dec _ _); apply quat_eq; unfold combine; qcbn; ring.
Qed.

Lemma interpolate3_gauge g a b f : is_unit (rot g) ->
  interpolate3 (composed g a) (composed g b) f = composed g (interpolate3 a b f).
Proof.
  intros G. apply rigid_eq; cbn [interpolate3 composed rot trans].
  - set (u := trans a). set (v := trans b).
    replace (mk_vec3 (v0 u + f * (v0 v - v0 u)) (v1 u + f * (v1 v - v1 u)) (v2 u + f * (v2 v - v2 u)))
      with (vadd u (vscale f (vsub v u))) by (apply vec_eq; cbn; ring).
    rewrite qrot_add. assert (L : qrot (rot g) (vscale f (vsub v u)) = vscale f (vsub (qrot (rot g) v) (qrot (rot g) u))).
    { rewrite <- qrot_sub. set (w := vsub v u). apply vec_eq; qcbn; ring. }
    rewrite L. apply vec_eq; cbn; ring.
  - now apply slerp_mul_l.
Qed.
Lemma landmark_zero obs tw rw f prev next lm : tw <> 0 -> rw <> 0 -> is_unit (rot obs) -> is_unit (rot lm) ->
  is_unit (slerp (rot prev) (rot next) f) ->
  landmark_cost3 obs tw rw f prev next lm = (zero3, zero3) <-> same_pose lm (composed (interpolate3 prev next f) obs).
Proof. intros. unfold landmark_cost3. now apply error_zero. Qed.
Lemma landmark_gauge g obs tw rw f prev next lm : is_unit (rot g) -> is_unit (rot lm) ->
  is_unit (slerp (rot prev) (rot next) f) ->
  landmark_cost3 obs tw rw f (composed g prev) (composed g next) (composed g lm) = landmark_cost3 obs tw rw f prev next lm.
Proof. intros G L S. unfold landmark_cost3. rewrite interpolate3_gauge by exact G. now rewrite unscaled_gauge. Qed.

(* the 2D interpolation is the 3D one of the embedded poses *)
Lemma interpolate2_3 prev pg next ng f :
  interpolate2 prev pg next ng f =
  interpolate3 (r3_mul (embed3d prev) (mk_rigid3 v_zero pg)) (r3_mul (embed3d next) (mk_rigid3 v_zero ng)) f.
Proof.
  assert (Z : forall q, qrot q v_zero = v_zero) by (intros; apply vec_eq; qcbn; ring).
  unfold interpolate2, interpolate3. cbn [r3_mul trans rot embed3d]. rewrite !Z. f_equal. apply vec_eq; cbn; ring.
Qed.
