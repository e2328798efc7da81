(* Properties of the 2D pose graph cost function (C64). *)
From Coq Require Import ZArith Reals Lia Lra SpecFloat.
From Verif Require Import FloatR Float64 CF_Model CF_Spec CF_Proofs CF_Deriv CF_Float.
Open Scope R_scope.

(* normalizing an angle difference ends, in [-pi, pi], and changes it by full turns *)
Theorem C64_normalize : forall d, exists r, normalize real_scalar d = Some r /\
  same_angle r d /\ - PI <= r <= PI /\ (- PI <= d <= PI -> r = d).
Proof. intros d. destruct (normalize_ok d) as [r [E [S [B [I _]]]]]. exists r. auto. Qed.
Example C64_normalize_example : normalize real_scalar (5 * PI / 2) = Some (PI / 2) /\
  normalize real_scalar (- 3 * PI / 2) = Some (PI / 2).
Proof.
  pose proof pi_big as P. split.
  - destruct (C64_normalize (5 * PI / 2)) as [r [E [S [B _]]]]. rewrite E. f_equal.
    apply same_angle_unique; [exact B | lra|]. eapply same_angle_trans; [exact S|]. exists 1%Z. lra.
  - destruct (C64_normalize (- 3 * PI / 2)) as [r [E [S [B _]]]]. rewrite E. f_equal.
    apply same_angle_unique; [exact B | lra|]. eapply same_angle_trans; [exact S|]. exists (-1)%Z. lra.
Qed.

(* automatic differentiation and the analytical cost function agree everywhere, in the
   residuals and in all 18 entries of the Jacobians *)
Theorem C64_autodiff : forall rel tw rw a b, exists e,
  autodiff rel tw rw a b = Some e /\
  analytical_residuals rel tw rw a b = Some (mk_vec3 (j_a (v0 e)) (j_a (v1 e)) (j_a (v2 e))) /\
  forall i j, (i < 3)%nat -> (j < 3)%nat ->
    j_v (at_ i e) j = at_ j (at_ i (jacobian0 tw rw a b)) /\
    j_v (at_ i e) (3 + j) = at_ j (at_ i (jacobian1 tw rw a b)).
Proof. exact autodiff_ok. Qed.

(* the template instantiated with double computes the analytical residuals *)
Theorem C64_residuals : forall rel tw rw a b,
  spa_cost real_scalar rel tw rw a b = analytical_residuals rel tw rw a b.
Proof.
  intros rel tw rw a b. unfold spa_cost, unscaled_error, analytical_residuals.
  cbn [real_scalar s_val s_of s_add s_sub s_mul s_neg s_cos s_sin s_T].
  match goal with |- context [normalize ?sc ?d] => destruct (normalize sc d) as [r|] end; [|reflexivity].
  unfold scale_error. cbn [real_scalar s_of s_mul s_T v0 v1 v2]. f_equal. f_equal; ring.
Qed.

(* the Jacobians are the partial derivatives, unless the angle is off by half a turn *)
Theorem C64_jacobian : forall rel tw rw a b i j, (i < 3)%nat -> (j < 3)%nat ->
  (i = 2%nat -> ~ same_angle (v2 rel - (v2 b - v2 a)) PI) ->
  derivable_pt_lim (fun t => residual rel tw rw i (put j t a) b) (at_ j a) (at_ j (at_ i (jacobian0 tw rw a b))) /\
  derivable_pt_lim (fun t => residual rel tw rw i a (put j t b)) (at_ j b) (at_ j (at_ i (jacobian1 tw rw a b))).
Proof.
  intros rel tw rw a b i j Hi Hj H. apply jacobian_ok; try assumption. intros E. specialize (H E).
  pose proof pi_big as P. destruct (nval_ok (v2 rel - (v2 b - v2 a))) as [[k K] [[B1 B2] _]].
  split; apply Rnot_le_lt; intros L; apply H.
  - exists (- k + - 1)%Z. rewrite plus_IZR, !opp_IZR. lra.
  - exists (- k)%Z. rewrite opp_IZR. lra.
Qed.
Example C64_jacobian_example :
  derivable_pt_lim (fun t => residual (mk_vec3 1 0 0) 2 1 0 (mk_vec3 0 0 t) (mk_vec3 3 4 0)) 0 (- 8).
Proof.
  destruct (C64_jacobian (mk_vec3 1 0 0) 2 1 (mk_vec3 0 0 0) (mk_vec3 3 4 0) 0 2 ltac:(lia) ltac:(lia) ltac:(lia)) as [D _].
  cbn [at_ put jacobian0 v0 v1 v2] in D. rewrite cos_0, sin_0 in D.
  replace (2 * 0 * (3 - 0) - 2 * 1 * (4 - 0)) with (- 8) in D by ring. exact D.
Qed.

(* there the residual has no derivative, whatever the Jacobian says *)
Theorem C64_jacobian_refuted : exists rel a b, forall l,
  ~ derivable_pt_lim (fun t => residual rel 1 1 2 (put 2 t a) b) (v2 a) l.
Proof. exists (mk_vec3 0 0 PI), (mk_vec3 0 0 0), (mk_vec3 0 0 0). intros l. exact (jump l). Qed.

(* the cost is zero exactly if the end pose is where the constraint puts it *)
Theorem C64_zero : forall rel tw rw a b, tw <> 0 -> rw <> 0 ->
  (analytical_residuals rel tw rw a b = Some (mk_vec3 0 0 0) <->
   v0 b = v0 (compose a rel) /\ v1 b = v1 (compose a rel) /\ same_angle (v2 b) (v2 (compose a rel))).
Proof. exact zero_iff. Qed.
Example C64_zero_example :
  analytical_residuals (mk_vec3 2 1 PI) 5 7 (mk_vec3 10 20 (PI / 2)) (mk_vec3 9 22 (- PI / 2)) = Some (mk_vec3 0 0 0).
Proof.
  apply C64_zero; [lra | lra|]. cbn [compose v0 v1 v2]. rewrite cos_PI2, sin_PI2.
  split; [ring|]. split; [ring|]. exists (-1)%Z. lra.
Qed.

(* it only depends on the relative pose: moving both poses changes nothing *)
Theorem C64_gauge : forall g rel tw rw a b,
  analytical_residuals rel tw rw (compose g a) (compose g b) = analytical_residuals rel tw rw a b.
Proof. exact gauge_ok. Qed.

(* in double precision normalization ends for differences up to 2^50, in [-M_PI, M_PI],
   and is exact up to one and a half turns *)
Theorem C64_double : forall d, is_binary64 d -> ffin d -> Rabs (fval d) <= IZR (2 ^ 50) ->
  let pi := fval d_pi in
  exists fuel r, d_normalize fuel d = Some r /\ is_binary64 r /\ ffin r /\ - pi <= fval r <= pi /\
    (Rabs (fval d) <= pi -> r = d) /\
    (pi < fval d <= 3 * pi -> fval r = fval d - 2 * pi) /\
    (- (3 * pi) <= fval d < - pi -> fval r = fval d + 2 * pi).
Proof. intros d V F B. exact (normalize_f d V F B). Qed.
Example C64_double_example : d_normalize 3 (d_of_Z 7) = Some (dsub (d_of_Z 7) d_2pi) /\
  d_normalize 3 (d_of_Z (-13)) = Some (dadd (dadd (d_of_Z (-13)) d_2pi) d_2pi) /\ d_normalize 1 (d_of_Z (-13)) = None.
Proof. vm_compute. auto. Qed.

(* but not for all doubles *)
Theorem C64_double_refuted : exists d, is_binary64 d /\ ffin d /\ forall fuel, d_normalize fuel d = None.
Proof.
  exists (d_of_Z (2 ^ 60)). split; [vm_compute; reflexivity|]. split; [vm_compute; reflexivity|]. exact endless.
Qed.

Print Assumptions C64_normalize.
Print Assumptions C64_autodiff.
Print Assumptions C64_residuals.
Print Assumptions C64_jacobian.
Print Assumptions C64_jacobian_refuted.
Print Assumptions C64_zero.
Print Assumptions C64_gauge.
Print Assumptions C64_double.
Print Assumptions C64_double_refuted.
