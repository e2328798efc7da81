(* The Jacobians of the 2D pose graph cost are its derivatives. *)
From Coq Require Import ZArith Reals Lia Lra.
From Verif Require Import CF_Model CF_Spec CF_Proofs.
Open Scope R_scope.

Lemma deriv_ext f g x l : (forall t, f t = g t) -> derivable_pt_lim g x l -> derivable_pt_lim f x l.
Proof.
  intros E D eps He. destruct (D eps He) as [d H]. exists d. intros h H1 H2. rewrite !E. now apply H.
Qed.
Lemma deriv_form K L M N x : derivable_pt_lim (fun t => K + L * t + M * cos t + N * sin t) x (L - M * sin x + N * cos x).
Proof.
  apply deriv_ext with (fct_cte K + mult_real_fct L id + mult_real_fct M cos + mult_real_fct N sin)%F.
  { intros t. unfold plus_fct, fct_cte, mult_real_fct, id. ring. }
  replace (L - M * sin x + N * cos x) with (0 + L * 1 + M * (- sin x) + N * cos x) by ring.
  repeat apply derivable_pt_lim_plus.
  - apply derivable_pt_lim_const.
  - apply derivable_pt_lim_scal. apply derivable_pt_lim_id.
  - apply derivable_pt_lim_scal. apply derivable_pt_lim_cos.
  - apply derivable_pt_lim_scal. apply derivable_pt_lim_sin.
Qed.
Lemma deriv_form' f x l K L M N : (forall t, f t = K + L * t + M * cos t + N * sin t) ->
  L - M * sin x + N * cos x = l -> derivable_pt_lim f x l.
Proof. intros E <-. eapply deriv_ext; [exact E | apply deriv_form]. Qed.

(* the normalized angle as a number *)
Definition nval (u : R) : R := match normalize real_scalar u with Some r => r | None => 0 end.
Lemma nval_ok u : same_angle (nval u) u /\ - PI <= nval u <= PI /\ normalize real_scalar u = Some (nval u).
Proof.
  unfold nval. destruct (normalize_ok u) as [r [E [S [B _]]]]. rewrite E. auto.
Qed.
Lemma nval_local u h : - PI < nval u + h < PI -> nval (u + h) = nval u + h.
Proof.
  intros H. destruct (nval_ok u) as [[k K] _]. destruct (nval_ok (u + h)) as [[j J] [B _]].
  apply same_angle_unique; [exact B | exact H|]. exists (j - k)%Z. rewrite minus_IZR. lra.
Qed.
Lemma nval_deriv K s w x : - PI < nval (K + s * x) < PI -> derivable_pt_lim (fun t => w * nval (K + s * t)) x (w * s).
Proof.
  intros [B1 B2] eps He.
  set (m := Rmin (PI - nval (K + s * x)) (nval (K + s * x) + PI)).
  assert (M : 0 < m) by (unfold m; apply Rmin_pos; lra).
  assert (D : 0 < m / (Rabs s + 1)) by (apply Rdiv_lt_0_compat; [exact M | pose proof (Rabs_pos s); lra]).
  exists (mkposreal _ D). intros h H0 H1. cbn [pos] in H1.
  assert (A : Rabs (s * h) < m).
  { rewrite Rabs_mult. pose proof (Rabs_pos s). pose proof (Rabs_pos h).
    apply Rle_lt_trans with ((Rabs s + 1) * Rabs h); [nra|].
    apply Rlt_le_trans with ((Rabs s + 1) * (m / (Rabs s + 1))); [apply Rmult_lt_compat_l; lra|].
    apply Req_le. field. lra. }
  apply Rabs_def2 in A. pose proof (Rmin_l (PI - nval (K + s * x)) (nval (K + s * x) + PI)) as M1.
  pose proof (Rmin_r (PI - nval (K + s * x)) (nval (K + s * x) + PI)) as M2. fold m in M1, M2.
  replace (K + s * (x + h)) with (K + s * x + s * h) by ring.
  rewrite nval_local by lra.
  replace ((w * (nval (K + s * x) + s * h) - w * nval (K + s * x)) / h - w * s) with 0 by (field; exact H0).
  rewrite Rabs_R0. exact He.
Qed.

Lemma residual_0 rel tw rw a b : residual rel tw rw 0 a b =
  tw * (v0 rel - (cos (v2 a) * (v0 b - v0 a) + sin (v2 a) * (v1 b - v1 a))).
Proof. unfold residual. destruct (residuals_some rel tw rw a b) as [r [_ [_ [_ E]]]]. now rewrite E. Qed.
Lemma residual_1 rel tw rw a b : residual rel tw rw 1 a b =
  tw * (v1 rel - (- sin (v2 a) * (v0 b - v0 a) + cos (v2 a) * (v1 b - v1 a))).
Proof. unfold residual. destruct (residuals_some rel tw rw a b) as [r [_ [_ [_ E]]]]. now rewrite E. Qed.
Lemma residual_2 rel tw rw a b : residual rel tw rw 2 a b = rw * nval (v2 rel - (v2 b - v2 a)).
Proof.
  unfold residual, nval. destruct (residuals_some rel tw rw a b) as [r [_ [_ [N E]]]]. now rewrite E, N.
Qed.

Lemma jacobian_ok rel tw rw a b i j : (i < 3)%nat -> (j < 3)%nat ->
  (i = 2%nat -> - PI < nval (v2 rel - (v2 b - v2 a)) < PI) ->
  derivable_pt_lim (fun t => residual rel tw rw i (put j t a) b) (at_ j a) (at_ j (at_ i (jacobian0 tw rw a b))) /\
  derivable_pt_lim (fun t => residual rel tw rw i a (put j t b)) (at_ j b) (at_ j (at_ i (jacobian1 tw rw a b))).
Proof.
  intros Hi Hj Hn.
  assert (I : i = 0%nat \/ i = 1%nat \/ i = 2%nat) by lia.
  assert (J : j = 0%nat \/ j = 1%nat \/ j = 2%nat) by lia.
  destruct I as [-> | [-> | ->]].
  - destruct J as [-> | [-> | ->]]; cbn [at_ jacobian0 jacobian1 v0 v1 v2]; split.
    + apply deriv_form' with (tw * (v0 rel - (cos (v2 a) * v0 b + sin (v2 a) * (v1 b - v1 a)))) (tw * cos (v2 a)) 0 0;
        [intros t; rewrite residual_0; cbn [put v0 v1 v2] |]; ring.
    + apply deriv_form' with (tw * (v0 rel - (- cos (v2 a) * v0 a + sin (v2 a) * (v1 b - v1 a)))) (- (tw * cos (v2 a))) 0 0;
        [intros t; rewrite residual_0; cbn [put v0 v1 v2] |]; ring.
    + apply deriv_form' with (tw * (v0 rel - (cos (v2 a) * (v0 b - v0 a) + sin (v2 a) * v1 b))) (tw * sin (v2 a)) 0 0;
        [intros t; rewrite residual_0; cbn [put v0 v1 v2] |]; ring.
    + apply deriv_form' with (tw * (v0 rel - (cos (v2 a) * (v0 b - v0 a) - sin (v2 a) * v1 a))) (- (tw * sin (v2 a))) 0 0;
        [intros t; rewrite residual_0; cbn [put v0 v1 v2] |]; ring.
    + apply deriv_form' with (tw * v0 rel) 0 (- tw * (v0 b - v0 a)) (- tw * (v1 b - v1 a));
        [intros t; rewrite residual_0; cbn [put v0 v1 v2] |]; ring.
    + apply deriv_form' with (tw * (v0 rel - (cos (v2 a) * (v0 b - v0 a) + sin (v2 a) * (v1 b - v1 a)))) 0 0 0;
        [intros t; rewrite residual_0; cbn [put v0 v1 v2] |]; ring.
  - destruct J as [-> | [-> | ->]]; cbn [at_ jacobian0 jacobian1 v0 v1 v2]; split.
    + apply deriv_form' with (tw * (v1 rel - (- sin (v2 a) * v0 b + cos (v2 a) * (v1 b - v1 a)))) (- (tw * sin (v2 a))) 0 0;
        [intros t; rewrite residual_1; cbn [put v0 v1 v2] |]; ring.
    + apply deriv_form' with (tw * (v1 rel - (sin (v2 a) * v0 a + cos (v2 a) * (v1 b - v1 a)))) (tw * sin (v2 a)) 0 0;
        [intros t; rewrite residual_1; cbn [put v0 v1 v2] |]; ring.
    + apply deriv_form' with (tw * (v1 rel - (- sin (v2 a) * (v0 b - v0 a) + cos (v2 a) * v1 b))) (tw * cos (v2 a)) 0 0;
        [intros t; rewrite residual_1; cbn [put v0 v1 v2] |]; ring.
    + apply deriv_form' with (tw * (v1 rel - (- sin (v2 a) * (v0 b - v0 a) - cos (v2 a) * v1 a))) (- (tw * cos (v2 a))) 0 0;
        [intros t; rewrite residual_1; cbn [put v0 v1 v2] |]; ring.
    + apply deriv_form' with (tw * v1 rel) 0 (- tw * (v1 b - v1 a)) (tw * (v0 b - v0 a));
        [intros t; rewrite residual_1; cbn [put v0 v1 v2] |]; ring.
    + apply deriv_form' with (tw * (v1 rel - (- sin (v2 a) * (v0 b - v0 a) + cos (v2 a) * (v1 b - v1 a)))) 0 0 0;
        [intros t; rewrite residual_1; cbn [put v0 v1 v2] |]; ring.
  - specialize (Hn eq_refl). destruct J as [-> | [-> | ->]]; cbn [at_ jacobian0 jacobian1 v0 v1 v2]; split.
    1-4: apply deriv_form' with (rw * nval (v2 rel - (v2 b - v2 a))) 0 0 0;
        [intros t; rewrite residual_2; cbn [put v0 v1 v2] |]; ring.
    + apply deriv_ext with (fun t => rw * nval (v2 rel - v2 b + 1 * t)).
      { intros t. rewrite residual_2. cbn [put v0 v1 v2]. f_equal. f_equal. ring. }
      apply (eq_ind (rw * 1) (derivable_pt_lim _ _)); [|ring]. apply nval_deriv.
      replace (v2 rel - v2 b + 1 * v2 a) with (v2 rel - (v2 b - v2 a)) by ring. exact Hn.
    + apply deriv_ext with (fun t => rw * nval (v2 rel + v2 a + -1 * t)).
      { intros t. rewrite residual_2. cbn [put v0 v1 v2]. f_equal. f_equal. ring. }
      replace (- rw) with (rw * -1) by ring. apply nval_deriv.
      replace (v2 rel + v2 a + -1 * v2 b) with (v2 rel - (v2 b - v2 a)) by ring. exact Hn.
Qed.

(* at half a turn the residual jumps *)
Lemma jump l : ~ derivable_pt_lim (fun t => residual (mk_vec3 0 0 PI) 1 1 2 (mk_vec3 0 0 t) (mk_vec3 0 0 0)) 0 l.
Proof.
  intros D0. pose proof (derivable_continuous_pt _ _ (exist _ l D0 : derivable_pt _ _)) as D. pose proof pi_big as P.
  destruct (D 1 ltac:(lra)) as [d [Hd H]].
  set (t := Rmin (d / 2) (1 / 2)).
  assert (T : 0 < t <= 1 / 2 /\ t < d).
  { unfold t. split; [split; [apply Rmin_pos; lra | apply Rmin_r]|]. apply Rle_lt_trans with (d / 2); [apply Rmin_l | lra]. }
  specialize (H t). cbn [Base dist R_met] in H. rewrite !residual_2 in H. cbn [v2] in H.
  replace (PI - (0 - t)) with (PI + t) in H by ring. replace (PI - (0 - 0)) with PI in H by ring.
  assert (N0 : nval PI = PI).
  { unfold nval. destruct (normalize_ok PI) as [r [E [_ [_ [X _]]]]]. rewrite E. apply X. lra. }
  assert (N1 : nval (PI + t) = - PI + t).
  { destruct (nval_ok (PI + t)) as [[k K] [B _]]. apply same_angle_unique; [exact B | lra|].
    exists (k + 1)%Z. rewrite plus_IZR. lra. }
  rewrite N0, N1 in H. unfold R_dist in H.
  assert (X : Rabs (1 * (- PI + t) - 1 * PI) < 1).
  { apply H. split; [|rewrite Rminus_0_r, Rabs_pos_eq; lra]. unfold D_x, no_cond. split; [exact I | lra]. }
  apply Rabs_def2 in X. lra.
Qed.
