(* The 2D pose graph cost: angle normalization, derivatives and invariance. *)
From Coq Require Import ZArith Reals Lia Lra.
From Verif Require Import CF_Model CF_Spec.
Open Scope R_scope.

(* normalization over the reals *)
Lemma pi_big : 2 < 2 * PI.
Proof. pose proof PI2_3_2. lra. Qed.

Lemma down_ok fuel : forall d, d <= PI + INR fuel * (2 * PI) ->
  exists r (k : Z), norm_down real_scalar fuel d = Some r /\ (0 <= k)%Z /\ r = d - IZR k * (2 * PI) /\ r <= PI /\
    (d <= PI -> r = d) /\ (PI < d -> - PI < r).
Proof.
  pose proof pi_big as P.
  induction fuel as [|fuel IH]; intros d H; cbn [norm_down]; cbn [real_scalar s_val s_sub s_of s_T] in *.
  - cbn [INR] in H. destruct (Rlt_dec PI d) as [L | L]; [lra|].
    exists d, 0%Z. split; [reflexivity|]. split; [lia|]. split; [lra|]. split; [lra|]. split; [reflexivity | lra].
  - rewrite S_INR in H. destruct (Rlt_dec PI d) as [L | L].
    + destruct (IH (d - 2 * PI)) as [r [k [E [K [Q [B [C1 C2]]]]]]]; [lra|].
      exists r, (k + 1)%Z. split; [exact E|]. split; [lia|]. rewrite plus_IZR. split; [lra|]. split; [exact B|].
      split; [lra|]. intros _. destruct (Rle_or_lt (d - 2 * PI) PI) as [X | X]; [rewrite (C1 X); lra | auto].
    + exists d, 0%Z. split; [reflexivity|]. split; [lia|]. split; [lra|]. split; [lra|]. split; [reflexivity | lra].
Qed.
Lemma up_ok fuel : forall d, - PI - INR fuel * (2 * PI) <= d ->
  exists r (k : Z), norm_up real_scalar fuel d = Some r /\ (0 <= k)%Z /\ r = d + IZR k * (2 * PI) /\ - PI <= r /\
    (- PI <= d -> r = d) /\ (d < - PI -> r < PI).
Proof.
  pose proof pi_big as P.
  induction fuel as [|fuel IH]; intros d H; cbn [norm_up]; cbn [real_scalar s_val s_add s_of s_T] in *.
  - cbn [INR] in H. destruct (Rlt_dec d (- PI)) as [L | L]; [lra|].
    exists d, 0%Z. split; [reflexivity|]. split; [lia|]. split; [lra|]. split; [lra|]. split; [reflexivity | lra].
  - rewrite S_INR in H. destruct (Rlt_dec d (- PI)) as [L | L].
    + destruct (IH (d + 2 * PI)) as [r [k [E [K [Q [B [C1 C2]]]]]]]; [lra|].
      exists r, (k + 1)%Z. split; [exact E|]. split; [lia|]. rewrite plus_IZR. split; [lra|]. split; [exact B|].
      split; [lra|]. intros _. destruct (Rle_or_lt (- PI) (d + 2 * PI)) as [X | X]; [rewrite (C1 X); lra | auto].
    + exists d, 0%Z. split; [reflexivity|]. split; [lia|]. split; [lra|]. split; [lra|]. split; [reflexivity | lra].
Qed.

Lemma fuel_ok d : Rabs d <= INR (Z.to_nat (up (Rabs d))).
Proof.
  destruct (archimed (Rabs d)) as [A _]. pose proof (Rabs_pos d).
  assert (Z0 : (0 <= up (Rabs d))%Z) by (apply le_IZR; lra).
  rewrite INR_IZR_INZ, Z2Nat.id by exact Z0. lra.
Qed.

Lemma normalize_ok d : exists r, normalize real_scalar d = Some r /\ same_angle r d /\ - PI <= r <= PI /\
  (- PI <= d <= PI -> r = d) /\ (d < - PI -> r < PI) /\ (PI < d -> - PI < r).
Proof.
  pose proof pi_big as P. pose proof (fuel_ok d) as F. unfold normalize.
  change (s_val real_scalar d) with d. set (fuel := Z.to_nat (up (Rabs d))) in *.
  pose proof (pos_INR fuel) as F0.
  assert (F2 : Rabs d <= INR fuel * (2 * PI)).
  { apply Rle_trans with (INR fuel * 1); [lra|]. apply Rmult_le_compat_l; lra. }
  pose proof (Rle_abs d) as A1. pose proof (Rle_abs (- d)) as A2. rewrite Rabs_Ropp in A2.
  destruct (down_ok fuel d) as [r1 [k1 [E1 [K1 [Q1 [B1 [C1 D1]]]]]]]; [lra|].
  rewrite E1. destruct (Rle_or_lt d PI) as [L | L].
  - rewrite (C1 L). destruct (up_ok fuel d) as [r2 [k2 [E2 [K2 [Q2 [B2 [C2 D2]]]]]]]; [lra|].
    exists r2. split; [exact E2|]. split; [exists k2; exact Q2|].
    split. { split; [exact B2|]. destruct (Rle_or_lt (- PI) d) as [X | X]; [rewrite (C2 X); exact L | specialize (D2 X); lra]. }
    split; [intros [X _]; auto|]. split; [exact D2 | lra].
  - destruct (up_ok fuel r1) as [r2 [k2 [E2 [K2 [Q2 [B2 [C2 D2]]]]]]]; [specialize (D1 L);
      assert (0 <= INR fuel * (2 * PI)) by (apply Rmult_le_pos; lra); lra|].
    assert (X : r2 = r1) by (apply C2; specialize (D1 L); lra). rewrite X in E2.
    exists r1. split; [exact E2|]. split; [exists (- k1)%Z; rewrite opp_IZR; lra|].
    split; [lra|]. split; [lra|]. split; [lra|]. intros _. exact (D1 L).
Qed.

(* angles in the open interval are unique *)
Lemma same_angle_unique a b : - PI <= a <= PI -> - PI < b < PI -> same_angle a b -> a = b.
Proof.
  pose proof pi_big. intros Ha Hb [k E].
  assert (K : k = 0%Z).
  { assert (L : (-1 < k < 1)%Z); [|lia]. split; apply lt_IZR; apply Rmult_lt_reg_r with (2 * PI); lra. }
  subst k. lra.
Qed.
Lemma same_angle_sym a b : same_angle a b -> same_angle b a.
Proof. intros [k E]. exists (- k)%Z. rewrite opp_IZR. lra. Qed.
Lemma same_angle_trans a b c : same_angle a b -> same_angle b c -> same_angle a c.
Proof. intros [k E] [j F]. exists (k + j)%Z. rewrite plus_IZR. lra. Qed.

(* automatic differentiation *)
Lemma down_jet fuel : forall d, match norm_down real_scalar fuel (j_a d), norm_down jet_scalar fuel d with
  | Some r, Some d' => j_a d' = r /\ forall i, j_v d' i = j_v d i
  | None, None => True
  | _, _ => False
  end.
Proof.
  induction fuel as [|fuel IH]; intros d; cbn [norm_down]; cbn [real_scalar jet_scalar s_val s_T s_sub s_of];
    destruct (Rlt_dec PI (j_a d)) as [LL|LL]; auto.
  specialize (IH (s_sub jet_scalar d (s_of jet_scalar (2 * PI)))). cbn [jet_scalar s_sub s_of j_a j_v] in IH.
  change (s_sub real_scalar (j_a d) (s_of real_scalar (2 * PI))) with (j_a d - 2 * PI).
  cbn [jet_scalar s_sub s_of j_a j_v].
  destruct (norm_down real_scalar fuel (j_a d - 2 * PI)) as [r|];
    destruct (norm_down jet_scalar fuel _) as [d'|]; try contradiction; auto.
  destruct IH as [A B]. split; [exact A|]. intros i. rewrite B. lra.
Qed.
Lemma up_jet fuel : forall d, match norm_up real_scalar fuel (j_a d), norm_up jet_scalar fuel d with
  | Some r, Some d' => j_a d' = r /\ forall i, j_v d' i = j_v d i
  | None, None => True
  | _, _ => False
  end.
Proof.
  induction fuel as [|fuel IH]; intros d; cbn [norm_up]; cbn [real_scalar jet_scalar s_val s_T s_add s_of];
    destruct (Rlt_dec (j_a d) (- PI)) as [LL|LL]; auto.
  specialize (IH (s_add jet_scalar d (s_of jet_scalar (2 * PI)))). cbn [jet_scalar s_add s_of j_a j_v] in IH.
  change (s_add real_scalar (j_a d) (s_of real_scalar (2 * PI))) with (j_a d + 2 * PI).
  cbn [jet_scalar s_add s_of j_a j_v].
  destruct (norm_up real_scalar fuel (j_a d + 2 * PI)) as [r|];
    destruct (norm_up jet_scalar fuel _) as [d'|]; try contradiction; auto.
  destruct IH as [A B]. split; [exact A|]. intros i. rewrite B. lra.
Qed.
Lemma normalize_jet d : exists d', normalize jet_scalar d = Some d' /\
  normalize real_scalar (j_a d) = Some (j_a d') /\ forall i, j_v d' i = j_v d i.
Proof.
  destruct (normalize_ok (j_a d)) as [r [E _]]. rewrite E. revert E. unfold normalize.
  cbn [jet_scalar real_scalar s_val]. set (fuel := Z.to_nat (up (Rabs (j_a d)))).
  pose proof (down_jet fuel d) as D. fold real_scalar jet_scalar.
  destruct (norm_down real_scalar fuel (j_a d)) as [r1|]; [|discriminate].
  destruct (norm_down jet_scalar fuel d) as [d1|]; [|contradiction]. destruct D as [D1 D2]. intros E.
  pose proof (up_jet fuel d1) as U. rewrite D1 in U. rewrite E in U.
  destruct (norm_up jet_scalar fuel d1) as [d2|]; [|contradiction]. destruct U as [U1 U2].
  exists d2. split; [reflexivity|]. split; [now rewrite U1|]. intros i. now rewrite U2, D2.
Qed.

Lemma autodiff_ok rel tw rw a b : exists e,
  autodiff rel tw rw a b = Some e /\
  analytical_residuals rel tw rw a b = Some (mk_vec3 (j_a (v0 e)) (j_a (v1 e)) (j_a (v2 e))) /\
  forall i j, (i < 3)%nat -> (j < 3)%nat ->
    j_v (at_ i e) j = at_ j (at_ i (jacobian0 tw rw a b)) /\
    j_v (at_ i e) (3 + j) = at_ j (at_ i (jacobian1 tw rw a b)).
Proof.
  unfold autodiff, spa_cost, unscaled_error.
  match goal with |- context [normalize jet_scalar ?d] => destruct (normalize_jet d) as [r [E1 [E2 E3]]] end.
  rewrite E1. cbn [jet_scalar s_val s_of s_add s_sub s_mul s_neg s_cos s_sin v0 v1 v2 seed j_a j_v] in E2, E3.
  eexists. split; [reflexivity|]. split.
  - unfold analytical_residuals. rewrite E2. unfold scale_error.
    cbn [jet_scalar s_val s_of s_add s_sub s_mul s_neg s_cos s_sin v0 v1 v2 seed j_a j_v].
    f_equal. f_equal; ring.
  - intros i j Hi Hj.
    assert (I : i = 0%nat \/ i = 1%nat \/ i = 2%nat) by lia.
    assert (J : j = 0%nat \/ j = 1%nat \/ j = 2%nat) by lia.
    destruct I as [-> | [-> | ->]]; destruct J as [-> | [-> | ->]];
      cbn [at_ Nat.add scale_error jacobian0 jacobian1 v0 v1 v2 jet_scalar s_of s_add s_sub s_mul s_neg s_cos s_sin
           seed j_a j_v Nat.eqb]; rewrite ?E3; cbn [Nat.eqb]; split; ring.
Qed.

(* agreement *)
Lemma residuals_some rel tw rw a b : exists r, - PI <= r <= PI /\ same_angle r (v2 rel - (v2 b - v2 a)) /\
  normalize real_scalar (v2 rel - (v2 b - v2 a)) = Some r /\
  analytical_residuals rel tw rw a b = Some (mk_vec3
    (tw * (v0 rel - (cos (v2 a) * (v0 b - v0 a) + sin (v2 a) * (v1 b - v1 a))))
    (tw * (v1 rel - (- sin (v2 a) * (v0 b - v0 a) + cos (v2 a) * (v1 b - v1 a)))) (rw * r)).
Proof.
  unfold analytical_residuals. destruct (normalize_ok (v2 rel - (v2 b - v2 a))) as [r [E [S [B _]]]].
  rewrite E. exists r. auto.
Qed.

Lemma zero_iff rel tw rw a b : tw <> 0 -> rw <> 0 ->
  (analytical_residuals rel tw rw a b = Some (mk_vec3 0 0 0) <->
   v0 b = v0 (compose a rel) /\ v1 b = v1 (compose a rel) /\ same_angle (v2 b) (v2 (compose a rel))).
Proof.
  intros Ht Hr. pose proof pi_big as P.
  destruct (residuals_some rel tw rw a b) as [r [B [S [N E]]]]. rewrite E. cbn [compose v0 v1 v2].
  pose proof (sin2_cos2 (v2 a)) as SC. unfold Rsqr in SC.
  set (c := cos (v2 a)) in *. set (s := sin (v2 a)) in *. split.
  - intros H. injection H as H0 H1 H2.
    apply Rmult_integral in H0 as [H0 | H0]; [contradiction|].
    apply Rmult_integral in H1 as [H1 | H1]; [contradiction|].
    apply Rmult_integral in H2 as [H2 | H2]; [contradiction|].
    assert (X0 : v0 rel = c * (v0 b - v0 a) + s * (v1 b - v1 a)) by lra.
    assert (X1 : v1 rel = - s * (v0 b - v0 a) + c * (v1 b - v1 a)) by lra.
    rewrite X0, X1. split; [|split].
    + replace (v0 b) with (v0 a + (s * s + c * c) * (v0 b - v0 a)) at 1 by (rewrite SC; ring). ring.
    + replace (v1 b) with (v1 a + (s * s + c * c) * (v1 b - v1 a)) at 1 by (rewrite SC; ring). ring.
    + destruct S as [k K]. exists k. lra.
  - intros [H0 [H1 [k K]]]. assert (R0 : r = 0).
    { apply same_angle_unique; [exact B | lra|]. eapply same_angle_trans; [exact S|]. exists (- k)%Z. rewrite opp_IZR. lra. }
    rewrite H0, H1, R0. f_equal. f_equal.
    + replace (v0 rel) with ((s * s + c * c) * v0 rel) at 1 by (rewrite SC; ring). ring.
    + replace (v1 rel) with ((s * s + c * c) * v1 rel) at 1 by (rewrite SC; ring). ring.
    + ring.
Qed.

Lemma gauge_ok g rel tw rw a b :
  analytical_residuals rel tw rw (compose g a) (compose g b) = analytical_residuals rel tw rw a b.
Proof.
  unfold analytical_residuals. cbn [compose v0 v1 v2].
  replace (v2 rel - (v2 g + v2 b - (v2 g + v2 a))) with (v2 rel - (v2 b - v2 a)) by ring.
  destruct (normalize real_scalar _) as [r|]; [|reflexivity].
  rewrite cos_plus, sin_plus. pose proof (sin2_cos2 (v2 g)) as SC. unfold Rsqr in SC.
  set (cg := cos (v2 g)) in *. set (sg := sin (v2 g)) in *. set (c := cos (v2 a)). set (s := sin (v2 a)).
  f_equal. f_equal.
  - replace (c * (v0 b - v0 a) + s * (v1 b - v1 a)) with
      ((sg * sg + cg * cg) * (c * (v0 b - v0 a) + s * (v1 b - v1 a))) by (rewrite SC; ring). ring.
  - replace (- s * (v0 b - v0 a) + c * (v1 b - v1 a)) with
      ((sg * sg + cg * cg) * (- s * (v0 b - v0 a) + c * (v1 b - v1 a))) by (rewrite SC; ring). ring.
Qed.
