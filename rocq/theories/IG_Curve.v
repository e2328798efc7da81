(* A function of three variables with continuous partial derivatives is differentiable along
   every differentiable curve. *)
From Coq Require Import ZArith Reals Lra Lia.
Open Scope R_scope.

Definition cont3 (D : R -> R -> R -> R) (x y z : R) : Prop :=
  forall e, 0 < e -> exists d, 0 < d /\ forall x' y' z',
    Rabs (x' - x) <= d -> Rabs (y' - y) <= d -> Rabs (z' - z) <= d -> Rabs (D x' y' z' - D x y z) <= e.

Lemma mvt_near f f' a b l e : (forall t, derivable_pt_lim f t (f' t)) ->
  (forall t, Rmin a b <= t <= Rmax a b -> Rabs (f' t - l) <= e) -> Rabs (f b - f a - l * (b - a)) <= e * Rabs (b - a).
Proof.
  intros D C.
  assert (G : forall t, derivable_pt_lim (fun s => f s - l * s) t (f' t - l)).
  { intros t. apply (derivable_pt_lim_minus f (fun s => l * s)); [apply D|].
    pose proof (derivable_pt_lim_scal (fun s => s) l t 1 (derivable_pt_lim_id t)) as Q.
    rewrite Rmult_1_r in Q. exact Q. }
  replace (f b - f a - l * (b - a)) with ((f b - l * b) - (f a - l * a)) by ring.
  destruct (Rtotal_order a b) as [N | [N | N]].
  - destruct (MVT_cor2 (fun s => f s - l * s) (fun t => f' t - l) a b N (fun c _ => G c)) as [c [E B]].
    rewrite E, Rabs_mult. apply Rmult_le_compat_r; [apply Rabs_pos|]. apply C.
    rewrite Rmin_left, Rmax_right by lra. lra.
  - subst. rewrite !Rminus_diag_eq, Rabs_R0 by reflexivity. lra.
  - destruct (MVT_cor2 (fun s => f s - l * s) (fun t => f' t - l) b a N (fun c _ => G c)) as [c [E B]].
    rewrite (Rabs_minus_sym b a). rewrite <- Rabs_Ropp, Ropp_minus_distr. rewrite E, Rabs_mult.
    apply Rmult_le_compat_r; [apply Rabs_pos|]. apply C.
    rewrite Rmin_right, Rmax_left by lra. lra.
Qed.
Lemma between_near a b t d : Rmin a b <= t <= Rmax a b -> Rabs (b - a) <= d -> Rabs (t - a) <= d.
Proof.
  intros [A B] C. unfold Rmin, Rmax, Rabs in *. destruct (Rle_dec a b); destruct (Rcase_abs (b - a)); destruct (Rcase_abs (t - a)); lra.
Qed.
Lemma total (f fx fy fz : R -> R -> R -> R) x y z :
  (forall a b c, derivable_pt_lim (fun t => f t b c) a (fx a b c)) ->
  (forall a b c, derivable_pt_lim (fun t => f a t c) b (fy a b c)) ->
  (forall a b c, derivable_pt_lim (fun t => f a b t) c (fz a b c)) ->
  cont3 fx x y z -> cont3 fy x y z -> cont3 fz x y z ->
  forall e, 0 < e -> exists d, 0 < d /\ forall x' y' z',
    Rabs (x' - x) <= d -> Rabs (y' - y) <= d -> Rabs (z' - z) <= d ->
    Rabs (f x' y' z' - f x y z - (fx x y z * (x' - x) + fy x y z * (y' - y) + fz x y z * (z' - z)))
    <= e * (Rabs (x' - x) + Rabs (y' - y) + Rabs (z' - z)).
Proof.
  intros Dx Dy Dz Cx Cy Cz e He.
  destruct (Cx e He) as [d1 [P1 Q1]]. destruct (Cy e He) as [d2 [P2 Q2]]. destruct (Cz e He) as [d3 [P3 Q3]].
  exists (Rmin d1 (Rmin d2 d3)). split; [repeat apply Rmin_pos; assumption|]. intros x' y' z' X Y Z.
  pose proof (Rmin_l d1 (Rmin d2 d3)). pose proof (Rmin_r d1 (Rmin d2 d3)).
  pose proof (Rmin_l d2 d3). pose proof (Rmin_r d2 d3).
  assert (Z0 : forall d v, 0 < d -> Rabs (v - v) <= d) by (intros; rewrite Rminus_diag_eq, Rabs_R0 by reflexivity; lra).
  assert (E1 : Rabs (f x' y' z' - f x y' z' - fx x y z * (x' - x)) <= e * Rabs (x' - x)).
  { apply (mvt_near (fun t => f t y' z') (fun t => fx t y' z')); [intros; apply Dx|].
    intros t T. apply Q1; try lra. eapply between_near; [exact T | lra]. }
  assert (E2 : Rabs (f x y' z' - f x y z' - fy x y z * (y' - y)) <= e * Rabs (y' - y)).
  { apply (mvt_near (fun t => f x t z') (fun t => fy x t z')); [intros; apply Dy|].
    intros t T. apply Q2; [now apply Z0 | | lra]. eapply between_near; [exact T | lra]. }
  assert (E3 : Rabs (f x y z' - f x y z - fz x y z * (z' - z)) <= e * Rabs (z' - z)).
  { apply (mvt_near (fun t => f x y t) (fun t => fz x y t)); [intros; apply Dz|].
    intros t T. apply Q3; [now apply Z0 | now apply Z0 |]. eapply between_near; [exact T | lra]. }
  replace (f x' y' z' - f x y z - (fx x y z * (x' - x) + fy x y z * (y' - y) + fz x y z * (z' - z))) with
    ((f x' y' z' - f x y' z' - fx x y z * (x' - x)) + (f x y' z' - f x y z' - fy x y z * (y' - y))
     + (f x y z' - f x y z - fz x y z * (z' - z))) by ring.
  eapply Rle_trans; [apply Rabs_triang|]. eapply Rle_trans; [apply Rplus_le_compat_r, Rabs_triang|]. lra.
Qed.

Lemma deriv_bound a t a' : derivable_pt_lim a t a' -> forall d, 0 < d -> exists h0, 0 < h0 /\
  forall h, h <> 0 -> Rabs h < h0 -> Rabs (a (t + h) - a t) <= (Rabs a' + 1) * Rabs h /\ Rabs (a (t + h) - a t) <= d.
Proof.
  intros D d Hd. destruct (D 1 Rlt_0_1) as [h1 H1].
  assert (P : 0 < Rabs a' + 1) by (pose proof (Rabs_pos a'); lra).
  exists (Rmin h1 (d / (Rabs a' + 1))). split.
  { apply Rmin_pos; [apply (cond_pos h1) | now apply Rdiv_lt_0_compat]. }
  intros h N L. pose proof (Rmin_l h1 (d / (Rabs a' + 1))). pose proof (Rmin_r h1 (d / (Rabs a' + 1))).
  assert (B : Rabs (a (t + h) - a t) <= (Rabs a' + 1) * Rabs h).
  { pose proof (H1 h N ltac:(lra)) as Q.
    replace (a (t + h) - a t) with ((a' + ((a (t + h) - a t) / h - a')) * h) by (field; exact N).
    rewrite Rabs_mult. apply Rmult_le_compat_r; [apply Rabs_pos|].
    eapply Rle_trans; [apply Rabs_triang|]. lra. }
  split; [exact B|]. eapply Rle_trans; [exact B|].
  apply Rle_trans with ((Rabs a' + 1) * (d / (Rabs a' + 1))); [apply Rmult_le_compat_l; lra|].
  apply Req_le. field. lra.
Qed.
Lemma along (f fx fy fz : R -> R -> R -> R) (a b c : R -> R) t a' b' c' :
  (forall a b c, derivable_pt_lim (fun t => f t b c) a (fx a b c)) ->
  (forall a b c, derivable_pt_lim (fun t => f a t c) b (fy a b c)) ->
  (forall a b c, derivable_pt_lim (fun t => f a b t) c (fz a b c)) ->
  cont3 fx (a t) (b t) (c t) -> cont3 fy (a t) (b t) (c t) -> cont3 fz (a t) (b t) (c t) ->
  derivable_pt_lim a t a' -> derivable_pt_lim b t b' -> derivable_pt_lim c t c' ->
  derivable_pt_lim (fun s => f (a s) (b s) (c s)) t
    (fx (a t) (b t) (c t) * a' + fy (a t) (b t) (c t) * b' + fz (a t) (b t) (c t) * c').
Proof.
  intros Dx Dy Dz Cx Cy Cz A B C e He.
  set (K := Rabs a' + 1 + (Rabs b' + 1) + (Rabs c' + 1)).
  assert (Kp : 0 < K) by (unfold K; pose proof (Rabs_pos a'); pose proof (Rabs_pos b'); pose proof (Rabs_pos c'); lra).
  assert (E2 : 0 < e / (2 * K)) by (apply Rdiv_lt_0_compat; lra).
  destruct (total f fx fy fz _ _ _ Dx Dy Dz Cx Cy Cz (e / (2 * K)) E2) as [d [Hd T]].
  set (p := fx (a t) (b t) (c t)) in *. set (q := fy (a t) (b t) (c t)) in *. set (r := fz (a t) (b t) (c t)) in *.
  destruct (deriv_bound a t a' A d Hd) as [h1 [P1 Q1]]. destruct (deriv_bound b t b' B d Hd) as [h2 [P2 Q2]].
  destruct (deriv_bound c t c' C d Hd) as [h3 [P3 Q3]].
  assert (L : derivable_pt_lim (fun s => p * a s + q * b s + r * c s) t (p * a' + q * b' + r * c')).
  { apply (derivable_pt_lim_plus (fun s => p * a s + q * b s) (fun s => r * c s)).
    - apply (derivable_pt_lim_plus (fun s => p * a s) (fun s => q * b s)); now apply derivable_pt_lim_scal.
    - now apply derivable_pt_lim_scal. }
  destruct (L (e / 2) ltac:(lra)) as [h4 Q4].
  assert (M : 0 < Rmin (Rmin h1 h2) (Rmin h3 h4)).
  { repeat apply Rmin_pos; try assumption. apply (cond_pos h4). }
  exists (mkposreal _ M). cbn [pos]. intros h N Hh.
  pose proof (Rmin_l (Rmin h1 h2) (Rmin h3 h4)). pose proof (Rmin_r (Rmin h1 h2) (Rmin h3 h4)).
  pose proof (Rmin_l h1 h2). pose proof (Rmin_r h1 h2). pose proof (Rmin_l h3 h4). pose proof (Rmin_r h3 h4).
  destruct (Q1 h N ltac:(lra)) as [A1 A2]. destruct (Q2 h N ltac:(lra)) as [B1 B2].
  destruct (Q3 h N ltac:(lra)) as [C1 C2]. pose proof (Q4 h N ltac:(lra)) as L4.
  pose proof (T _ _ _ A2 B2 C2) as T'.
  assert (Ah : 0 < Rabs h) by now apply Rabs_pos_lt.
  set (F' := f (a (t + h)) (b (t + h)) (c (t + h))) in *. set (F := f (a t) (b t) (c t)) in *.
  assert (S : Rabs (a (t + h) - a t) + Rabs (b (t + h) - b t) + Rabs (c (t + h) - c t) <= K * Rabs h)
    by (unfold K; lra).
  set (err := F' - F - (p * (a (t + h) - a t) + q * (b (t + h) - b t) + r * (c (t + h) - c t))) in *.
  assert (Er : Rabs (err / h) <= e / 2).
  { unfold Rdiv. rewrite Rabs_mult, Rabs_inv by exact N || idtac.
    apply Rmult_le_reg_r with (Rabs h); [exact Ah|]. rewrite Rmult_assoc, Rinv_l by lra.
    rewrite Rmult_1_r. eapply Rle_trans; [exact T'|].
    apply Rle_trans with (e / (2 * K) * (K * Rabs h)); [apply Rmult_le_compat_l; lra|].
    apply Req_le. field. lra. }
  replace ((F' - F) / h - (p * a' + q * b' + r * c')) with
    (err / h + ((p * a (t + h) + q * b (t + h) + r * c (t + h) - (p * a t + q * b t + r * c t)) / h
      - (p * a' + q * b' + r * c'))) by (unfold err; field; exact N).
  eapply Rle_lt_trans; [apply Rabs_triang|]. lra.
Qed.
