(* Jets follow derivatives: what a jet computes is the derivative of what is computed. *)
From Coq Require Import ZArith Reals Lra Lia List.
From Verif Require Import CF_Model RG_Model IG_Model IG_Spec IG_Proofs IG_Smooth IG_Curve.
Open Scope R_scope.

Definition follows (t : R) (i : nat) (F : R -> R) (j : jet) : Prop :=
  F t = j_a j /\ derivable_pt_lim F t (j_v j i).
Lemma follows_of t i r : follows t i (fun _ => r) (s_of jet_scalar r).
Proof. split; [reflexivity | apply derivable_pt_lim_const]. Qed.
Lemma follows_add t i F G a b : follows t i F a -> follows t i G b ->
  follows t i (fun s => F s + G s) (s_add jet_scalar a b).
Proof.
  intros [A A'] [B B']. split; [cbn; now rewrite A, B|]. cbn [jet_scalar s_add j_v].
  now apply (derivable_pt_lim_plus F G).
Qed.
Lemma follows_sub t i F G a b : follows t i F a -> follows t i G b ->
  follows t i (fun s => F s - G s) (s_sub jet_scalar a b).
Proof.
  intros [A A'] [B B']. split; [cbn; now rewrite A, B|]. cbn [jet_scalar s_sub j_v].
  now apply (derivable_pt_lim_minus F G).
Qed.
Lemma follows_mul t i F G a b : follows t i F a -> follows t i G b ->
  follows t i (fun s => F s * G s) (s_mul jet_scalar a b).
Proof.
  intros [A A'] [B B']. split; [cbn; now rewrite A, B|]. cbn [jet_scalar s_mul j_v].
  rewrite <- A, <- B, Rplus_comm. now apply (derivable_pt_lim_mult F G).
Qed.
Lemma follows_neg t i F a : follows t i F a -> follows t i (fun s => - F s) (s_neg jet_scalar a).
Proof.
  intros [A A']. split; [cbn; now rewrite A|]. cbn [jet_scalar s_neg j_v]. now apply (derivable_pt_lim_opp F).
Qed.
Lemma follows_cos t i F a : follows t i F a -> follows t i (fun s => cos (F s)) (s_cos jet_scalar a).
Proof.
  intros [A A']. split; [cbn; now rewrite A|]. cbn [jet_scalar s_cos j_v]. rewrite <- A.
  apply (derivable_pt_lim_comp F cos); [exact A' | apply derivable_pt_lim_cos].
Qed.
Lemma follows_sin t i F a : follows t i F a -> follows t i (fun s => sin (F s)) (s_sin jet_scalar a).
Proof.
  intros [A A']. split; [cbn; now rewrite A|]. cbn [jet_scalar s_sin j_v]. rewrite <- A.
  apply (derivable_pt_lim_comp F sin); [exact A' | apply derivable_pt_lim_sin].
Qed.
(* a seeded parameter follows the parameter it stands for *)
Lemma follows_seed params n m :
  follows (params n) n (fun t => vary params n t m) (seed (params m) m).
Proof.
  unfold vary, seed. split; cbn [j_a j_v].
  - destruct (Nat.eqb_spec m n); [now subst | reflexivity].
  - rewrite (Nat.eqb_sym n m). destruct (Nat.eqb m n); [apply derivable_pt_lim_id | apply derivable_pt_lim_const].
Qed.
Ltac follow := repeat first [ apply follows_add | apply follows_sub | apply follows_mul | apply follows_neg
  | apply follows_cos | apply follows_sin | apply follows_of | apply follows_seed ].

Lemma close_cont r M D x y z : 0 < r -> 0 <= M -> close3 r M D x y z -> cont3 D x y z.
Proof.
  intros Hr HM [d [P Q]] e He.
  set (L := 12 * M / (r * r)) in *.
  assert (L0 : 0 <= L). { apply Rmult_le_pos; [lra|]. left. apply Rinv_0_lt_compat. nra. }
  assert (E : 0 < e / (3 * L + 1)) by (apply Rdiv_lt_0_compat; lra).
  exists (Rmin d (e / (3 * L + 1))). split; [now apply Rmin_pos|]. intros x' y' z' X Y Z.
  pose proof (Rmin_l d (e / (3 * L + 1))). pose proof (Rmin_r d (e / (3 * L + 1))).
  eapply Rle_trans; [apply Q; lra|]. set (m := e / (3 * L + 1)) in *.
  apply Rle_trans with (L * (3 * m)); [apply Rmult_le_compat_l; lra|].
  assert (Em : (3 * L + 1) * m = e) by (unfold m; field; lra). lra.
Qed.
Lemma follows_interpolated g r M t i X Y Z x y z : 0 < r -> (forall a b c, Rabs (g a b c) <= M) ->
  follows t i X x -> follows t i Y y -> follows t i Z z ->
  follows t i (fun s => interpolated real_scalar g r (X s) (Y s) (Z s)) (interpolated jet_scalar g r x y z).
Proof.
  intros Hr Hg [Xa Xv] [Ya Yv] [Za Zv]. destruct (autodiff_ok g r x y z i Hr) as [A V]. split.
  - now rewrite A, Xa, Ya, Za.
  - rewrite V, <- Xa, <- Ya, <- Za. pose proof (M_pos g M Hg).
    apply (along (fun a b c => interpolated real_scalar g r a b c) (dx g r) (dy g r) (dz g r) X Y Z).
    + intros. now apply val_dx.
    + intros. now apply val_dy.
    + intros. now apply val_dz.
    + eapply close_cont; eauto using dx_close.
    + eapply close_cont; eauto using dy_close.
    + eapply close_cont; eauto using dz_close.
    + exact Xv.
    + exact Yv.
    + exact Zv.
Qed.
Lemma follows_world params n point :
  follows (params n) n (fun t => v0 (world_of real_scalar (vary params n t) point))
    (v0 (world_of jet_scalar (fun m => seed (params m) m) point)) /\
  follows (params n) n (fun t => v1 (world_of real_scalar (vary params n t) point))
    (v1 (world_of jet_scalar (fun m => seed (params m) m) point)) /\
  follows (params n) n (fun t => v2 (world_of real_scalar (vary params n t) point))
    (v2 (world_of jet_scalar (fun m => seed (params m) m) point)).
Proof.
  unfold world_of, g_add, g_cross, g_scale. cbn [v0 v1 v2].
  cbn [real_scalar s_add s_sub s_mul s_of].
  split; [|split]; follow.
Qed.
Lemma follows_occupied g r M scaling params n point : 0 < r -> (forall a b c, Rabs (g a b c) <= M) ->
  follows (params n) n (fun t => occupied_residual real_scalar scaling g r (vary params n t) point)
    (occupied_residual jet_scalar scaling g r (fun m => seed (params m) m) point).
Proof.
  intros Hr Hg. destruct (follows_world params n point) as [X [Y Z]].
  pose proof (follows_interpolated g r M _ _ _ _ _ _ _ _ Hr Hg X Y Z) as I.
  unfold occupied_residual. cbn [real_scalar s_sub s_mul s_of].
  apply (follows_mul _ _ (fun _ => scaling)); [apply follows_of|].
  apply (follows_sub _ _ (fun _ => 1)); [apply follows_of | exact I].
Qed.
Lemma follows_intensity g r M scaling threshold params n point v : 0 < r -> (forall a b c, Rabs (g a b c) <= M) ->
  follows (params n) n (fun t => intensity_residual real_scalar scaling threshold g r (vary params n t) point v)
    (intensity_residual jet_scalar scaling threshold g r (fun m => seed (params m) m) point v).
Proof.
  intros Hr Hg. unfold intensity_residual. destruct (Rlt_dec threshold v); [apply follows_of|].
  destruct (follows_world params n point) as [X [Y Z]].
  pose proof (follows_interpolated g r M _ _ _ _ _ _ _ _ Hr Hg X Y Z) as I.
  cbn [real_scalar s_sub s_mul s_of].
  apply (follows_mul _ _ (fun _ => scaling)); [apply follows_of|].
  apply (follows_sub _ _ _ (fun _ => v)); [exact I | apply follows_of].
Qed.
(* the world point is that of the rigid transform *)
Lemma world_apply pose p : world_of real_scalar (pose_params pose) p = r3_apply pose p.
Proof.
  destruct pose as [[tx ty tz] [w x y z]], p as [a b c].
  unfold world_of, g_add, g_cross, g_scale, pose_params, r3_apply, qrot, vadd, vcross, vscale, qvec.
  cbn [v0 v1 v2 qw qx qy qz trans rot real_scalar s_add s_sub s_mul s_of]. reflexivity.
Qed.
