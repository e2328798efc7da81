(* C68: the interpolated grid of the 3D scan matcher. *)
From Coq Require Import ZArith Reals Lra Lia List.
From Verif Require Import CF_Model RG_Model IG_Model IG_Spec IG_Proofs IG_Smooth IG_Curve IG_Jet.
Import ListNotations.
Open Scope R_scope.

(* the value, and its derivatives as ceres computes them *)
Notation value g r x y z := (interpolated real_scalar g r x y z).
Definition autodiff_at (g : voxels) (r x y z : R) : jet :=
  interpolated jet_scalar g r (seed x 0) (seed y 1) (seed z 2).
Definition grad (i : nat) (g : voxels) (r x y z : R) : R := j_v (autodiff_at g r x y z) i.

Lemma grad_0 g r x y z : 0 < r -> grad 0 g r x y z = dx g r x y z.
Proof. intros H. unfold grad, autodiff_at. destruct (autodiff_ok g r (seed x 0) (seed y 1) (seed z 2) 0 H) as [_ E].
  rewrite E. unfold seed. cbn [j_a j_v Nat.eqb]. ring. Qed.
Lemma grad_1 g r x y z : 0 < r -> grad 1 g r x y z = dy g r x y z.
Proof. intros H. unfold grad, autodiff_at. destruct (autodiff_ok g r (seed x 0) (seed y 1) (seed z 2) 1 H) as [_ E].
  rewrite E. unfold seed. cbn [j_a j_v Nat.eqb]. ring. Qed.
Lemma grad_2 g r x y z : 0 < r -> grad 2 g r x y z = dz g r x y z.
Proof. intros H. unfold grad, autodiff_at. destruct (autodiff_ok g r (seed x 0) (seed y 1) (seed z 2) 2 H) as [_ E].
  rewrite E. unfold seed. cbn [j_a j_v Nat.eqb]. ring. Qed.

Lemma occupied_real scaling g r pose p : occupied_residual real_scalar scaling g r (pose_params pose) p =
  scaling * (1 - value g r (v0 (r3_apply pose p)) (v1 (r3_apply pose p)) (v2 (r3_apply pose p))).
Proof. unfold occupied_residual. rewrite world_apply. reflexivity. Qed.
Lemma intensity_real scaling threshold g r pose p v :
  intensity_residual real_scalar scaling threshold g r (pose_params pose) p v =
  if Rlt_dec threshold v then 0
  else scaling * (value g r (v0 (r3_apply pose p)) (v1 (r3_apply pose p)) (v2 (r3_apply pose p)) - v).
Proof. unfold intensity_residual. rewrite world_apply. reflexivity. Qed.

(* CenterOfLowerVoxel returns what its comment says *)
Theorem C68_lower r x : 0 < r -> exists k, center_of_lower r x = IZR k * r /\ largest_below r x k /\
  cell_index r (center_of_lower r x) = k.
Proof.
  intros H. exists (low r x). rewrite lower_low by exact H. split; [reflexivity|]. split.
  - now apply low_largest.
  - now apply index_center.
Qed.
Example C68_lower_ex : center_of_lower (1 / 10) (-27 / 100) = -3 * (1 / 10).
Proof.
  rewrite lower_low by lra. unfold center_of_cell. rewrite (low_unique (1 / 10) _ (-3)) by lra. reflexivity.
Qed.

(* it interpolates: the value at the centre of a voxel is that of the voxel *)
Theorem C68_interpolates g r i j k : 0 < r -> value g r (IZR i * r) (IZR j * r) (IZR k * r) = g i j k.
Proof. intros H. rewrite interpolated_form, !lerp_center by exact H. reflexivity. Qed.

(* the value is between those of the eight voxels around the point *)
Theorem C68_bounds g r x y z lo hi : 0 < r -> around_within g r x y z lo hi -> lo <= value g r x y z <= hi.
Proof.
  intros H A. rewrite interpolated_form by exact H.
  assert (L : forall u, largest_below r u (low r u)) by (intros; now apply low_largest).
  pose proof (fun a b c => A _ _ _ a b c (L x) (L y) (L z)) as B.
  assert (O0 : (0 = 0 \/ 0 = 1)%Z) by lia. assert (O1 : (1 = 0 \/ 1 = 1)%Z) by lia.
  pose proof (B 0 0 0 O0 O0 O0)%Z as B1. pose proof (B 0 0 1 O0 O0 O1)%Z as B2.
  pose proof (B 0 1 0 O0 O1 O0)%Z as B3. pose proof (B 0 1 1 O0 O1 O1)%Z as B4.
  pose proof (B 1 0 0 O1 O0 O0)%Z as B5. pose proof (B 1 0 1 O1 O0 O1)%Z as B6.
  pose proof (B 1 1 0 O1 O1 O0)%Z as B7. pose proof (B 1 1 1 O1 O1 O1)%Z as B8.
  rewrite ?Z.add_0_r in *. repeat (apply lerp_bounds; try assumption).
Qed.
(* halfway between an occupied and a free voxel *)
Definition one_voxel : voxels := fun i j k =>
  if (Z.eqb i 0 && Z.eqb j 0 && Z.eqb k 0)%bool then 9 / 10 else 1 / 10.
Example C68_halfway : value one_voxel (1 / 2) (1 / 4) 0 0 = 1 / 2.
Proof.
  rewrite interpolated_form by lra. unfold lerp, frac.
  rewrite (low_unique (1 / 2) (1 / 4) 0), (low_unique (1 / 2) 0 0) by lra.
  cbn [one_voxel Z.eqb Z.add andb]. unfold step_poly. lra.
Qed.

(* the value is differentiable, and its derivatives are those of ceres, continuous in all
   three coordinates together *)
Theorem C68_derivative g r x y z : 0 < r ->
  j_a (autodiff_at g r x y z) = value g r x y z /\
  derivable_pt_lim (fun t => value g r t y z) x (grad 0 g r x y z) /\
  derivable_pt_lim (fun t => value g r x t z) y (grad 1 g r x y z) /\
  derivable_pt_lim (fun t => value g r x y t) z (grad 2 g r x y z).
Proof.
  intros H. rewrite grad_0, grad_1, grad_2 by exact H. repeat split.
  - now apply val_dx.
  - now apply val_dy.
  - now apply val_dz.
Qed.
Theorem C68_chain_rule g r x y z i : 0 < r ->
  j_v (interpolated jet_scalar g r x y z) i =
    grad 0 g r (j_a x) (j_a y) (j_a z) * j_v x i + grad 1 g r (j_a x) (j_a y) (j_a z) * j_v y i
    + grad 2 g r (j_a x) (j_a y) (j_a z) * j_v z i.
Proof. intros H. rewrite grad_0, grad_1, grad_2 by exact H. now apply autodiff_ok. Qed.
Theorem C68_continuous_derivative g r M x y z n : 0 < r -> (forall i j k, Rabs (g i j k) <= M) -> (n < 3)%nat ->
  exists d, 0 < d /\ forall x' y' z', Rabs (x' - x) <= d -> Rabs (y' - y) <= d -> Rabs (z' - z) <= d ->
    Rabs (grad n g r x' y' z' - grad n g r x y z)
    <= 12 * M / (r * r) * (Rabs (x' - x) + Rabs (y' - y) + Rabs (z' - z)).
Proof.
  intros H B N. destruct n as [|[|[|n]]]; [| | | lia].
  - destruct (dx_close g r M H B x y z) as [d [D E]]. exists d. split; [exact D|]. intros.
    rewrite !grad_0 by exact H. now apply E.
  - destruct (dy_close g r M H B x y z) as [d [D E]]. exists d. split; [exact D|]. intros.
    rewrite !grad_1 by exact H. now apply E.
  - destruct (dz_close g r M H B x y z) as [d [D E]]. exists d. split; [exact D|]. intros.
    rewrite !grad_2 by exact H. now apply E.
Qed.
(* the derivative vanishes at the centres, even on the planes through them *)
Theorem C68_flat g r k x y z : 0 < r ->
  grad 0 g r (IZR k * r) y z = 0 /\ grad 1 g r x (IZR k * r) z = 0 /\ grad 2 g r x y (IZR k * r) = 0.
Proof.
  intros H. rewrite grad_0, grad_1, grad_2 by exact H.
  assert (E : forall A, dlerp A r (IZR k * r) = 0).
  { intros A. rewrite (dlerp_piece A r _ k) by lra. unfold dpiece. field. lra. }
  unfold dx, dy, dz. repeat split.
  - apply E.
  - unfold lerp at 1. rewrite !E. ring.
  - unfold lerp at 1. unfold lerp at 1 2 3. rewrite !E. ring.
Qed.
Example C68_slope : grad 0 one_voxel (1 / 2) (1 / 4) 0 0 = - (12 / 5).
Proof.
  rewrite grad_0 by lra. unfold dx, dlerp, lerp, frac.
  rewrite (low_unique (1 / 2) (1 / 4) 0), (low_unique (1 / 2) 0 0) by lra.
  cbn [one_voxel Z.eqb Z.add andb]. unfold step_poly. lra.
Qed.
(* the value changes at most proportionally to the distance *)
Theorem C68_lipschitz g r M x y z x' y' z' : 0 < r -> (forall i j k, Rabs (g i j k) <= M) ->
  Rabs (value g r x' y' z' - value g r x y z) <= 3 * M / r * (Rabs (x' - x) + Rabs (y' - y) + Rabs (z' - z)).
Proof. intros H B. now apply move3. Qed.
(* along each axis, between neighbouring centres, it moves strictly monotonically from the
   value at the one to that at the other *)
Theorem C68_monotone g r k u v s t : 0 < r -> IZR k * r <= s -> s < t -> t <= (IZR k + 1) * r ->
  (exists c, 0 < c /\ value g r t u v - value g r s u v =
     c * (value g r (IZR (k + 1) * r) u v - value g r (IZR k * r) u v)) /\
  (exists c, 0 < c /\ value g r u t v - value g r u s v =
     c * (value g r u (IZR (k + 1) * r) v - value g r u (IZR k * r) v)) /\
  (exists c, 0 < c /\ value g r u v t - value g r u v s =
     c * (value g r u v (IZR (k + 1) * r) - value g r u v (IZR k * r))).
Proof.
  intros H A B C. split; [now apply move_x | split; [now apply move_y | now apply move_z]].
Qed.

(* the occupied space cost: one residual per point, between those of the most and least
   occupied voxels; less in more occupied space *)
Theorem C68_occupied_space scaling g r lo hi pose points : 0 < r -> 0 <= scaling ->
  (forall i j k, lo <= g i j k <= hi) ->
  length (occupied_space_cost scaling g r pose points) = length points /\
  Forall (fun e => scaling * (1 - hi) <= e <= scaling * (1 - lo)) (occupied_space_cost scaling g r pose points).
Proof.
  intros H S B. split; [apply map_length|]. apply Forall_forall. intros e E.
  apply in_map_iff in E. destruct E as [p [<- _]]. rewrite occupied_real.
  set (w := r3_apply pose p).
  assert (V : lo <= value g r (v0 w) (v1 w) (v2 w) <= hi).
  { apply C68_bounds; [exact H|]. intros i j k a b c _ _ _ _ _ _. apply B. }
  change (s_T real_scalar) with R in V |- *.
  set (v := value g r (v0 w) (v1 w) (v2 w)) in *. split; apply Rmult_le_compat_l; lra.
Qed.
Theorem C68_occupied_space_at scaling g r pose points n p i j k : 0 < r -> nth_error points n = Some p ->
  r3_apply pose p = mk_vec3 (IZR i * r) (IZR j * r) (IZR k * r) ->
  nth_error (occupied_space_cost scaling g r pose points) n = Some (scaling * (1 - g i j k)).
Proof.
  intros H N E. unfold occupied_space_cost. rewrite (map_nth_error _ _ _ N), occupied_real, E.
  cbn [v0 v1 v2]. rewrite C68_interpolates by exact H. reflexivity.
Qed.

(* the Jacobians that ceres computes are the derivatives of the residuals by each of the seven
   parameters, at all parameters, also where the rotation is not normalized *)
Theorem C68_jacobian scaling g r M params point n : 0 < r -> (forall i j k, Rabs (g i j k) <= M) ->
  let e := occupied_residual jet_scalar scaling g r (fun m => seed (params m) m) point in
  j_a e = occupied_residual real_scalar scaling g r params point /\ derivable_pt_lim (fun t => occupied_residual real_scalar scaling g r (vary params n t) point) (params n) (j_v e n).
Proof.
  intros H B e. destruct (follows_occupied g r M scaling params n point H B) as [A V]. split; [|exact V].
  unfold e. rewrite <- A. unfold occupied_residual, world_of, vary.
  assert (E : forall m, (if Nat.eqb m n then params n else params m) = params m)
    by (intros m; destruct (Nat.eqb_spec m n); [now subst | reflexivity]).
  now rewrite !E.
Qed.
Theorem C68_intensity_jacobian scaling threshold g r M params point v n : 0 < r ->
  (forall i j k, Rabs (g i j k) <= M) ->
  let e := intensity_residual jet_scalar scaling threshold g r (fun m => seed (params m) m) point v in
  j_a e = intensity_residual real_scalar scaling threshold g r params point v /\
  derivable_pt_lim (fun t => intensity_residual real_scalar scaling threshold g r (vary params n t) point v)
    (params n) (j_v e n).
Proof.
  intros H B e. destruct (follows_intensity g r M scaling threshold params n point v H B) as [A V].
  split; [|exact V]. unfold e. rewrite <- A. unfold intensity_residual, world_of, vary.
  assert (E : forall m, (if Nat.eqb m n then params n else params m) = params m)
    by (intros m; destruct (Nat.eqb_spec m n); [now subst | reflexivity]).
  destruct (Rlt_dec threshold v); [reflexivity|]. now rewrite !E.
Qed.
(* halfway out of the occupied voxel, moving along x *)
Example C68_jacobian_ex : derivable_pt_lim
  (fun t => occupied_residual real_scalar 10 one_voxel (1 / 2) (vary (pose_params r3_id) 0 t) (mk_vec3 (1 / 4) 0 0)) 0 24.
Proof.
  assert (B : forall i j k, Rabs (one_voxel i j k) <= 1).
  { intros. unfold one_voxel. destruct (_ && _)%bool; rewrite Rabs_pos_eq; lra. }
  destruct (C68_jacobian 10 one_voxel (1 / 2) 1 (pose_params r3_id) (mk_vec3 (1 / 4) 0 0) 0 ltac:(lra) B) as [_ D].
  change (pose_params r3_id 0) with 0 in D.
  match type of D with derivable_pt_lim _ _ ?l => replace l with 24 in D; [exact D|] end.
  unfold occupied_residual. cbn [jet_scalar s_mul s_sub s_of j_v j_a].
  change (mk_scalar _ _ _ _ _ _ _ _ _) with jet_scalar.
  rewrite (C68_chain_rule one_voxel (1 / 2)) by lra.
  unfold world_of, g_add, g_cross, g_scale, pose_params, seed, r3_id, q_one, v_zero.
  cbn [jet_scalar s_of s_add s_sub s_mul v0 v1 v2 j_a j_v qw qx qy qz trans rot Nat.eqb].
  match goal with |- context [grad 0 one_voxel (1 / 2) ?a ?b ?c] =>
    replace a with (1 / 4) by lra; replace b with 0 by lra; replace c with 0 by lra end.
  rewrite C68_slope. lra.
Qed.
(* along any differentiable curve, the derivative of the value is the one of the jets that
   follow the curve *)
Theorem C68_curve g r M a b c t a' b' c' i x y z : 0 < r -> (forall i j k, Rabs (g i j k) <= M) ->
  derivable_pt_lim a t a' -> derivable_pt_lim b t b' -> derivable_pt_lim c t c' ->
  j_a x = a t -> j_a y = b t -> j_a z = c t -> j_v x i = a' -> j_v y i = b' -> j_v z i = c' ->
  derivable_pt_lim (fun s => value g r (a s) (b s) (c s)) t (j_v (interpolated jet_scalar g r x y z) i).
Proof.
  intros H B A1 A2 A3 X Y Z X' Y' Z'. subst a' b' c'.
  apply (follows_interpolated g r M t i a b c x y z H B); split; auto.
Qed.

(* the intensity cost: creating it requires intensities; then one residual per point, zero
   above the threshold, otherwise the scaled difference to a value between the intensities of
   the grid *)
Theorem C68_intensity scaling threshold g r lo hi pose points intensities : 0 < r -> 0 <= scaling ->
  (forall i j k, lo <= g i j k <= hi) -> length intensities = length points -> points <> [] ->
  exists rs, intensity_cost scaling threshold g r pose points intensities = Some rs /\
    length rs = length points /\
    forall n e v, nth_error rs n = Some e -> nth_error intensities n = Some v ->
      (threshold < v -> e = 0) /\
      (v <= threshold -> scaling * (lo - v) <= e <= scaling * (hi - v)).
Proof.
  intros H S B L N. unfold intensity_cost.
  destruct intensities as [|v0' is'] eqn:EI; [destruct points; [contradiction | discriminate]|].
  rewrite <- EI in *. clear EI v0' is' N. revert intensities L.
  induction points as [|p ps IH]; intros [|v is] L; try discriminate.
  - exists []. cbn. repeat split; auto. all: destruct n; discriminate.
  - cbn [intensity_residuals]. destruct (IH is) as [rs [E [El F]]]; [now injection L|]. rewrite E.
    eexists. split; [reflexivity|]. split; [cbn [length]; now rewrite El|].
    intros [|n] e u En Eu; cbn [nth_error] in En, Eu; [|now apply (F n)].
    injection Eu as <-. apply (f_equal (fun o => match o with Some t => t | None => 0 end)) in En. cbn beta iota in En.
    rewrite intensity_real in En.
    destruct (Rlt_dec threshold v); split; intros T; try lra.
    set (w := r3_apply pose p) in *.
    assert (V : lo <= value g r (v0 w) (v1 w) (v2 w) <= hi).
    { apply C68_bounds; [exact H|]. intros i j k a b c _ _ _ _ _ _. apply B. }
    change (s_T real_scalar) with R in V, En.
    rewrite <- En. set (t := value g r (v0 w) (v1 w) (v2 w)) in *. split; apply Rmult_le_compat_l; lra.
Qed.
Theorem C68_intensity_required scaling threshold g r pose points :
  intensity_cost scaling threshold g r pose points [] = None.
Proof. reflexivity. Qed.
(* a voxel of the intensity grid has an average of what was added to it, or zero *)
Theorem C68_average l lo hi : (l = [] -> get_intensity (fold_left add_intensity l empty_cell) = 0) /\
  (l <> [] -> Forall (fun v => lo <= v <= hi) l ->
   lo <= get_intensity (fold_left add_intensity l empty_cell) <= hi).
Proof.
  split.
  - intros ->. cbn. destruct (Z.eq_dec 0 0); [reflexivity | contradiction].
  - apply observed_bounds.
Qed.
Example C68_average_ex : get_intensity (fold_left add_intensity [10; 30; 50] empty_cell) = 30.
Proof. cbn. destruct (Z.eq_dec 3 0); [discriminate|]. lra. Qed.

(* two points, one in the occupied voxel and one halfway out of it; the second has an
   intensity above the threshold *)
Lemma identity_apply p : r3_apply r3_id p = p.
Proof. destruct p. unfold r3_apply, r3_id, qrot, q_one, v_zero, vadd, vcross, vscale, qvec. cbn. f_equal; ring. Qed.
Example C68_occupied_ex :
  occupied_space_cost 10 one_voxel (1 / 2) r3_id [mk_vec3 0 0 0; mk_vec3 (1 / 4) 0 0] = [1; 5].
Proof.
  unfold occupied_space_cost. cbn [map]. rewrite !occupied_real, !identity_apply. cbn [v0 v1 v2]. rewrite C68_halfway.
  pose proof (C68_interpolates one_voxel (1 / 2) 0 0 0 ltac:(lra)) as E. rewrite Rmult_0_l in E. rewrite E.
  cbn [one_voxel Z.eqb andb]. f_equal; [lra|]. f_equal. lra.
Qed.
Example C68_intensity_ex :
  intensity_cost 10 40 one_voxel (1 / 2) r3_id [mk_vec3 (1 / 4) 0 0; mk_vec3 0 0 0] [30; 50] = Some [-295; 0].
Proof.
  unfold intensity_cost. cbn [intensity_residuals]. rewrite !intensity_real, !identity_apply. cbn [v0 v1 v2]. rewrite C68_halfway.
  destruct (Rlt_dec 40 30); [lra|]. destruct (Rlt_dec 40 50); [|lra]. f_equal. f_equal. lra.
Qed.

Print Assumptions C68_lower.
Print Assumptions C68_interpolates.
Print Assumptions C68_bounds.
Print Assumptions C68_derivative.
Print Assumptions C68_chain_rule.
Print Assumptions C68_continuous_derivative.
Print Assumptions C68_flat.
Print Assumptions C68_lipschitz.
Print Assumptions C68_monotone.
Print Assumptions C68_occupied_space.
Print Assumptions C68_occupied_space_at.
Print Assumptions C68_jacobian.
Print Assumptions C68_intensity_jacobian.
Print Assumptions C68_curve.
Print Assumptions C68_intensity.
Print Assumptions C68_intensity_required.
Print Assumptions C68_average.
