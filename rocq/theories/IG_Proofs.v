From Coq Require Import ZArith Reals Lra Lia List.
From Verif Require Import CF_Model RG_Model IG_Model IG_Spec.
Import ListNotations.
Open Scope R_scope.

Lemma floor_spec x : IZR (Int_part x) <= x < IZR (Int_part x) + 1.
Proof. destruct (base_Int_part x). lra. Qed.
Lemma floor_unique x k : IZR k <= x < IZR k + 1 -> Int_part x = k.
Proof.
  intros [A B]. destruct (floor_spec x) as [C D].
  assert (IZR k < IZR (Int_part x) + 1) by lra. assert (IZR (Int_part x) < IZR k + 1) by lra.
  rewrite <- plus_IZR in *. apply lt_IZR in H, H0. lia.
Qed.
Lemma floor_Z k : Int_part (IZR k) = k.
Proof. apply floor_unique. lra. Qed.
Lemma lround_near x : IZR (lround x) - 1 / 2 <= x <= IZR (lround x) + 1 / 2.
Proof.
  unfold lround. destruct (Rle_dec 0 x).
  - pose proof (floor_spec (x + 1 / 2)). lra.
  - rewrite opp_IZR. pose proof (floor_spec (- x + 1 / 2)). lra.
Qed.
Lemma lround_Z k : lround (IZR k) = k.
Proof.
  pose proof (lround_near (IZR k)) as [A B].
  assert (IZR (lround (IZR k)) < IZR k + 1) by lra. assert (IZR k < IZR (lround (IZR k)) + 1) by lra.
  rewrite <- plus_IZR in *. apply lt_IZR in H, H0. lia.
Qed.
Definition low (r x : R) : Z := Int_part (x / r).
Lemma low_spec r x : 0 < r -> IZR (low r x) * r <= x < (IZR (low r x) + 1) * r.
Proof.
  intros H. unfold low. destruct (floor_spec (x / r)) as [A B].
  assert (E : x = x / r * r) by (field; lra). split.
  - rewrite E at 2. apply Rmult_le_compat_r; lra.
  - rewrite E at 1. apply Rmult_lt_compat_r; lra.
Qed.
Lemma low_unique r x k : 0 < r -> IZR k * r <= x < (IZR k + 1) * r -> low r x = k.
Proof.
  intros H [A B]. unfold low. apply floor_unique. split.
  - apply Rmult_le_reg_r with r; [lra|]. unfold Rdiv. rewrite Rmult_assoc, Rinv_l by lra. lra.
  - apply Rmult_lt_reg_r with r; [lra|]. unfold Rdiv. rewrite Rmult_assoc, Rinv_l by lra. lra.
Qed.
Lemma low_largest r x k : 0 < r -> largest_below r x k <-> low r x = k.
Proof.
  intros H. destruct (low_spec r x H) as [A B]. split.
  - intros [C D]. apply Z.le_antisymm.
    + apply D. exact A.
    + assert (IZR k * r < (IZR (low r x) + 1) * r) by lra.
      apply Rmult_lt_reg_r in H0; [|lra]. rewrite <- plus_IZR in H0. apply lt_IZR in H0. lia.
  - intros <-. split; [exact A|]. intros j C.
    assert (IZR j * r < (IZR (low r x) + 1) * r) by lra.
    apply Rmult_lt_reg_r in H0; [|lra]. rewrite <- plus_IZR in H0. apply lt_IZR in H0. lia.
Qed.
Lemma index_center r k : 0 < r -> cell_index r (center_of_cell r k) = k.
Proof.
  intros H. unfold cell_index, center_of_cell. replace (IZR k * r / r) with (IZR k) by (field; lra).
  apply lround_Z.
Qed.
Lemma lower_low r x : 0 < r -> center_of_lower r x = center_of_cell r (low r x).
Proof.
  intros H. unfold center_of_lower.
  set (c := cell_index r x).
  assert (N : IZR c * r - r / 2 <= x <= IZR c * r + r / 2).
  { unfold c, cell_index. destruct (lround_near (x / r)) as [A B].
    assert (E : x / r * r = x) by (field; lra).
    apply Rmult_le_compat_r with (r := r) in A, B; [|lra|lra]. rewrite E in A, B. lra. }
  unfold center_of_cell. destruct (Rlt_dec x (IZR c * r)).
  - rewrite (low_unique r x (c - 1)) by (rewrite ?minus_IZR; lra). rewrite minus_IZR. lra.
  - rewrite (low_unique r x c) by lra. reflexivity.
Qed.

(* one dimension *)
Definition step_poly (t : R) : R := 3 * (t * t) - 2 * (t * t * t).
Definition frac (r x : R) : R := x / r - IZR (low r x).
Definition lerp (A : Z -> R) (r x : R) : R :=
  A (low r x) + (A (low r x + 1)%Z - A (low r x)) * step_poly (frac r x).
Definition dlerp (A : Z -> R) (r x : R) : R :=
  (A (low r x + 1)%Z - A (low r x)) * (6 * frac r x * (1 - frac r x)) / r.
Lemma frac_range r x : 0 < r -> 0 <= frac r x < 1.
Proof. intros H. unfold frac, low. pose proof (floor_spec (x / r)). lra. Qed.
Lemma step_range t : 0 <= t <= 1 -> 0 <= step_poly t <= 1.
Proof.
  intros H. unfold step_poly. split.
  - replace (3 * (t * t) - 2 * (t * t * t)) with (t * t * (3 - 2 * t)) by ring. apply Rmult_le_pos; nra.
  - assert (0 <= (1 - t) * (1 - t) * (1 + 2 * t)) by (apply Rmult_le_pos; nra). nra.
Qed.
Lemma step_lt s t : 0 <= s -> s < t -> t <= 1 -> step_poly s < step_poly t.
Proof.
  intros A B C. unfold step_poly.
  assert (E : 3 * (t * t) - 2 * (t * t * t) - (3 * (s * s) - 2 * (s * s * s))
    = (t - s) * (3 * (t + s) - 2 * (t * t + t * s + s * s))) by ring.
  assert (0 < 3 * (t + s) - 2 * (t * t + t * s + s * s)).
  { assert (0 <= s * (1 - s)) by nra. assert (0 <= t * (1 - t)) by nra.
    assert (0 <= s * (1 - t)) by nra. assert (0 <= t * (1 - s)) by nra.
    assert (0 < t * (1 - s) \/ s * (1 - s) = 0) by nra. nra. }
  assert (0 < (t - s) * (3 * (t + s) - 2 * (t * t + t * s + s * s))) by (apply Rmult_lt_0_compat; lra).
  lra.
Qed.
Lemma lerp_ext A B r x : (forall i, A i = B i) -> lerp A r x = lerp B r x.
Proof. intros H. unfold lerp. now rewrite !H. Qed.
Lemma lerp_center A r k : 0 < r -> lerp A r (IZR k * r) = A k.
Proof.
  intros H. unfold lerp, frac. rewrite (low_unique r _ k) by lra.
  replace (IZR k * r / r - IZR k) with 0 by (field; lra). unfold step_poly. ring.
Qed.
Lemma lerp_bounds A r x lo hi : 0 < r -> lo <= A (low r x) <= hi -> lo <= A (low r x + 1)%Z <= hi ->
  lo <= lerp A r x <= hi.
Proof.
  intros H B C. unfold lerp. pose proof (frac_range r x H).
  assert (S : 0 <= step_poly (frac r x) <= 1) by (apply step_range; lra).
  set (s := step_poly _) in *. nra.
Qed.

Lemma interpolated_form g r x y z : 0 < r ->
  interpolated real_scalar g r x y z = lerp (fun i => lerp (fun j => lerp (fun k => g i j k) r z) r y) r x.
Proof.
  intros H. unfold interpolated, cubic. cbn [real_scalar s_val s_of s_add s_sub s_mul].
  rewrite !lower_low, !index_center by exact H.
  unfold lerp, step_poly, frac, center_of_cell.
  assert (E : forall c x, (x - IZR c * r) * / (IZR c * r + r - IZR c * r) = x / r - IZR c) by (intros; field; lra).
  rewrite !E. match goal with |- @eq _ ?a ?b => change (@eq R a b) end. ring.
Qed.

(* derivatives *)
Lemma deriv_ext f g x l : (forall t, f t = g t) -> derivable_pt_lim g x l -> derivable_pt_lim f x l.
Proof. intros E H e He. destruct (H e He) as [d D]. exists d. intros h A B. rewrite !E. auto. Qed.
Lemma cubic_deriv a b c d x :
  derivable_pt_lim (fun t => a + b * t + c * (t * t) + d * (t * t * t)) x (b + 2 * c * x + 3 * d * (x * x)).
Proof.
  replace (b + 2 * c * x + 3 * d * (x * x)) with
    (0 + b * 1 + c * (1 * x + x * 1) + d * ((1 * x + x * 1) * x + x * x * 1)) by ring.
  apply (derivable_pt_lim_plus (fun t => a + b * t + c * (t * t)) (fun t => d * (t * t * t))).
  - apply (derivable_pt_lim_plus (fun t => a + b * t) (fun t => c * (t * t))).
    + apply (derivable_pt_lim_plus (fun _ => a) (fun t => b * t)).
      * apply derivable_pt_lim_const.
      * apply (derivable_pt_lim_scal (fun t => t)). apply derivable_pt_lim_id.
    + apply (derivable_pt_lim_scal (fun t => t * t)).
      apply (derivable_pt_lim_mult (fun t => t) (fun t => t)); apply derivable_pt_lim_id.
  - apply (derivable_pt_lim_scal (fun t => t * t * t)).
    apply (derivable_pt_lim_mult (fun t => t * t) (fun t => t)); [|apply derivable_pt_lim_id].
    apply (derivable_pt_lim_mult (fun t => t) (fun t => t)); apply derivable_pt_lim_id.
Qed.
(* the polynomial of one piece *)
Definition piece (A : Z -> R) (k : Z) (r x : R) : R :=
  A k + (A (k + 1)%Z - A k) * step_poly (x / r - IZR k).
Definition dpiece (A : Z -> R) (k : Z) (r x : R) : R :=
  (A (k + 1)%Z - A k) * (6 * (x / r - IZR k) * (1 - (x / r - IZR k))) / r.
Lemma piece_deriv A k r x : 0 < r -> derivable_pt_lim (piece A k r) x (dpiece A k r x).
Proof.
  intros H. set (D := A (k + 1)%Z - A k). set (K := IZR k).
  apply deriv_ext with (fun t => (A k + D * (3 * K * K + 2 * K * K * K)) + (D * (- 6 * K - 6 * K * K) / r) * t
     + (D * (3 + 6 * K) / (r * r)) * (t * t) + (D * (-2) / (r * r * r)) * (t * t * t)).
  - intros t. unfold piece, step_poly. fold D K. field. lra.
  - replace (dpiece A k r x) with (D * (- 6 * K - 6 * K * K) / r + 2 * (D * (3 + 6 * K) / (r * r)) * x
     + 3 * (D * (-2) / (r * r * r)) * (x * x)) by (unfold dpiece; fold D K; field; lra).
    apply cubic_deriv.
Qed.
Lemma glue f p q x l d : 0 < d -> derivable_pt_lim p x l -> derivable_pt_lim q x l ->
  f x = p x -> f x = q x -> (forall y, x < y < x + d -> f y = p y) -> (forall y, x - d < y < x -> f y = q y) ->
  derivable_pt_lim f x l.
Proof.
  intros Hd P Q E1 E2 Fp Fq e He.
  destruct (P e He) as [d1 D1]. destruct (Q e He) as [d2 D2].
  assert (M : 0 < Rmin d (Rmin d1 d2)).
  { apply Rmin_pos; [exact Hd|]. apply Rmin_pos; [apply (cond_pos d1) | apply (cond_pos d2)]. }
  exists (mkposreal _ M). cbn [pos]. intros h H0 H1.
  pose proof (Rmin_l d (Rmin d1 d2)). pose proof (Rmin_r d (Rmin d1 d2)).
  pose proof (Rmin_l d1 d2). pose proof (Rmin_r d1 d2).
  destruct (Rdichotomy h 0 H0) as [N | N].
  - rewrite (Rabs_left h N) in H1. rewrite Fq by lra. rewrite E2. apply D2; [exact H0|].
    rewrite (Rabs_left h N). lra.
  - assert (N' : 0 <= h) by lra. rewrite (Rabs_pos_eq h N') in H1. rewrite Fp by lra. rewrite E1.
    apply D1; [exact H0|]. rewrite (Rabs_pos_eq h N'). lra.
Qed.
Lemma lerp_piece A r x k : 0 < r -> IZR k * r <= x <= (IZR k + 1) * r -> lerp A r x = piece A k r x.
Proof.
  intros H [B C]. destruct (Rle_lt_or_eq_dec _ _ C) as [C' | C'].
  - unfold lerp, frac, piece. now rewrite (low_unique r x k) by lra.
  - unfold lerp, frac, piece. rewrite (low_unique r x (k + 1)) by (rewrite ?plus_IZR; lra).
    rewrite plus_IZR, C'. replace ((IZR k + 1) * r / r) with (IZR k + 1) by (field; lra).
    unfold step_poly. ring_simplify. ring.
Qed.
Lemma dlerp_piece A r x k : 0 < r -> IZR k * r <= x <= (IZR k + 1) * r -> dlerp A r x = dpiece A k r x.
Proof.
  intros H [B C]. destruct (Rle_lt_or_eq_dec _ _ C) as [C' | C'].
  - unfold dlerp, frac, dpiece. now rewrite (low_unique r x k) by lra.
  - unfold dlerp, frac, dpiece. rewrite (low_unique r x (k + 1)) by (rewrite ?plus_IZR; lra).
    rewrite plus_IZR, C'. field. lra.
Qed.
(* every point has a neighbourhood on which at most two pieces meet in it *)
Lemma around r x : 0 < r -> exists k j d, 0 < d /\ IZR k * r <= x /\ x + d <= (IZR k + 1) * r /\
  IZR j * r <= x - d /\ x <= (IZR j + 1) * r.
Proof.
  intros H. destruct (low_spec r x H) as [B C]. set (k := low r x) in *.
  destruct (Rle_lt_or_eq_dec _ _ B) as [B' | B'].
  - exists k, k, (Rmin (x - IZR k * r) ((IZR k + 1) * r - x)).
    pose proof (Rmin_l (x - IZR k * r) ((IZR k + 1) * r - x)).
    pose proof (Rmin_r (x - IZR k * r) ((IZR k + 1) * r - x)).
    split; [apply Rmin_pos; lra|]. lra.
  - exists k, (k - 1)%Z, r. rewrite minus_IZR. lra.
Qed.
Lemma lerp_deriv A r x : 0 < r -> derivable_pt_lim (lerp A r) x (dlerp A r x).
Proof.
  intros H. destruct (around r x H) as [k [j [d [D [K1 [K2 [J1 J2]]]]]]].
  apply glue with (piece A k r) (piece A j r) d.
  - exact D.
  - rewrite (dlerp_piece A r x k) by lra. now apply piece_deriv.
  - rewrite (dlerp_piece A r x j) by lra. now apply piece_deriv.
  - apply lerp_piece; lra.
  - apply lerp_piece; lra.
  - intros y Y. apply lerp_piece; lra.
  - intros y Y. apply lerp_piece; lra.
Qed.
Lemma glue_cont f p q x d : 0 < d -> continuity_pt p x -> continuity_pt q x ->
  f x = p x -> f x = q x -> (forall y, x < y < x + d -> f y = p y) -> (forall y, x - d < y < x -> f y = q y) ->
  continuity_pt f x.
Proof.
  intros Hd P Q E1 E2 Fp Fq e He.
  destruct (P e He) as [d1 [D1 D1']]. destruct (Q e He) as [d2 [D2 D2']].
  assert (M : 0 < Rmin d (Rmin d1 d2)) by (apply Rmin_pos; [exact Hd | apply Rmin_pos; assumption]).
  exists (Rmin d (Rmin d1 d2)). split; [exact M|]. intros y [Y1 Y2].
  pose proof (Rmin_l d (Rmin d1 d2)). pose proof (Rmin_r d (Rmin d1 d2)).
  pose proof (Rmin_l d1 d2). pose proof (Rmin_r d1 d2).
  cbn in *. unfold R_dist in *.
  destruct (Rtotal_order y x) as [N | [N | N]].
  - rewrite (Rabs_left (y - x)) in Y2 by lra. rewrite Fq by lra. rewrite E2. apply D2'.
    split; [exact Y1|]. rewrite Rabs_left by lra. lra.
  - subst y. rewrite Rminus_diag_eq by reflexivity. rewrite Rabs_R0. exact He.
  - rewrite (Rabs_pos_eq (y - x)) in Y2 by lra. rewrite Fp by lra. rewrite E1. apply D1'.
    split; [exact Y1|]. rewrite Rabs_pos_eq by lra. lra.
Qed.
Lemma dpiece_cont A k r x : 0 < r -> continuity_pt (dpiece A k r) x.
Proof.
  intros H. apply derivable_continuous_pt.
  set (D := A (k + 1)%Z - A k). set (K := IZR k).
  exists ((D * (6 + 12 * K) / (r * r)) + 2 * (D * (- 6) / (r * r * r)) * x + 3 * 0 * (x * x)).
  apply deriv_ext with (fun t => (D * (- 6 * K - 6 * K * K) / r) + (D * (6 + 12 * K) / (r * r)) * t
    + (D * (- 6) / (r * r * r)) * (t * t) + 0 * (t * t * t)).
  - intros t. unfold dpiece. fold D K. field. lra.
  - apply cubic_deriv.
Qed.
Lemma dlerp_cont A r : 0 < r -> continuity (dlerp A r).
Proof.
  intros H x. destruct (around r x H) as [k [j [d [D [K1 [K2 [J1 J2]]]]]]].
  apply glue_cont with (dpiece A k r) (dpiece A j r) d.
  - exact D.
  - now apply dpiece_cont.
  - now apply dpiece_cont.
  - apply dlerp_piece; lra.
  - apply dlerp_piece; lra.
  - intros y Y. apply dlerp_piece; lra.
  - intros y Y. apply dlerp_piece; lra.
Qed.
(* in the other variables *)
Lemma lerp_deriv_in (B : Z -> R -> R) B' r x y : (forall i, derivable_pt_lim (B i) y (B' i)) ->
  derivable_pt_lim (fun t => lerp (fun i => B i t) r x) y (lerp B' r x).
Proof.
  intros H. unfold lerp. set (a := low r x). set (s := step_poly (frac r x)).
  replace (B' a + (B' (a + 1)%Z - B' a) * s) with (B' a + s * (B' (a + 1)%Z - B' a)) by ring.
  apply deriv_ext with (fun t => B a t + s * (B (a + 1)%Z t - B a t)); [intros; ring|].
  apply (derivable_pt_lim_plus (B a) (fun t => s * (B (a + 1)%Z t - B a t))); [apply H|].
  apply (derivable_pt_lim_scal (fun t => B (a + 1)%Z t - B a t)).
  apply (derivable_pt_lim_minus (B (a + 1)%Z) (B a)); apply H.
Qed.
Lemma lerp_cont_in (B : Z -> R -> R) r x : (forall i, continuity (B i)) ->
  continuity (fun t => lerp (fun i => B i t) r x).
Proof.
  intros H. unfold lerp. set (a := low r x). set (s := step_poly (frac r x)).
  apply (continuity_plus (B a) (fun t => (B (a + 1)%Z t - B a t) * s)); [apply H|].
  apply (continuity_mult (fun t => B (a + 1)%Z t - B a t) (fun _ => s)).
  - apply (continuity_minus (B (a + 1)%Z) (B a)); apply H.
  - apply continuity_const. intros u v. reflexivity.
Qed.

(* the three partial derivatives *)
Definition dx (g : voxels) (r x y z : R) : R :=
  dlerp (fun i => lerp (fun j => lerp (fun k => g i j k) r z) r y) r x.
Definition dy (g : voxels) (r x y z : R) : R :=
  lerp (fun i => dlerp (fun j => lerp (fun k => g i j k) r z) r y) r x.
Definition dz (g : voxels) (r x y z : R) : R :=
  lerp (fun i => lerp (fun j => dlerp (fun k => g i j k) r z) r y) r x.
Notation val g r x y z := (interpolated real_scalar g r x y z).
Lemma val_dx g r x y z : 0 < r -> derivable_pt_lim (fun t => val g r t y z) x (dx g r x y z).
Proof.
  intros H. eapply deriv_ext; [intros t; apply interpolated_form, H|]. apply lerp_deriv, H.
Qed.
Lemma val_dy g r x y z : 0 < r -> derivable_pt_lim (fun t => val g r x t z) y (dy g r x y z).
Proof.
  intros H. eapply deriv_ext; [intros t; apply interpolated_form, H|].
  apply (lerp_deriv_in (fun i t => lerp (fun j => lerp (fun k => g i j k) r z) r t)).
  intros i. apply (lerp_deriv (fun j => lerp (fun k => g i j k) r z)), H.
Qed.
Lemma val_dz g r x y z : 0 < r -> derivable_pt_lim (fun t => val g r x y t) z (dz g r x y z).
Proof.
  intros H. eapply deriv_ext; [intros t; apply interpolated_form, H|].
  apply (lerp_deriv_in (fun i t => lerp (fun j => lerp (fun k => g i j k) r t) r y)).
  intros i. apply (lerp_deriv_in (fun j t => lerp (fun k => g i j k) r t)).
  intros j. apply (lerp_deriv (fun k => g i j k)), H.
Qed.
Lemma autodiff_ok g r x y z i : 0 < r ->
  j_a (interpolated jet_scalar g r x y z) = val g r (j_a x) (j_a y) (j_a z) /\
  j_v (interpolated jet_scalar g r x y z) i =
    dx g r (j_a x) (j_a y) (j_a z) * j_v x i + dy g r (j_a x) (j_a y) (j_a z) * j_v y i
    + dz g r (j_a x) (j_a y) (j_a z) * j_v z i.
Proof.
  intros H. split.
  - unfold interpolated, cubic. cbn [real_scalar jet_scalar s_T s_val s_of s_add s_sub s_mul j_a j_v].
    reflexivity.
  - unfold interpolated, cubic. cbn [real_scalar jet_scalar s_T s_val s_of s_add s_sub s_mul j_a j_v].
    rewrite !lower_low, !index_center by exact H.
    unfold dx, dy, dz, lerp, dlerp, step_poly, frac, center_of_cell.
    set (a := low r (j_a x)). set (b := low r (j_a y)). set (c := low r (j_a z)).
    assert (E : forall c, / (IZR c * r + r - IZR c * r) = / r) by (intros; f_equal; ring).
    rewrite !E.
    set (nx := j_a x / r - IZR a). set (ny := j_a y / r - IZR b). set (nz := j_a z / r - IZR c).
    replace ((j_a x - IZR a * r) * / r) with nx by (unfold nx; field; lra).
    replace ((j_a y - IZR b * r) * / r) with ny by (unfold ny; field; lra).
    replace ((j_a z - IZR c * r) * / r) with nz by (unfold nz; field; lra).
    unfold Rdiv. clearbody nx ny nz a b c.
    generalize (g a b c) (g a b (c + 1)%Z) (g a (b + 1)%Z c) (g a (b + 1)%Z (c + 1)%Z)
      (g (a + 1)%Z b c) (g (a + 1)%Z b (c + 1)%Z) (g (a + 1)%Z (b + 1)%Z c) (g (a + 1)%Z (b + 1)%Z (c + 1)%Z).
    generalize (/ r). intros. ring.
Qed.
