From Coq Require Import ZArith Reals Lra Lia List.
From Verif Require Import CF_Model RG_Model IG_Model IG_Spec IG_Proofs.
Import ListNotations.
Open Scope R_scope.
Notation val g r x y z := (interpolated real_scalar g r x y z).

Lemma lerp_abs A r x M : 0 < r -> (forall i, Rabs (A i) <= M) -> Rabs (lerp A r x) <= M.
Proof.
  intros H B. assert (C : forall i, - M <= A i <= M).
  { intros i. pose proof (B i). unfold Rabs in H0. destruct (Rcase_abs (A i)); lra. }
  destruct (lerp_bounds A r x (- M) M H (C _) (C _)). apply Rabs_le. lra.
Qed.
Lemma lerp_minus A B r x : lerp A r x - lerp B r x = lerp (fun i => A i - B i) r x.
Proof. unfold lerp. ring. Qed.
Lemma dlerp_minus A B r x : dlerp A r x - dlerp B r x = dlerp (fun i => A i - B i) r x.
Proof. unfold dlerp, Rdiv. ring. Qed.
Lemma dlerp_gap A r x D : 0 < r -> Rabs (A (low r x + 1)%Z - A (low r x)) <= D ->
  Rabs (dlerp A r x) <= 3 / 2 * D / r.
Proof.
  intros H B. unfold dlerp. pose proof (frac_range r x H) as F. set (t := frac r x) in *.
  assert (S : 0 <= 6 * t * (1 - t) <= 3 / 2).
  { split; [nra|]. pose proof (Rle_0_sqr (t - 1 / 2)). unfold Rsqr in H0. nra. }
  unfold Rdiv. rewrite !Rabs_mult. rewrite (Rabs_pos_eq (/ r)) by (left; apply Rinv_0_lt_compat; lra).
  apply Rmult_le_compat_r; [left; apply Rinv_0_lt_compat; lra|].
  rewrite <- !Rabs_mult, Rabs_mult, (Rabs_pos_eq (6 * t * (1 - t))) by lra.
  pose proof (Rabs_pos (A (low r x + 1)%Z - A (low r x))). nra.
Qed.
Lemma dlerp_abs A r x M : 0 < r -> (forall i, Rabs (A i) <= M) -> Rabs (dlerp A r x) <= 3 * M / r.
Proof.
  intros H B. replace (3 * M / r) with (3 / 2 * (2 * M) / r) by (field; lra). apply dlerp_gap; [exact H|].
  pose proof (B (low r x + 1)%Z). pose proof (B (low r x)).
  pose proof (Rabs_triang (A (low r x + 1)%Z) (- A (low r x))). rewrite Rabs_Ropp in H2.
  unfold Rminus. lra.
Qed.
Lemma lip f f' M : (forall x, derivable_pt_lim f x (f' x)) -> (forall x, Rabs (f' x) <= M) ->
  forall a b, Rabs (f a - f b) <= M * Rabs (a - b).
Proof.
  intros D B.
  assert (L : forall a b, a < b -> Rabs (f b - f a) <= M * Rabs (b - a)).
  { intros a b H. destruct (MVT_cor2 f f' a b H (fun c _ => D c)) as [c [E _]]. rewrite E, Rabs_mult.
    apply Rmult_le_compat_r; [apply Rabs_pos | apply B]. }
  intros a b. destruct (Rtotal_order a b) as [N | [N | N]].
  - rewrite (Rabs_minus_sym (f a)), (Rabs_minus_sym a). now apply L.
  - subst. rewrite !Rminus_diag_eq, Rabs_R0 by reflexivity. lra.
  - now apply L.
Qed.
Lemma lerp_lip A r x x' M : 0 < r -> (forall i, Rabs (A i) <= M) ->
  Rabs (lerp A r x' - lerp A r x) <= 3 * M / r * Rabs (x' - x).
Proof.
  intros H B. apply (lip (lerp A r) (dlerp A r)).
  - intros. now apply lerp_deriv.
  - intros. now apply dlerp_abs.
Qed.
Lemma lerp_sup A B r x e : 0 < r -> (forall i, Rabs (A i - B i) <= e) -> Rabs (lerp A r x - lerp B r x) <= e.
Proof. intros H D. rewrite lerp_minus. now apply lerp_abs. Qed.
Lemma dlerp_sup A B r x e : 0 < r -> (forall i, Rabs (A i - B i) <= e) ->
  Rabs (dlerp A r x - dlerp B r x) <= 3 * e / r.
Proof. intros H D. rewrite dlerp_minus. now apply dlerp_abs. Qed.

(* near a point the derivative changes at most proportionally *)
Lemma dpiece_lip A k r x x' M : 0 < r -> (forall i, Rabs (A i) <= M) ->
  IZR k * r <= x <= (IZR k + 1) * r -> IZR k * r <= x' <= (IZR k + 1) * r ->
  Rabs (dpiece A k r x' - dpiece A k r x) <= 12 * M / (r * r) * Rabs (x' - x).
Proof.
  intros H B X X'.
  assert (T : forall u, IZR k * r <= u <= (IZR k + 1) * r -> 0 <= u / r - IZR k <= 1).
  { intros u U. assert (E : u = u / r * r) by (field; lra). rewrite E in U. set (q := u / r) in *.
    split; apply Rmult_le_reg_r with r; lra. }
  pose proof (T x X) as F. pose proof (T x' X') as F'.
  replace (dpiece A k r x' - dpiece A k r x) with
    ((A (k + 1)%Z - A k) * (6 * (1 - (x' / r - IZR k) - (x / r - IZR k))) * / (r * r) * (x' - x))
    by (unfold dpiece; field; lra).
  rewrite Rabs_mult. apply Rmult_le_compat_r; [apply Rabs_pos|].
  unfold Rdiv. rewrite Rabs_mult.
  assert (I : 0 < / (r * r)) by (apply Rinv_0_lt_compat; nra).
  rewrite (Rabs_pos_eq (/ (r * r))) by lra. apply Rmult_le_compat_r; [lra|]. rewrite Rabs_mult.
  replace (12 * M) with (2 * M * 6) by ring.
  apply Rmult_le_compat; [apply Rabs_pos | apply Rabs_pos | |].
  - pose proof (B (k + 1)%Z). pose proof (B k).
    pose proof (Rabs_triang (A (k + 1)%Z) (- A k)). rewrite Rabs_Ropp in H2. unfold Rminus. lra.
  - unfold Rdiv in *. apply Rabs_le. lra.
Qed.
Lemma dlerp_near r x : 0 < r -> exists d, 0 < d /\ forall A M x', (forall i, Rabs (A i) <= M) ->
  Rabs (x' - x) <= d -> Rabs (dlerp A r x' - dlerp A r x) <= 12 * M / (r * r) * Rabs (x' - x).
Proof.
  intros H. destruct (around r x H) as [k [j [d [D [K1 [K2 [J1 J2]]]]]]].
  exists d. split; [exact D|]. intros A M x' B X.
  assert (X' : - d <= x' - x <= d) by (unfold Rabs in X; destruct (Rcase_abs (x' - x)); lra).
  destruct (Rle_dec x x').
  - rewrite !(dlerp_piece A r _ k) by lra. apply dpiece_lip; try assumption; lra.
  - rewrite !(dlerp_piece A r _ j) by lra. apply dpiece_lip; try assumption; lra.
Qed.

Lemma chain a b c e1 e2 : Rabs (a - b) <= e1 -> Rabs (b - c) <= e2 -> Rabs (a - c) <= e1 + e2.
Proof.
  intros. replace (a - c) with ((a - b) + (b - c)) by ring.
  eapply Rle_trans; [apply Rabs_triang|]. lra.
Qed.

Section Bounded.
Variables (g : voxels) (r M : R).
Hypothesis Hr : 0 < r.
Hypothesis Hg : forall i j k, Rabs (g i j k) <= M.
Let L1 := 3 * M / r.
Let L2 := 12 * M / (r * r).
Lemma M_pos : 0 <= M.
Proof. pose proof (Hg 0 0 0). pose proof (Rabs_pos (g 0%Z 0%Z 0%Z)). lra. Qed.
Lemma L1_pos : 0 <= L1.
Proof. unfold L1. pose proof M_pos. apply Rmult_le_pos; [lra|]. left. now apply Rinv_0_lt_compat. Qed.
Lemma L2_pos : 0 <= L2.
Proof. unfold L2. pose proof M_pos. apply Rmult_le_pos; [lra|]. left. apply Rinv_0_lt_compat. nra. Qed.
Lemma L1_L1 : 3 * L1 / r <= L2.
Proof.
  unfold L1, L2. replace (3 * (3 * M / r) / r) with (9 * M / (r * r)) by (field; lra).
  apply Rmult_le_compat_r; [left; apply Rinv_0_lt_compat; nra|]. pose proof M_pos. lra.
Qed.
Lemma scaled_le e : 0 <= e -> 3 * (L1 * e) / r <= L2 * e.
Proof.
  intros He. replace (3 * (L1 * e) / r) with (3 * L1 / r * e) by (field; lra).
  apply Rmult_le_compat_r; [exact He | exact L1_L1].
Qed.

Lemma abs1 i j z : Rabs (lerp (fun k => g i j k) r z) <= M.
Proof. apply lerp_abs; [exact Hr | intros; apply Hg]. Qed.
Lemma abs2 i y z : Rabs (lerp (fun j => lerp (fun k => g i j k) r z) r y) <= M.
Proof. apply lerp_abs; [exact Hr | intros; apply abs1]. Qed.
Lemma move1 i j z z' : Rabs (lerp (fun k => g i j k) r z' - lerp (fun k => g i j k) r z) <= L1 * Rabs (z' - z).
Proof. apply lerp_lip; [exact Hr | intros; apply Hg]. Qed.
Lemma move2 i y z y' z' :
  Rabs (lerp (fun j => lerp (fun k => g i j k) r z') r y' - lerp (fun j => lerp (fun k => g i j k) r z) r y)
  <= L1 * Rabs (y' - y) + L1 * Rabs (z' - z).
Proof.
  eapply chain.
  - apply (lerp_lip (fun j => lerp (fun k => g i j k) r z') r y y' M); [exact Hr | intros; apply abs1].
  - apply lerp_sup; [exact Hr | intros; apply move1].
Qed.
Lemma move3 x y z x' y' z' :
  Rabs (val g r x' y' z' - val g r x y z) <= L1 * (Rabs (x' - x) + Rabs (y' - y) + Rabs (z' - z)).
Proof.
  rewrite !interpolated_form by exact Hr.
  replace (L1 * (Rabs (x' - x) + Rabs (y' - y) + Rabs (z' - z)))
    with (L1 * Rabs (x' - x) + (L1 * Rabs (y' - y) + L1 * Rabs (z' - z))) by ring.
  eapply chain.
  - apply (lerp_lip (fun i => lerp (fun j => lerp (fun k => g i j k) r z') r y') r x x' M);
      [exact Hr | intros; apply abs2].
  - apply lerp_sup; [exact Hr | intros; apply move2].
Qed.

Definition close3 (D : R -> R -> R -> R) x y z : Prop :=
  exists d, 0 < d /\ forall x' y' z', Rabs (x' - x) <= d -> Rabs (y' - y) <= d -> Rabs (z' - z) <= d ->
    Rabs (D x' y' z' - D x y z) <= L2 * (Rabs (x' - x) + Rabs (y' - y) + Rabs (z' - z)).
Lemma dx_close x y z : close3 (dx g r) x y z.
Proof.
  destruct (dlerp_near r x Hr) as [d [D N]]. exists d. split; [exact D|]. intros x' y' z' X _ _.
  unfold dx.
  replace (L2 * (Rabs (x' - x) + Rabs (y' - y) + Rabs (z' - z)))
    with (L2 * Rabs (x' - x) + L2 * (Rabs (y' - y) + Rabs (z' - z))) by ring.
  eapply chain.
  - apply N; [|exact X]. intros i. apply abs2.
  - eapply Rle_trans.
    + apply dlerp_sup; [exact Hr|]. intros i. eapply Rle_trans; [apply move2|].
      rewrite <- Rmult_plus_distr_l. apply Rle_refl.
    + apply scaled_le. pose proof (Rabs_pos (y' - y)). pose proof (Rabs_pos (z' - z)). lra.
Qed.
Lemma dy_close x y z : close3 (dy g r) x y z.
Proof.
  destruct (dlerp_near r y Hr) as [d [D N]]. exists d. split; [exact D|]. intros x' y' z' _ Y _.
  unfold dy.
  replace (L2 * (Rabs (x' - x) + Rabs (y' - y) + Rabs (z' - z)))
    with (L2 * Rabs (x' - x) + (L2 * Rabs (y' - y) + L2 * Rabs (z' - z))) by ring.
  eapply chain.
  - eapply Rle_trans.
    + apply (lerp_lip (fun i => dlerp (fun j => lerp (fun k => g i j k) r z') r y') r x x' L1);
        [exact Hr | intros; apply dlerp_abs; [exact Hr | intros; apply abs1]].
    + apply Rmult_le_compat_r; [apply Rabs_pos | apply L1_L1].
  - apply lerp_sup; [exact Hr|]. intros i. eapply chain.
    + apply N; [|exact Y]. intros j. apply abs1.
    + eapply Rle_trans.
      * apply dlerp_sup; [exact Hr|]. intros j. apply move1.
      * apply scaled_le, Rabs_pos.
Qed.
Lemma dz_close x y z : close3 (dz g r) x y z.
Proof.
  destruct (dlerp_near r z Hr) as [d [D N]]. exists d. split; [exact D|]. intros x' y' z' _ _ Z.
  unfold dz.
  replace (L2 * (Rabs (x' - x) + Rabs (y' - y) + Rabs (z' - z)))
    with (L2 * Rabs (x' - x) + (L2 * Rabs (y' - y) + L2 * Rabs (z' - z))) by ring.
  assert (A1 : forall i j u, Rabs (dlerp (fun k => g i j k) r u) <= L1)
    by (intros; apply dlerp_abs; [exact Hr | intros; apply Hg]).
  eapply chain.
  - eapply Rle_trans.
    + apply (lerp_lip (fun i => lerp (fun j => dlerp (fun k => g i j k) r z') r y') r x x' L1);
        [exact Hr | intros; apply lerp_abs; [exact Hr | intros; apply A1]].
    + apply Rmult_le_compat_r; [apply Rabs_pos | apply L1_L1].
  - apply lerp_sup; [exact Hr|]. intros i. eapply chain.
    + eapply Rle_trans.
      * apply (lerp_lip (fun j => dlerp (fun k => g i j k) r z') r y y' L1); [exact Hr | intros; apply A1].
      * apply Rmult_le_compat_r; [apply Rabs_pos | apply L1_L1].
    + apply lerp_sup; [exact Hr|]. intros j. apply N; [|exact Z]. intros k. apply Hg.
Qed.
End Bounded.

(* between neighbouring centres the value moves monotonically *)
Lemma lerp_move A r k x x' : 0 < r -> IZR k * r <= x -> x < x' -> x' <= (IZR k + 1) * r ->
  lerp A r x' - lerp A r x =
  (step_poly (x' / r - IZR k) - step_poly (x / r - IZR k)) * (A (k + 1)%Z - A k).
Proof.
  intros H B C D. rewrite !(lerp_piece A r _ k) by lra. unfold piece. ring.
Qed.
Lemma step_move r k x x' : 0 < r -> IZR k * r <= x -> x < x' -> x' <= (IZR k + 1) * r ->
  0 < step_poly (x' / r - IZR k) - step_poly (x / r - IZR k).
Proof.
  intros H B C D.
  assert (E : x = x / r * r) by (field; lra). assert (E' : x' = x' / r * r) by (field; lra).
  rewrite E in B, C. rewrite E' in C, D.
  set (q := x / r) in *. set (q' := x' / r) in *.
  apply Rmult_le_reg_r in B; [|lra]. apply Rmult_lt_reg_r in C; [|lra]. apply Rmult_le_reg_r in D; [|lra].
  apply Rlt_Rminus. apply step_lt; lra.
Qed.
Lemma lerp_combine (P Q : Z -> R) s r x : lerp (fun i => P i + s * Q i) r x = lerp P r x + s * lerp Q r x.
Proof. unfold lerp. ring. Qed.
Lemma move_x g r k x x' y z : 0 < r -> IZR k * r <= x -> x < x' -> x' <= (IZR k + 1) * r ->
  exists c, 0 < c /\ val g r x' y z - val g r x y z =
    c * (val g r (IZR (k + 1) * r) y z - val g r (IZR k * r) y z).
Proof.
  intros H B C D. exists (step_poly (x' / r - IZR k) - step_poly (x / r - IZR k)).
  split; [now apply step_move|]. rewrite !interpolated_form, !lerp_center by exact H.
  now apply lerp_move.
Qed.
Lemma move_y g r k x y y' z : 0 < r -> IZR k * r <= y -> y < y' -> y' <= (IZR k + 1) * r ->
  exists c, 0 < c /\ val g r x y' z - val g r x y z =
    c * (val g r x (IZR (k + 1) * r) z - val g r x (IZR k * r) z).
Proof.
  intros H B C D. exists (step_poly (y' / r - IZR k) - step_poly (y / r - IZR k)).
  split; [now apply step_move|]. rewrite !interpolated_form by exact H.
  rewrite !lerp_minus.
  rewrite (lerp_ext _ (fun i => 0 + (step_poly (y' / r - IZR k) - step_poly (y / r - IZR k))
    * (lerp (fun j => lerp (fun k0 => g i j k0) r z) r (IZR (k + 1) * r)
       - lerp (fun j => lerp (fun k0 => g i j k0) r z) r (IZR k * r)))).
  - rewrite (lerp_combine (fun _ => 0)). unfold lerp at 1. ring.
  - intros i. rewrite (lerp_move _ r k) by assumption. rewrite !lerp_center by exact H. ring.
Qed.
Lemma move_z g r k x y z z' : 0 < r -> IZR k * r <= z -> z < z' -> z' <= (IZR k + 1) * r ->
  exists c, 0 < c /\ val g r x y z' - val g r x y z =
    c * (val g r x y (IZR (k + 1) * r) - val g r x y (IZR k * r)).
Proof.
  intros H B C D. exists (step_poly (z' / r - IZR k) - step_poly (z / r - IZR k)).
  split; [now apply step_move|]. rewrite !interpolated_form by exact H.
  set (s := step_poly (z' / r - IZR k) - step_poly (z / r - IZR k)).
  rewrite !lerp_minus.
  rewrite (lerp_ext _ (fun i => 0 + s
    * (lerp (fun j => lerp (fun k0 => g i j k0) r (IZR (k + 1) * r)) r y
       - lerp (fun j => lerp (fun k0 => g i j k0) r (IZR k * r)) r y))).
  - rewrite (lerp_combine (fun _ => 0)). unfold lerp at 1. ring.
  - intros i. rewrite !lerp_minus.
    rewrite (lerp_ext _ (fun j => 0 + s
      * (lerp (fun k0 => g i j k0) r (IZR (k + 1) * r) - lerp (fun k0 => g i j k0) r (IZR k * r)))).
    + rewrite (lerp_combine (fun _ => 0)). unfold lerp at 1. ring.
    + intros j. rewrite (lerp_move _ r k) by assumption. rewrite !lerp_center by exact H. unfold s. ring.
Qed.

(* averages *)
Definition observed (l : list R) : intensity_cell := fold_left add_intensity l empty_cell.
Lemma observed_from l s n lo hi : (0 <= n)%Z -> IZR n * lo <= s <= IZR n * hi -> Forall (fun v => lo <= v <= hi) l ->
  exists s', fold_left add_intensity l (s, n) = (s', (n + Z.of_nat (length l))%Z) /\
    IZR (n + Z.of_nat (length l)) * lo <= s' <= IZR (n + Z.of_nat (length l)) * hi.
Proof.
  revert s n. induction l as [|v l IH]; intros s n N B0 F.
  - exists s. cbn [fold_left length]. rewrite Z.add_0_r. auto.
  - inversion F; subst. cbn [fold_left length]. unfold add_intensity at 2. cbn [fst snd].
    destruct (IH (s + v) (n + 1)%Z) as [s' [E B]]; [lia | rewrite plus_IZR; lra | assumption |].
    exists s'. replace (n + Z.of_nat (S (length l)))%Z with (n + 1 + Z.of_nat (length l))%Z by lia. auto.
Qed.
Lemma observed_bounds l lo hi : l <> [] -> Forall (fun v => lo <= v <= hi) l -> lo <= get_intensity (observed l) <= hi.
Proof.
  intros N F. unfold observed, empty_cell.
  destruct (observed_from l 0 0 lo hi) as [s [E B]]; [lia | lra | exact F |]. rewrite E.
  assert (L : (0 < Z.of_nat (length l))%Z) by (destruct l; [contradiction | cbn [length]; lia]).
  unfold get_intensity. cbn [fst snd]. destruct (Z.eq_dec _ 0); [lia|].
  set (m := (0 + Z.of_nat (length l))%Z) in *. assert (P : 0 < IZR m) by (apply IZR_lt; unfold m; lia).
  split; (apply Rmult_le_reg_r with (IZR m); [exact P|]); unfold Rdiv; rewrite Rmult_assoc, Rinv_l by lra; lra.
Qed.
