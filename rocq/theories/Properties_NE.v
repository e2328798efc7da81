(* C87: the estimation of normals for a TSDF. *)
From Coq Require Import Reals List Arith Lra Lia Psatz.
From Verif Require Import CF_Model CF_Spec RG_Model RG_Proofs NE_Model NE_Spec NE_Proofs TI_Spec.
Import ListNotations.
Open Scope R_scope.

(* one normal for each return, as the inserter (C86) needs *)
Theorem C87_each : forall o, one_normal_each (estimate_normals2 o).
Proof. intros o origin hits. apply normals_length. Qed.

(* the samples of a return are determined *)
Lemma window_unique r p n l k m : in_window r p n l k -> in_window r p n l m -> (m <= k)%nat.
Proof.
  intros [A1 [A2 [A3 A4]]] [B1 [B2 [B3 B4]]]. destruct (le_lt_dec m k) as [L | L]; [exact L|]. exfalso.
  destruct A4 as [E | [E | [s [E N]]]]; [lia | lia|]. apply N.
  rewrite Forall_forall in B3. apply B3. apply nth_error_In with k.
  assert (X : forall (l : list (vec3 R)) k m, (k < m)%nat -> nth_error (firstn m l) k = nth_error l k).
  { clear. induction l as [|x l IH]; intros [|k] [|m] H; try lia; cbn; try reflexivity. apply IH. lia. }
  rewrite X by exact L. exact E.
Qed.
Theorem C87_samples : forall o before p after s t, samples_of o before p after s -> samples_of o before p after t -> s = t.
Proof.
  intros o before p after s t [k [m [K [M ->]]]] [k' [m' [K' [M' ->]]]].
  assert (k = k') by (apply Nat.le_antisymm; eapply window_unique; eassumption).
  assert (m = m') by (apply Nat.le_antisymm; eapply window_unique; eassumption). subst. reflexivity.
Qed.

(* the normal is the direction to the origin if there are no samples, and else that of the sum of the
   unit vectors across the lines to the samples, on the side of the origin *)
Theorem C87_normal : forall o origin before p after, 0 < n_radius o ->
  exists a samples, nth_error (estimate_normals2 o origin (before ++ p :: after)) (List.length before) = Some a /\
    samples_of o before p after samples /\
    ((samples = [] /\ a = atan2 (v1 origin - v1 p) (v0 origin - v0 p)) \/
     (samples <> [] /\ exists ns, all_across origin p samples ns /\ a = atan2 (v1 (sum_all ns)) (v0 (sum_all ns)))).
Proof. exact normal_at. Qed.

(* it points to the side of the origin if a sample is far enough and not on the line of sight, or
   there are no samples *)
Theorem C87_facing : forall o origin before p after samples, 0 < n_radius o -> samples_of o before p after samples ->
  Exists (fun s => far p s /\ cross2 (vsub p s) (vsub origin p) <> 0) samples \/
  (samples = [] /\ length2 (vsub origin p) <> 0) ->
  exists a, nth_error (estimate_normals2 o origin (before ++ p :: after)) (List.length before) = Some a /\ points_to a (vsub origin p).
Proof.
  intros o origin before p after samples R0 S H. destruct (normal_at o origin before p after R0) as [a [t [E [T C]]]].
  rewrite (C87_samples _ _ _ _ _ _ T S) in C. exists a. split; [exact E|].
  destruct C as [[C1 C2] | [C1 [ns [A ->]]]].
  - destruct H as [H | [_ H]]; [rewrite C1 in H; inversion H|]. subst a.
    apply (atan_points (vsub origin p)). pose proof (length2_sq (vsub origin p)) as Q.
    assert (0 < length2 (vsub origin p)) by (unfold length2 in *; pose proof (sqrt_pos (dot2 (vsub origin p) (vsub origin p))); lra). nra.
  - destruct H as [H | [H _]]; [|contradiction]. apply atan_points. apply sum_strict with samples; assumption.
Qed.

(* on a straight wall the normal is that of the wall *)
Theorem C87_wall : forall o origin before p after samples m, 0 < n_radius o -> samples_of o before p after samples ->
  v2 m = 0 -> dot2 m m = 1 -> 0 < dot2 m (vsub origin p) ->
  Forall (fun s => dot2 m (vsub p s) = 0) samples -> Exists (far p) samples ->
  exists a, nth_error (estimate_normals2 o origin (before ++ p :: after)) (List.length before) = Some a /\ cos a = v0 m /\ sin a = v1 m.
Proof.
  intros o origin before p after samples m R0 S Z U D W F. destruct (normal_at o origin before p after R0) as [a [t [E [T C]]]].
  rewrite (C87_samples _ _ _ _ _ _ T S) in C. exists a. split; [exact E|].
  destruct C as [[C1 _] | [_ [ns [A ->]]]]; [rewrite C1 in F; inversion F|].
  destruct (wall_sum origin p m samples Z U D W ns A) as [k [-> K]]. unfold vscale. cbn [v0 v1]. apply atan_scaled; [|exact U].
  apply lt_0_INR. apply K. exact F.
Qed.

(* turning everything about the vertical axis turns the normals *)
Theorem C87_turned : forall a o origin returns,
  Forall2 (fun x y => same_angle y (x + a) \/ (x = 0 /\ y = 0))
    (estimate_normals2 o origin returns) (estimate_normals2 o (turned2 a origin) (map (turned2 a) returns)).
Proof. intros a o origin returns. exact (turned_normals a o origin returns []). Qed.

(* two returns at the same place have normals that point away from the origin *)
Definition ro : noptions := mk_noptions 4 1.
Lemma zero_self origin p : sample_normal origin p p = mk_vec3 0 0 0.
Proof.
  apply near_zero. unfold far, length2. replace (dot2 (vsub p p) (vsub p p)) with 0 by (unfold dot2, vsub; cbn [v0 v1]; ring). rewrite sqrt_0. lra.
Qed.
Theorem C87_duplicate_refuted : exists o origin returns, 0 < n_radius o /\
  Forall (fun p => 0 < length2 (vsub origin p)) returns /\
  Forall2 (fun p a => ~ points_to a (vsub origin p)) returns (estimate_normals2 o origin returns) /\ returns <> [].
Proof.
  exists ro, (mk_vec3 (- 1) 0 0), [mk_vec3 0 0 0; mk_vec3 0 0 0]. set (p := mk_vec3 0 0 0). split; [cbn; lra|]. split; [|split].
  - assert (X : 0 < length2 (vsub (mk_vec3 (- 1) 0 0) p)) by (apply sqrt_lt_R0; unfold dot2, vsub, p; cbn [v0 v1]; lra).
    repeat constructor; exact X.
  - assert (N : ~ points_to 0 (vsub (mk_vec3 (- 1) 0 0) p)) by (unfold points_to, vsub, p; cbn [v0 v1]; rewrite cos_0, sin_0; lra).
    assert (E : estimate_normals2 ro (mk_vec3 (- 1) 0 0) [p; p] = [0; 0]).
    { unfold estimate_normals2, ro. cbn [normals_from n_samples n_radius Nat.div Nat.divmod Nat.add fst snd window]. rewrite vnorm_self.
      destruct (Rlt_dec 0 1); [|lra]. unfold estimate_normal. cbn [List.length Nat.add Nat.ltb Nat.leb tl List.app rev]. unfold mean_normal. cbn [fold_left].
      rewrite zero_self, vadd_0l. unfold normal_to_angle. cbn [v0 v1]. rewrite atan2_00. reflexivity. }
    rewrite E. repeat constructor; exact N.
  - discriminate.
Qed.
(* and so have returns with samples before and behind them on the line of sight *)
Lemma flat_sample s : s = 1 / 2 \/ s = - (1 / 2) ->
  sample_normal (mk_vec3 (- 3) 0 0) (mk_vec3 0 0 0) (mk_vec3 s 0 0) = mk_vec3 0 (- (2 * s)) 0.
Proof.
  intros S. unfold sample_normal, vsub. cbn [v0 v1 v2].
  replace (- (0 - 0)) with 0 by ring. replace (0 - s) with (- s) by ring.
  assert (N : vnorm (mk_vec3 0 (- s) 0) = 1 / 2).
  { unfold vnorm, vdot. cbn [v0 v1 v2]. replace (0 * 0 + - s * - s + 0 * 0) with (1 / 2 * (1 / 2)) by (destruct S; subst s; lra). apply sqrt_square. lra. }
  rewrite N. unfold min_normal_length. destruct (Rlt_dec _ _); [lra|]. unfold vdot. cbn [v0 v1 v2].
  replace (0 * (- 3 - 0) + - s * (0 - 0) + 0 * (0 - 0)) with 0 by ring. destruct (Rlt_dec 0 0); [lra|]. rewrite N. unfold vscale. cbn [v0 v1 v2]. f_equal; field.
Qed.
Theorem C87_sight_refuted : exists o origin before p after a, 0 < n_radius o /\ 0 < length2 (vsub origin p) /\
  Forall (fun s => far p s) (before ++ after) /\ before <> [] /\
  nth_error (estimate_normals2 o origin (before ++ p :: after)) (List.length before) = Some a /\ ~ points_to a (vsub origin p).
Proof.
  exists ro, (mk_vec3 (- 3) 0 0), [mk_vec3 (- (1 / 2)) 0 0], (mk_vec3 0 0 0), [mk_vec3 (1 / 2) 0 0], 0.
  assert (V : forall s, s = 1 / 2 \/ s = - (1 / 2) -> sqrt ((0 - s) * (0 - s)) = 1 / 2).
  { intros s S. replace ((0 - s) * (0 - s)) with (1 / 2 * (1 / 2)) by (destruct S; subst s; lra). apply sqrt_square. lra. }
  assert (W : forall s, s = 1 / 2 \/ s = - (1 / 2) -> vnorm (vsub (mk_vec3 0 0 0) (mk_vec3 s 0 0)) = 1 / 2).
  { intros s S. rewrite <- (V s S). unfold vnorm, vdot, vsub. cbn [v0 v1 v2]. f_equal. ring. }
  split; [cbn; lra|]. split; [apply sqrt_lt_R0; unfold dot2, vsub; cbn [v0 v1]; lra|].
  assert (F : forall s, s = 1 / 2 \/ s = - (1 / 2) -> far (mk_vec3 0 0 0) (mk_vec3 s 0 0)).
  { intros s S. unfold far, length2, dot2, vsub. cbn [v0 v1]. replace ((0 - s) * (0 - s) + (0 - 0) * (0 - 0)) with ((0 - s) * (0 - s)) by ring. rewrite V by exact S. lra. }
  split; [cbn [List.app]; constructor; [apply F; right; reflexivity | constructor; [apply F; left; reflexivity | constructor]]|]. split; [discriminate|]. split.
  - unfold estimate_normals2. rewrite normals_nth. f_equal. unfold ro. cbn [n_samples n_radius Nat.div Nat.divmod Nat.add fst snd window rev List.app].
    rewrite (W (- (1 / 2))), vnorm_self, (W (1 / 2)) by auto. destruct (Rlt_dec (1 / 2) 1); [|lra]. destruct (Rlt_dec 0 1); [|lra].
    unfold estimate_normal. cbn [List.length Nat.add Nat.ltb Nat.leb tl List.app rev]. unfold mean_normal. cbn [fold_left].
    rewrite (flat_sample (- (1 / 2))), (flat_sample (1 / 2)) by auto. unfold normal_to_angle, vadd. cbn [v0 v1].
    replace (0 + - (2 * - (1 / 2)) + - (2 * (1 / 2))) with 0 by field. replace (0 + 0 + 0) with 0 by ring. apply atan2_00.
  - unfold points_to, vsub. cbn [v0 v1]. rewrite cos_0, sin_0. lra.
Qed.

(* a wall along the x axis seen from above *)
Example C87_wall_example : exists a,
  nth_error (estimate_normals2 ro (mk_vec3 0 3 0) [mk_vec3 (- (1 / 2)) 0 0; mk_vec3 0 0 0]) 1 = Some a /\ cos a = 0 /\ sin a = 1.
Proof.
  assert (N : near 1 (mk_vec3 0 0 0) (mk_vec3 (- (1 / 2)) 0 0)).
  { unfold near, vnorm, vdot, vsub. cbn [v0 v1 v2]. replace (_ + _) with (1 / 2 * (1 / 2)) by field. rewrite sqrt_square; lra. }
  apply (C87_wall ro (mk_vec3 0 3 0) [mk_vec3 (- (1 / 2)) 0 0] (mk_vec3 0 0 0) [] [mk_vec3 (- (1 / 2)) 0 0] (mk_vec3 0 1 0)).
  - cbn. lra.
  - exists 1%nat, 0%nat. split; [|split; [|reflexivity]]; unfold in_window; cbn; repeat split; try lia; try (right; left; reflexivity); repeat constructor. exact N.
  - reflexivity.
  - unfold dot2. cbn [v0 v1]. ring.
  - unfold dot2, vsub. cbn [v0 v1]. lra.
  - repeat constructor. unfold dot2, vsub. cbn [v0 v1]. ring.
  - constructor. unfold far, length2, dot2, vsub. cbn [v0 v1]. replace (_ + _) with (1 / 2 * (1 / 2)) by field. rewrite sqrt_square; lra.
Qed.

Print Assumptions C87_each.
Print Assumptions C87_samples.
Print Assumptions C87_normal.
Print Assumptions C87_facing.
Print Assumptions C87_wall.
Print Assumptions C87_turned.
Print Assumptions C87_duplicate_refuted.
Print Assumptions C87_sight_refuted.
