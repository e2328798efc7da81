(* C86: inserting range data into a truncated signed distance field. *)
From Coq Require Import ZArith Reals List Bool Permutation Lra Lia Psatz.
From Verif Require Import CF_Model RG_Model RG_Proofs IG_Model IG_Proofs I2_Model RTP_Model RTP_Spec TI_Model TI_Spec TI_Proofs TI_Ray TI_Cells TI_Insert.
Import ListNotations.
Open Scope R_scope.

(* the grid grows until the origin and the ends of the rays are inside, and the map stays in place *)
Theorem C86_grow : forall t origin hits g, proper (g_lim g) ->
  exists n gg, (forall fuel, (n <= fuel)%nat -> grow_as_needed fuel t origin hits g = Some gg) /\ grown_map g gg /\
    inside (g_lim gg) (xy origin) /\ Forall (fun h => inside (g_lim gg) (behind t origin h)) hits.
Proof.
  intros t origin hits g P. destruct (grow_box_enough t origin hits g P) as [n H]. destruct (H n (Nat.le_refl _)) as [gg E].
  exists n, gg. split; [intros fuel F; apply (grow_box_more _ _ _ _ n); assumption|]. apply (grow_box n); assumption.
Qed.

(* range data at the height of its origin is inserted without an abort *)
Theorem C86_succeeds : forall wrap sort normals o origin hits g, proper (g_lim g) -> g_upd g = [] -> 0 < o_truncation o ->
  sorts sort -> one_normal_each normals -> Forall (fun h => v2 h = v2 origin) hits ->
  exists n gg, (forall fuel, (n <= fuel)%nat -> grow_as_needed fuel (o_truncation o) origin hits g = Some gg) /\
    (small_grid (g_lim gg) -> exists g', forall fuel, (n <= fuel)%nat -> insert3 wrap sort normals fuel o origin hits g = Some g').
Proof.
  intros wrap sort normals o origin hits g P U T S N L.
  destruct (C86_grow (o_truncation o) origin hits g P) as [n [gg [G [[_ [P' [U' _]]] [I1 I2]]]]]. exists n, gg. split; [exact G|]. intros Sm.
  destruct (returns_ok sort normals o origin hits S N) as [rs [R1 [R2 _]]].
  assert (X : exists g1, insert_hits wrap o (xy origin) rs gg = Some g1).
  { apply hits_some; try assumption. rewrite Forall_forall. intros r Hr D.
    assert (J : In (fst r) hits).
    { assert (J : In (fst r) (map fst rs)) by (apply in_map; exact Hr). rewrite R2 in J. destruct (needs_normals o); [|exact J].
      apply Permutation_in with (1 := S origin hits). exact J. }
    rewrite Forall_forall in I2, L. specialize (I2 _ J). rewrite behind_past in I2; [|apply L; exact J | lra].
    apply ends_inside; assumption. }
  destruct X as [g1 X]. exists (mk_tgrid (g_lim g1) (g_cell g1) []). intros fuel F. unfold insert3. rewrite U, (G fuel F), R1.
  change (v0 origin, v1 origin) with (xy origin). rewrite X. reflexivity.
Qed.

(* every cell is updated at most once, by the first return that crosses it with a weight *)
Theorem C86_cells : forall wrap sort normals fuel o origin hits g g', proper (g_lim g) -> 0 < o_truncation o ->
  sorts sort -> one_normal_each normals -> insert3 wrap sort normals fuel o origin hits g = Some g' ->
  exists gg rs, grown_map g gg /\ g_lim g' = g_lim gg /\ g_upd g' = [] /\
    map fst rs = (if needs_normals o then sort origin hits else hits) /\
    (needs_normals o = true -> map snd rs = normals origin (sort origin hits)) /\
    forall c,
      (Forall (fun r => ~ applies wrap o (g_lim gg) (xy origin) c r) rs /\ g_cell g' c = g_cell gg c) \/
      exists before h n after, rs = before ++ (h, n) :: after /\
        Forall (fun r => ~ applies wrap o (g_lim gg) (xy origin) c r) before /\ applies wrap o (g_lim gg) (xy origin) c (h, n) /\
        g_cell g' c = Some (mixed o (g_cell gg c) (wanted_distance o (xy origin) (xy h) n (cell_center2 (g_lim gg) c))
                                                  (wanted_weight wrap o (xy origin) (xy h) n (cell_center2 (g_lim gg) c))).
Proof.
  intros wrap sort normals fuel o origin hits g g' P T S N. unfold insert3. destruct (g_upd g) eqn:U; [|discriminate].
  destruct (grow_as_needed fuel (o_truncation o) origin hits g) as [gg|] eqn:G; [|discriminate].
  destruct (returns_ok sort normals o origin hits S N) as [rs [R1 [R2 R3]]]. rewrite R1.
  change (v0 origin, v1 origin) with (xy origin).
  destruct (insert_hits wrap o (xy origin) rs gg) as [g1|] eqn:X; [|discriminate]. intros H.
  assert (g' = mk_tgrid (g_lim g1) (g_cell g1) []) by congruence. subst g'. cbn [g_lim g_cell g_upd].
  destruct (grow_box _ _ _ _ _ _ P G) as [GM _]. destruct (hits_ok _ _ _ T _ _ _ X) as [L C].
  exists gg, rs. split; [exact GM|]. split; [exact L|]. split; [reflexivity|]. split; [exact R2|]. split; [exact R3|].
  intros c. destruct (C c) as [_ C2].
  assert (E : g_upd gg = []) by (destruct GM as [_ [_ [E _]]]; congruence). rewrite E in C2.
  destruct (C2 (fun x => x)) as [A | [b [[h n] [a [A1 [A2 [A3 A4]]]]]]]; [left; exact A|].
  right. exists b, h, n, a. auto.
Qed.

(* the cells a ray crosses: within half a thousandth of a cell, those that contain a point of it *)
Theorem C86_ray : forall o l origin hit c, proper l ->
  (crossed o l origin hit c ->
     exists t, 0 <= t <= 1 /\ in_cell l c (l_res l / 2000) (between (ray_from o origin hit) (ray_to o origin hit) t)) /\
  (forall t, 0 <= t <= 1 -> in_cell l c (- (l_res l / 2000)) (between (ray_from o origin hit) (ray_to o origin hit) t) ->
     crossed o l origin hit c).
Proof.
  intros o l origin hit c P. split; [apply crossed_near; exact P|]. intros t. apply deep_crossed. exact P.
Qed.

(* distances stay within the truncation distance, weights between zero and the maximum *)
Theorem C86_range : forall wrap sort normals fuel o origin hits g g', proper (g_lim g) -> usable_options o ->
  sorts sort -> one_normal_each normals -> valid_map o g ->
  insert3 wrap sort normals fuel o origin hits g = Some g' -> valid_map o g'.
Proof.
  intros wrap sort normals fuel o origin hits g g' P O S N V H. pose proof O as [T [_ [B1 B2]]].
  destruct (C86_cells _ _ _ _ _ _ _ _ _ P T S N H) as [gg [rs [G [L [_ [_ [_ C]]]]]]]. pose proof (valid_grown o g gg G V) as V'.
  intros c d w K E. rewrite L in K. destruct (C c) as [[_ A] | [b [h [n [a [_ [_ [A1 A2]]]]]]]].
  - apply (V' c d w K). congruence.
  - rewrite A2 in E. set (x := mixed _ _ _ _) in E. assert (X : x = (d, w)) by congruence.
    destruct A1 as [_ [_ W]]. pose proof (weight_nonneg wrap o (xy origin) (xy h) n (cell_center2 (g_lim gg) c) B1 B2) as W0.
    pose proof (mixed_range o (g_cell gg c) (wanted_distance o (xy origin) (xy h) n (cell_center2 (g_lim gg) c))
                  (wanted_weight wrap o (xy origin) (xy h) n (cell_center2 (g_lim gg) c)) O) as M.
    fold x in M. rewrite X in M. apply M.
    + cbn [fst snd] in W. lra.
    + apply distance_range. exact T.
    + intros d0 w0. apply V'. exact K.
Qed.

(* as long as the maximum weight is not exceeded, a cell holds the weighted mean of its updates *)
Theorem C86_mean : forall o us, us <> [] -> Forall (fun u => 0 < snd u) us -> total us <= o_max_weight o ->
  mixed_all o us = Some (moment us / total us, total us).
Proof. exact mean_ok. Qed.

(* on the ray itself, with a normal that points to the origin, both kinds of distance are the distance
   in front of the hit *)
Theorem C86_on_ray : forall o origin hit normal s, 0 < dist origin hit -> s <= dist origin hit ->
  dist origin hit * cos normal = fst origin - fst hit -> dist origin hit * sin normal = snd origin - snd hit ->
  wanted_distance o origin hit normal (past origin hit (- s)) = Rmax (- o_truncation o) (Rmin (o_truncation o) s).
Proof. exact on_ray. Qed.

(* returns are sorted by direction *)
Theorem C86_sorter : forall origin a b, sorter_less origin a b = true <-> direction origin a < direction origin b.
Proof. exact sorter_ok. Qed.

(* a return above the origin near the border of the grid: the grid is not grown far enough and the ray
   leaves it *)
Definition ropt : toptions := mk_toptions 1 10 true false 0 0 0.
Definition rgrid : grid3 := mk_tgrid (mk_limits2 1 (39 / 10) 10 20 20) (fun _ => None) [].
Lemma rproper : proper (g_lim rgrid).
Proof. repeat split; cbn; try lra; lia. Qed.
Lemma grow_stays g p fuel : proper (g_lim g) -> inside (g_lim g) p -> grow_to fuel g p = Some g.
Proof.
  intros P I. assert (E : contains2 (g_lim g) (cell_index2 (g_lim g) (fst p) (snd p)) = true) by (apply contains_cell, index_inside; assumption).
  destruct fuel; cbn [grow_to]; rewrite E; reflexivity.
Qed.
Lemma sqrt_is x y : 0 <= y -> y * y = x -> sqrt x = y.
Proof. intros A <-. apply sqrt_square. exact A. Qed.
Theorem C86_height_refuted : exists o origin hit g, proper (g_lim g) /\ g_upd g = [] /\ usable_options o /\ small_grid (g_lim g) /\
  forall wrap sort normals fuel,
    grow_as_needed fuel (o_truncation o) origin [hit] g = Some g /\ insert3 wrap sort normals fuel o origin [hit] g = None.
Proof.
  exists ropt, (mk_vec3 0 0 0), (mk_vec3 3 0 4), rgrid. split; [apply rproper|]. split; [reflexivity|].
  split; [unfold usable_options; cbn; lra|]. split; [unfold small_grid; cbn; lia|]. intros wrap sort normals fuel.
  assert (B : behind 1 (mk_vec3 0 0 0) (mk_vec3 3 0 4) = (18 / 5, 0)).
  { unfold behind, normalized3. replace (vdot _ _) with 25 by (unfold vdot, vsub; cbn [v0 v1 v2]; ring).
    destruct (Rlt_dec 0 25); [|lra]. rewrite (sqrt_is 25 5) by lra. unfold vadd, vscale, vsub. cbn [v0 v1 v2]. f_equal; field. }
  assert (G : grow_as_needed fuel (o_truncation ropt) (mk_vec3 0 0 0) [mk_vec3 3 0 4] rgrid = Some rgrid).
  { unfold grow_as_needed, bounding_box. cbn [fold_left o_truncation ropt]. rewrite B. unfold extend. cbn [fst snd v0 v1].
    rewrite !Rmin_left, !Rmax_right by lra. unfold padding.
    rewrite !grow_stays; [reflexivity | apply rproper | | apply rproper |]; unfold inside; cbn; lra. }
  split; [exact G|]. unfold insert3. change (g_upd rgrid) with (@nil (Z * Z)). cbv iota. rewrite G. unfold returns_used, needs_normals. change (o_project ropt) with false. change (o_angle_bandwidth ropt) with 0. cbn [orb].
  destruct (Req_EM_T 0 0) as [_ | C]; [|contradiction C; reflexivity]. cbn [map insert_hits v0 v1]. unfold insert_hit. rewrite norm_dist.
  assert (D : dist (0, 0) (3, 0) = 3) by (apply sqrt_is; cbn [fst snd]; lra). rewrite D. cbn [o_truncation ropt].
  destruct (Rlt_dec 3 1); [lra|]. destruct (ray_mask ropt (g_lim rgrid) (0, 0) (3, 0)) as [m|] eqn:M; [exfalso | reflexivity].
  revert M. unfold ray_mask. rewrite superscaled_small by (unfold small_grid; cbn; lia). rewrite ends_ok by lra. cbn zeta. cbn [fst snd].
  destruct (_ && _)%bool; [|discriminate]. intros M. destruct (mask_nonneg _ _ _ _ M) as [_ [_ [_ X]]]. revert X.
  unfold cell_index2, ray_to, past. cbn [fst snd l_max_x l_res g_lim rgrid o_truncation ropt]. rewrite D, lround_nonneg. lra.
Qed.

(* a hit four meters away updates the cell around it *)
Definition eopt : toptions := mk_toptions 1 10 false false 0 0 0.
Definition egrid : grid3 := mk_tgrid (mk_limits2 1 8 8 8 8) (fun _ => None) [].
Lemma eproper : proper (g_lim egrid).
Proof. repeat split; cbn; try lra; lia. Qed.
Definition eorigin : vec3 R := mk_vec3 (1 / 2) (1 / 2) 0.
Definition ehit : vec3 R := mk_vec3 (9 / 2) (1 / 2) 0.
Lemma edist : dist (xy eorigin) (xy ehit) = 4.
Proof. apply sqrt_is; unfold xy, eorigin, ehit; cbn [fst snd v0 v1]; lra. Qed.
Example C86_example : forall wrap, exists g', insert3 wrap (fun _ l => l) (fun _ l => map (fun _ => 0) l) 0 eopt eorigin [ehit] egrid = Some g' /\
  g_cell g' (7, 3)%Z = Some (0, 1) /\ g_cell g' (7, 6)%Z = None.
Proof.
  intros wrap.
  assert (Sg : small_grid (g_lim egrid)) by (unfold small_grid; cbn; lia).
  assert (B : behind 1 eorigin ehit = (11 / 2, 1 / 2)).
  { rewrite behind_past; [|reflexivity | rewrite edist; lra]. unfold past. rewrite edist. unfold xy, eorigin, ehit. cbn [fst snd v0 v1]. f_equal; field. }
  assert (G : grow_as_needed 0 (o_truncation eopt) eorigin [ehit] egrid = Some egrid).
  { unfold grow_as_needed, bounding_box. cbn [fold_left o_truncation eopt]. rewrite B. unfold extend. cbn [fst snd v0 v1 eorigin].
    rewrite !Rmin_left, !Rmax_right by lra. unfold padding.
    rewrite !grow_stays; [reflexivity | apply eproper | | apply eproper |]; unfold inside; cbn; lra. }
  assert (RT : ray_to eopt (xy eorigin) (xy ehit) = (11 / 2, 1 / 2)).
  { unfold ray_to. rewrite <- B. symmetry. apply behind_past; [reflexivity | rewrite edist; lra]. }
  assert (RF : ray_from eopt (xy eorigin) (xy ehit) = (7 / 2, 1 / 2)).
  { unfold ray_from, past. cbn [o_free_space eopt o_truncation]. rewrite edist. unfold xy, eorigin, ehit. cbn [fst snd v0 v1]. f_equal; field. }
  assert (X : exists g1, insert_hits wrap eopt (xy eorigin) [(ehit, 0)] egrid = Some g1).
  { apply hits_some; [cbn; lra | apply eproper | exact Sg |]. constructor; [|constructor]. intros _. cbn [fst]. rewrite RT, RF.
    unfold inside. cbn. lra. }
  destruct X as [g1 X]. exists (mk_tgrid (g_lim g1) (g_cell g1) []). split.
  { unfold insert3. change (g_upd egrid) with (@nil (Z * Z)). cbv iota. rewrite G. unfold returns_used, needs_normals. change (o_project eopt) with false. change (o_angle_bandwidth eopt) with 0. cbn [orb].
    destruct (Req_EM_T 0 0) as [_ | C]; [|contradiction C; reflexivity]. cbn [map]. change (v0 eorigin, v1 eorigin) with (xy eorigin). rewrite X. reflexivity. }
  assert (T0 : 0 < o_truncation eopt) by (cbn; lra). destruct (hits_ok _ _ _ T0 _ _ _ X) as [_ H]. cbn [g_cell].
  assert (W : forall c, wanted_weight wrap eopt (xy eorigin) (xy ehit) 0 c = 1).
  { intros c. unfold wanted_weight, factor. cbn [o_exponent o_angle_bandwidth o_distance_bandwidth eopt Z.eqb].
    destruct (Req_EM_T 0 0) as [_ | C]; [ring | contradiction C; reflexivity]. }
  split.
  - destruct (H (7, 3)%Z) as [_ H2]. destruct (H2 (fun x => x)) as [[F _] | [b [r [a [E [_ [_ A]]]]]]].
    + exfalso. inversion F as [|? ? F1 _]; subst. apply F1. split; [cbn [fst o_truncation eopt]; rewrite edist; lra|].
      split; [|cbn [fst snd]; rewrite W; lra]. cbn [fst]. apply deep_crossed with (t := 1 / 2); [apply eproper | lra|]. rewrite RT, RF.
      unfold in_cell, between, cell_center2. cbn [fst snd g_lim egrid l_max_x l_max_y l_res].
      split; apply Rabs_def1; lra.
    + assert (r = (ehit, 0)) by (destruct b as [|? [|]]; cbn in E; congruence). subst r. rewrite A. unfold res, result. cbn [fst snd]. rewrite W.
      unfold mixed. cbn [g_cell egrid o_max_weight eopt]. rewrite Rmin_left by lra. f_equal. f_equal.
      unfold wanted_distance. cbn [o_project eopt o_truncation]. rewrite edist.
      assert (D : dist (xy eorigin) (cell_center2 (g_lim egrid) (7, 3)%Z) = 4)
        by (apply sqrt_is; [lra|]; unfold cell_center2, xy, eorigin; cbn [fst snd v0 v1 g_lim egrid l_max_x l_max_y l_res]; lra).
      rewrite D.
      rewrite Rmin_right, Rmax_right by lra. ring.
  - destruct (H (7, 6)%Z) as [_ H2]. destruct (H2 (fun x => x)) as [[_ F] | [b [r [a [E [_ [A _]]]]]]]; [exact F|]. exfalso.
    assert (r = (ehit, 0)) by (destruct b as [|? [|]]; cbn in E; congruence). subst r. destruct A as [_ [A _]]. cbn [fst] in A.
    apply crossed_near in A; [|apply eproper]. destruct A as [t [T A]]. rewrite RT, RF in A. unfold in_cell, between, cell_center2 in A.
    cbn [fst snd g_lim egrid l_max_x l_max_y l_res] in A. destruct A as [A _]. apply Rabs_def2 in A. lra.
Qed.
(* two returns to the right and to the left *)
Example C86_sorter_example : sorter_less (mk_vec3 0 0 0) (mk_vec3 1 (-1) 0) (mk_vec3 (-1) 1 0) = true.
Proof.
  unfold sorter_less, normalized2. cbn [v0 v1 fst snd].
  assert (S : 0 < sqrt 2) by (apply sqrt_lt_R0; lra). assert (I : 0 < / sqrt 2) by (apply Rinv_0_lt_compat; exact S).
  replace ((1 - 0) * (1 - 0) + (- 1 - 0) * (- 1 - 0)) with 2 by ring. replace ((- 1 - 0) * (- 1 - 0) + (1 - 0) * (1 - 0)) with 2 by ring.
  destruct (Rlt_dec 0 2); [|lra]. cbn [fst snd]. unfold Rdiv.
  destruct (Rlt_dec ((- 1 - 0) * / sqrt 2) 0); [|lra]. destruct (Rlt_dec ((1 - 0) * / sqrt 2) 0); [lra|]. reflexivity.
Qed.
(* half a meter in front of a hit two meters away, and the mean of two updates *)
Example C86_on_ray_example : wanted_distance eopt (0, 0) (2, 0) PI (past (0, 0) (2, 0) (- (1 / 2))) = 1 / 2.
Proof.
  assert (D : dist (0, 0) (2, 0) = 2) by (apply sqrt_is; cbn [fst snd]; lra).
  rewrite C86_on_ray; rewrite ?D, ?cos_PI, ?sin_PI; cbn [fst snd o_truncation eopt]; try lra. rewrite Rmin_right, Rmax_right; lra.
Qed.
Example C86_mean_example : mixed_all eopt [(1, 1); (0, 3)] = Some (1 / 4, 4).
Proof.
  rewrite C86_mean.
  - unfold moment, total. cbn [fold_right fst snd]. replace (1 + (3 + 0)) with 4 by ring. replace ((1 * 1 + (3 * 0 + 0)) / 4) with (1 / 4) by field. reflexivity.
  - discriminate.
  - repeat constructor; cbn [snd]; lra.
  - unfold total. cbn [fold_right snd o_max_weight eopt]. lra.
Qed.

Print Assumptions C86_grow.
Print Assumptions C86_succeeds.
Print Assumptions C86_cells.
Print Assumptions C86_ray.
Print Assumptions C86_range.
Print Assumptions C86_mean.
Print Assumptions C86_on_ray.
Print Assumptions C86_sorter.
Print Assumptions C86_height_refuted.
