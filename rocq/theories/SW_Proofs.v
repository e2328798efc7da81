(* Search windows: steps, coverage, cells. *)
From Coq Require Import ZArith Reals Lra Lia Bool.
From Verif Require Import CF_Model RG_Model RG_Spec RG_Proofs RG_Angle IG_Model IG_Proofs I2_Model Vec RH_Model SW_Model SW_Spec.
From Coq Require Import List.
Import ListNotations.
Open Scope R_scope.

(* ---- the step *)
Lemma max_range_ge rs : forall m, m <= fold_left (fun m r => Rmax r m) rs m /\
  forall r, In r rs -> r <= fold_left (fun m r => Rmax r m) rs m.
Proof.
  induction rs as [|r rs IH]; intros m; cbn [fold_left]; [split; [lra | intros ? []]|].
  destruct (IH (Rmax r m)) as [A B]. pose proof (Rmax_l r m). pose proof (Rmax_r r m).
  split; [lra|]. intros x [<-|I]; [lra | now apply B].
Qed.
Lemma cos_abs x : cos (Rabs x) = cos x.
Proof. unfold Rabs. destruct (Rcase_abs x); [apply cos_neg | reflexivity]. Qed.
Lemma step_facts margin res range : 0 < res -> 3 * res <= range -> 0 < margin < 1 ->
  exists a, angular_step margin res range = Some (margin * a) /\ 0 < a < PI / 2 /\
    2 * (1 - cos a) * (range * range) = res * res /\ 17 / 18 <= cos a.
Proof.
  intros H B M. unfold angular_step. cbv zeta.
  assert (P : 0 < range * range) by nra.
  assert (Q : 0 < res * res / (2 * (range * range)) <= 1 / 18).
  { split; [apply Rdiv_lt_0_compat; nra|]. apply (Rmult_le_reg_r (2 * (range * range))); [lra|].
    unfold Rdiv at 1. rewrite Rmult_assoc, Rinv_l by lra. nra. }
  set (c := 1 - res * res / (2 * (range * range))) in *.
  destruct (Rle_dec (-1) c) as [C1|C1]; [|unfold c in C1; lra].
  destruct (Rle_dec c 1) as [C2|C2]; [|unfold c in C2; lra].
  exists (acos c). split; [reflexivity|].
  assert (CA : cos (acos c) = c) by (apply cos_acos; lra).
  assert (B1 : 0 < acos c < PI) by (apply acos_bound_lt; unfold c; lra).
  rewrite CA. split; [|split].
  - split; [lra|]. destruct (Rlt_le_dec (acos c) (PI / 2)) as [L|L]; [exact L|].
    pose proof (cos_le_0 (acos c) L) as N. pose proof PI_RGT_0. assert (acos c <= 3 * (PI / 2)) by lra.
    specialize (N H1). rewrite CA in N. unfold c in N. lra.
  - unfold c. field. nra.
  - unfold c. lra.
Qed.
(* how far points move when turned *)
Lemma turn_dist x y a b : (cos a * x - sin a * y - (cos b * x - sin b * y)) * (cos a * x - sin a * y - (cos b * x - sin b * y))
  + (sin a * x + cos a * y - (sin b * x + cos b * y)) * (sin a * x + cos a * y - (sin b * x + cos b * y))
  = (x * x + y * y) * (2 * (1 - cos (a - b))).
Proof.
  rewrite cos_minus. pose proof (sc a) as A. pose proof (sc b) as B.
  transitivity ((x * x + y * y) * ((sin a * sin a + cos a * cos a) + (sin b * sin b + cos b * cos b) - 2 * (cos a * cos b + sin a * sin b))); [ring|].
  rewrite A, B. ring.
Qed.
Lemma chord_small res range a r d : 0 < res -> 3 * res <= range -> 0 < a < PI / 2 ->
  2 * (1 - cos a) * (range * range) = res * res -> 0 <= r <= range * range -> Rabs d < a ->
  r * (2 * (1 - cos d)) < res * res.
Proof.
  intros H B A E R D. pose proof PI_RGT_0. pose proof (Rabs_pos d). rewrite <- (cos_abs d).
  assert (L : cos a < cos (Rabs d)) by (apply cos_decreasing_1; lra).
  pose proof (COS_bound (Rabs d)) as [_ C]. set (c := cos (Rabs d)) in *. clearbody c.
  assert (0 < range * range) by nra. rewrite <- E.
  apply (Rle_lt_trans _ (range * range * (2 * (1 - c)))); [apply Rmult_le_compat_r; lra|]. nra.
Qed.
Lemma chord_half res range a r d : 0 < res -> 3 * res <= range -> 0 < a < PI / 2 ->
  2 * (1 - cos a) * (range * range) = res * res -> 17 / 18 <= cos a -> 0 <= r <= range * range -> Rabs d <= a / 2 ->
  r * (2 * (1 - cos d)) <= 9 / 35 * (res * res).
Proof.
  intros H B A E K R D. pose proof PI_RGT_0. pose proof (Rabs_pos d). rewrite <- (cos_abs d).
  assert (L : cos (a / 2) <= cos (Rabs d)) by (apply cos_decr_1; lra).
  assert (L2 : cos a <= cos (a / 2)) by (apply cos_decr_1; lra).
  pose proof (COS_bound (Rabs d)) as [_ C]. set (c := cos (Rabs d)) in *. clearbody c.
  assert (D2 : cos a = 2 * (cos (a / 2) * cos (a / 2)) - 1).
  { pose proof (cos_2a_cos (a / 2)) as Z. replace (2 * (a / 2)) with a in Z by field. lra. }
  set (h := cos (a / 2)) in *. assert (0 < range * range) by nra. rewrite <- E.
  assert (Q : 1 - h <= 9 / 35 * (1 - cos a)). { rewrite D2. rewrite D2 in L2, K. nra. }
  apply (Rle_trans _ (range * range * (2 * (1 - c)))); [apply Rmult_le_compat_r; lra|]. nra.
Qed.
Lemma sqrt_below s e : 0 < e -> s < e * e -> sqrt s < e.
Proof. intros E H. rewrite <- (sqrt_square e) by lra. destruct (Rle_lt_dec 0 s); [apply sqrt_lt_1; lra|].
  rewrite sqrt_neg_0 by lra. rewrite sqrt_square by lra. exact E. Qed.

(* ---- rounding *)
Lemma ceil_spec x : IZR (ceil x) - 1 < x <= IZR (ceil x).
Proof. unfold ceil. rewrite opp_IZR. pose proof (floor_spec (- x)). lra. Qed.
Lemma grid_near x n : - IZR n - 1 / 2 <= x <= IZR n + 1 / 2 -> (0 <= n)%Z -> exists k, (- n <= k <= n)%Z /\ Rabs (x - IZR k) <= 1 / 2.
Proof.
  intros B N. pose proof (lround_near x) as [A C].
  destruct (Z_lt_le_dec n (lround x)) as [L|L].
  - exists n. split; [lia|]. assert (IZR (n + 1) <= IZR (lround x)) by (apply IZR_le; lia). rewrite plus_IZR in *.
    apply Rabs_le. lra.
  - destruct (Z_lt_le_dec (lround x) (- n)) as [M|M].
    + exists (- n)%Z. split; [lia|]. assert (IZR (lround x) <= IZR (- n - 1)) by (apply IZR_le; lia).
      rewrite minus_IZR, opp_IZR in *. apply Rabs_le. lra.
    + exists (lround x). split; [lia|]. apply Rabs_le. lra.
Qed.
Lemma window_near x w s n : 0 < s -> Rabs x <= w -> w / s <= IZR n + 1 / 2 -> exists k, (- n <= k <= n)%Z /\ Rabs (x - IZR k * s) <= s / 2.
Proof.
  intros S X W. assert (A : - (w / s) <= x / s <= w / s).
  { pose proof (Rabs_pos x). assert (- w <= x <= w) by (unfold Rabs in X; destruct (Rcase_abs x); lra).
    assert (0 < / s) by now apply Rinv_0_lt_compat. unfold Rdiv. split; [rewrite Ropp_mult_distr_l|]; apply Rmult_le_compat_r; lra. }
  assert (N : (0 <= n)%Z).
  { apply Z.lt_succ_r, lt_IZR. rewrite succ_IZR. pose proof (Rabs_pos x).
    assert (0 <= w / s) by (apply Rle_mult_inv_pos; lra). lra. }
  destruct (grid_near (x / s) n) as [k [K D]]; [lra | exact N |]. exists k. split; [exact K|].
  replace (x - IZR k * s) with ((x / s - IZR k) * s) by (field; lra). rewrite Rabs_mult, (Rabs_right s) by lra.
  apply (Rmult_le_compat_r s) in D; lra.
Qed.
Lemma lround_shift u k : ~ whole (u + 1 / 2) -> lround (u + IZR k) = (lround u + k)%Z.
Proof.
  intros W. pose proof (lround_near u) as [A B]. pose proof (lround_near (u + IZR k)) as [C D].
  assert (N1 : u <> IZR (lround u) + 1 / 2). { intros E. apply W. exists (lround u + 1)%Z. rewrite plus_IZR. lra. }
  assert (N2 : u <> IZR (lround u) - 1 / 2). { intros E. apply W. exists (lround u). lra. }
  assert (IZR (lround (u + IZR k)) < IZR (lround u + k + 1)) by (rewrite !plus_IZR; lra).
  assert (IZR (lround u + k - 1) < IZR (lround (u + IZR k))) by (rewrite minus_IZR, plus_IZR; lra).
  apply lt_IZR in H, H0. lia.
Qed.
Lemma lround_close u v : Rabs (u - v) < 1 -> (Z.abs (lround u - lround v) <= 1)%Z.
Proof.
  intros H. apply Rabs_def2 in H. pose proof (lround_near u). pose proof (lround_near v).
  assert (A : IZR (lround u) < IZR (lround v + 2)) by (rewrite plus_IZR; lra).
  assert (B : IZR (lround v) < IZR (lround u + 2)) by (rewrite plus_IZR; lra).
  apply lt_IZR in A, B. lia.
Qed.
(* ---- 2D *)
Lemma thetas_nth n : forall d s i, (i < n)%nat -> nth_error (thetas n d s) i = Some (d + INR i * s).
Proof.
  induction n; intros d s i L; [lia|]. destruct i; cbn [thetas nth_error].
  - f_equal. cbn. ring.
  - rewrite IHn by lia. f_equal. rewrite S_INR. ring.
Qed.
Lemma thetas_length n : forall d s, length (thetas n d s) = n.
Proof. induction n; intros; cbn [thetas length]; auto. Qed.
Lemma rotate_rotate a b cloud : rotate_cloud a (rotate_cloud b cloud) = rotate_cloud (a + b) cloud.
Proof. unfold rotate_cloud. rewrite map_map. apply map_ext. intros p. rewrite <- about_z_mul. symmetry. apply qrot_mul; apply about_z_unit. Qed.
Lemma norm2_sq d : norm2 d * norm2 d = fst d * fst d + snd d * snd d.
Proof. unfold norm2. apply sqrt_sqrt. nra. Qed.
Lemma norm2_nonneg d : 0 <= norm2 d. Proof. apply sqrt_pos. Qed.
Lemma window_facts linear angular cloud res : 0 < res -> exists w a,
  search_parameters linear angular cloud res = Some w /\ w_step w = k_safety_2d * a /\ 0 < a < PI / 2 /\
  w_num_angular w = ceil (angular / w_step w) /\ w_num_scans w = (2 * w_num_angular w + 1)%Z /\
  w_resolution w = res /\ w_num_linear w = ceil (linear / res) /\
  2 * (1 - cos a) * (max_range (map (fun p => norm2 (v0 p, v1 p)) cloud) res * max_range (map (fun p => norm2 (v0 p, v1 p)) cloud) res) = res * res /\
  17 / 18 <= cos a /\ 3 * res <= max_range (map (fun p => norm2 (v0 p, v1 p)) cloud) res /\
  forall p, In p cloud -> v0 p * v0 p + v1 p * v1 p <= max_range (map (fun p => norm2 (v0 p, v1 p)) cloud) res * max_range (map (fun p => norm2 (v0 p, v1 p)) cloud) res.
Proof.
  intros H. unfold search_parameters. cbv zeta. set (m := max_range _ res).
  destruct (max_range_ge (map (fun p => norm2 (v0 p, v1 p)) cloud) (3 * res)) as [A B]. fold (max_range (map (fun p => norm2 (v0 p, v1 p)) cloud) res) in A, B. fold m in A, B.
  destruct (step_facts k_safety_2d res m) as [a [E [R [C K]]]]; [exact H | exact A | unfold k_safety_2d; lra |].
  rewrite E. eexists; exists a. split; [reflexivity|]. cbn [w_step w_num_angular w_num_scans w_resolution w_num_linear].
  repeat (split; [tauto || lra|]). intros p I.
  assert (L : norm2 (v0 p, v1 p) <= m) by (apply B, (in_map (fun p => norm2 (v0 p, v1 p))), I).
  pose proof (norm2_sq (v0 p, v1 p)) as Q. cbn [fst snd] in Q. rewrite <- Q. pose proof (norm2_nonneg (v0 p, v1 p)). nra.
Qed.
Lemma placed_dist x y a b p : dist_2d (placed x y a p) (placed x y b p) = sqrt ((v0 p * v0 p + v1 p * v1 p) * (2 * (1 - cos (a - b)))).
Proof. unfold dist_2d, placed. cbn [fst snd]. rewrite <- turn_dist. f_equal. ring. Qed.
Lemma ceil_window x s : 0 < s -> IZR (ceil (x / s)) * s - s < x <= IZR (ceil (x / s)) * s.
Proof.
  intros S. pose proof (ceil_spec (x / s)) as [A B]. assert (E : x = x / s * s) by (field; lra).
  rewrite E at 2 3. split; nra.
Qed.
Lemma dist_axes p q e : dist_2d p q < e -> Rabs (fst p - fst q) < e /\ Rabs (snd p - snd q) < e.
Proof.
  unfold dist_2d. set (a := fst p - fst q). set (b := snd p - snd q). intros H.
  assert (A : forall u v, sqrt (u * u + v * v) < e -> Rabs u < e).
  { intros u v L. apply (Rle_lt_trans _ (sqrt (u * u + v * v))); [|exact L].
    rewrite <- sqrt_Rsqr_abs. apply sqrt_le_1; unfold Rsqr; nra. }
  split; [now apply (A a b) | apply (A b a)]. now rewrite Rplus_comm.
Qed.
Lemma scan_nth l w initial cloud i j p : (0 <= i < w_num_scans w)%Z -> nth_error cloud j = Some p ->
  exists scan, nth_error (scan_cells l w initial cloud) (Z.to_nat i) = Some scan /\ length scan = length cloud /\
    nth_error scan j = Some (let q := placed (v0 initial) (v1 initial) (v2 initial + IZR (i - w_num_angular w) * w_step w) p in
                             cell_index2 l (fst q) (snd q)).
Proof.
  intros I N. unfold scan_cells, discretize, rotated_scans. rewrite map_map. eexists. split; [|split].
  - erewrite map_nth_error; [reflexivity|]. apply thetas_nth. lia.
  - unfold rotate_cloud. now rewrite !map_length.
  - rewrite rotate_rotate. unfold rotate_cloud. rewrite map_map. erewrite map_nth_error by exact N. rewrite about_z_rot. cbv zeta. unfold placed. cbn [v0 v1 fst snd].
    replace (- IZR (w_num_angular w) * w_step w + INR (Z.to_nat i) * w_step w + v2 initial)
      with (v2 initial + IZR (i - w_num_angular w) * w_step w).
    2:{ rewrite INR_IZR_INZ, Z2Nat.id, minus_IZR by lia. ring. }
    reflexivity.
Qed.
Lemma scans_length l w initial cloud : length (scan_cells l w initial cloud) = Z.to_nat (w_num_scans w).
Proof. unfold scan_cells, discretize, rotated_scans. rewrite !map_length. apply thetas_length. Qed.

(* ---- 3D *)
Lemma symmetric_in n k : In k (symmetric n) <-> (- n <= k <= n)%Z.
Proof.
  unfold symmetric. rewrite in_map_iff. split.
  - intros [x [<- I]]. apply In_zrange in I. lia.
  - intros B. exists (k + n)%Z. split; [lia|]. apply In_zrange. lia.
Qed.
Lemma symmetric_length n : (0 <= n)%Z -> length (symmetric n) = Z.to_nat (2 * n + 1).
Proof. intros N. unfold symmetric. rewrite map_length, zrange_seq, map_length, seq_length. reflexivity. Qed.
Lemma symmetric_nodup n : NoDup (symmetric n).
Proof. apply FinFun.Injective_map_NoDup; [intros a b E; lia | apply zrange_NoDup]. Qed.
Lemma of_z a : a = 0 \/ 1 / 10000 < Rabs a -> of_angle_axis (mk_vec3 0 0 a) = about_z a.
Proof.
  intros [-> | B].
  - unfold of_angle_axis, vdot. cbn [v0 v1 v2]. replace (0 * 0 + 0 * 0 + 0 * 0) with 0 by ring.
    destruct (Rlt_dec (1 / 100000000) 0); [lra|]. unfold about_z. replace (0 / 2) with 0 by field. rewrite cos_0, sin_0.
    f_equal; ring.
  - assert (S : 1 / 100000000 < a * a). { assert (a * a = Rabs a * Rabs a) by (unfold Rabs; destruct (Rcase_abs a); ring). rewrite H. nra. }
    unfold of_angle_axis, vnorm, vdot. cbn [v0 v1 v2]. replace (0 * 0 + 0 * 0 + a * a) with (Rsqr a) by (unfold Rsqr; ring).
    change (a * a) with (Rsqr a) in S. destruct (Rlt_dec (1 / 100000000) (Rsqr a)); [|lra]. rewrite sqrt_Rsqr_abs. unfold about_z. f_equal; try ring.
    + replace (Rabs a / 2) with (Rabs (a / 2)); [apply cos_abs|]. unfold Rdiv. rewrite Rabs_mult, (Rabs_right (/ 2)) by lra. reflexivity.
    + unfold Rabs in *. destruct (Rcase_abs a).
      * replace (- a / 2) with (- (a / 2)) by field. rewrite sin_neg. field. lra.
      * field. lra.
Qed.

Lemma frame node submap a : unit3 node -> unit3 submap -> a = 0 \/ 1 / 10000 < Rabs a ->
  r3_mul submap (scan_pose node submap a) = mk_rigid3 (trans node) (qmul (about_z a) (rot node)) /\ unit3 (scan_pose node submap a).
Proof.
  intros N S A. unfold unit3 in *. pose proof (about_z_unit a) as U.
  assert (V : is_unit (rot (scan_pose node submap a))).
  { unfold scan_pose. cbn [rot]. rewrite of_z by exact A. repeat apply unit_mul; auto. now apply unit_conj. }
  split; [|exact V]. unfold r3_mul at 1. rewrite normalized_unit by (apply unit_mul; assumption).
  unfold scan_pose at 2. cbn [rot]. rewrite of_z by exact A. rewrite !qmul_assoc, qmul_conj_r, qmul_1_l by exact S.
  f_equal. unfold scan_pose. cbn [trans]. unfold node_to_submap, r3_mul, r3_inv. cbn [trans rot].
  rewrite qrot_add, qrot_inv_r, qrot_vneg, qrot_inv_r by exact S. unfold vadd, vneg. destruct (trans node) as [n0 n1 n2], (trans submap) as [s0 s1 s2]. cbn [v0 v1 v2]. f_equal; ring.
Qed.
Lemma dist_3d_apply a p q : unit3 a -> dist_3d (r3_apply a p) (r3_apply a q) = dist_3d p q.
Proof.
  intros U. unfold dist_3d. f_equal.
  assert (E : forall x y : vec3 R, (v0 x - v0 y) * (v0 x - v0 y) + (v1 x - v1 y) * (v1 x - v1 y) + (v2 x - v2 y) * (v2 x - v2 y) = vdot (vsub x y) (vsub x y)) by reflexivity.
  rewrite !E. replace (vsub (r3_apply a p) (r3_apply a q)) with (qrot (rot a) (vsub p q)).
  2:{ rewrite qrot_sub. unfold r3_apply, vsub, vadd. cbn [v0 v1 v2]. f_equal; ring. }
  now apply qrot_dot.
Qed.
Lemma scan_pose_dist node submap a b p : unit3 node -> unit3 submap -> a = 0 \/ 1 / 10000 < Rabs a -> b = 0 \/ 1 / 10000 < Rabs b ->
  exists r, 0 <= r <= vdot p p /\ dist_3d (r3_apply (scan_pose node submap a) p) (r3_apply (scan_pose node submap b) p) = sqrt (r * (2 * (1 - cos (a - b)))).
Proof.
  intros N S A B. destruct (frame node submap a N S A) as [FA UA]. destruct (frame node submap b N S B) as [FB UB].
  rewrite <- (dist_3d_apply submap) by exact S. rewrite <- !r3_action, FA, FB by assumption.
  unfold r3_apply. cbn [rot trans]. rewrite !qrot_mul by (apply about_z_unit || exact N). set (q := qrot (rot node) p).
  assert (Q : vdot q q = vdot p p) by (unfold q; apply qrot_dot, N).
  exists (v0 q * v0 q + v1 q * v1 q). split.
  - rewrite <- Q. unfold vdot. pose proof (Rle_0_sqr (v2 q)). pose proof (Rle_0_sqr (v0 q)). pose proof (Rle_0_sqr (v1 q)). unfold Rsqr in *. lra.
  - rewrite !about_z_rot. unfold dist_3d, vadd. cbn [v0 v1 v2]. rewrite <- turn_dist. f_equal. ring.
Qed.
Lemma angles_facts margin angular cloud res : 0 < res -> 0 < margin < 1 -> exists a, 
  angular_step margin res (max_range (map vnorm cloud) res) = Some (margin * a) /\ 0 < a < PI / 2 /\
  2 * (1 - cos a) * (max_range (map vnorm cloud) res * max_range (map vnorm cloud) res) = res * res /\
  17 / 18 <= cos a /\ 3 * res <= max_range (map vnorm cloud) res /\
  (forall p, In p cloud -> vdot p p <= max_range (map vnorm cloud) res * max_range (map vnorm cloud) res) /\
  angular / (margin * a) <= IZR (lround (angular / (margin * a))) + 1 / 2.
Proof.
  intros H M. set (m := max_range _ res).
  destruct (max_range_ge (map vnorm cloud) (3 * res)) as [A B]. fold (max_range (map vnorm cloud) res) in A, B. fold m in A, B.
  destruct (step_facts margin res m) as [a [E [R [C K]]]]; [exact H | exact A | exact M |].
  exists a. repeat (split; [tauto || lra|]). split.
  - intros p I. assert (L : vnorm p <= m) by (apply B, in_map, I). rewrite <- vnorm_sq. pose proof (vnorm_pos p). nra.
  - apply lround_near.
Qed.

(* ---- steps of any rotation, and steps that are too large *)
Lemma chord_large res range a r d : 0 < a < PI / 2 -> 2 * (1 - cos a) * (range * range) = res * res -> range * range <= r ->
  a <= Rabs d <= PI -> res * res <= r * (2 * (1 - cos d)).
Proof.
  intros A E R D. rewrite <- E, <- (cos_abs d). pose proof PI_RGT_0.
  assert (L : cos (Rabs d) <= cos a) by (apply cos_decr_1; lra). pose proof (COS_bound a). assert (0 <= range * range) by nra.
  apply (Rle_trans _ (r * (2 * (1 - cos a)))); [nra|]. apply Rmult_le_compat_l; nra.
Qed.
Lemma max_range_far (norm : point -> R) cloud res p : 3 * res <= norm p -> (forall q, In q cloud -> norm q <= norm p) ->
  max_range (map norm cloud) res <= norm p.
Proof.
  unfold max_range. intros G F. generalize dependent (3 * res). induction cloud as [|q l IH]; intros r G; cbn [map fold_left]; [exact G|].
  apply IH; [intros; apply F; now right|]. apply Rmax_lub; [|exact G]. apply (F q). now left.
Qed.
Lemma of_axis u s : dot u u = 1 -> s = 0 \/ 1 / 10000 < Rabs s -> of_angle_axis (vscale s u) = polar (s / 2) u.
Proof.
  intros U B. assert (Q : vdot (vscale s u) (vscale s u) = Rsqr s).
  { unfold vdot, vscale, Rsqr. cbn [v0 v1 v2]. unfold dot in U. transitivity (s * s * (v0 u * v0 u + v1 u * v1 u + v2 u * v2 u)); [ring | rewrite U; ring]. }
  unfold of_angle_axis, vnorm. rewrite Q. destruct B as [-> | B].
  - unfold Rsqr. rewrite Rmult_0_l. destruct (Rlt_dec (1 / 100000000) 0); [lra|]. unfold polar, vscale. cbn [v0 v1 v2].
    replace (0 / 2) with 0 by field. rewrite cos_0, sin_0. f_equal; ring.
  - assert (S : 1 / 100000000 < Rsqr s). { unfold Rsqr. assert (s * s = Rabs s * Rabs s) by (unfold Rabs; destruct (Rcase_abs s); ring). rewrite H. nra. }
    destruct (Rlt_dec (1 / 100000000) (Rsqr s)); [|lra]. rewrite sqrt_Rsqr_abs.
    assert (C : cos (Rabs s / 2) = cos (s / 2)).
    { replace (Rabs s / 2) with (Rabs (s / 2)); [apply cos_abs|]. unfold Rdiv. rewrite Rabs_mult, (Rabs_right (/ 2)) by lra. reflexivity. }
    assert (D : sin (Rabs s / 2) / Rabs s * s = sin (s / 2)).
    { unfold Rabs in *. destruct (Rcase_abs s).
      - replace (- s / 2) with (- (s / 2)) by field. rewrite sin_neg. field. lra.
      - field. lra. }
    unfold polar, vscale. cbn [v0 v1 v2]. rewrite C, <- !Rmult_assoc, D. reflexivity.
Qed.
Lemma turned_dist u s t p : dot u u = 1 -> dist_3d (turned u s p) (turned u t p) = sqrt ((vdot p p - dot u p * dot u p) * (2 * (1 - cos (s - t)))) /\
  0 <= vdot p p - dot u p * dot u p.
Proof.
  intros U.
  assert (X : vdot p p - dot u p * dot u p = (v1 u * v2 p - v2 u * v1 p) * (v1 u * v2 p - v2 u * v1 p) + (v2 u * v0 p - v0 u * v2 p) * (v2 u * v0 p - v0 u * v2 p)
    + (v0 u * v1 p - v1 u * v0 p) * (v0 u * v1 p - v1 u * v0 p)).
  { transitivity (dot u u * vdot p p - dot u p * dot u p); [rewrite U; ring|]. unfold dot, vdot. ring. }
  split.
  - unfold dist_3d, turned. cbn [v0 v1 v2]. f_equal.
    assert (T : 2 * (1 - cos (s - t)) = (cos s - cos t) * (cos s - cos t) + (sin s - sin t) * (sin s - sin t)).
    { rewrite cos_minus. pose proof (sc s). pose proof (sc t). lra. }
    rewrite T. set (k := dot u p) in *. set (a := cos s). set (b := cos t). set (c := sin s). set (e := sin t).
    transitivity ((a - b) * (a - b) * (vdot p p - 2 * k * dot u p + k * k * dot u u) + (c - e) * (c - e) * (vdot p p - k * k)).
    + rewrite X. unfold vdot, dot. ring.
    + rewrite U. fold k. ring.
  - rewrite X. pose proof (Rle_0_sqr (v1 u * v2 p - v2 u * v1 p)). pose proof (Rle_0_sqr (v2 u * v0 p - v0 u * v2 p)).
    pose proof (Rle_0_sqr (v0 u * v1 p - v1 u * v0 p)). unfold Rsqr in *. lra.
Qed.
Lemma axis_dist initial x u s t p : unit3 initial -> dot u u = 1 -> s = 0 \/ 1 / 10000 < Rabs s -> t = 0 \/ 1 / 10000 < Rabs t ->
  dist_3d (r3_apply (r3_mul initial (mk_rigid3 x (of_angle_axis (vscale s u)))) p) (r3_apply (r3_mul initial (mk_rigid3 x (of_angle_axis (vscale t u)))) p) =
  sqrt ((vdot p p - dot u p * dot u p) * (2 * (1 - cos (s - t)))).
Proof.
  intros N U S T. rewrite !of_axis by assumption.
  rewrite !r3_action by (exact N || (unfold unit3; cbn [rot]; now apply polar_unit)). rewrite dist_3d_apply by exact N.
  unfold r3_apply. cbn [rot trans]. rewrite !polar_turned by exact U.
  replace (2 * (s / 2)) with s by field. replace (2 * (t / 2)) with t by field. destruct (turned_dist u s t p U) as [<- _].
  unfold dist_3d, vadd. cbn [v0 v1 v2]. f_equal. ring.
Qed.
