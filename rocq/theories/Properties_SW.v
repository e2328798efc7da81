(* C73, C74 and C75: the search windows of the correlative scan matchers *)
From Coq Require Import ZArith Reals Lra Lia Bool.
From Verif Require Import CF_Model RG_Model RG_Spec RG_Proofs RG_Angle IG_Model IG_Proofs I2_Model I2_Spec I2_Match Vec RH_Model RH_Spec RH_Proofs
  RH_Turn SW_Model SW_Spec SW_Proofs SW_Match.
From Coq Require Import List.
Import ListNotations.
Open Scope R_scope.

(* ---- C73: the window in 2D *)

(* it always exists, has an odd number of rotations, and is the least one around the given bounds *)
Theorem C73_defined : forall linear angular cloud res, 0 < res -> exists w, search_parameters linear angular cloud res = Some w /\
  0 < w_step w < PI / 2 /\ w_resolution w = res /\ w_num_scans w = (2 * w_num_angular w + 1)%Z /\
  IZR (w_num_angular w) * w_step w - w_step w < angular <= IZR (w_num_angular w) * w_step w /\
  IZR (w_num_linear w) * res - res < linear <= IZR (w_num_linear w) * res.
Proof.
  intros linear angular cloud res H. destruct (window_facts linear angular cloud res H) as (w & a & E & S & A & N & NS & RR & NL & _).
  assert (P : 0 < w_step w < PI / 2) by (rewrite S; unfold k_safety_2d; nra).
  exists w. repeat (split; [assumption || lra|]). split; [rewrite N | rewrite NL]; now apply ceil_window.
Qed.
(* a rotation by at most one step moves no point as far as a cell is wide, one by half a step
   hardly farther than half of it *)
Theorem C73_step : forall linear angular cloud res w, 0 < res -> search_parameters linear angular cloud res = Some w ->
  forall p x y a b, In p cloud ->
  (Rabs (a - b) <= w_step w -> dist_2d (placed x y a p) (placed x y b p) < res) /\
  (Rabs (a - b) <= w_step w / 2 -> dist_2d (placed x y a p) (placed x y b p) < 51 / 100 * res).
Proof.
  intros linear angular cloud res w H E p x y a b I.
  destruct (window_facts linear angular cloud res H) as (w' & d & E' & S & A & N & NS & RR & NL & C & K & M & B).
  rewrite E in E'. injection E' as <-. specialize (B p I). set (m := max_range _ res) in *.
  assert (Q : 0 <= v0 p * v0 p + v1 p * v1 p) by nra. rewrite placed_dist. split; intros L.
  - apply sqrt_below; [exact H|]. apply (chord_small res m d); auto. rewrite S in L. unfold k_safety_2d in L. lra.
  - apply sqrt_below; [lra|].
    pose proof (chord_half res m d (v0 p * v0 p + v1 p * v1 p) (a - b) H M A C K (conj Q B)) as G.
    rewrite S in L. unfold k_safety_2d in L. specialize (G ltac:(lra)). nra.
Qed.
(* but a slightly larger step moves the farthest point by a cell *)
Theorem C73_step_largest : forall linear angular cloud res w, 0 < res -> search_parameters linear angular cloud res = Some w ->
  forall p x y a b, In p cloud -> 3 * res <= sqrt (v0 p * v0 p + v1 p * v1 p) ->
  (forall q, In q cloud -> sqrt (v0 q * v0 q + v1 q * v1 q) <= sqrt (v0 p * v0 p + v1 p * v1 p)) ->
  1002 / 1000 * w_step w <= Rabs (a - b) <= PI -> res <= dist_2d (placed x y a p) (placed x y b p).
Proof.
  intros linear angular cloud res w H E p x y a b I G F L.
  destruct (window_facts linear angular cloud res H) as (w' & d & E' & S & A & N & NS & RR & NL & C & K & M & B).
  rewrite E in E'. injection E' as <-. specialize (B p I). set (m := max_range _ res) in *.
  assert (EM : m <= sqrt (v0 p * v0 p + v1 p * v1 p)).
  { unfold m, max_range. clear -G F. generalize dependent (3 * res). induction cloud as [|q l IH]; intros r G; cbn [map fold_left]; [exact G|].
    apply IH; [intros; apply F; now right|]. apply Rmax_lub; [|exact G]. apply (F q). now left. }
  rewrite placed_dist. rewrite <- (sqrt_square res) by lra. apply sqrt_le_1; [nra| |].
  - apply Rmult_le_pos; [nra|]. pose proof (COS_bound (a - b)). lra.
  - rewrite <- C. assert (Q : m * m <= v0 p * v0 p + v1 p * v1 p).
    { rewrite <- (sqrt_sqrt (v0 p * v0 p + v1 p * v1 p)) by nra. nra. }
    assert (D : cos (a - b) <= cos d).
    { rewrite <- (cos_abs (a - b)). pose proof PI_RGT_0. rewrite S in L. unfold k_safety_2d in L. apply cos_decr_1; lra. }
    pose proof (COS_bound d). assert (0 <= m * m) by nra. 
    apply (Rle_trans _ ((v0 p * v0 p + v1 p * v1 p) * (2 * (1 - cos d)))); [nra|]. apply Rmult_le_compat_l; nra.
Qed.
(* so the cells of neighbouring rotations differ by at most one in each index *)
Theorem C73_neighbours : forall linear angular cloud l w, 0 < l_res l -> search_parameters linear angular cloud (l_res l) = Some w ->
  forall p x y a b, In p cloud -> Rabs (a - b) <= w_step w ->
  let c := cell_index2 l (fst (placed x y a p)) (snd (placed x y a p)) in
  let d := cell_index2 l (fst (placed x y b p)) (snd (placed x y b p)) in
  (Z.abs (fst c - fst d) <= 1)%Z /\ (Z.abs (snd c - snd d) <= 1)%Z.
Proof.
  intros linear angular cloud l w H E p x y a b I L. cbv zeta.
  destruct (C73_step _ _ _ _ _ H E p x y a b I) as [S _]. apply dist_axes in S; [|exact L]. destruct S as [SX SY].
  set (P := placed x y a p) in *. set (Q := placed x y b p) in *.
  assert (G : forall m u v, Rabs (u - v) < l_res l -> (Z.abs (lround ((m - u) / l_res l - 1 / 2) - lround ((m - v) / l_res l - 1 / 2)) <= 1)%Z).
  { intros m u v D. apply lround_close. replace ((m - u) / l_res l - 1 / 2 - ((m - v) / l_res l - 1 / 2)) with (- (u - v) / l_res l) by (field; lra).
    unfold Rdiv. rewrite Rabs_mult, Rabs_Ropp, (Rabs_right (/ l_res l)) by (apply Rle_ge, Rlt_le, Rinv_0_lt_compat, H).
    apply (Rmult_lt_reg_r (l_res l)); [exact H|]. rewrite Rmult_assoc, Rinv_l by lra. lra. }
  unfold cell_index2. cbn [fst snd]. split; now apply G.
Qed.
(* the cells of a scan are those of the points under the initial pose turned by its rotation *)
Theorem C73_scans : forall l w initial cloud, length (scan_cells l w initial cloud) = Z.to_nat (w_num_scans w) /\
  forall i j p, (0 <= i < w_num_scans w)%Z -> nth_error cloud j = Some p ->
  exists scan, nth_error (scan_cells l w initial cloud) (Z.to_nat i) = Some scan /\ length scan = length cloud /\
    let q := placed (v0 initial) (v1 initial) (v2 initial + IZR (i - w_num_angular w) * w_step w) p in
    nth_error scan j = Some (cell_index2 l (fst q) (snd q)).
Proof. intros l w initial cloud. split; [apply scans_length|]. intros i j p. apply scan_nth. Qed.
(* and the cells of a candidate, shifted by its offset, are those under the pose that is returned
   for it, unless a point lies on the border of two cells *)
Theorem C73_estimate : forall l w initial cloud i dx dy j p, 0 < l_res l -> w_resolution w = l_res l -> (0 <= i < w_num_scans w)%Z ->
  nth_error cloud j = Some p ->
  let e := pose_estimate w initial i dx dy in
  let q := placed (v0 e) (v1 e) (v2 e) p in
  ~ whole ((l_max_x l - fst q) / l_res l) -> ~ whole ((l_max_y l - snd q) / l_res l) ->
  exists scan c, nth_error (scan_cells l w initial cloud) (Z.to_nat i) = Some scan /\ nth_error scan j = Some c /\
    cell_index2 l (fst q) (snd q) = (fst c + dx, snd c + dy)%Z.
Proof.
  intros l w initial cloud i dx dy j p H RS I N e q WX WY. destruct (scan_nth l w initial cloud i j p I N) as (scan & A & _ & B).
  eexists scan, _. split; [exact A|]. split; [exact B|]. cbv zeta. unfold cell_index2. cbn [fst snd].
  set (q' := placed (v0 initial) (v1 initial) (v2 initial + IZR (i - w_num_angular w) * w_step w) p) in *.
  assert (EX : fst q = fst q' - IZR dy * l_res l).
  { unfold q, q', e, pose_estimate, candidate_pose, placed. cbv zeta. cbn [v0 v1 v2 fst]. rewrite RS. ring. }
  assert (EY : snd q = snd q' - IZR dx * l_res l).
  { unfold q, q', e, pose_estimate, candidate_pose, placed. cbv zeta. cbn [v0 v1 v2 snd]. rewrite RS. ring. }
  f_equal.
  - replace ((l_max_y l - snd q) / l_res l - 1 / 2) with ((l_max_y l - snd q') / l_res l - 1 / 2 + IZR dx) by (rewrite EY; field; lra).
    apply lround_shift. intros [m M]. apply WY. exists (m + dx)%Z. rewrite plus_IZR, <- M, EY. field. lra.
  - replace ((l_max_x l - fst q) / l_res l - 1 / 2) with ((l_max_x l - fst q') / l_res l - 1 / 2 + IZR dy) by (rewrite EX; field; lra).
    apply lround_shift. intros [m M]. apply WX. exists (m + dy)%Z. rewrite plus_IZR, <- M, EX. field. lra.
Qed.
(* on a border rounding away from zero makes a difference *)
Theorem C73_estimate_refuted : exists l w initial cloud i dx dy p c, 0 < l_res l /\ w_resolution w = l_res l /\ (0 <= i < w_num_scans w)%Z /\
  nth_error cloud 0 = Some p /\
  (exists scan, nth_error (scan_cells l w initial cloud) (Z.to_nat i) = Some scan /\ nth_error scan 0 = Some c) /\
  let e := pose_estimate w initial i dx dy in
  let q := placed (v0 e) (v1 e) (v2 e) p in cell_index2 l (fst q) (snd q) <> (fst c + dx, snd c + dy)%Z.
Proof.
  set (l := mk_limits2 1 0 (1 / 2) 10 10). set (w := mk_window2 0 1 1 1 5). set (z := mk_vec3 0 0 0).
  destruct (scan_nth l w z [z] 0 0 z) as (scan & A & _ & B); [cbn; lia | reflexivity |].
  eexists l, w, z, [z], 0%Z, 0%Z, 1%Z, z, _. split; [cbn; lra|]. split; [reflexivity|]. split; [cbn; lia|]. split; [reflexivity|].
  split; [exists scan; split; [exact A | exact B]|]. cbv zeta. unfold cell_index2. cbn [fst snd]. intros E. injection E as _ E.
  unfold placed, pose_estimate, candidate_pose in E. cbv zeta in E. cbn [v0 v1 v2 l w z fst snd l_max_x l_res w_resolution w_num_angular w_step] in E.
  replace ((0 - (cos (0 + 0 * 1) * 0 - sin (0 + 0 * 1) * 0 + (0 + - (1) * 1))) / 1 - 1 / 2) with (1 / 2) in E by field.
  replace ((0 - (cos (0 + 0 * 1) * 0 - sin (0 + 0 * 1) * 0 + 0)) / 1 - 1 / 2) with (- (1 / 2)) in E by field.
  assert (U : lround (1 / 2) = 1%Z).
  { unfold lround. destruct (Rle_dec 0 (1 / 2)); [|lra]. replace (1 / 2 + 1 / 2) with 1 by field. apply floor_Z. }
  assert (D : lround (- (1 / 2)) = (-1)%Z).
  { unfold lround. destruct (Rle_dec 0 (- (1 / 2))); [lra|]. replace (- - (1 / 2) + 1 / 2) with 1 by field. now rewrite floor_Z. }
  rewrite U, D in E. discriminate E.
Qed.
(* every pose of the window is close to a candidate: by half a cell along each axis and half a
   step of the rotation, so that no point is farther off than hardly more than a cell along each axis *)
Theorem C73_cover : forall linear angular cloud res w initial, 0 < res -> search_parameters linear angular cloud res = Some w ->
  forall x y t, Rabs (x - v0 initial) <= linear -> Rabs (y - v1 initial) <= linear -> Rabs (t - v2 initial) <= angular ->
  exists i dx dy, (0 <= i < w_num_scans w)%Z /\ (Z.abs dx <= w_num_linear w)%Z /\ (Z.abs dy <= w_num_linear w)%Z /\
  let e := pose_estimate w initial i dx dy in
  Rabs (x - v0 e) <= res / 2 /\ Rabs (y - v1 e) <= res / 2 /\ Rabs (t - v2 e) <= w_step w / 2 /\
  forall p, In p cloud -> let q := placed x y t p in let q' := placed (v0 e) (v1 e) (v2 e) p in
    Rabs (fst q - fst q') < 101 / 100 * res /\ Rabs (snd q - snd q') < 101 / 100 * res.
Proof.
  intros linear angular cloud res w initial H E x y t X Y T.
  destruct (C73_defined linear angular cloud res H) as (w' & E' & S & RR & NS & NA & NL). rewrite E in E'. injection E' as <-.
  assert (LW : linear / res <= IZR (w_num_linear w) + 1 / 2).
  { apply (Rmult_le_reg_r res); [exact H|]. unfold Rdiv at 1. rewrite Rmult_assoc, Rinv_l by lra. nra. }
  assert (AW : angular / w_step w <= IZR (w_num_angular w) + 1 / 2).
  { apply (Rmult_le_reg_r (w_step w)); [lra|]. unfold Rdiv at 1. rewrite Rmult_assoc, Rinv_l by lra. nra. }
  destruct (window_near _ _ _ _ H X LW) as (kx & KX & DX). destruct (window_near _ _ _ _ H Y LW) as (ky & KY & DY).
  destruct (window_near _ _ _ _ (proj1 S) T AW) as (kt & KT & DT).
  exists (kt + w_num_angular w)%Z, (- ky)%Z, (- kx)%Z. split; [lia|]. split; [lia|]. split; [lia|]. cbv zeta.
  assert (EX : v0 (pose_estimate w initial (kt + w_num_angular w) (- ky) (- kx)) = v0 initial + IZR kx * res).
  { unfold pose_estimate, candidate_pose. cbn [v0]. rewrite opp_IZR, RR. ring. }
  assert (EY : v1 (pose_estimate w initial (kt + w_num_angular w) (- ky) (- kx)) = v1 initial + IZR ky * res).
  { unfold pose_estimate, candidate_pose. cbn [v1]. rewrite opp_IZR, RR. ring. }
  assert (ET : v2 (pose_estimate w initial (kt + w_num_angular w) (- ky) (- kx)) = v2 initial + IZR kt * w_step w).
  { unfold pose_estimate, candidate_pose. cbn [v2]. rewrite minus_IZR, plus_IZR. ring. }
  set (e := pose_estimate _ _ _ _ _) in *. clearbody e.
  assert (AX : Rabs (x - v0 e) <= res / 2) by (rewrite EX; replace (x - (v0 initial + IZR kx * res)) with (x - v0 initial - IZR kx * res) by ring; exact DX).
  assert (AY : Rabs (y - v1 e) <= res / 2) by (rewrite EY; replace (y - (v1 initial + IZR ky * res)) with (y - v1 initial - IZR ky * res) by ring; exact DY).
  assert (AT : Rabs (t - v2 e) <= w_step w / 2) by (rewrite ET; replace (t - (v2 initial + IZR kt * w_step w)) with (t - v2 initial - IZR kt * w_step w) by ring; exact DT).
  repeat (split; [assumption|]). intros p I.
  destruct (C73_step _ _ _ _ _ H E p (v0 e) (v1 e) t (v2 e) I) as [_ G]. specialize (G AT). apply dist_axes in G. destruct G as [GX GY].
  unfold placed in *. cbn [fst snd] in *.
  assert (Q : forall a b u v, Rabs (u - v) <= res / 2 -> Rabs (a + v - b) < 51 / 100 * res -> Rabs (a + u - b) < 101 / 100 * res).
  { intros a b u v U V. replace (a + u - b) with ((u - v) + (a + v - b)) by ring. pose proof (Rabs_triang (u - v) (a + v - b)). lra. }
  split; [now apply (Q _ _ x (v0 e)) | now apply (Q _ _ y (v1 e))].
Qed.
(* matching against a full submap: the search starts in the middle of the map ... *)
Theorem C73_full_centre : forall l i, let c := full_submap_centre l in
  let a := cell_center2 l i in let b := cell_center2 l (l_nx l - 1 - fst i, l_ny l - 1 - snd i)%Z in
  fst a + fst b = 2 * v0 c /\ snd a + snd b = 2 * v1 c /\ v2 c = 0.
Proof.
  intros l [i j]. cbv zeta. unfold full_submap_centre, cell_center2. cbn [fst snd v0 v1 v2]. rewrite !minus_IZR. repeat split; field.
Qed.
(* ... and the window has every pose under which some point falls into the map, as long as map and
   scan are not larger than a million cells *)
Theorem C73_full_cover : forall l cloud, 0 < l_res l -> exists w, full_submap_window l cloud = Some w /\
  forall x y t p, In p cloud -> contains2 l (cell_index2 l (fst (placed x y t p)) (snd (placed x y t p))) = true ->
  sqrt (v0 p * v0 p + v1 p * v1 p) + IZR (Z.max (l_nx l) (l_ny l)) * l_res l / 2 <= 1000000 * l_res l ->
  exists i dx dy n, (0 <= i < w_num_scans w)%Z /\ (Z.abs dx <= w_num_linear w)%Z /\ (Z.abs dy <= w_num_linear w)%Z /\
  let e := pose_estimate w (full_submap_centre l) i dx dy in
  Rabs (x - v0 e) <= l_res l / 2 /\ Rabs (y - v1 e) <= l_res l / 2 /\ Rabs (t + IZR n * (2 * PI) - v2 e) <= w_step w / 2.
Proof.
  intros l cloud H. destruct (C73_defined (1000000 * l_res l) PI cloud (l_res l) H) as (w & E & _). exists w. split; [exact E|].
  intros x y t p I C B. pose proof PI_RGT_0 as P.
  assert (TT : exists n, - PI <= t + IZR n * (2 * PI) <= PI).
  { exists (- Int_part ((t + PI) / (2 * PI)))%Z. rewrite opp_IZR. pose proof (floor_spec ((t + PI) / (2 * PI))) as [F G].
    set (k := IZR (Int_part ((t + PI) / (2 * PI)))) in *. clearbody k.
    apply (Rmult_le_compat_r (2 * PI)) in F; [|lra]. apply (Rmult_lt_compat_r (2 * PI)) in G; [|lra].
    assert (Q : (t + PI) / (2 * PI) * (2 * PI) = t + PI) by (field; lra). rewrite Q in F, G. lra. }
  destruct TT as [n TN]. unfold contains2, cell_index2 in C. cbn [fst snd] in C. rewrite !andb_true_iff, !Z.leb_le, !Z.ltb_lt in C.
  set (q := placed x y t p) in *.
  assert (IN : forall m k v, (0 <= lround ((m - v) / l_res l - 1 / 2) < k)%Z -> Rabs (v - (m - 1 / 2 * l_res l * IZR k)) <= IZR k * l_res l / 2).
  { intros m k v [L U]. pose proof (lround_near ((m - v) / l_res l - 1 / 2)) as [A D].
    apply IZR_le in L. assert (U' : (lround ((m - v) / l_res l - 1 / 2) <= k - 1)%Z) by lia. apply IZR_le in U'. rewrite minus_IZR in U'.
    assert (Z1 : 0 <= (m - v) / l_res l <= IZR k) by lra. destruct Z1 as [Z1 Z2].
    apply (Rmult_le_compat_r (l_res l)) in Z1, Z2; try lra. unfold Rdiv in Z1, Z2. rewrite Rmult_assoc, Rinv_l in Z1, Z2 by lra.
    apply Rabs_le. lra. }
  assert (PX : Rabs (fst q - x) <= sqrt (v0 p * v0 p + v1 p * v1 p) /\ Rabs (snd q - y) <= sqrt (v0 p * v0 p + v1 p * v1 p)).
  { assert (CS := sc t). unfold q, placed. cbn [fst snd]. set (s := sin t) in *. set (c := cos t) in *.
    assert (SQ : forall u v, u * u <= v -> Rabs u <= sqrt v).
    { intros u v L. rewrite <- sqrt_Rsqr_abs. apply sqrt_le_1; unfold Rsqr; nra. }
    assert (KE : (c * v0 p - s * v1 p) * (c * v0 p - s * v1 p) + (s * v0 p + c * v1 p) * (s * v0 p + c * v1 p) = v0 p * v0 p + v1 p * v1 p).
    { transitivity ((s * s + c * c) * (v0 p * v0 p + v1 p * v1 p)); [ring | rewrite CS; ring]. }
    split; apply SQ.
    - replace (c * v0 p - s * v1 p + x - x) with (c * v0 p - s * v1 p) by ring. pose proof (Rle_0_sqr (s * v0 p + c * v1 p)). unfold Rsqr in *. lra.
    - replace (s * v0 p + c * v1 p + y - y) with (s * v0 p + c * v1 p) by ring. pose proof (Rle_0_sqr (c * v0 p - s * v1 p)). unfold Rsqr in *. lra. }
  destruct PX as [PX PY].
  assert (MX : forall k, (k = l_nx l \/ k = l_ny l) -> IZR k * l_res l / 2 <= IZR (Z.max (l_nx l) (l_ny l)) * l_res l / 2).
  { intros k K. assert (IZR k <= IZR (Z.max (l_nx l) (l_ny l))) by (apply IZR_le; lia). apply (Rmult_le_compat_r (l_res l)) in H0; lra. }
  assert (BX : Rabs (x - v0 (full_submap_centre l)) <= 1000000 * l_res l).
  { unfold full_submap_centre. cbn [v0]. pose proof (IN (l_max_x l) (l_ny l) (fst q) ltac:(lia)) as Q. specialize (MX (l_ny l) ltac:(now right)).
    rewrite Rabs_minus_sym in PX. pose proof (Rabs_triang (x - fst q) (fst q - (l_max_x l - 1 / 2 * l_res l * IZR (l_ny l)))) as TR.
    replace (x - fst q + (fst q - (l_max_x l - 1 / 2 * l_res l * IZR (l_ny l)))) with (x - (l_max_x l - 1 / 2 * l_res l * IZR (l_ny l))) in TR by ring. lra. }
  assert (BY : Rabs (y - v1 (full_submap_centre l)) <= 1000000 * l_res l).
  { unfold full_submap_centre. cbn [v1]. pose proof (IN (l_max_y l) (l_nx l) (snd q) ltac:(lia)) as Q. specialize (MX (l_nx l) ltac:(now left)).
    rewrite Rabs_minus_sym in PY. pose proof (Rabs_triang (y - snd q) (snd q - (l_max_y l - 1 / 2 * l_res l * IZR (l_nx l)))) as TR.
    replace (y - snd q + (snd q - (l_max_y l - 1 / 2 * l_res l * IZR (l_nx l)))) with (y - (l_max_y l - 1 / 2 * l_res l * IZR (l_nx l))) in TR by ring. lra. }
  assert (BT : Rabs (t + IZR n * (2 * PI) - v2 (full_submap_centre l)) <= PI).
  { unfold full_submap_centre. cbn [v2]. apply Rabs_le. lra. }
  destruct (C73_cover _ _ _ _ _ (full_submap_centre l) H E x y (t + IZR n * (2 * PI)) BX BY BT) as (i & dx & dy & A1 & A2 & A3 & A4 & A5 & A6 & _).
  exists i, dx, dy, n. cbv zeta. auto 8.
Qed.

(* ---- C74: the rotations tried in 3D *)

(* they are whole multiples of a step, as many on both sides, among them none at all, and every
   angle of the window is within half a step of one *)
Theorem C74_angles : forall angular cloud res, 0 < res -> exists step angles, fast_angles angular cloud res = Some angles /\ 0 < step < PI / 2 /\
  NoDup angles /\ (forall a, In a angles -> In (- a) angles /\ Rabs a <= angular + step / 2 /\ whole (a / step)) /\
  (0 <= angular -> In 0 angles) /\ (forall t, Rabs t <= angular -> exists a, In a angles /\ Rabs (t - a) <= step / 2).
Proof.
  intros angular cloud res H. destruct (angles_facts k_safety_fast_3d angular cloud res H) as (a & E & A & C & K & M & B & L); [unfold k_safety_fast_3d; lra|].
  unfold fast_angles. rewrite E. set (step := k_safety_fast_3d * a) in *. assert (S : 0 < step < PI / 2) by (unfold step, k_safety_fast_3d; nra).
  exists step. eexists. split; [reflexivity|]. split; [exact S|]. set (n := lround (angular / step)) in *.
  assert (IN : forall x, In x (map (fun rz => IZR rz * step) (symmetric n)) <-> exists k, (- n <= k <= n)%Z /\ x = IZR k * step).
  { intros x. rewrite in_map_iff. split; intros [k [U V]]; exists k; rewrite symmetric_in in *; auto. }
  assert (C2 : forall t, Rabs t <= angular -> exists a, In a (map (fun rz => IZR rz * step) (symmetric n)) /\ Rabs (t - a) <= step / 2).
  { intros t T. destruct (window_near t angular step n ltac:(lra) T L) as (k & KB & D). exists (IZR k * step). split; [|exact D]. apply IN. eauto. }
  split; [|split; [|split; [|exact C2]]].
  - apply FinFun.Injective_map_NoDup; [|apply symmetric_nodup]. intros x y EQ. apply eq_IZR. apply (Rmult_eq_reg_r step); [exact EQ | lra].
  - intros x I. apply IN in I. destruct I as [k [KB ->]]. split; [apply IN; exists (- k)%Z; split; [lia | rewrite opp_IZR; ring]|]. split.
    + rewrite Rabs_mult, (Rabs_right step) by lra. rewrite <- abs_IZR. assert (Q : IZR (Z.abs k) <= IZR n) by (apply IZR_le; lia).
      pose proof (lround_near (angular / step)) as [G _]. fold n in G. apply (Rle_trans _ ((angular / step + 1 / 2) * step)).
      * apply Rmult_le_compat_r; lra.
      * right. field. lra.
    + exists k. field. lra.
  - intros P. apply IN. exists 0%Z. split; [|ring]. pose proof (lround_near (angular / step)) as [_ G]. fold n in G.
    assert (0 <= angular / step) by (apply Rle_mult_inv_pos; lra).
    assert (-1 < IZR n) by lra. change (-1) with (IZR (-1)) in H1. apply lt_IZR in H1. lia.
Qed.
(* with a half turn as the window, as in the search of a full submap, every heading is covered *)
Theorem C74_all_around : forall cloud res, 0 < res -> exists step angles, fast_angles PI cloud res = Some angles /\ 0 < step < PI / 2 /\
  forall t, exists a n, In a angles /\ Rabs (t + IZR n * (2 * PI) - a) <= step / 2.
Proof.
  intros cloud res H. destruct (C74_angles PI cloud res H) as (step & angles & E & S & _ & _ & _ & C). exists step, angles. split; [exact E|]. split; [exact S|].
  intros t. pose proof PI_RGT_0 as P.
  pose proof (floor_spec ((t + PI) / (2 * PI))) as [F G]. set (k := Int_part ((t + PI) / (2 * PI))) in *.
  apply (Rmult_le_compat_r (2 * PI)) in F; [|lra]. apply (Rmult_lt_compat_r (2 * PI)) in G; [|lra].
  assert (Q : (t + PI) / (2 * PI) * (2 * PI) = t + PI) by (field; lra). rewrite Q in F, G.
  destruct (C (t + IZR (- k) * (2 * PI))) as (a & I & D); [apply Rabs_le; rewrite opp_IZR; lra|]. exists a, (- k)%Z. auto.
Qed.
(* in the frame of the submaps the pose tried for an angle turns the node about the vertical
   through its origin *)
Theorem C74_pose : forall node submap a, unit_rotation (rot node) -> unit_rotation (rot submap) -> a = 0 \/ 1 / 10000 < Rabs a ->
  let g := r3_mul submap (scan_pose node submap a) in
  trans g = trans node /\ (forall p, qrot (rot g) p = turn_z a (qrot (rot node) p)).
Proof.
  intros node submap a N S A. cbv zeta. destruct (frame node submap a N S A) as [-> U]. cbn [trans rot]. split; [reflexivity|].
  intros p. rewrite qrot_mul by (exact N || apply about_z_unit). apply about_z_rot.
Qed.
(* the angle zero is the pose the search started from *)
Theorem C74_zero : forall node submap, unit_rotation (rot node) -> unit_rotation (rot submap) ->
  scan_pose node submap 0 = r3_mul (r3_inv submap) node.
Proof.
  intros node submap N S. unfold scan_pose, node_to_submap. rewrite of_z by now left.
  replace (about_z 0) with q_one by (unfold about_z; replace (0 / 2) with 0 by field; now rewrite cos_0, sin_0).
  rewrite qmul_1_r. unfold r3_mul, r3_inv. cbn [trans rot]. now rewrite normalized_unit by (apply unit_mul; [apply unit_conj|]; assumption).
Qed.
(* poses of angles at most a step apart put each point in cells that differ by at most one *)
Theorem C74_step : forall cloud res node submap, 0 < res -> unit_rotation (rot node) -> unit_rotation (rot submap) ->
  exists step, angular_step k_safety_fast_3d res (max_range (map vnorm cloud) res) = Some step /\
  forall p a b, In p cloud -> a = 0 \/ 1 / 10000 < Rabs a -> b = 0 \/ 1 / 10000 < Rabs b -> Rabs (a - b) <= step ->
  let q := r3_apply (scan_pose node submap a) p in let q' := r3_apply (scan_pose node submap b) p in
  dist_3d q q' < res /\ (Z.abs (cell_index res (v0 q) - cell_index res (v0 q')) <= 1)%Z /\
  (Z.abs (cell_index res (v1 q) - cell_index res (v1 q')) <= 1)%Z /\ (Z.abs (cell_index res (v2 q) - cell_index res (v2 q')) <= 1)%Z.
Proof.
  intros cloud res node submap H N S. destruct (angles_facts k_safety_fast_3d 0 cloud res H) as (d & E & A & C & K & M & B & _); [unfold k_safety_fast_3d; lra|].
  exists (k_safety_fast_3d * d). split; [exact E|]. intros p a b I PA PB L. cbv zeta.
  destruct (scan_pose_dist node submap a b p N S PA PB) as (r & R & D). specialize (B p I).
  assert (LT : dist_3d (r3_apply (scan_pose node submap a) p) (r3_apply (scan_pose node submap b) p) < res).
  { rewrite D. apply sqrt_below; [exact H|]. apply (chord_small res (max_range (map vnorm cloud) res) d); auto; [lra|]. unfold k_safety_fast_3d in L. lra. }
  split; [exact LT|]. set (q := r3_apply (scan_pose node submap a) p) in *. set (q' := r3_apply (scan_pose node submap b) p) in *.
  assert (G : forall u v, Rabs (u - v) < res -> (Z.abs (cell_index res u - cell_index res v) <= 1)%Z).
  { intros u v W. apply lround_close. replace (u / res - v / res) with ((u - v) / res) by (field; lra).
    unfold Rdiv. rewrite Rabs_mult, (Rabs_right (/ res)) by (apply Rle_ge, Rlt_le, Rinv_0_lt_compat, H).
    apply (Rmult_lt_reg_r res); [exact H|]. rewrite Rmult_assoc, Rinv_l by lra. lra. }
  assert (SQ : forall u v, u * u <= v -> sqrt v < res -> Rabs u < res).
  { intros u v LE LT'. apply (Rle_lt_trans _ (sqrt v)); [|exact LT']. rewrite <- sqrt_Rsqr_abs. apply sqrt_le_1; unfold Rsqr; nra. }
  unfold dist_3d in LT. pose proof (Rle_0_sqr (v0 q - v0 q')). pose proof (Rle_0_sqr (v1 q - v1 q')). pose proof (Rle_0_sqr (v2 q - v2 q')). unfold Rsqr in *.
  split; [|split]; apply G.
  - apply (SQ _ _) with (2 := LT). lra.
  - apply (SQ _ _) with (2 := LT). lra.
  - apply (SQ _ _) with (2 := LT). lra.
Qed.
(* but a slightly larger step moves the farthest point, if it is level with the node, by a cell *)
Theorem C74_step_largest : forall cloud res node submap step, 0 < res -> unit_rotation (rot node) -> unit_rotation (rot submap) ->
  angular_step k_safety_fast_3d res (max_range (map vnorm cloud) res) = Some step ->
  forall p a b, In p cloud -> 3 * res <= vnorm p -> (forall q, In q cloud -> vnorm q <= vnorm p) -> v2 (qrot (rot node) p) = 0 ->
  a = 0 \/ 1 / 10000 < Rabs a -> b = 0 \/ 1 / 10000 < Rabs b -> 1011 / 1000 * step <= Rabs (a - b) <= PI ->
  res <= dist_3d (r3_apply (scan_pose node submap a) p) (r3_apply (scan_pose node submap b) p).
Proof.
  intros cloud res node submap step H N S E p a b I F1 F2 Z PA PB L.
  destruct (angles_facts k_safety_fast_3d 0 cloud res H) as (d & E' & A & C & K & M & B & _); [unfold k_safety_fast_3d; lra|].
  rewrite E in E'. injection E' as ->. unfold k_safety_fast_3d in L.
  destruct (frame node submap a N S PA) as [FA UA]. destruct (frame node submap b N S PB) as [FB UB].
  rewrite <- (dist_3d_apply submap) by exact S. rewrite <- !r3_action, FA, FB by assumption.
  unfold r3_apply. cbn [rot trans]. rewrite !qrot_mul by (apply about_z_unit || exact N). set (q := qrot (rot node) p) in *.
  assert (Q : vdot q q = vdot p p) by (unfold q; apply qrot_dot, N).
  rewrite !about_z_rot. unfold dist_3d, vadd. cbn [v0 v1 v2]. rewrite <- (sqrt_square res) by lra. apply sqrt_le_1; [nra | |].
  - repeat apply Rplus_le_le_0_compat; apply Rle_0_sqr.
  - pose proof (max_range_far vnorm cloud res p F1 F2) as FAR.
    assert (G : res * res <= (v0 q * v0 q + v1 q * v1 q) * (2 * (1 - cos (a - b)))).
    { apply (chord_large res (max_range (map vnorm cloud) res) d); auto; [|lra].
      replace (v0 q * v0 q + v1 q * v1 q) with (vdot q q) by (unfold vdot; rewrite Z; ring). rewrite Q, <- vnorm_sq. apply Rmult_le_compat; (lra || exact FAR). }
    eapply Rle_trans; [exact G|]. rewrite <- turn_dist. right. ring.
Qed.
(* kept are the angles whose rotational score reaches the minimum, with their poses, in order *)
Theorem C74_kept : forall angular cloud res submap_histogram scan_histogram gravity node submap min_score, 0 < res ->
  exists angles scores, fast_angles angular cloud res = Some angles /\ length scores = length angles /\
  fast_scans angular cloud res submap_histogram scan_histogram gravity node submap min_score =
    Some (map (fun p => (scan_pose node submap (fst p), snd p)) (filter (fun p => if Rle_dec min_score (snd p) then true else false) (combine angles scores))) /\
  forall i a, nth_error angles i = Some a -> nth_error scores i =
    Some (match_histograms submap_histogram (rotate_histogram scan_histogram (get_yaw (qmul (rot (r3_mul (r3_inv submap) node)) (qconj gravity)) + a))).
Proof.
  intros angular cloud res sh ch gravity node submap m H. destruct (C74_angles angular cloud res H) as (step & angles & E & _).
  exists angles. eexists. split; [exact E|]. split; [|split].
  2:{ unfold fast_scans. rewrite E. cbv zeta. f_equal. f_equal. apply filter_ext. intros [x s]. cbn [snd].
      destruct (Rlt_dec s m), (Rle_dec m s); reflexivity || lra. }
  - unfold match_angles. apply map_length.
  - intros i a A. unfold match_angles. erewrite map_nth_error by exact A. reflexivity.
Qed.
(* an angle by which the scan's histogram becomes that of the submap is never dropped *)
Theorem C74_not_dropped : forall angular cloud res scan_histogram gravity node submap min_score angles a, 0 < res -> min_score <= 1 ->
  fast_angles angular cloud res = Some angles -> In a angles ->
  let yaw := get_yaw (qmul (rot (r3_mul (r3_inv submap) node)) (qconj gravity)) in
  exists kept, fast_scans angular cloud res (rotate_histogram scan_histogram (yaw + a)) scan_histogram gravity node submap min_score = Some kept /\
    In (scan_pose node submap a, 1) kept.
Proof.
  intros angular cloud res ch gravity node submap m angles a H M E I yaw. unfold fast_scans. rewrite E. eexists. split; [reflexivity|].
  apply in_map_iff. exists (a, 1). split; [reflexivity|]. apply filter_In. split; [|cbn [snd]; destruct (Rlt_dec 1 m); [lra | reflexivity]].
  fold yaw || idtac. unfold node_to_submap. fold yaw. unfold match_angles.
  assert (ONE : match_histograms (rotate_histogram ch (yaw + a)) (rotate_histogram ch (yaw + a)) = 1).
  { set (h := rotate_histogram ch (yaw + a)). destruct (Rlt_dec (hnorm h * hnorm h) (1 / 1000)) as [S|S].
    - unfold match_histograms. cbv zeta. destruct (Rlt_dec _ _); [reflexivity | lra].
    - apply match_one; [reflexivity | lra |]. exists 1. split; [lra|]. rewrite <- (map_id h) at 1. apply map_ext. intros. ring. }
  induction angles as [|b l IH] in I |- *; [destruct I|]. cbn [map combine]. destruct I as [->|I]; [left; now rewrite ONE | right; auto].
Qed.
(* the linear window of a full submap has every offset that puts some point into the grid, which
   reaches from minus half its width to below half of it *)
Theorem C74_full_linear : forall width cloud res rotation p o, 0 < res -> (0 <= width)%Z -> Z.even width = true -> In p cloud ->
  unit_rotation rotation -> forall x, (x = v0 (qrot rotation p) \/ x = v1 (qrot rotation p) \/ x = v2 (qrot rotation p)) ->
  (- (width / 2) <= cell_index res x + o < width / 2)%Z -> (Z.abs o <= full_linear_window width cloud res)%Z.
Proof.
  intros width cloud res rotation p o H W EV I U x X B. unfold full_linear_window. cbv zeta.
  set (far := fold_left (fun m p => Rmax m (vnorm p)) cloud 0).
  assert (F : vnorm p <= far).
  { unfold far. clear -I. generalize 0. induction cloud as [|q l IH]; [destruct I|]. intros r. cbn [fold_left]. destruct I as [->|I]; [|now apply IH].
    clear IH. assert (G : forall l r, r <= fold_left (fun m p => Rmax m (vnorm p)) l r).
    { clear. induction l as [|q l IH]; intros r; cbn [fold_left]; [lra|]. specialize (IH (Rmax r (vnorm q))). pose proof (Rmax_l r (vnorm q)). lra. }
    specialize (G l (Rmax r (vnorm p))). pose proof (Rmax_r r (vnorm p)). lra. }
  assert (XB : Rabs x <= far).
  { apply (Rle_trans _ (vnorm p)); [|exact F]. pose proof (qrot_dot rotation p p U) as D.
    assert (SQ : x * x <= vdot p p). { rewrite <- D. unfold vdot. pose proof (Rle_0_sqr (v0 (qrot rotation p))). pose proof (Rle_0_sqr (v1 (qrot rotation p))).
      pose proof (Rle_0_sqr (v2 (qrot rotation p))). unfold Rsqr in *. destruct X as [-> | [-> | ->]]; lra. }
    unfold vnorm. rewrite <- sqrt_Rsqr_abs. apply sqrt_le_1; unfold Rsqr; try nra. }
  assert (C : (Z.abs (cell_index res x) <= lround (far / res + 1 / 2))%Z).
  { unfold cell_index. pose proof (lround_near (x / res)) as [A1 A2]. pose proof (lround_near (far / res + 1 / 2)) as [A3 A4].
    assert (Q : - (far / res) <= x / res <= far / res).
    { assert (- far <= x <= far) by (unfold Rabs in XB; destruct (Rcase_abs x); lra). assert (0 < / res) by now apply Rinv_0_lt_compat.
      unfold Rdiv. split; [rewrite Ropp_mult_distr_l|]; apply Rmult_le_compat_r; lra. }
    assert (UB : forall y k, IZR k - 1 / 2 <= y -> y <= far / res -> (k <= lround (far / res + 1 / 2))%Z).
    { intros y k Y1 Y2. apply Z.lt_succ_r, lt_IZR. rewrite succ_IZR.
      destruct (Rlt_le_dec (IZR k) (IZR (lround (far / res + 1 / 2)) + 1)) as [L|L]; [exact L|]. exfalso.
      assert (EQ : IZR (lround (far / res + 1 / 2)) + 1 / 2 = far / res + 1 / 2) by lra.
      (* a tie rounds up *)
      assert (T : far / res + 1 / 2 = IZR (lround (far / res + 1 / 2)) + 1 / 2) by lra.
      assert (0 <= far / res) by (apply Rle_mult_inv_pos; [pose proof (vnorm_pos p); lra | exact H]).
      revert T. unfold lround. destruct (Rle_dec 0 (far / res + 1 / 2)); [|lra]. intros T.
      pose proof (floor_spec (far / res + 1 / 2 + 1 / 2)). lra. }
    apply Z.abs_le. split.
    - assert (- lround (x / res) <= lround (far / res + 1 / 2))%Z; [|lia]. apply (UB (- (x / res))); [rewrite opp_IZR|]; lra.
    - apply (UB (x / res)); lra. }
  apply Z.even_spec in EV. destruct EV as [k ->]. replace ((2 * k + 1) / 2)%Z with k.
  2:{ rewrite Z.mul_comm, Z.add_comm, Z.div_add by lia. reflexivity. }
  rewrite Z.mul_comm, Z.div_mul in B by lia. lia.
Qed.

(* ---- C75: the exhaustive real time search in 3D *)

(* the transforms tried: how many, and every offset of the windows is within half a step of one *)
Theorem C75_transforms : forall linear angular cloud res, 0 < res -> 0 <= linear -> 0 <= angular ->
  exists step ts, exhaustive linear angular cloud res = Some ts /\ 0 < step < PI / 2 /\
  Z.of_nat (length ts) = ((2 * lround (linear / res) + 1) ^ 3 * (2 * lround (angular / step) + 1) ^ 3)%Z /\
  In r3_id ts /\
  (forall t, In t ts -> (Rabs (v0 (trans t)) <= linear + res / 2 /\ Rabs (v1 (trans t)) <= linear + res / 2 /\ Rabs (v2 (trans t)) <= linear + res / 2) /\
    whole (v0 (trans t) / res) /\ whole (v1 (trans t) / res) /\ whole (v2 (trans t) / res)) /\
  (forall x r : vec3 R, (forall c, In c [v0 x; v1 x; v2 x] -> Rabs c <= linear) -> (forall c, In c [v0 r; v1 r; v2 r] -> Rabs c <= angular) ->
    exists x' r' : vec3 R, In (mk_rigid3 x' (of_angle_axis r')) ts /\
      (Rabs (v0 x - v0 x') <= res / 2 /\ Rabs (v1 x - v1 x') <= res / 2 /\ Rabs (v2 x - v2 x') <= res / 2) /\
      (Rabs (v0 r - v0 r') <= step / 2 /\ Rabs (v1 r - v1 r') <= step / 2 /\ Rabs (v2 r - v2 r') <= step / 2)).
Proof.
  intros linear angular cloud res H LN AN. destruct (exhaustive_in linear angular cloud res H) as (step & ts & E & S & ST & IN & LEN).
  exists step, ts. split; [exact E|].
  destruct (angles_facts k_safety_real_time_3d angular cloud res H) as (d & E2 & D & _ & _ & _ & _ & L); [unfold k_safety_real_time_3d; lra|].
  rewrite ST in E2. injection E2 as ->. set (step := k_safety_real_time_3d * d) in *.
  assert (P : forall w s, 0 <= w -> 0 < s -> (0 <= lround (w / s))%Z).
  { intros w s W Q. pose proof (lround_near (w / s)) as [_ G]. assert (0 <= w / s) by (apply Rle_mult_inv_pos; lra).
    assert (-1 < IZR (lround (w / s))) by lra. change (-1) with (IZR (-1)) in H1. apply lt_IZR in H1. lia. }
  assert (P1 := P linear res LN H). assert (P2 := P angular step AN S).
  split; [unfold step, k_safety_real_time_3d in *; lra|]. split; [now apply LEN|]. split; [|split].
  - apply IN. exists 0%Z, 0%Z, 0%Z, 0%Z, 0%Z, 0%Z. rewrite !Rmult_0_l. repeat (split; [assumption|]).
    rewrite of_z by now left. unfold r3_id, q_one, about_z. replace (0 / 2) with 0 by field. now rewrite cos_0, sin_0.
  - intros t I. apply IN in I. destruct I as (x & y & z & rx & ry & rz & X & Y & Z & _ & _ & _ & ->). cbn [trans v0 v1 v2].
    assert (Q : forall k, (Z.abs k <= lround (linear / res))%Z -> Rabs (IZR k * res) <= linear + res / 2).
    { intros k K. rewrite Rabs_mult, (Rabs_right res), <- abs_IZR by lra. apply IZR_le in K. pose proof (lround_near (linear / res)) as [G _].
      apply (Rle_trans _ ((linear / res + 1 / 2) * res)); [apply Rmult_le_compat_r; lra | right; field; lra]. }
    split; [auto|]. repeat split; [exists x | exists y | exists z]; field; lra.
  - intros x r X Rr.
    assert (C1 : forall c, Rabs c <= linear -> exists k, (Z.abs k <= lround (linear / res))%Z /\ Rabs (c - IZR k * res) <= res / 2).
    { intros c C. destruct (window_near c linear res (lround (linear / res)) H C) as (k & K & G); [apply lround_near|]. exists k. split; [lia | exact G]. }
    assert (C2 : forall c, Rabs c <= angular -> exists k, (Z.abs k <= lround (angular / step))%Z /\ Rabs (c - IZR k * step) <= step / 2).
    { intros c C. destruct (window_near c angular step (lround (angular / step)) S C) as (k & K & G); [exact L|]. exists k. split; [lia | exact G]. }
    destruct (C1 (v0 x)) as (a & A1 & A2); [apply X; cbn; auto|]. destruct (C1 (v1 x)) as (b & B1 & B2); [apply X; cbn; auto|]. destruct (C1 (v2 x)) as (c & D1 & D2); [apply X; cbn; auto|].
    destruct (C2 (v0 r)) as (e & E1 & E2); [apply Rr; cbn; auto|]. destruct (C2 (v1 r)) as (f & F1 & F2); [apply Rr; cbn; auto|]. destruct (C2 (v2 r)) as (g & G1 & G2); [apply Rr; cbn; auto|].
    exists (mk_vec3 (IZR a * res) (IZR b * res) (IZR c * res)), (mk_vec3 (IZR e * step) (IZR f * step) (IZR g * step)).
    cbn [v0 v1 v2]. split; [|auto]. apply IN. exists a, b, c, e, f, g. auto 10.
Qed.
(* rotations about one axis at most a step apart put no point a cell farther, slightly more does
   for the farthest point *)
Theorem C75_step : forall cloud res initial x u, 0 < res -> unit_rotation (rot initial) -> dot u u = 1 ->
  exists step, angular_step k_safety_real_time_3d res (max_range (map vnorm cloud) res) = Some step /\
  forall p s t, In p cloud -> s = 0 \/ 1 / 10000 < Rabs s -> t = 0 \/ 1 / 10000 < Rabs t ->
  let q := r3_apply (r3_mul initial (mk_rigid3 x (of_angle_axis (vscale s u)))) p in
  let q' := r3_apply (r3_mul initial (mk_rigid3 x (of_angle_axis (vscale t u)))) p in
  (Rabs (s - t) <= step -> dist_3d q q' < res) /\
  (3 * res <= vnorm p -> (forall r, In r cloud -> vnorm r <= vnorm p) -> dot u p = 0 -> 1002 / 1000 * step <= Rabs (s - t) <= PI -> res <= dist_3d q q').
Proof.
  intros cloud res initial x u H N U.
  destruct (angles_facts k_safety_real_time_3d 0 cloud res H) as (d & E & A & C & K & M & B & _); [unfold k_safety_real_time_3d; lra|].
  exists (k_safety_real_time_3d * d). split; [exact E|]. intros p s t I PS PT. cbv zeta. rewrite axis_dist by assumption.
  destruct (turned_dist u s t p U) as [_ Q]. unfold k_safety_real_time_3d. specialize (B p I). pose proof (Rle_0_sqr (dot u p)) as SQ. unfold Rsqr in SQ. split.
  - intros L. apply sqrt_below; [exact H|]. apply (chord_small res (max_range (map vnorm cloud) res) d); auto; lra.
  - intros F1 F2 Z L. pose proof (max_range_far vnorm cloud res p F1 F2) as FAR. rewrite <- (sqrt_square res) by lra.
    assert (G : res * res <= (vdot p p - dot u p * dot u p) * (2 * (1 - cos (s - t)))).
    { apply (chord_large res (max_range (map vnorm cloud) res) d); auto; [|lra]. rewrite Z, <- vnorm_sq, Rmult_0_l, Rminus_0_r. apply Rmult_le_compat; (lra || exact FAR). }
    apply sqrt_le_1; [nra | | exact G]. pose proof (Rle_0_sqr res). unfold Rsqr in *. lra.
Qed.
(* a candidate's score: positive, the mean of the probabilities for the identity, otherwise less,
   the farther the candidate the less *)
Theorem C75_score : forall tw rw probability cloud pose t, cloud <> [] -> (forall p, 0 < probability p) -> exists s,
  score_candidate tw rw probability (map (r3_apply pose) cloud) t = Some s /\ 0 < s <= mean_at probability pose cloud /\
  (s = mean_at probability pose cloud <-> vnorm (trans t) * tw + get_angle t * rw = 0) /\
  (forall t' s', score_candidate tw rw probability (map (r3_apply pose) cloud) t' = Some s' ->
    0 <= vnorm (trans t) * tw + get_angle t * rw < vnorm (trans t') * tw + get_angle t' * rw -> s' < s).
Proof.
  intros tw rw probability cloud pose t NE P. destruct (score_ok tw rw probability cloud pose t NE P) as [E M]. eexists. split; [exact E|].
  set (m := mean_at probability pose cloud) in *. set (d := vnorm (trans t) * tw + get_angle t * rw).
  assert (Q : 0 <= d * d) by (pose proof (Rle_0_sqr d); unfold Rsqr in *; lra).
  assert (X : exp (- (d * d)) <= 1). { rewrite <- exp_0. destruct Q as [Q|Q]; [left; apply exp_increasing; lra | right; f_equal; lra]. }
  pose proof (exp_pos (- (d * d))) as X0. split; [split; [apply Rmult_lt_0_compat; lra | nra]|]. split.
  - split; intros G.
    + assert (EX : exp (- (d * d)) = 1) by (apply (Rmult_eq_reg_l m); lra). rewrite <- exp_0 in EX. apply exp_inv in EX. nra.
    + rewrite G, Rmult_0_l, Ropp_0, exp_0. ring.
  - intros t' s' E' L. destruct (score_ok tw rw probability cloud pose t' NE P) as [F _]. rewrite F in E'. injection E' as <-. fold m.
    fold d in L. set (d' := vnorm (trans t') * tw + get_angle t' * rw) in *. apply Rmult_lt_compat_l; [exact M|]. apply exp_increasing. nra.
Qed.
(* the empty cloud has no score: the program stops there *)
Theorem C75_empty : forall linear angular tw rw probability res initial, 0 < res -> 0 <= linear -> 0 <= angular ->
  real_time_match linear angular tw rw probability res initial [] = None.
Proof.
  intros linear angular tw rw probability res initial H L A. unfold real_time_match.
  destruct (C75_transforms linear angular [] res H L A) as (step & ts & E & _ & _ & I & _). rewrite E.
  assert (N : forall ts, fold_left (match_step tw rw probability initial []) ts None = None) by (induction ts0; auto).
  destruct ts as [|t ts]; [destruct I|]. cbn [fold_left]. apply N.
Qed.
(* the result is the first among the candidates of the largest score *)
Theorem C75_match : forall linear angular tw rw probability res initial cloud, 0 < res -> 0 <= linear -> 0 <= angular ->
  cloud <> [] -> (forall p, 0 < probability p) ->
  exists ts before t after best, exhaustive linear angular cloud res = Some ts /\ ts = before ++ t :: after /\
  real_time_match linear angular tw rw probability res initial cloud = Some (best, Some (r3_mul initial t)) /\
  score_candidate tw rw probability (map (r3_apply (r3_mul initial t)) cloud) t = Some best /\
  (forall u s, In u before -> score_candidate tw rw probability (map (r3_apply (r3_mul initial u)) cloud) u = Some s -> s < best) /\
  (forall u s, In u after -> score_candidate tw rw probability (map (r3_apply (r3_mul initial u)) cloud) u = Some s -> s <= best).
Proof.
  intros linear angular tw rw probability res initial cloud H L A NE P.
  destruct (C75_transforms linear angular cloud res H L A) as (step & ts & E & _ & _ & I & _).
  pose (f := fun t => mean_at probability (r3_mul initial t) cloud * exp (- ((vnorm (trans t) * tw + get_angle t * rw) * (vnorm (trans t) * tw + get_angle t * rw)))).
  assert (F : forall t, score_candidate tw rw probability (map (r3_apply (r3_mul initial t)) cloud) t = Some (f t)) by (intros t; now apply score_ok).
  assert (POS : forall t, 0 < f t). { intros t. unfold f. apply Rmult_lt_0_compat; [now apply (score_ok tw rw probability cloud (r3_mul initial t) t) | apply exp_pos]. }
  destruct (match_fold tw rw probability initial cloud f F ts (-1) None) as (b & po & M & _ & C). destruct C as [[-> [-> C]] | (pre & t & post & S & -> & -> & _ & B & D)].
  - specialize (C r3_id I). specialize (POS r3_id). lra.
  - exists ts, pre, t, post, (f t). unfold real_time_match. rewrite E. repeat split; auto; intros u s U V; rewrite F in V; injection V as <-; auto.
Qed.
(* so the result is not worse than the initial pose *)
Theorem C75_not_worse : forall linear angular tw rw probability res initial cloud, 0 < res -> 0 <= linear -> 0 <= angular ->
  cloud <> [] -> (forall p, 0 < probability p) -> unit_rotation (rot initial) -> exists best pose,
  real_time_match linear angular tw rw probability res initial cloud = Some (best, Some pose) /\
  mean_at probability initial cloud <= best <= mean_at probability pose cloud.
Proof.
  intros linear angular tw rw probability res initial cloud H L A NE P U.
  destruct (C75_match linear angular tw rw probability res initial cloud H L A NE P) as (ts & pre & t & post & best & E & S & M & SC & B & D).
  exists best, (r3_mul initial t). split; [exact M|].
  destruct (C75_transforms linear angular cloud res H L A) as (step & ts' & E' & _ & _ & I & _). rewrite E in E'. injection E' as <-.
  destruct (C75_score tw rw probability cloud (r3_mul initial t) t NE P) as (s & SE & SB & _). rewrite SC in SE. injection SE as <-. split; [|lra].
  destruct (C75_score tw rw probability cloud (r3_mul initial r3_id) r3_id NE P) as (s & SE & _ & SQ & _).
  assert (Z : s = mean_at probability initial cloud).
  { rewrite <- (r3_id_r initial U) at 1. apply SQ. unfold r3_id, get_angle. cbn [trans rot qw q_one].
    replace (vnorm v_zero) with 0 by (unfold vnorm, vdot, v_zero; cbn [v0 v1 v2]; replace (0 * 0 + 0 * 0 + 0 * 0) with 0 by ring; now rewrite sqrt_0).
    replace (vnorm (qvec q_one)) with 0 by (unfold vnorm, vdot, qvec, q_one; cbn [v0 v1 v2 qx qy qz]; replace (0 * 0 + 0 * 0 + 0 * 0) with 0 by ring; now rewrite sqrt_0).
    rewrite Rabs_R1. unfold atan2. destruct (Rlt_dec 0 1); [|lra]. replace (0 / 1) with 0 by field. rewrite atan_0. ring. }
  rewrite <- Z. rewrite S in I. apply in_app_or in I. destruct I as [I|[I|I]].
  - left. now apply (B r3_id).
  - right. rewrite <- I in SE. rewrite SC in SE. now injection SE.
  - now apply (D r3_id).
Qed.

(* ---- cases *)
Lemma acos_17_18 a : 0 < a < PI / 2 -> cos a = 17 / 18 -> 1 / 3 <= a < 45 / 100.
Proof.
  intros A C. pose proof (cos_lower a). split; [nra|]. destruct (Rlt_le_dec a (45 / 100)) as [L|L]; [exact L|exfalso].
  pose proof PI_RGT_0. pose proof (PI2_1).
  assert (D : cos a <= cos (45 / 100)) by (apply cos_decr_1; lra). destruct (double (45 / 100)) as [E _].
  replace (45 / 100 / 2) with (225 / 1000) in E by field. pose proof (sin_lower (225 / 1000) ltac:(lra)) as S. nra.
Qed.
Lemma ceil_eq x k : IZR k - 1 < x <= IZR k -> ceil x = k.
Proof.
  intros [A B]. pose proof (ceil_spec x) as [C D]. assert (E : IZR (ceil x) < IZR (k + 1)) by (rewrite plus_IZR; lra).
  assert (F : IZR k < IZR (ceil x + 1)) by (rewrite plus_IZR; lra). apply lt_IZR in E, F. lia.
Qed.
Lemma small_step margin cloud : 9 / 10 < margin < 1 -> (forall p, In p cloud -> vnorm p <= 3) -> exists s,
  angular_step margin 1 (max_range (map vnorm cloud) 1) = Some s /\ margin * (1 / 3) <= s < 45 / 100.
Proof.
  intros M F. destruct (angles_facts margin 0 cloud 1 ltac:(lra) ltac:(lra)) as (a & E & A & C & K & G & _). exists (margin * a). split; [exact E|].
  assert (R : max_range (map vnorm cloud) 1 = 3).
  { apply Rle_antisym; [|lra]. unfold max_range. clear -F. assert (Z : 3 * 1 <= 3) by lra. revert Z. generalize (3 * 1).
    induction cloud as [|q l IH]; intros r Z; cbn [map fold_left]; [exact Z|]. apply IH; [intros; apply F; now right|]. apply Rmax_lub; [apply F; now left | exact Z]. }
  rewrite R in C. destruct (acos_17_18 a A) as [L U]; [lra|]. nra.
Qed.
Example C73_ex : exists w, search_parameters (3 / 2) (9 / 10) [mk_vec3 1 2 0; mk_vec3 (-2) 0 5] 1 = Some w /\
  w_num_angular w = 3%Z /\ w_num_scans w = 7%Z /\ w_num_linear w = 2%Z.
Proof.
  destruct (window_facts (3 / 2) (9 / 10) [mk_vec3 1 2 0; mk_vec3 (-2) 0 5] 1 ltac:(lra)) as (w & a & E & S & A & N & NS & _ & NL & C & _ & G & _).
  exists w. split; [exact E|].
  assert (R : max_range (map (fun p : point => norm2 (v0 p, v1 p)) [mk_vec3 1 2 0; mk_vec3 (-2) 0 5]) 1 = 3).
  { apply Rle_antisym; [|eapply Rle_trans; [|exact G]; lra]. unfold max_range. cbn [map fold_left v0 v1]. unfold norm2. cbn [fst snd].
    rewrite <- (sqrt_square 3) by lra. repeat apply Rmax_lub; try (apply sqrt_le_1; lra). rewrite sqrt_square; lra. }
  assert (C' : 2 * (1 - cos a) * (3 * 3) = 1 * 1) by (rewrite <- R; exact C). destruct (acos_17_18 a A) as [L U]; [lra|].
  assert (B : 333 / 1000 <= w_step w < 45 / 100) by (rewrite S; unfold k_safety_2d; lra).
  assert (N3 : w_num_angular w = 3%Z).
  { rewrite N. assert (QQ : 9 / 10 / w_step w * w_step w = 9 / 10) by (field; lra). apply ceil_eq. split.
    - apply (Rmult_lt_reg_r (w_step w)); [lra|]. rewrite QQ. lra.
    - apply (Rmult_le_reg_r (w_step w)); [lra|]. rewrite QQ. lra. }
  split; [exact N3|]. split; [rewrite NS, N3; reflexivity|]. rewrite NL. apply ceil_eq. lra.
Qed.
Example C73_full_ex : full_submap_centre (mk_limits2 (1 / 2) 10 20 8 4) = mk_vec3 9 18 0.
Proof. unfold full_submap_centre. cbn [l_res l_max_x l_max_y l_nx l_ny]. f_equal; field. Qed.
Example C74_ex : exists s, fast_angles (4 / 10) [mk_vec3 1 2 2; mk_vec3 (-2) 0 1] 1 = Some [-1 * s; 0 * s; 1 * s] /\ 33 / 100 <= s < 45 / 100.
Proof.
  destruct (small_step k_safety_fast_3d [mk_vec3 1 2 2; mk_vec3 (-2) 0 1]) as (s & E & B); [unfold k_safety_fast_3d; lra | |].
  { intros p I. unfold vnorm, vdot. rewrite <- (sqrt_square 3) by lra. destruct I as [<-|[<-|[]]]; cbn [v0 v1 v2]; apply sqrt_le_1; lra. }
  exists s. unfold k_safety_fast_3d in B. split; [|lra]. unfold fast_angles. rewrite E.
  assert (R : lround (4 / 10 / s) = 1%Z).
  { pose proof (lround_near (4 / 10 / s)) as [U V].
    assert (Q : 8 / 10 < 4 / 10 / s < 14 / 10).
    { assert (QQ : 4 / 10 / s * s = 4 / 10) by (field; lra). split; apply (Rmult_lt_reg_r s); try lra; rewrite QQ; lra. }
    assert (X : IZR (lround (4 / 10 / s)) < IZR 2) by (cbn; lra). assert (Y : IZR 0 < IZR (lround (4 / 10 / s))) by (cbn; lra). apply lt_IZR in X, Y. lia. }
  rewrite R. reflexivity.
Qed.
Example C75_ex : let probability := fun p : point => if Rle_dec 1 (v0 p) then 9 / 10 else 1 / 10 in
  exists pose, real_time_match 1 0 0 0 probability 1 r3_id [v_zero] = Some (9 / 10, Some pose) /\ 1 <= v0 (trans pose).
Proof.
  set (probability := fun p : point => if Rle_dec 1 (v0 p) then 9 / 10 else 1 / 10). cbv zeta.
  assert (P : forall p, 0 < probability p) by (intros p; unfold probability; destruct (Rle_dec _ _); lra).
  destruct (C75_match 1 0 0 0 probability 1 r3_id [v_zero]) as (ts & pre & t & post & best & E & S & M & SC & B & D); try lra; [discriminate | exact P |].
  assert (V : forall u s, score_candidate 0 0 probability (map (r3_apply (r3_mul r3_id u)) [v_zero]) u = Some s -> s = probability (trans (r3_mul r3_id u))).
  { intros u s Q. destruct (score_ok 0 0 probability [v_zero] (r3_mul r3_id u) u) as [G _]; [discriminate | exact P |]. rewrite G in Q. injection Q as <-.
    replace (vnorm (trans u) * 0 + get_angle u * 0) with 0 by ring. rewrite Rmult_0_l, Ropp_0, exp_0. unfold mean_at. cbn [map total_of length INR].
    replace (r3_apply (r3_mul r3_id u) v_zero) with (trans (r3_mul r3_id u)); [field|]. unfold r3_apply. set (g := r3_mul r3_id u).
    unfold qrot, vcross, vadd, vscale, v_zero, qvec. destruct (trans g) as [g0 g1 g2]. cbn [v0 v1 v2]. f_equal; ring. }
  assert (I : In (mk_rigid3 (mk_vec3 1 0 0) q_one) ts).
  { destruct (exhaustive_in 1 0 [v_zero] 1) as (step & ts' & E' & ST & _ & IN & _); [lra|]. rewrite E in E'. injection E' as <-. apply IN.
    exists 1%Z, 0%Z, 0%Z, 0%Z, 0%Z, 0%Z. replace (1 / 1) with (IZR 1) by field. replace (0 / step) with (IZR 0) by (field; lra). rewrite !lround_Z.
    repeat (split; [cbn; lia|]). rewrite !Rmult_0_l. rewrite of_z by now left. f_equal; [f_equal; ring|].
    unfold q_one, about_z. replace (0 / 2) with 0 by field. now rewrite cos_0, sin_0. }
  assert (BEST : best = probability (trans (r3_mul r3_id t))) by (apply V, SC).
  assert (GE : 9 / 10 <= best).
  { assert (VI : score_candidate 0 0 probability (map (r3_apply (r3_mul r3_id (mk_rigid3 (mk_vec3 1 0 0) q_one))) [v_zero]) (mk_rigid3 (mk_vec3 1 0 0) q_one) = Some (9 / 10)).
    { destruct (C75_score 0 0 probability [v_zero] (r3_mul r3_id (mk_rigid3 (mk_vec3 1 0 0) q_one)) (mk_rigid3 (mk_vec3 1 0 0) q_one)) as (s & G & _); [discriminate | exact P |].
      rewrite G. f_equal. rewrite (V _ _ G). unfold r3_mul, r3_id. cbn [trans rot]. rewrite qrot_one. unfold vadd, v_zero. cbn [v0 v1 v2].
      unfold probability. cbn [v0]. destruct (Rle_dec 1 (1 + 0)); [reflexivity | lra]. }
    rewrite S in I. apply in_app_or in I. destruct I as [I|[I|I]].
    - left. now apply (B _ _ I VI).
    - rewrite I in SC. rewrite SC in VI. injection VI as ->. lra.
    - now apply (D _ _ I VI). }
  exists (r3_mul r3_id t). unfold probability in BEST. destruct (Rle_dec 1 (v0 (trans (r3_mul r3_id t)))) as [L|L]; [|lra].
  split; [|exact L]. rewrite M, BEST. reflexivity.
Qed.

Print Assumptions C73_defined.
Print Assumptions C73_step.
Print Assumptions C73_step_largest.
Print Assumptions C73_neighbours.
Print Assumptions C73_scans.
Print Assumptions C73_estimate.
Print Assumptions C73_estimate_refuted.
Print Assumptions C73_cover.
Print Assumptions C73_full_centre.
Print Assumptions C73_full_cover.
Print Assumptions C74_angles.
Print Assumptions C74_all_around.
Print Assumptions C74_pose.
Print Assumptions C74_zero.
Print Assumptions C74_step.
Print Assumptions C74_step_largest.
Print Assumptions C74_kept.
Print Assumptions C74_not_dropped.
Print Assumptions C74_full_linear.
Print Assumptions C75_transforms.
Print Assumptions C75_step.
Print Assumptions C75_score.
Print Assumptions C75_empty.
Print Assumptions C75_match.
Print Assumptions C75_not_worse.
