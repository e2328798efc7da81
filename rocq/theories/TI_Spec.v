(* What inserting range data into a TSDF should do: geometry of grids and rays, and the update of a
   cell. *)
From Coq Require Import ZArith Reals List Bool Permutation.
From Verif Require Import CF_Model RG_Model I2_Model RTP_Spec TI_Model.
Import ListNotations.
Open Scope R_scope.

(* grids *)
Definition proper (l : limits2) : Prop := 0 < l_res l /\ (0 < l_nx l)%Z /\ (0 < l_ny l)%Z.
(* a point in the rectangle of a grid: the cells go down from the maximum *)
Definition inside (l : limits2) (p : R * R) : Prop :=
  l_max_x l - l_res l * IZR (l_ny l) < fst p < l_max_x l /\ l_max_y l - l_res l * IZR (l_nx l) < snd p < l_max_y l.
Definition is_cell (l : limits2) (c : Z * Z) : Prop := (0 <= fst c < l_nx l /\ 0 <= snd c < l_ny l)%Z.
(* the same map in a larger grid: every cell at the same place, everything else unknown *)
Definition grown_map (g g' : grid3) : Prop :=
  l_res (g_lim g') = l_res (g_lim g) /\ proper (g_lim g') /\ g_upd g' = g_upd g /\
  (forall c, is_cell (g_lim g) c -> exists c', is_cell (g_lim g') c' /\
     cell_center2 (g_lim g') c' = cell_center2 (g_lim g) c /\ g_cell g' c' = g_cell g c) /\
  (forall c', is_cell (g_lim g') c' ->
     (exists c, is_cell (g_lim g) c /\ cell_center2 (g_lim g) c = cell_center2 (g_lim g') c' /\ g_cell g c = g_cell g' c') \/
     g_cell g' c' = None).
(* the superscaled grid fits into int *)
Definition small_grid (l : limits2) : Prop := (l_nx l * 1000 < 2 ^ 31 /\ l_ny l * 1000 < 2 ^ 31)%Z.

(* rays *)
Definition dist (p q : R * R) : R := sqrt ((fst q - fst p) * (fst q - fst p) + (snd q - snd p) * (snd q - snd p)).
(* the point d behind the hit as seen from the origin *)
Definition past (origin hit : R * R) (d : R) : R * R :=
  (fst hit + d * (fst hit - fst origin) / dist origin hit, snd hit + d * (snd hit - snd origin) / dist origin hit).
Definition ray_from (o : toptions) (origin hit : R * R) : R * R :=
  if o_free_space o then origin else past origin hit (- o_truncation o).
Definition ray_to (o : toptions) (origin hit : R * R) : R * R := past origin hit (o_truncation o).
(* a point in the square of a cell that is made larger (or smaller) by a margin *)
Definition in_cell (l : limits2) (c : Z * Z) (margin : R) (p : R * R) : Prop :=
  let m := cell_center2 l c in
  Rabs (fst p - fst m) < l_res l / 2 + margin /\ Rabs (snd p - snd m) < l_res l / 2 + margin.
Definition between (p q : R * R) (t : R) : R * R := (fst p + t * (fst q - fst p), snd p + t * (snd q - snd p)).
(* a thousand subpixels per cell side; the segment between the centers of the subpixels of the ends
   meets the cell *)
Definition subpixels (l : limits2) : limits2 :=
  mk_limits2 (l_res l / 1000) (l_max_x l) (l_max_y l) (1000 * l_nx l) (1000 * l_ny l).
Definition crossed (o : toptions) (l : limits2) (origin hit : R * R) (c : Z * Z) : Prop :=
  let b := ray_from o origin hit in
  let e := ray_to o origin hit in
  crosses (cell_index2 (subpixels l) (fst b) (snd b)) (cell_index2 (subpixels l) (fst e) (snd e)) 1000 c.

(* the update of a cell *)
Definition normal_density (x sigma : R) : R := exp (- (Rsqr (x / sigma)) / 2) / (sigma * sqrt (2 * PI)).
Definition factor (bandwidth x : R) : R := if Req_EM_T bandwidth 0 then 1 else normal_density x bandwidth.
Definition wanted_distance (o : toptions) (origin hit : R * R) (normal : R) (center : R * R) : R :=
  let d := if o_project o then (fst center - fst hit) * cos normal + (snd center - snd hit) * sin normal
           else dist origin hit - dist origin center in
  Rmax (- o_truncation o) (Rmin (o_truncation o) d).
Definition wanted_weight (wrap : R -> R) (o : toptions) (origin hit : R * R) (normal : R) (center : R * R) : R :=
  (if (o_exponent o =? 0)%Z then 1
   else if Rle_dec (dist origin hit) (1 / 1000000) then 0 else / powerRZ (dist origin hit) (o_exponent o)) *
  factor (o_angle_bandwidth o) (wrap (normal - atan2 (snd origin - snd hit) (fst origin - fst hit))) *
  factor (o_distance_bandwidth o) (wanted_distance o origin hit normal center).
(* the mean of the old and the new distance, weighted *)
Definition mixed (o : toptions) (old : option (R * R)) (d w : R) : R * R :=
  match old with
  | None => (d, Rmin w (o_max_weight o))
  | Some (d0, w0) => ((w0 * d0 + w * d) / (w0 + w), Rmin (w0 + w) (o_max_weight o))
  end.
(* a return, with its normal, that updates a cell *)
Definition xy (p : vec3 R) : R * R := (v0 p, v1 p).
Definition applies (wrap : R -> R) (o : toptions) (l : limits2) (origin : R * R) (c : Z * Z) (r : vec3 R * R) : Prop :=
  o_truncation o <= dist origin (xy (fst r)) /\ crossed o l origin (xy (fst r)) c /\
  wanted_weight wrap o origin (xy (fst r)) (snd r) (cell_center2 l c) <> 0.

(* distances within the truncation, weights from zero to the maximum *)
Definition valid_map (o : toptions) (g : grid3) : Prop :=
  forall c d w, is_cell (g_lim g) c -> g_cell g c = Some (d, w) -> - o_truncation o <= d <= o_truncation o /\ 0 <= w <= o_max_weight o.
Definition usable_options (o : toptions) : Prop :=
  0 < o_truncation o /\ 0 <= o_max_weight o /\ 0 <= o_angle_bandwidth o /\ 0 <= o_distance_bandwidth o.
(* what std::sort and EstimateNormals do at least *)
Definition sorts (sort : vec3 R -> list (vec3 R) -> list (vec3 R)) : Prop := forall origin hits, Permutation (sort origin hits) hits.
Definition one_normal_each (normals : vec3 R -> list (vec3 R) -> list R) : Prop :=
  forall origin hits, List.length (normals origin hits) = List.length hits.

(* the direction of a return from the origin, between minus pi and pi; a return at the origin counts
   as straight left *)
Definition direction (origin p : vec3 R) : R :=
  if Req_EM_T (dist (xy origin) (xy p)) 0 then PI / 2 else atan2 (v1 p - v1 origin) (v0 p - v0 origin).
(* many updates of an unknown cell *)
Definition mixed_all (o : toptions) (us : list (R * R)) : option (R * R) :=
  fold_left (fun c u => Some (mixed o c (fst u) (snd u))) us None.
Definition total (us : list (R * R)) : R := fold_right (fun u s => snd u + s) 0 us.
Definition moment (us : list (R * R)) : R := fold_right (fun u s => snd u * fst u + s) 0 us.
