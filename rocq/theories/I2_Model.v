(* Model of the costs of the 2D ceres scan matcher:
   cartographer/mapping/internal/2d/scan_matching/interpolated_tsdf_2d.h (it),
   tsdf_match_cost_function_2d.cc (tm) and occupied_space_cost_function_2d.cc (oc), with
   GetCellIndex, GetCellCenter and Contains of cartographer/mapping/2d/map_limits.h (ml),
   with real numbers instead of floats and doubles.  ceres/cubic_interpolation.h is not part
   of the repository; hermite and bicubic are its documented Catmull-Rom splines. *)
From Coq Require Import ZArith Reals List Bool.
From Verif Require Import CF_Model RG_Model IG_Model.
Import ListNotations.
Open Scope R_scope.

(* MapLimits, ml:92-95 *)
Record limits2 := mk_limits2 { l_res : R; l_max_x : R; l_max_y : R; l_nx : Z; l_ny : Z }.
(* GetCellIndex, ml:69-76, GetCellCenter, ml:79-82, Contains, ml:85-90 *)
Definition cell_index2 (l : limits2) (x y : R) : Z * Z :=
  (lround ((l_max_y l - y) / l_res l - 1 / 2), lround ((l_max_x l - x) / l_res l - 1 / 2)).
Definition cell_center2 (l : limits2) (i : Z * Z) : R * R :=
  (l_max_x l - l_res l * (IZR (snd i) + 1 / 2), l_max_y l - l_res l * (IZR (fst i) + 1 / 2)).
Definition contains2 (l : limits2) (i : Z * Z) : bool :=
  ((0 <=? fst i) && (0 <=? snd i) && (fst i <? l_nx l) && (snd i <? l_ny l))%Z.

(* TSDF2D as far as it is read: weights, tsdf_2d.cc:80-86 (outside the limits the least
   weight, zero) and correspondence costs, grid_2d.h:53-57 (outside the greatest) *)
Record tsdf2 := mk_tsdf2 { t_lim : limits2; t_weight : Z -> Z -> R; t_cost : Z -> Z -> R; t_max : R }.
Definition get_weight2 (t : tsdf2) (i j : Z) : R :=
  if contains2 (t_lim t) (i, j) then t_weight t i j else 0.
Definition get_cost2 (t : tsdf2) (i j : Z) : R :=
  if contains2 (t_lim t) (i, j) then t_cost t i j else t_max t.

(* CenterOfLowerPixel, it:109-121 *)
Definition center_of_lower2 (l : limits2) (x y : R) : R * R :=
  let c := cell_center2 l (cell_index2 l x y) in
  (if Rlt_dec x (fst c) then fst c - l_res l else fst c,
   if Rlt_dec y (snd c) then snd c - l_res l else snd c).

Section Generic.
Variable sc : scalar.
Let T := s_T sc.

(* InterpolateBilinear, it:95-104 *)
Definition bilinear (x y : T) (x1 y1 x2 y2 q11 q12 q21 q22 : R) : T :=
  let nx := s_mul sc (s_sub sc x (s_of sc x1)) (s_of sc (/ (x2 - x1))) in
  let ny := s_mul sc (s_sub sc y (s_of sc y1)) (s_of sc (/ (y2 - y1))) in
  let q1 := s_add sc (s_mul sc (s_of sc (q12 - q11)) ny) (s_of sc q11) in
  let q2 := s_add sc (s_mul sc (s_of sc (q22 - q21)) ny) (s_of sc q21) in
  s_add sc (s_mul sc (s_sub sc q2 q1) nx) q1.

(* GetCorrespondenceCost, it:41-66, and GetWeight, it:69-82, with
   ComputeInterpolationDataPoints, it:85-93 *)
Definition cost_at (t : tsdf2) (x y : T) : T :=
  let l := t_lim t in
  let (x1, y1) := center_of_lower2 l (s_val sc x) (s_val sc y) in
  let (x2, y2) := (x1 + l_res l, y1 + l_res l) in
  let (i, j) := cell_index2 l x1 y1 in
  let w11 := get_weight2 t i j in
  let w12 := get_weight2 t (i - 1) j in
  let w21 := get_weight2 t i (j - 1) in
  let w22 := get_weight2 t (i - 1) (j - 1) in
  if Req_EM_T w11 0 then s_of sc (t_max t) else
  if Req_EM_T w12 0 then s_of sc (t_max t) else
  if Req_EM_T w21 0 then s_of sc (t_max t) else
  if Req_EM_T w22 0 then s_of sc (t_max t) else
  bilinear x y x1 y1 x2 y2 (get_cost2 t i j) (get_cost2 t (i - 1) j)
    (get_cost2 t i (j - 1)) (get_cost2 t (i - 1) (j - 1)).
Definition weight_at (t : tsdf2) (x y : T) : T :=
  let l := t_lim t in
  let (x1, y1) := center_of_lower2 l (s_val sc x) (s_val sc y) in
  let (x2, y2) := (x1 + l_res l, y1 + l_res l) in
  let (i, j) := cell_index2 l x1 y1 in
  bilinear x y x1 y1 x2 y2 (get_weight2 t i j) (get_weight2 t (i - 1) j)
    (get_weight2 t i (j - 1)) (get_weight2 t (i - 1) (j - 1)).

(* the point in the frame of the grid, tm:41-53 and oc:41-56: the pose is x, y and angle *)
Definition world2 (pose : nat -> T) (p : R * R) : T * T :=
  let c := s_cos sc (pose 2%nat) in
  let s := s_sin sc (pose 2%nat) in
  (s_add sc (s_add sc (s_mul sc c (s_of sc (fst p))) (s_mul sc (s_neg sc s) (s_of sc (snd p)))) (pose 0%nat),
   s_add sc (s_add sc (s_mul sc s (s_of sc (fst p))) (s_mul sc c (s_of sc (snd p)))) (pose 1%nat)).

(* the loop of OccupiedSpaceCostFunction2D::operator(), oc:51-64: one residual; evaluate is
   BiCubicInterpolator::Evaluate *)
Definition k_padding : Z := 2147483647 / 4.
Definition occupied_residual2 (evaluate : T -> T -> T) (scaling : R) (l : limits2) (pose : nat -> T)
    (p : R * R) : T :=
  let (wx, wy) := world2 pose p in
  let row := s_add sc (s_sub sc (s_mul sc (s_sub sc (s_of sc (l_max_x l)) wx) (s_of sc (/ l_res l)))
                            (s_of sc (1 / 2))) (s_of sc (IZR k_padding)) in
  let column := s_add sc (s_sub sc (s_mul sc (s_sub sc (s_of sc (l_max_y l)) wy) (s_of sc (/ l_res l)))
                            (s_of sc (1 / 2))) (s_of sc (IZR k_padding)) in
  s_mul sc (s_of sc scaling) (evaluate row column).
End Generic.

(* TSDFMatchCostFunction2D::operator(), tm:40-66, the values; None is returning false *)
Definition tsdf_match (t : tsdf2) (scaling : R) (pose : nat -> R) (points : list (R * R)) : option (list R) :=
  let n := INR (length points) in
  let worlds := map (world2 real_scalar pose) points in
  let weights := map (fun w => weight_at real_scalar t (fst w) (snd w)) worlds in
  let residuals := map (fun w => n * scaling * cost_at real_scalar t (fst w) (snd w)
                                 * weight_at real_scalar t (fst w) (snd w)) worlds in
  let summed_weight := fold_left Rplus weights 0 in
  if Req_EM_T summed_weight 0 then None
  else Some (map (fun r => r / summed_weight) residuals).

(* the same with jets: the division is that of ceres/jet.h, and comparing jets compares their
   values *)
Definition jet_div (a b : jet) : jet :=
  mk_jet (j_a a / j_a b) (fun i => (j_v a i - j_a a / j_a b * j_v b i) / j_a b).
Definition tsdf_match_jet (t : tsdf2) (scaling : R) (pose : nat -> jet) (points : list (R * R)) : option (list jet) :=
  let n := INR (length points) in
  let worlds := map (world2 jet_scalar pose) points in
  let weights := map (fun w => weight_at jet_scalar t (fst w) (snd w)) worlds in
  let residuals := map (fun w =>
    s_mul jet_scalar (s_mul jet_scalar (s_mul jet_scalar (s_of jet_scalar n) (s_of jet_scalar scaling))
      (cost_at jet_scalar t (fst w) (snd w))) (weight_at jet_scalar t (fst w) (snd w))) worlds in
  let summed_weight := fold_left (s_add jet_scalar) weights (s_of jet_scalar 0) in
  if Req_EM_T (j_a summed_weight) 0 then None
  else Some (map (fun r => jet_div r summed_weight) residuals).

(* GridArrayAdapter::GetValue, oc:76-92; kMaxCorrespondenceCost is 0.9 *)
Definition max_correspondence_cost : R := 9 / 10.
Definition adapter (l : limits2) (cost : Z -> Z -> R) (row column : Z) : R :=
  let num_rows := (l_ny l + 2 * k_padding)%Z in
  let num_cols := (l_nx l + 2 * k_padding)%Z in
  if ((row <? k_padding) || (column <? k_padding) || (num_rows - k_padding <=? row)
      || (num_cols - k_padding <=? column))%Z
  then max_correspondence_cost
  else cost (column - k_padding)%Z (row - k_padding)%Z.

(* ceres::CubicHermiteSpline: value and derivative *)
Definition hermite (p0 p1 p2 p3 x : R) : R :=
  let a := 1 / 2 * (- p0 + 3 * p1 - 3 * p2 + p3) in
  let b := 1 / 2 * (2 * p0 - 5 * p1 + 4 * p2 - p3) in
  let c := 1 / 2 * (- p0 + p2) in
  p1 + x * (c + x * (b + x * a)).
Definition dhermite (p0 p1 p2 p3 x : R) : R :=
  let a := 1 / 2 * (- p0 + 3 * p1 - 3 * p2 + p3) in
  let b := 1 / 2 * (2 * p0 - 5 * p1 + 4 * p2 - p3) in
  let c := 1 / 2 * (- p0 + p2) in
  c + x * (2 * b + 3 * a * x).
(* ceres::BiCubicInterpolator::Evaluate: value, derivative by row, derivative by column *)
Definition bicubic (data : Z -> Z -> R) (r c : R) : R * R * R :=
  let row := Int_part r in
  let col := Int_part c in
  let t := c - IZR col in
  let f i := hermite (data i (col - 1)%Z) (data i col) (data i (col + 1)%Z) (data i (col + 2)%Z) t in
  let df i := dhermite (data i (col - 1)%Z) (data i col) (data i (col + 1)%Z) (data i (col + 2)%Z) t in
  let s := r - IZR row in
  (hermite (f (row - 1)%Z) (f row) (f (row + 1)%Z) (f (row + 2)%Z) s,
   dhermite (f (row - 1)%Z) (f row) (f (row + 1)%Z) (f (row + 2)%Z) s,
   hermite (df (row - 1)%Z) (df row) (df (row + 1)%Z) (df (row + 2)%Z) s).
Definition evaluate_real (data : Z -> Z -> R) (r c : R) : R := fst (fst (bicubic data r c)).
Definition evaluate_jet (data : Z -> Z -> R) (r c : jet) : jet :=
  let '(f, dfdr, dfdc) := bicubic data (j_a r) (j_a c) in
  mk_jet f (fun i => dfdr * j_v r i + dfdc * j_v c i).

(* the whole cost: the values of the residuals *)
Definition occupied_cost2 (scaling : R) (l : limits2) (cost : Z -> Z -> R) (pose : nat -> R)
    (points : list (R * R)) : list R :=
  map (occupied_residual2 real_scalar (evaluate_real (adapter l cost)) scaling l pose) points.
