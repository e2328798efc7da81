(* Model of the search windows of the correlative scan matchers, with real numbers instead of floats
   and doubles:
   cartographer/mapping/internal/2d/scan_matching/correlative_scan_matcher_2d.{h,cc} (csh, csc),
   fast_correlative_scan_matcher_2d.cc (f2), real_time_correlative_scan_matcher_2d.cc (r2),
   cartographer/mapping/internal/3d/scan_matching/fast_correlative_scan_matcher_3d.cc (f3) and
   real_time_correlative_scan_matcher_3d.cc (r3).  The search through the windows is modelled in
   FCSM2D_Model, RT_Model and FCSM3D_Model.  Undefined values are None. *)
From Coq Require Import ZArith Reals List Bool.
From Verif Require Import CF_Model RG_Model IG_Model I2_Model Vec RH_Model.
Import ListNotations.
Open Scope R_scope.

(* std::ceil *)
Definition ceil (x : R) : Z := (- Int_part (- x))%Z.

(* the angular step, csc:34-43, f3:255-264 and r3:61-71; acos is undefined outside [-1, 1] *)
Definition max_range (ranges : list R) (resolution : R) : R :=
  fold_left (fun m r => Rmax r m) ranges (3 * resolution).
Definition angular_step (margin resolution range : R) : option R :=
  let c := 1 - resolution * resolution / (2 * (range * range)) in
  if Rle_dec (-1) c then if Rle_dec c 1 then Some (margin * acos c) else None else None.

(* ---- 2D *)

(* SearchParameters::SearchParameters, csc:27-55: num_linear_perturbations instead of the
   linear_bounds, which all have this size *)
Record window2 := mk_window2 { w_num_angular : Z; w_step : R; w_resolution : R; w_num_scans : Z; w_num_linear : Z }.
Definition k_safety_2d : R := 1 - 1 / 1000.
Definition search_parameters (linear angular : R) (cloud : list point) (resolution : R) : option window2 :=
  let range := max_range (map (fun p => norm2 (v0 p, v1 p)) cloud) resolution in
  match angular_step k_safety_2d resolution range with
  | None => None
  | Some step =>
      let n := ceil (angular / step) in
      Some (mk_window2 n step resolution (2 * n + 1) (ceil (linear / resolution)))
  end.

(* GenerateRotatedScans, csc:93-111; AngleAxis about UnitZ *)
Fixpoint thetas (count : nat) (delta step : R) : list R :=
  match count with O => [] | S n => delta :: thetas n (delta + step) step end.
Definition rotate_cloud (t : R) (cloud : list point) : list point := map (qrot (about_z t)) cloud.
Definition rotated_scans (cloud : list point) (w : window2) : list (list point) :=
  map (fun t => rotate_cloud t cloud)
      (thetas (Z.to_nat (w_num_scans w)) (- IZR (w_num_angular w) * w_step w) (w_step w)).

(* DiscretizeScans, csc:113-131 *)
Definition discretize (l : limits2) (scans : list (list point)) (tx ty : R) : list (list (Z * Z)) :=
  map (map (fun p => cell_index2 l (v0 p + tx) (v1 p + ty))) scans.

(* Candidate2D, csh:77-87: x, y and orientation *)
Definition candidate_pose (w : window2) (scan dx dy : Z) : vec3 R :=
  mk_vec3 (- IZR dy * w_resolution w) (- IZR dx * w_resolution w) (IZR (scan - w_num_angular w) * w_step w).

(* what MatchWithSearchParameters, f2:240-262, and Match, r2:117-150, do before and after the
   search: the cells of the scans, and the pose of a candidate *)
Definition scan_cells (l : limits2) (w : window2) (initial : vec3 R) (cloud : list point) : list (list (Z * Z)) :=
  discretize l (rotated_scans (rotate_cloud (v2 initial) cloud) w) (v0 initial) (v1 initial).
Definition pose_estimate (w : window2) (initial : vec3 R) (scan dx dy : Z) : vec3 R :=
  let c := candidate_pose w scan dx dy in
  mk_vec3 (v0 initial + v0 c) (v1 initial + v1 c) (v2 initial + v2 c).

(* MatchFullSubmap, f2:210-225 *)
Definition full_submap_centre (l : limits2) : vec3 R :=
  mk_vec3 (l_max_x l - 1 / 2 * l_res l * IZR (l_ny l)) (l_max_y l - 1 / 2 * l_res l * IZR (l_nx l)) 0.
Definition full_submap_window (l : limits2) (cloud : list point) : option window2 :=
  search_parameters (1000000 * l_res l) PI cloud (l_res l).

(* ---- 3D *)

(* for (int i = -n; i <= n; ++i) *)
Definition symmetric (n : Z) : list Z := map (fun k => (k - n)%Z) (zrange (2 * n + 1)).

(* GenerateDiscreteScans, f3:246-295, without DiscretizeScan: the angles and for each one that the
   rotational scan matcher accepts the pose and the score *)
Definition k_safety_fast_3d : R := 1 - 1 / 100.
Definition fast_angles (angular : R) (cloud : list point) (resolution : R) : option (list R) :=
  match angular_step k_safety_fast_3d resolution (max_range (map vnorm cloud) resolution) with
  | None => None
  | Some step => Some (map (fun rz => IZR rz * step) (symmetric (lround (angular / step))))
  end.
Definition node_to_submap (node submap : rigid3) : rigid3 := r3_mul (r3_inv submap) node.
Definition scan_pose (node submap : rigid3) (angle : R) : rigid3 :=
  mk_rigid3 (trans (node_to_submap node submap))
            (qmul (qmul (qconj (rot submap)) (of_angle_axis (mk_vec3 0 0 angle))) (rot node)).
Definition fast_scans (angular : R) (cloud : list point) (resolution : R)
    (submap_histogram scan_histogram : list R) (gravity : quat) (node submap : rigid3) (min_score : R)
    : option (list (rigid3 * R)) :=
  match fast_angles angular cloud resolution with
  | None => None
  | Some angles =>
      let yaw := get_yaw (qmul (rot (node_to_submap node submap)) (qconj gravity)) in
      let scores := match_angles submap_histogram scan_histogram yaw angles in
      Some (map (fun p => (scan_pose node submap (fst p), snd p))
                (filter (fun p => if Rlt_dec (snd p) min_score then false else true) (combine angles scores)))
  end.
(* the linear windows of Match, f3:134-137, and of MatchFullSubmap, f3:151-158 *)
Definition fast_linear_window (window resolution : R) : Z := lround (window / resolution).
Definition full_linear_window (width : Z) (cloud : list point) (resolution : R) : Z :=
  let far := fold_left (fun m p => Rmax m (vnorm p)) cloud 0 in
  ((width + 1) / 2 + lround (far / resolution + 1 / 2))%Z.

(* RealTimeCorrelativeScanMatcher3D::GenerateExhaustiveSearchTransforms, r3:55-96 *)
Definition k_safety_real_time_3d : R := 1 - 1 / 1000.
Definition exhaustive (linear angular : R) (cloud : list point) (resolution : R) : option (list rigid3) :=
  match angular_step k_safety_real_time_3d resolution (max_range (map vnorm cloud) resolution) with
  | None => None
  | Some step =>
      let l := symmetric (lround (linear / resolution)) in
      let a := symmetric (lround (angular / step)) in
      Some (flat_map (fun z => flat_map (fun y => flat_map (fun x =>
              flat_map (fun rz => flat_map (fun ry => map (fun rx =>
                mk_rigid3 (mk_vec3 (IZR x * resolution) (IZR y * resolution) (IZR z * resolution))
                          (of_angle_axis (mk_vec3 (IZR rx * step) (IZR ry * step) (IZR rz * step))))
              a) a) a) l) l) l)
  end.
(* ScoreCandidate, r3:98-114, over the probability of the cell of a point; None: the CHECK *)
Definition score_candidate (tw rw : R) (probability : point -> R) (cloud : list point) (t : rigid3) : option R :=
  match cloud with
  | [] => None
  | _ =>
      let mean := fold_left (fun s p => s + probability p) cloud 0 / INR (length cloud) in
      let d := vnorm (trans t) * tw + get_angle t * rw in
      let score := mean * exp (- (d * d)) in
      if Rlt_dec 0 score then Some score else None
  end.
(* Match, r3:34-54: the best score and *pose_estimate; None inside: it was not written *)
Definition match_step (tw rw : R) (probability : point -> R) (initial : rigid3) (cloud : list point)
    (s : option (R * option rigid3)) (t : rigid3) : option (R * option rigid3) :=
  match s with
  | None => None
  | Some (best, pose) =>
      let candidate := r3_mul initial t in
      match score_candidate tw rw probability (map (r3_apply candidate) cloud) t with
      | None => None
      | Some score => if Rlt_dec best score then Some (score, Some candidate) else Some (best, pose)
      end
  end.
Definition real_time_match (linear angular tw rw : R) (probability : point -> R) (resolution : R)
    (initial : rigid3) (cloud : list point) : option (R * option rigid3) :=
  match exhaustive linear angular cloud resolution with
  | None => None
  | Some ts => fold_left (match_step tw rw probability initial cloud) ts (Some (-1, None))
  end.
