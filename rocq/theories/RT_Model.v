(* Model of cartographer/mapping/internal/2d/scan_matching/
   real_time_correlative_scan_matcher_2d.cc (rtc) with the search window of
   correlative_scan_matcher_2d.{h,cc} (csh, csc).  Scans are given as cells; scores are
   binary32.  A failing CHECK, signed overflow, an access outside a vector, a loop that
   does not end or max_element of nothing is None. *)
From Coq Require Import List ZArith QArith Bool.
From Verif Require Import Vec Float32 PV_Model G2_Model TSD_Model.
Import ListNotations.
Open Scope Z_scope.

Definition dscan : Type := list (Z * Z).                         (* DiscreteScan2D, csh:32 *)

(* SearchParameters::LinearBounds, csh:37-42 *)
Record lbounds := mk_lbounds { min_x : Z; max_x : Z; min_y : Z; max_y : Z }.

(* SearchParameters, csh:35-61, and its constructors, csc:27-72: both end in the same
   loop.  The first one computes num_linear_perturbations and num_angular_perturbations
   as std::ceil of window / step in double precision; here they are given.  A negative
   num_scans never reaches 0 by counting up. *)
Record search := mk_search {
  num_angular : Z;
  num_scans : Z;
  linear_bounds : list lbounds
}.
Definition new_search (num_linear num_angular : Z) : option search :=
  let n := 2 * num_angular + 1 in
  if n <? 0 then None
  else Some (mk_search num_angular n
               (repeat (mk_lbounds (- num_linear) num_linear (- num_linear) num_linear) (Z.to_nat n))).

(* Candidate2D, csh:77-109: scan_index, x_index_offset and y_index_offset; x, y and
   orientation are cand_pose, with exact arithmetic instead of double *)
Record cand := mk_cand { c_scan : Z; c_x : Z; c_y : Z }.
Definition cand_pose (sp : search) (resolution step : Q) (c : cand) : Q * Q * Q :=
  ((- inject_Z (c_y c) * resolution)%Q, (- inject_Z (c_x c) * resolution)%Q,
   (inject_Z (c_scan c - num_angular sp) * step)%Q).

(* GenerateRotatedScans, csc:93-111: the angles by which the point cloud is rotated, with
   exact arithmetic instead of double *)
Fixpoint angle_loop (count : nat) (delta_theta step : Q) : list Q :=
  match count with
  | O => []
  | S n => delta_theta :: angle_loop n (delta_theta + step)%Q step
  end.
Definition scan_angles (sp : search) (step : Q) : list Q :=
  angle_loop (Z.to_nat (num_scans sp)) (- inject_Z (num_angular sp) * step)%Q step.

(* GenerateExhaustiveSearchCandidates, rtc:83-115: the number of candidates in int
   arithmetic, the candidates, and the CHECK *)
Definition int_ok (z : Z) : bool := (- 2 ^ 31 <=? z) && (z <? 2 ^ 31).
Fixpoint count_loop (bs : list lbounds) (n : Z) : option Z :=
  match bs with
  | [] => Some n
  | b :: r =>
      let nx := max_x b - min_x b + 1 in
      let ny := max_y b - min_y b + 1 in
      if int_ok nx && int_ok ny && int_ok (nx * ny) && int_ok (n + nx * ny)
      then count_loop r (n + nx * ny) else None
  end.
Definition upto (lo hi : Z) : list Z := map (fun k => lo + k) (zrange (hi - lo + 1)).
Fixpoint gen_loop (i : Z) (bs : list lbounds) : list cand :=
  match bs with
  | [] => []
  | b :: r => flat_map (fun x => map (mk_cand i x) (upto (min_y b) (max_y b))) (upto (min_x b) (max_x b))
              ++ gen_loop (i + 1) r
  end.
Definition generate (sp : search) : option (list cand) :=
  match count_loop (linear_bounds sp) 0 with
  | None => None
  | Some n => let cs := gen_loop 0 (linear_bounds sp) in
              if Z.of_nat (length cs) =? n then Some cs else None
  end.

(* ComputeCandidateScore for a ProbabilityGrid, rtc:61-76 *)
Fixpoint prob_loop (g : grid) (dx dy : Z) (scan : dscan) (score : f32) : option f32 :=
  match scan with
  | [] => Some score
  | (x, y) :: r => match get_probability g (x + dx) (y + dy) with
                   | None => None
                   | Some p => prob_loop g dx dy r (fadd score p)
                   end
  end.
Definition prob_score (g : grid) (dx dy : Z) (scan : dscan) : option f32 :=
  match prob_loop g dx dy scan f_zero with
  | None => None
  | Some score => let s := fdiv score (f_of_Z (Z.of_nat (length scan))) in
                  if fltb f_zero s then Some s else None
  end.

(* Grid2D::GetGridType, used at rtc:157 *)
Inductive any_grid := ProbabilityGrid (g : grid) | Tsdf (t : tsdf).
Definition raw_score (g : any_grid) (dx dy : Z) (scan : dscan) : option f32 :=
  match g with
  | ProbabilityGrid g => prob_score g dx dy scan
  | Tsdf t => candidate_score t dx dy scan
  end.

Section Match.
(* the multiplication by std::exp(...), rtc:171-175, as a function of candidate and score *)
Variable discount : cand -> f32 -> f32.

(* ScoreCandidates, rtc:152-177 *)
Fixpoint score_all (g : any_grid) (scans : list dscan) (cs : list cand) : option (list (cand * f32)) :=
  match cs with
  | [] => Some []
  | c :: r =>
      match vget scans (c_scan c) with
      | None => None
      | Some scan =>
          match raw_score g (c_x c) (c_y c) scan with
          | None => None
          | Some s => match score_all g scans r with
                      | None => None
                      | Some l => Some ((c, discount c s) :: l)
                      end
          end
      end
  end.

(* std::max_element with Candidate2D::operator<, rtc:141-142 and csh:107 *)
Fixpoint max_loop (best : cand * f32) (l : list (cand * f32)) : cand * f32 :=
  match l with
  | [] => best
  | c :: r => max_loop (if fltb (snd best) (snd c) then c else best) r
  end.
Definition max_element (l : list (cand * f32)) : option (cand * f32) :=
  match l with [] => None | c :: r => Some (max_loop c r) end.

(* RealTimeCorrelativeScanMatcher2D::Match, rtc:117-148, after the scans have been rotated
   and discretized: the best candidate and the returned score *)
Definition rt_match (num_linear num_angular : Z) (g : any_grid) (scans : list dscan) : option (cand * f32) :=
  match new_search num_linear num_angular with
  | None => None
  | Some sp =>
      match generate sp with
      | None => None
      | Some cs => match score_all g scans cs with
                   | None => None
                   | Some l => max_element l
                   end
      end
  end.
End Match.
