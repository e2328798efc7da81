(* Model of the 3D branch-and-bound scan matcher:
   cartographer/mapping/internal/3d/scan_matching/
     precomputation_grid_3d.cc             (called pgc below)
     fast_correlative_scan_matcher_3d.cc   (called fcsm below)
   on the grids of HG_Model.  Scores are only compared and are represented by integers as in
   FCSM2D_Model; FCSM_Float shows that the float32 expressions fit.  A failed CHECK, overflow in
   an index of a grid, an access outside a vector and too little fuel are None; other overflow of
   int is not modelled. *)
From Coq Require Import List ZArith Bool.
From Verif Require Import Float32 PV_Model G2_Model HG_Model FCSM2D_Model.
Import ListNotations.
Open Scope Z_scope.

(* PrecomputationGrid3D is HybridGridBase<uint8>, precomputation_grid_3d.h:26-36; the resolution
   is left out *)
Definition pgrid3 : Type := dynamic node.
Definition p_value (g : pgrid3) (i : Z3) : option Z := dyn_value 0 node_ops g i.
(* *mutable_value(i) = f of it *)
Definition p_put (f : Z -> Z) (g : pgrid3) (i : Z3) : option pgrid3 :=
  match dyn_modify node_ops grow_fuel (fun v => Some (tt, f v)) g i with
  | Done (_, g') => Some g'
  | _ => None
  end.
(* what an Iterator visits *)
Definition p_cells (fuel : nat) (g : dynamic node) : option (list (Z3 * Z)) :=
  match dyn_iterate node_ops fuel g (dyn_begin node_ops g) with Done l => Some l | _ => None end.

(* the value of a cell, pgc:53-57 *)
Definition convert_value (v : Z) : option Z :=
  match f_round_to_int (fmul (fsub (value_to_prob v) kMinProbability)
                             (fdiv (f_of_Z 255) (fsub kMaxProbability kMinProbability))) with
  | None => None
  | Some c => if (0 <=? c) && (c <=? 255) then Some c else None
  end.
(* ConvertToPrecomputationGrid, pgc:49-61 *)
Fixpoint convert_cells (l : list (Z3 * Z)) (g : pgrid3) : option pgrid3 :=
  match l with
  | [] => Some g
  | (i, v) :: r =>
      match convert_value v with
      | None => None
      | Some c => match p_put (fun _ => c) g i with
                  | None => None
                  | Some g' => convert_cells r g'
                  end
      end
  end.
Definition convert (fuel : nat) (h : hybrid) : option pgrid3 :=
  match p_cells fuel (h_grid h) with
  | None => None
  | Some l => convert_cells l dyn_new
  end.

(* GetOctant, 3d/hybrid_grid.h:436-441 *)
Definition octant (i : Z) : Z3 :=
  (Z.b2z (Z.testbit i 0), Z.b2z (Z.testbit i 1), Z.b2z (Z.testbit i 2)).
(* CellIndexAtHalfResolution, pgc:34-45 *)
Definition half_index (i : Z3) : Z3 := map3 (fun c => Z.shiftr c 1) i.
(* PrecomputeGrid, pgc:63-81 *)
Fixpoint put_octants (half : bool) (shift : Z) (i : Z3) (v : Z) (os : list Z) (g : pgrid3) : option pgrid3 :=
  match os with
  | [] => Some g
  | o :: r =>
      let j := zip3 (fun c b => c - shift * b) i (octant o) in
      match p_put (fun old => Z.max v old) g (if half then half_index j else j) with
      | None => None
      | Some g' => put_octants half shift i v r g'
      end
  end.
Fixpoint put_all (half : bool) (shift : Z) (l : list (Z3 * Z)) (g : pgrid3) : option pgrid3 :=
  match l with
  | [] => Some g
  | (i, v) :: r =>
      match put_octants half shift i v [0; 1; 2; 3; 4; 5; 6; 7] g with
      | None => None
      | Some g' => put_all half shift r g'
      end
  end.
Definition precompute3 (fuel : nat) (half : bool) (shift : Z) (g : pgrid3) : option pgrid3 :=
  match p_cells fuel g with
  | None => None
  | Some l => put_all half shift l dyn_new
  end.

(* The constructor of PrecomputationGridStack3D, fcsm:57-77: k more grids from depth d on; bd is
   branch_and_bound_depth, fd full_resolution_depth.  All components of shift are equal. *)
Definition stack_shift (fd d : Z) : Z :=
  let next := Z.shiftl 1 d in
  let last := Z.shiftl 1 (d - 1) in        (* last_width is 1, then the previous next_width *)
  let full := Z.shiftl 1 (Z.max 0 (d - fd)) in
  Z.quot (next - last + (full - 1)) full.
Fixpoint stack_from (fuel : nat) (fd d : Z) (k : nat) (g : pgrid3) : option (list pgrid3) :=
  match k with
  | O => Some []
  | S k =>
      match precompute3 fuel (fd <=? d) (stack_shift fd d) g with
      | None => None
      | Some g' => match stack_from fuel fd (d + 1) k g' with
                   | None => None
                   | Some r => Some (g' :: r)
                   end
      end
  end.
Definition stack3 (fuel : nat) (bd : nat) (fd : Z) (h : hybrid) : option (list pgrid3) :=
  if (1 <=? bd)%nat && (1 <=? fd) then
    match convert fuel h with
    | None => None
    | Some g => match stack_from fuel fd 1 (Nat.pred bd) g with
                | None => None
                | Some r => Some (g :: r)
                end
    end
  else None.

(* DiscreteScan3D, fcsm:79-84, without the pose *)
Record dscan3 := mk_dscan3 { ds_cells : list (list Z3); ds_rot : Z }.
(* SearchParameters, fast_correlative_scan_matcher_3d.h:104-109: the windows; the angular window is in the list of rotations *)
Record window3 := mk_window3 { w_xy : Z; w_z : Z }.
Definition window_start (w : window3) : Z3 := (- w_xy w, - w_xy w, - w_z w).

(* DiscretizeScan, fcsm:200-244, from full_resolution_cell_indices on *)
Definition low_cells (w : window3) (e : Z) (cells : list Z3) : list Z3 :=
  map (fun c =>
         let at_start := zip3 Z.add c (window_start w) in
         zip3 Z.sub (map3 (fun a => Z.shiftr a e) at_start) (map3 (fun a => Z.shiftr a e) (window_start w)))
      cells.
Definition discretize (bd : nat) (fd : Z) (w : window3) (cells : list Z3) (rot : Z) : option dscan3 :=
  let full := Z.min fd (Z.of_nat bd) in
  let low := Z.of_nat bd - full in
  if (1 <=? full) && (0 <=? low) then
    Some (mk_dscan3 (repeat cells (Z.to_nat full) ++
                     map (fun i => low_cells w (Z.of_nat i + 1) cells) (seq 0 (Z.to_nat low))) rot)
  else None.

(* GenerateDiscreteScans, fcsm:246-295: for each angle the score of the rotational scan matcher
   and the cells of the rotated scan *)
Fixpoint discretize_all (bd : nat) (fd : Z) (w : window3) (min_rot : Z) (rots : list (Z * list Z3))
    : option (list dscan3) :=
  match rots with
  | [] => Some []
  | (rot, cells) :: r =>
      if rot <? min_rot then discretize_all bd fd w min_rot r
      else match discretize bd fd w cells rot, discretize_all bd fd w min_rot r with
           | Some s, Some ss => Some (s :: ss)
           | _, _ => None
           end
  end.

(* Candidate3D, fcsm:86-110; the score None is minus infinity.  low_resolution_score is 0 until
   the candidate is returned; it is given by scan and offset and left out. *)
Record cand3 := mk_cand3 { k_scan : Z; k_off : Z3; k_score : option Z }.
Definition unsuccessful : cand3 := mk_cand3 0 (0, 0, 0) None.
(* operator<  *)
Definition score_lt (a b : option Z) : bool :=
  match a, b with
  | _, None => false
  | None, Some _ => true
  | Some x, Some y => x <? y
  end.

(* GenerateLowestResolutionCandidates, fcsm:297-330 *)
Definition generate3 (w : window3) (max_depth : nat) (num_scans : nat) : option (list (Z * Z3)) :=
  let step := Z.shiftl 1 (Z.of_nat max_depth) in
  let num_xy := Z.quot (2 * w_xy w + step) step in
  let num_z := Z.quot (2 * w_z w + step) step in
  let cs := flat_map (fun i =>
              flat_map (fun z =>
                flat_map (fun y =>
                  map (fun x => (Z.of_nat i, (x, y, z))) (step_list (- w_xy w) (w_xy w) step))
                  (step_list (- w_xy w) (w_xy w) step))
                (step_list (- w_z w) (w_z w) step))
              (seq 0 num_scans) in
  if Z.of_nat (length cs) =? Z.of_nat num_scans * num_xy ^ 2 * num_z then Some cs else None.

Section Search.
(* ToProbability(sum / n), fcsm:349-351 and precomputation_grid_3d.h:32-35 *)
Variable to_score : Z (* n *) -> Z (* sum *) -> Z.
(* std::sort with std::greater *)
Variable sort : list cand3 -> list cand3.
(* the low resolution matcher for the pose of a candidate, fcsm:369-375 and 389-392, and
   min_low_resolution_score *)
Variable low_score : Z -> Z3 -> Z.
Variable min_low : Z.

Definition scan3 (ss : list dscan3) (i : Z) : option dscan3 :=
  if i <? 0 then None else nth_error ss (Z.to_nat i).
(* the sum of ScoreCandidates, fcsm:344-348 *)
Fixpoint sum_cells (g : pgrid3) (off : Z3) (cells : list Z3) : option Z :=
  match cells with
  | [] => Some 0
  | c :: r =>
      match p_value g (zip3 Z.add c off), sum_cells g off r with
      | Some v, Some s => Some (v + s)
      | _, _ => None
      end
  end.
(* ScoreCandidates, fcsm:332-355 *)
Definition score3 (g : pgrid3) (fd : Z) (depth : nat) (ss : list dscan3) (c : Z * Z3) : option cand3 :=
  let e := Z.max 0 (Z.of_nat depth - fd + 1) in
  match scan3 ss (fst c) with
  | None => None
  | Some s =>
      match nth_error (ds_cells s) depth with          (* CHECK_LT, fcsm:343 *)
      | None => None
      | Some cells =>
          match sum_cells g (map3 (fun a => Z.shiftr a e) (snd c)) cells with
          | None => None
          | Some sum => Some (mk_cand3 (fst c) (snd c) (Some (to_score (Z.of_nat (length cells)) sum)))
          end
      end
  end.
Fixpoint score_list (g : pgrid3) (fd : Z) (depth : nat) (ss : list dscan3) (cs : list (Z * Z3))
    : option (list cand3) :=
  match cs with
  | [] => Some []
  | c :: r => match score3 g fd depth ss c, score_list g fd depth ss r with
              | Some k, Some ks => Some (k :: ks)
              | _, _ => None
              end
  end.
Definition score_candidates3 (grids : list pgrid3) (fd : Z) (depth : nat) (ss : list dscan3) (cs : list (Z * Z3))
    : option (list cand3) :=
  match nth_error grids depth with
  | None => match cs with [] => Some (sort []) | _ => None end
  | Some g => option_map sort (score_list g fd depth ss cs)
  end.

(* the candidates of the next depth, fcsm:410-430 *)
Definition children3 (w : window3) (half : Z) (c : cand3) : list (Z * Z3) :=
  flat_map (fun z =>
    flat_map (fun y =>
      map (fun x => (k_scan c, (x, y, z))) (offsets_up_to (vx (k_off c)) half (w_xy w)))
      (offsets_up_to (vy (k_off c)) half (w_xy w)))
    (offsets_up_to (vz (k_off c)) half (w_z w)).

(* BranchAndBound, fcsm:377-440 *)
Fixpoint first_good (cs : list cand3) (min_score : option Z) : cand3 :=
  match cs with
  | [] => unsuccessful
  | c :: r =>
      if score_lt min_score (k_score c) then
        if min_low <=? low_score (k_scan c) (k_off c) then c else first_good r min_score
      else unsuccessful
  end.
Fixpoint bnb3 (grids : list pgrid3) (fd : Z) (w : window3) (ss : list dscan3) (depth : nat)
    (cs : list cand3) (min_score : option Z) {struct depth} : option cand3 :=
  match depth with
  | O => Some (first_good cs min_score)
  | S d =>
      (fix loop (cs : list cand3) (best : cand3) : option cand3 :=
         match cs with
         | [] => Some best
         | c :: r =>
             if score_lt min_score (k_score c) then
               match score_candidates3 grids fd d ss (children3 w (Z.shiftl 1 (Z.of_nat d)) c) with
               | None => None
               | Some hs =>
                   match bnb3 grids fd w ss d hs (k_score best) with
                   | None => None
                   | Some h => loop r (if score_lt (k_score best) (k_score h) then h else best)
                   end
               end
             else Some best
         end) cs (mk_cand3 0 (0, 0, 0) min_score)
  end.

(* MatchWithSearchParameters, fcsm:172-198, with the constructor, fcsm:112-123: None = abort,
   Some None = nullptr, Some (Some (score, cells and rotation score, offset)) *)
Definition match3 (fuel bd : nat) (fd : Z) (h : hybrid) (w : window3) (min_rot : Z) (rots : list (Z * list Z3))
    (min_score : Z) : option (option (Z * Z * Z3 * Z)) :=
  match stack3 fuel bd fd h, discretize_all bd fd w min_rot rots with
  | Some grids, Some ss =>
      let top := Nat.pred (length grids) in
      match generate3 w top (length ss) with
      | None => None
      | Some cs =>
          match score_candidates3 grids fd top ss cs with
          | None => None
          | Some ks =>
              match bnb3 grids fd w ss top ks (Some min_score) with
              | None => None
              | Some b =>
                  match k_score b with
                  | Some sc =>
                      if min_score <? sc then
                        match scan3 ss (k_scan b) with
                        | Some s => Some (Some (sc, k_scan b, k_off b, ds_rot s))
                        | None => None
                        end
                      else Some None
                  | None => Some None
                  end
              end
          end
      end
  | _, _ => None
  end.
End Search.
