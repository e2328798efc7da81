(* Model of ProbabilityGridRangeDataInserter2D:
   cartographer/mapping/2d/probability_grid_range_data_inserter_2d.cc (ins below).
   World coordinates are exact rationals (the C++ uses float points and double
   limits, so rounding of coordinates is not modelled).  A failing CHECK, an access
   outside a vector or overflow of int in the size of the subpixel grid is Aborted. *)
From Coq Require Import List ZArith QArith Qminmax Bool.
From Verif Require Import Vec Float32 PV_Model G2_Model RTP_Model.
Import ListNotations.
Open Scope Z_scope.

(* sensor::RangeData, sensor/range_data.h:32-36, first two coordinates only *)
Record range_data := mk_range_data {
  rd_origin : Q * Q;
  rd_returns : list (Q * Q);
  rd_misses : list (Q * Q)
}.

(* ins:33 *)
Definition kSubpixelScale : Z := 1000.

(* kPadding, ins:39 *)
Definition kPadding : Q := 1 # 1000000.

(* Eigen::AlignedBox2f::extend as used in ins:40-45: ((min x, min y), (max x, max y)) *)
Definition bb_extend (b : (Q * Q) * (Q * Q)) (p : Q * Q) : (Q * Q) * (Q * Q) :=
  ((Qmin (fst (fst b)) (fst p), Qmin (snd (fst b)) (snd p)),
   (Qmax (fst (snd b)) (fst p), Qmax (snd (snd b)) (snd p))).
Definition bounding_box (rd : range_data) : (Q * Q) * (Q * Q) :=
  fold_left bb_extend (rd_misses rd)
    (fold_left bb_extend (rd_returns rd) (rd_origin rd, rd_origin rd)).

(* GrowAsNeeded, ins:35-50 *)
Definition grow_as_needed (fuel : nat) (rd : range_data) (g : grid) : outcome grid :=
  let (lo, hi) := bounding_box rd in
  match grow fuel g (fst lo - kPadding)%Q (snd lo - kPadding)%Q with
  | Done g1 => grow fuel g1 (fst hi + kPadding)%Q (snd hi + kPadding)%Q
  | o => o
  end.

(* superscaled_limits, ins:58-63; int overflow of the cell counts is None *)
Definition superscaled (l : limits) : option limits :=
  if (l_nx l * kSubpixelScale <? 2 ^ 31) && (l_ny l * kSubpixelScale <? 2 ^ 31)
  then new_limits (l_res l / inject_Z kSubpixelScale)%Q (l_mx l) (l_my l)
                  (l_nx l * kSubpixelScale) (l_ny l * kSubpixelScale)
  else None.

(* the loop over returns, ins:69-72: returns the grid and ends; division of ints
   truncates *)
Fixpoint apply_hits (sl : limits) (g : grid) (t : list Z) (hits : list (Q * Q))
  : option (grid * list (Z * Z)) :=
  match hits with
  | [] => Some (g, [])
  | h :: r =>
      let e := cell_index sl (fst h) (snd h) in
      match apply_table g (Z.quot (fst e) kSubpixelScale) (Z.quot (snd e) kSubpixelScale) t with
      | None => None
      | Some (g', _) =>
          match apply_hits sl g' t r with
          | None => None
          | Some (g'', es) => Some (g'', e :: es)
          end
      end
  end.

(* the inner loops, ins:82-84 and 92-94 *)
Fixpoint apply_cells (g : grid) (t : list Z) (cells : list (Z * Z)) : option grid :=
  match cells with
  | [] => Some g
  | (x, y) :: r =>
      match apply_table g x y t with
      | None => None
      | Some (g', _) => apply_cells g' t r
      end
  end.

(* the loops over rays, ins:79-85 and 88-95 *)
Fixpoint apply_rays (g : grid) (t : list Z) (begin : Z * Z) (ends : list (Z * Z)) : option grid :=
  match ends with
  | [] => Some g
  | e :: r =>
      match ray_to_pixel_mask begin e kSubpixelScale with
      | None => None
      | Some cells =>
          match apply_cells g t cells with
          | None => None
          | Some g' => apply_rays g' t begin r
          end
      end
  end.

(* CastRays after GrowAsNeeded, ins:58-95 *)
Definition cast_rays (rd : range_data) (hit_table miss_table : list Z) (free : bool) (g : grid)
  : option grid :=
  match superscaled (g_lim g) with
  | None => None
  | Some sl =>
      let begin := cell_index sl (fst (rd_origin rd)) (snd (rd_origin rd)) in
      match apply_hits sl g hit_table (rd_returns rd) with
      | None => None
      | Some (g1, ends) =>
          if free then
            match apply_rays g1 miss_table begin ends with
            | None => None
            | Some g2 => apply_rays g2 miss_table begin
                           (map (fun m => cell_index sl (fst m) (snd m)) (rd_misses rd))
            end
          else Some g1
      end
  end.

(* ProbabilityGridRangeDataInserter2D::Insert, ins:124-133, with CastRays's first line *)
Definition insert (fuel : nat) (rd : range_data) (hit_table miss_table : list Z) (free : bool)
  (g : grid) : outcome grid :=
  match grow_as_needed fuel rd g with
  | Done g1 =>
      match cast_rays rd hit_table miss_table free g1 with
      | None => Aborted
      | Some g2 => match finish_update g2 with Some g3 => Done g3 | None => Aborted end
      end
  | o => o
  end.
