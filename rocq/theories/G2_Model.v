(* Model of Grid2D and ProbabilityGrid: cartographer/mapping/2d/grid_2d.{h,cc}
   (g2h, g2c below), probability_grid.cc (pgc), map_limits.h (mlh), xy_index.h (xyh).
   World coordinates and the resolution are exact rationals; the C++ uses double
   (and float points), so rounding of coordinates is not modelled.  Grid sizes and
   indices are unbounded integers; overflow of int is not modelled.  Cell values and
   their conversion are the binary32 computations of PV_Model.v.  A failing CHECK or
   an access outside a vector is None. *)
From Coq Require Import List ZArith QArith Qround Bool.
From Verif Require Import Vec Float32 PV_Model.
Import ListNotations.
Open Scope Z_scope.

(* common::RoundToInt = std::lround, common/port.h:40-42: halfway cases away from zero *)
Definition round_away (q : Q) : Z :=
  if Qle_bool 0 q then Qfloor (q + (1 # 2)) else - Qfloor (- q + (1 # 2)).

(* MapLimits, mlh:38-101 *)
Record limits := mk_limits {
  l_res : Q;       (* resolution_ *)
  l_mx : Q;        (* max_.x() *)
  l_my : Q;        (* max_.y() *)
  l_nx : Z;        (* cell_limits_.num_x_cells *)
  l_ny : Z         (* cell_limits_.num_y_cells *)
}.

(* MapLimits::MapLimits, mlh:40-46 *)
Definition new_limits (r mx my : Q) (nx ny : Z) : option limits :=
  if negb (Qle_bool r 0) && (0 <? nx) && (0 <? ny)
  then Some (mk_limits r mx my nx ny) else None.

(* MapLimits::GetCellIndex, mlh:69-76 *)
Definition cell_index (l : limits) (px py : Q) : Z * Z :=
  (round_away ((l_my l - py) / l_res l - (1 # 2)),
   round_away ((l_mx l - px) / l_res l - (1 # 2)))%Q.

(* MapLimits::GetCellCenter, mlh:79-82 *)
Definition cell_center (l : limits) (x y : Z) : Q * Q :=
  (l_mx l - l_res l * (inject_Z y + (1 # 2)),
   l_my l - l_res l * (inject_Z x + (1 # 2)))%Q.

(* MapLimits::Contains, mlh:85-90 *)
Definition contains (l : limits) (x y : Z) : bool :=
  (0 <=? x) && (0 <=? y) && (x <? l_nx l) && (y <? l_ny l).

(* Eigen::AlignedBox2i: None is the default constructed empty box (min = INT_MAX,
   max = INT_MIN in both coordinates); any other box with min > max is empty too *)
Record box := mk_box { b_x0 : Z; b_y0 : Z; b_x1 : Z; b_y1 : Z }.
Definition box_empty (ob : option box) : bool :=
  match ob with
  | None => true
  | Some b => (b_x1 b <? b_x0 b) || (b_y1 b <? b_y0 b)
  end.
Definition box_extend (ob : option box) (x y : Z) : option box :=
  match ob with
  | None => Some (mk_box x y x y)
  | Some b => Some (mk_box (Z.min (b_x0 b) x) (Z.min (b_y0 b) y)
                           (Z.max (b_x1 b) x) (Z.max (b_y1 b) y))
  end.
Definition box_translate (ob : option box) (x y : Z) : option box :=
  match ob with
  | None => None
  | Some b => Some (mk_box (b_x0 b + x) (b_y0 b + y) (b_x1 b + x) (b_y1 b + y))
  end.

(* Grid2D, g2h:36-140 *)
Record grid := mk_grid {
  g_lim : limits;          (* limits_ *)
  g_cells : list Z;        (* correspondence_cost_cells_ *)
  g_upd : list Z;          (* update_indices_, last element first *)
  g_box : option box;      (* known_cells_box_ *)
  g_minc : f32;            (* min_correspondence_cost_ *)
  g_maxc : f32             (* max_correspondence_cost_ *)
}.

(* Grid2D::Grid2D, g2c:59-73 *)
Definition new_grid (l : limits) (minc maxc : f32) : option grid :=
  if fltb minc maxc
  then Some (mk_grid l (repeat kUnknown (Z.to_nat (l_nx l * l_ny l))) [] None minc maxc)
  else None.

(* ProbabilityGrid::ProbabilityGrid, pgc:27-31 *)
Definition new_probability_grid (l : limits) : option grid := new_grid l kMinCost kMaxCost.

(* Grid2D::ToFlatIndex, g2h:117-120 *)
Definition flat_index (l : limits) (x y : Z) : option Z :=
  if contains l x y then Some (l_nx l * y + x) else None.

(* the stored value of a cell; None outside *)
Definition cell_value (g : grid) (x y : Z) : option Z :=
  match flat_index (g_lim g) x y with
  | Some i => vget (g_cells g) i
  | None => None
  end.

(* Grid2D::IsKnown, g2h:71-75 *)
Definition is_known (g : grid) (x y : Z) : bool :=
  if contains (g_lim g) x y
  then match cell_value g x y with Some v => negb (v =? kUnknown) | None => false end
  else false.

(* ProbabilityGrid::GetProbability, pgc:78-82 *)
Definition get_probability (g : grid) (x y : Z) : option f32 :=
  if contains (g_lim g) x y
  then match cell_value g x y with
       | Some v => Some (one_minus (value_to_cost v))
       | None => None
       end
  else Some kMinProbability.

(* Grid2D::FinishUpdate, g2c:99-106; uint16 subtraction *)
Fixpoint finish_loop (cells : list Z) (upd : list Z) : option (list Z) :=
  match upd with
  | [] => Some cells
  | i :: r =>
      match vget cells i with
      | Some v => match vset cells i ((v - kUpdateMarker) mod 65536) with
                  | Some cells' => finish_loop cells' r
                  | None => None
                  end
      | None => None
      end
  end.
Definition finish_update (g : grid) : option grid :=
  match finish_loop (g_cells g) (g_upd g) with
  | Some c => Some (mk_grid (g_lim g) c [] (g_box g) (g_minc g) (g_maxc g))
  | None => None
  end.

(* ProbabilityGrid::ApplyLookupTable, pgc:58-71; the table is a vector *)
Definition apply_table (g : grid) (x y : Z) (table : list Z) : option (grid * bool) :=
  match flat_index (g_lim g) x y with
  | None => None
  | Some i =>
      match vget (g_cells g) i with
      | None => None
      | Some v =>
          if kUpdateMarker <=? v then Some (g, false)
          else match vget table v with
               | None => None
               | Some w =>
                   match vset (g_cells g) i w with
                   | None => None
                   | Some c =>
                       Some (mk_grid (g_lim g) c (i :: g_upd g)
                                     (box_extend (g_box g) x y) (g_minc g) (g_maxc g), true)
                   end
               end
      end
  end.

(* ProbabilityGrid::SetProbability, pgc:41-49 *)
Definition set_probability (g : grid) (x y : Z) (p : f32) : option grid :=
  match flat_index (g_lim g) x y with
  | None => None
  | Some i =>
      match vget (g_cells g) i with
      | None => None
      | Some v =>
          if v =? kUnknown then
            match cost_to_value (one_minus p) with
            | None => None
            | Some w =>
                match vset (g_cells g) i w with
                | None => None
                | Some c => Some (mk_grid (g_lim g) c (g_upd g) (box_extend (g_box g) x y)
                                          (g_minc g) (g_maxc g))
                end
            end
          else None
      end
  end.

(* body of the loop in Grid2D::GrowLimits, g2c:137-163 *)
Definition grow_limits (l : limits) : option limits :=
  let x_offset := l_nx l / 2 in
  let y_offset := l_ny l / 2 in
  new_limits (l_res l) (l_mx l + l_res l * inject_Z y_offset)%Q
             (l_my l + l_res l * inject_Z x_offset)%Q (2 * l_nx l) (2 * l_ny l).

(* the assignments new_cells[...] = grid[...], g2c:154-159; None: read outside *)
Fixpoint grow_writes (cells : list Z) (nx stride offset : Z) (ij : list (Z * Z)) : option (list (Z * Z)) :=
  match ij with
  | [] => Some []
  | (i, j) :: r =>
      match vget cells (j + i * nx), grow_writes cells nx stride offset r with
      | Some v, Some ws => Some ((offset + j + i * stride, v) :: ws)
      | _, _ => None
      end
  end.

Definition grow_step (g : grid) : option grid :=
  let l := g_lim g in
  match grow_limits l with
  | None => None
  | Some l' =>
      let x_offset := l_nx l / 2 in
      let y_offset := l_ny l / 2 in
      let stride := l_nx l' in
      let offset := x_offset + stride * y_offset in
      let new_size := l_nx l' * l_ny l' in
      let ij := list_prod (zrange (l_ny l)) (zrange (l_nx l)) in
      match grow_writes (g_cells g) (l_nx l) stride offset ij with
      | None => None
      | Some ws =>
          match vset_all (repeat kUnknown (Z.to_nat new_size)) ws with
          | None => None
          | Some c =>
              Some (mk_grid l' c (g_upd g)
                      (if box_empty (g_box g) then g_box g
                       else box_translate (g_box g) x_offset y_offset)
                      (g_minc g) (g_maxc g))
          end
      end
  end.

(* Grid2D::GrowLimits, g2c:125-164, for the single grid of a ProbabilityGrid *)
Inductive outcome (A : Type) := Done (a : A) | Aborted | OutOfFuel.
Arguments Done {A}. Arguments Aborted {A}. Arguments OutOfFuel {A}.
Fixpoint grow_loop (fuel : nat) (g : grid) (px py : Q) : outcome grid :=
  let (x, y) := cell_index (g_lim g) px py in
  if contains (g_lim g) x y then Done g
  else match fuel with
       | O => OutOfFuel
       | S f => match grow_step g with
                | Some g' => grow_loop f g' px py
                | None => Aborted
                end
       end.
Definition grow (fuel : nat) (g : grid) (px py : Q) : outcome grid :=
  match g_upd g with [] => grow_loop fuel g px py | _ => Aborted end.

(* Grid2D::ComputeCroppedLimits, g2c:110-120: offset_x, offset_y, num_x, num_y *)
Definition cropped_limits (g : grid) : Z * Z * Z * Z :=
  match g_box g with
  | Some b =>
      if box_empty (Some b) then (0, 0, 1, 1)
      else (b_x0 b, b_y0 b, b_x1 b - b_x0 b + 1, b_y1 b - b_y0 b + 1)
  | None => (0, 0, 1, 1)
  end.

(* XYIndexRangeIterator over cell limits, xyh:58-96: row major, x fastest *)
Definition xy_range (nx ny : Z) : list (Z * Z) :=
  map (fun yx => (snd yx, fst yx)) (list_prod (zrange ny) (zrange nx)).

(* ProbabilityGrid::ComputeCroppedGrid, pgc:91-107 *)
Fixpoint crop_loop (g c : grid) (ox oy : Z) (xys : list (Z * Z)) : option grid :=
  match xys with
  | [] => Some c
  | (x, y) :: r =>
      if is_known g (x + ox) (y + oy) then
        match get_probability g (x + ox) (y + oy) with
        | None => None
        | Some p => match set_probability c x y p with
                    | Some c' => crop_loop g c' ox oy r
                    | None => None
                    end
        end
      else crop_loop g c ox oy r
  end.
Definition crop (g : grid) : option grid :=
  let '(ox, oy, nx, ny) := cropped_limits g in
  let l := g_lim g in
  match new_limits (l_res l) (l_mx l - l_res l * inject_Z oy)%Q
                   (l_my l - l_res l * inject_Z ox)%Q nx ny with
  | None => None
  | Some l' =>
      match new_probability_grid l' with
      | None => None
      | Some c => crop_loop g c ox oy (xy_range nx ny)
      end
  end.

(* proto::Grid2D (mapping/proto/grid_2d.proto) as a record of its fields *)
Record grid_proto := mk_proto {
  p_lim : limits;
  p_cells : list Z;
  p_box : option box;
  p_minc : f32;
  p_maxc : f32;
  p_is_probability_grid : bool
}.

(* Grid2D::ToProto, g2c:166-183 and ProbabilityGrid::ToProto, pgc:84-89 *)
Definition to_proto (g : grid) : option grid_proto :=
  match g_upd g with
  | [] => Some (mk_proto (g_lim g) (g_cells g)
                  (if box_empty (g_box g) then None else g_box g)
                  (g_minc g) (g_maxc g) true)
  | _ => None
  end.

(* Min/MaxCorrespondenceCostFromProto, g2c:22-45 *)
Definition f_zero : f32 := f_of_Z 0.
Definition legacy (p : grid_proto) : bool := feqb (p_minc p) f_zero && feqb (p_maxc p) f_zero.

(* Grid2D::Grid2D(proto), g2c:75-96 and ProbabilityGrid(proto), pgc:33-37 *)
Definition from_proto (p : grid_proto) : option grid :=
  let minc := if legacy p then kMinCost else p_minc p in
  let maxc := if legacy p then kMaxCost else p_maxc p in
  if fltb minc maxc && forallb (fun c => c <=? 65535) (p_cells p)
     && p_is_probability_grid p
  then Some (mk_grid (p_lim p) (p_cells p) []
               (p_box p) minc maxc)
  else None.

(* Operations of a ProbabilityGrid.  Tables are given by the caller (the range data
   inserter holds a hit and a miss table). *)
Inductive op :=
  | OApply (x y : Z) (table : list Z)
  | OSet (x y : Z) (p : f32)
  | OFinish
  | OGrow (px py : Q) (fuel : nat).
Definition step (g : grid) (o : op) : option grid :=
  match o with
  | OApply x y t => option_map fst (apply_table g x y t)
  | OSet x y p => set_probability g x y p
  | OFinish => finish_update g
  | OGrow px py fuel => match grow fuel g px py with Done g' => Some g' | _ => None end
  end.
Fixpoint run (g : grid) (os : list op) : option grid :=
  match os with
  | [] => Some g
  | o :: r => match step g o with Some g' => run g' r | None => None end
  end.
