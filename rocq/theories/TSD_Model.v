(* Model of cartographer/mapping/internal/2d/tsd_value_converter.{h,cc} (tvh, tvc),
   tsdf_2d.{h,cc} (tdh, tdc), the TSDF part of real_time_correlative_scan_matcher_2d.cc
   (rtc) and UpdateCell of tsdf_range_data_inserter_2d.cc (tri), in binary32 and on top
   of the Grid2D of G2_Model.v (exact rational coordinates).  A failing CHECK, an access
   outside a vector or an lround that does not fit is None. *)
From Coq Require Import List ZArith QArith Bool.
From Verif Require Import Vec Float32 PV_Model G2_Model.
Import ListNotations.
Open Scope Z_scope.

(* TSDValueConverter::TSDValueConverter, tvc:22-32, and getMinTSD/getMinWeight,
   tvh:73-75: max_tsd and max_weight are the state, the rest is derived *)
Record converter := mk_converter { max_tsd : f32; max_weight : f32 }.
Definition min_tsd (c : converter) : f32 := fneg (max_tsd c).
Definition min_weight : f32 := f_of_Z 0.

(* TSDValueConverter::TSDToValue and WeightToValue, tvh:39-55, with ClampTSD and
   ClampWeight, tvh:79-85 and the resolutions, tvc:27-28 *)
Definition tsd_to_value (c : converter) (x : f32) : option Z :=
  match f_round_to_int (fmul (fsub (fclamp x (min_tsd c) (max_tsd c)) (min_tsd c))
                             (fdiv (f_of_Z 32766) (fsub (max_tsd c) (min_tsd c)))) with
  | Some v => Some (v + 1)
  | None => None
  end.
Definition weight_to_value (c : converter) (x : f32) : option Z :=
  match f_round_to_int (fmul (fsub (fclamp x min_weight (max_weight c)) min_weight)
                             (fdiv (f_of_Z 32766) (fsub (max_weight c) min_weight))) with
  | Some v => Some (v + 1)
  | None => None
  end.

(* TSDValueConverter::ValueToTSD and ValueToWeight, tvh:59-67: the entries of the
   conversion tables of value_conversion_tables.cc:29-67 asked for at tvc:29-32 *)
Definition value_to_tsd (c : converter) (v : Z) : f32 :=
  table_value (min_tsd c) (min_tsd c) (max_tsd c) v.
Definition value_to_weight (c : converter) (v : Z) : f32 :=
  table_value min_weight min_weight (max_weight c) v.

(* TSDF2D, tdh:32-59: the Grid2D it derives from (its cells hold the distances, its
   correspondence cost bounds are -truncation_distance and truncation_distance), the
   converter and weight_cells_ *)
Record tsdf := mk_tsdf {
  t_grid : grid;
  t_conv : converter;
  t_weights : list Z
}.

(* TSDF2D::TSDF2D, tdc:24-33 *)
Definition new_tsdf (l : limits) (truncation_distance weight : f32) : option tsdf :=
  match new_grid l (fneg truncation_distance) truncation_distance with
  | Some g => Some (mk_tsdf g (mk_converter truncation_distance weight)
                      (repeat kUnknown (Z.to_nat (l_nx l * l_ny l))))
  | None => None
  end.

(* TSDF2D::CellIsUpdated, tdc:49-53 *)
Definition cell_is_updated (t : tsdf) (x y : Z) : option bool :=
  match flat_index (g_lim (t_grid t)) x y with
  | None => None
  | Some i => match vget (g_cells (t_grid t)) i with
              | None => None
              | Some v => Some (kUpdateMarker <=? v)
              end
  end.

(* TSDF2D::SetCell, tdc:55-68 *)
Definition set_cell (t : tsdf) (x y : Z) (tsd weight : f32) : option tsdf :=
  let g := t_grid t in
  match flat_index (g_lim g) x y with
  | None => None
  | Some i =>
      match vget (g_cells g) i with
      | None => None
      | Some v =>
          if kUpdateMarker <=? v then Some t
          else match tsd_to_value (t_conv t) tsd, weight_to_value (t_conv t) weight with
               | Some a, Some b =>
                   match vset (g_cells g) i (a + kUpdateMarker), vset (t_weights t) i b with
                   | Some c, Some w =>
                       Some (mk_tsdf (mk_grid (g_lim g) c (i :: g_upd g)
                                        (box_extend (g_box g) x y) (g_minc g) (g_maxc g))
                               (t_conv t) w)
                   | _, _ => None
                   end
               | _, _ => None
               end
      end
  end.

(* the stored weight of a cell; None outside *)
Definition weight_value (t : tsdf) (x y : Z) : option Z :=
  match flat_index (g_lim (t_grid t)) x y with
  | Some i => vget (t_weights t) i
  | None => None
  end.

(* TSDF2D::GetTSD, GetWeight and GetTSDAndWeight, tdc:72-98 *)
Definition get_tsd (t : tsdf) (x y : Z) : option f32 :=
  if contains (g_lim (t_grid t)) x y
  then option_map (value_to_tsd (t_conv t)) (cell_value (t_grid t) x y)
  else Some (min_tsd (t_conv t)).
Definition get_weight (t : tsdf) (x y : Z) : option f32 :=
  if contains (g_lim (t_grid t)) x y
  then option_map (value_to_weight (t_conv t)) (weight_value t x y)
  else Some min_weight.
Definition get_tsd_and_weight (t : tsdf) (x y : Z) : option (f32 * f32) :=
  if contains (g_lim (t_grid t)) x y
  then match cell_value (t_grid t) x y, weight_value t x y with
       | Some v, Some w => Some (value_to_tsd (t_conv t) v, value_to_weight (t_conv t) w)
       | _, _ => None
       end
  else Some (min_tsd (t_conv t), min_weight).

(* Grid2D::FinishUpdate, grid_2d.cc:99-106, leaves the weights alone *)
Definition t_finish (t : tsdf) : option tsdf :=
  option_map (fun g => mk_tsdf g (t_conv t) (t_weights t)) (finish_update (t_grid t)).

(* TSDF2D::GrowLimits, tdc:100-105: one round of the loop in Grid2D::GrowLimits,
   grid_2d.cc:137-163, which performs the same assignments for each of the two vectors
   (lines 151-162); here the second vector is passed through the first one's code *)
Definition with_cells (g : grid) (c : list Z) : grid :=
  mk_grid (g_lim g) c (g_upd g) (g_box g) (g_minc g) (g_maxc g).
Definition t_grow_step (t : tsdf) : option tsdf :=
  match grow_step (t_grid t), grow_step (with_cells (t_grid t) (t_weights t)) with
  | Some g, Some h => Some (mk_tsdf g (t_conv t) (g_cells h))
  | _, _ => None
  end.
Fixpoint t_grow_loop (fuel : nat) (t : tsdf) (px py : Q) : outcome tsdf :=
  let (x, y) := cell_index (g_lim (t_grid t)) px py in
  if contains (g_lim (t_grid t)) x y then Done t
  else match fuel with
       | O => OutOfFuel
       | S f => match t_grow_step t with
                | Some t' => t_grow_loop f t' px py
                | None => Aborted
                end
       end.
Definition t_grow (fuel : nat) (t : tsdf) (px py : Q) : outcome tsdf :=
  match g_upd (t_grid t) with [] => t_grow_loop fuel t px py | _ => Aborted end.

(* proto::Grid2D with its tsdf_2d field (mapping/proto/grid_2d.proto, tsdf_2d.proto) *)
Record tsdf_proto := mk_tproto {
  tp_lim : limits;
  tp_cells : list Z;
  tp_box : option box;
  tp_minc : f32;
  tp_maxc : f32;
  tp_weights : list Z;
  tp_trunc : f32;
  tp_maxw : f32
}.

(* TSDF2D::ToProto, tdc:107-116, with Grid2D::ToProto, grid_2d.cc:166-183 *)
Definition t_to_proto (t : tsdf) : option tsdf_proto :=
  let g := t_grid t in
  match g_upd g with
  | [] => Some (mk_tproto (g_lim g) (g_cells g) (if box_empty (g_box g) then None else g_box g)
                  (g_minc g) (g_maxc g) (t_weights t) (max_tsd (t_conv t)) (max_weight (t_conv t)))
  | _ => None
  end.

(* TSDF2D::TSDF2D(proto), tdc:35-47, with Grid2D::Grid2D(proto), grid_2d.cc:75-96 and
   Min/MaxCorrespondenceCostFromProto, grid_2d.cc:22-45 *)
Definition t_from_proto (p : tsdf_proto) : option tsdf :=
  let old := feqb (tp_minc p) f_zero && feqb (tp_maxc p) f_zero in
  let minc := if old then kMinCost else tp_minc p in
  let maxc := if old then kMaxCost else tp_maxc p in
  if fltb minc maxc && forallb (fun c => c <=? 65535) (tp_cells p)
     && forallb (fun c => c <=? 65535) (tp_weights p)
  then Some (mk_tsdf (mk_grid (tp_lim p) (tp_cells p) [] (tp_box p) minc maxc)
               (mk_converter (tp_trunc p) (tp_maxw p)) (tp_weights p))
  else None.

(* TSDF2D::ComputeCroppedGrid, tdc:118-135 *)
Fixpoint t_crop_loop (t c : tsdf) (ox oy : Z) (xys : list (Z * Z)) : option tsdf :=
  match xys with
  | [] => Some c
  | (x, y) :: r =>
      if is_known (t_grid t) (x + ox) (y + oy) then
        match get_tsd t (x + ox) (y + oy), get_weight t (x + ox) (y + oy) with
        | Some d, Some w => match set_cell c x y d w with
                            | Some c' => t_crop_loop t c' ox oy r
                            | None => None
                            end
        | _, _ => None
        end
      else t_crop_loop t c ox oy r
  end.
Definition t_crop (t : tsdf) : option tsdf :=
  let '(ox, oy, nx, ny) := cropped_limits (t_grid t) in
  let l := g_lim (t_grid t) in
  match new_limits (l_res l) (l_mx l - l_res l * inject_Z oy)%Q
                   (l_my l - l_res l * inject_Z ox)%Q nx ny with
  | None => None
  | Some l' =>
      match new_tsdf l' (max_tsd (t_conv t)) (max_weight (t_conv t)) with
      | None => None
      | Some c => match t_crop_loop t c ox oy (xy_range nx ny) with
                  | Some c' => t_finish c'
                  | None => None
                  end
      end
  end.

(* std::min on floats *)
Definition fmin (a b : f32) : f32 := if fltb b a then b else a.

(* TSDFRangeDataInserter2D::UpdateCell, tri:227-239; the range data inserter's
   maximum_weight option is a separate argument *)
Definition update_cell (t : tsdf) (maximum_weight : f32) (x y : Z) (update_sdf update_weight : f32)
  : option tsdf :=
  if feqb update_weight f_zero then Some t
  else match get_tsd_and_weight t x y with
       | None => None
       | Some (tsd, weight) =>
           let w := fadd weight update_weight in
           let d := fdiv (fadd (fmul tsd weight) (fmul update_sdf update_weight)) w in
           set_cell t x y d (fmin w maximum_weight)
       end.

(* ComputeCandidateScore for a TSDF, rtc:38-59: the loop, then the division and the CHECK *)
Fixpoint score_loop (t : tsdf) (dx dy : Z) (scan : list (Z * Z)) (score weight : f32)
  : option (f32 * f32) :=
  match scan with
  | [] => Some (score, weight)
  | (x, y) :: r =>
      match get_tsd_and_weight t (x + dx) (y + dy) with
      | None => None
      | Some (d, w) =>
          let normalized := fdiv (fsub (g_maxc (t_grid t)) (fabs d)) (g_maxc (t_grid t)) in
          score_loop t dx dy r (fadd score (fmul normalized w)) (fadd weight w)
      end
  end.
Definition candidate_score (t : tsdf) (dx dy : Z) (scan : list (Z * Z)) : option f32 :=
  match score_loop t dx dy scan f_zero f_zero with
  | None => None
  | Some (score, weight) =>
      if feqb weight f_zero then Some f_zero
      else let s := fdiv score weight in
           if fleb f_zero s then Some s else None
  end.

(* operations of a TSDF2D *)
Inductive t_op :=
  | TSet (x y : Z) (tsd weight : f32)
  | TUpdate (maximum_weight : f32) (x y : Z) (update_sdf update_weight : f32)
  | TFinish
  | TGrow (px py : Q) (fuel : nat).
Definition t_step (t : tsdf) (o : t_op) : option tsdf :=
  match o with
  | TSet x y d w => set_cell t x y d w
  | TUpdate m x y d w => update_cell t m x y d w
  | TFinish => t_finish t
  | TGrow px py fuel => match t_grow fuel t px py with Done t' => Some t' | _ => None end
  end.
Fixpoint t_run (t : tsdf) (os : list t_op) : option tsdf :=
  match os with
  | [] => Some t
  | o :: r => match t_step t o with Some t' => t_run t' r | None => None end
  end.
