(* Model of TSDFRangeDataInserter2D, cartographer/mapping/internal/2d/tsdf_range_data_inserter_2d.cc
   (ti below), with real numbers instead of floats.  The TSDF has real distances and weights; how
   they are rounded to 16 bits is in TSD_Model.  None: a CHECK fails, int overflows, or fuel runs out.
   RayToPixelMask is that of RTP_Model, the limits are those of I2_Model. *)
From Coq Require Import ZArith Reals List Bool.
From Verif Require Import CF_Model RG_Model IG_Model I2_Model RTP_Model.
Import ListNotations.
Open Scope R_scope.

(* TSDF2D: limits, cells with distance and weight (None: unknown), and the cells updated since
   FinishUpdate (update_indices_ and the update markers of the cells) *)
Record grid3 := mk_tgrid { g_lim : limits2; g_cell : Z * Z -> option (R * R); g_upd : list (Z * Z) }.
Definition cell_eqb (a b : Z * Z) : bool := ((fst a =? fst b) && (snd a =? snd b))%Z.

(* one round of Grid2D::GrowLimits, mapping/2d/grid_2d.cc:135-159; the known cells
   box is left out, and numbers of cells are unbounded here *)
Definition grown_limits (l : limits2) : limits2 :=
  let xo := Z.quot (l_nx l) 2 in
  let yo := Z.quot (l_ny l) 2 in
  mk_limits2 (l_res l) (l_max_x l + l_res l * IZR yo) (l_max_y l + l_res l * IZR xo) (2 * l_nx l) (2 * l_ny l).
Definition grow_once (g : grid3) : grid3 :=
  let l := g_lim g in
  let xo := Z.quot (l_nx l) 2 in
  let yo := Z.quot (l_ny l) 2 in
  mk_tgrid (grown_limits l)
    (fun c => let old := (fst c - xo, snd c - yo)%Z in if contains2 l old then g_cell g old else None) (g_upd g).
(* GrowLimits, grid_2d.cc:130-164; the CHECK that no update is in progress is in insert3 *)
Fixpoint grow_to (fuel : nat) (g : grid3) (p : R * R) : option grid3 :=
  if contains2 (g_lim g) (cell_index2 (g_lim g) (fst p) (snd p)) then Some g
  else match fuel with O => None | S fuel => grow_to fuel (grow_once g) p end.

(* Eigen: normalized() of a vector; the null vector is left alone *)
Definition normalized3 (a : vec3 R) : vec3 R :=
  if Rlt_dec 0 (vdot a a) then vscale (/ sqrt (vdot a a)) a else a.

(* Eigen::AlignedBox2f::extend, ti:35-41 *)
Definition extend (box : (R * R) * (R * R)) (p : R * R) : (R * R) * (R * R) :=
  ((Rmin (fst (fst box)) (fst p), Rmin (snd (fst box)) (snd p)), (Rmax (fst (snd box)) (fst p), Rmax (snd (snd box)) (snd p))).
(* the position behind a hit, ti:37-40 *)
Definition behind (truncation : R) (origin hit : vec3 R) : R * R :=
  let e := vadd hit (vscale truncation (normalized3 (vsub hit origin))) in (v0 e, v1 e).
Definition bounding_box (truncation : R) (origin : vec3 R) (hits : list (vec3 R)) : (R * R) * (R * R) :=
  fold_left (fun b h => extend b (behind truncation origin h)) hits ((v0 origin, v1 origin), (v0 origin, v1 origin)).
(* GrowAsNeeded, ti:33-47 *)
Definition padding : R := 1 / 1000000.
Definition grow_as_needed (fuel : nat) (truncation : R) (origin : vec3 R) (hits : list (vec3 R)) (g : grid3) : option grid3 :=
  let b := bounding_box truncation origin hits in
  match grow_to fuel g (fst (fst b) - padding, snd (fst b) - padding) with
  | None => None
  | Some g => grow_to fuel g (fst (snd b) + padding, snd (snd b) + padding)
  end.

(* GaussianKernel, ti:49-51 *)
Definition gaussian (x sigma : R) : R := 1 / (sqrt (2 * PI) * sigma) * exp (- (1 / 2) * x * x / (sigma * sigma)).

(* SuperscaleRay, ti:53-67; int overflow is None *)
Definition subpixel_scale : Z := 1000%Z.
Definition superscaled (l : limits2) : option limits2 :=
  if ((l_nx l * subpixel_scale <? 2 ^ 31) && (l_ny l * subpixel_scale <? 2 ^ 31))%Z
  then Some (mk_limits2 (l_res l / IZR subpixel_scale) (l_max_x l) (l_max_y l) (l_nx l * subpixel_scale) (l_ny l * subpixel_scale))
  else None.

(* Eigen: the two-dimensional normalized(), ti:73-76 *)
Definition normalized2 (a : R * R) : R * R :=
  let n2 := fst a * fst a + snd a * snd a in
  if Rlt_dec 0 n2 then (fst a / sqrt n2, snd a / sqrt n2) else a.
(* RangeDataSorter, ti:69-88 *)
Definition sorter_less (origin lhs rhs : vec3 R) : bool :=
  let l := normalized2 (v0 lhs - v0 origin, v1 lhs - v1 origin) in
  let r := normalized2 (v0 rhs - v0 origin, v1 rhs - v1 origin) in
  let l_low := if Rlt_dec (snd l) 0 then true else false in
  let r_low := if Rlt_dec (snd r) 0 then true else false in
  if xorb l_low r_low then l_low
  else if l_low then (if Rlt_dec (fst l) (fst r) then true else false)
  else (if Rlt_dec (fst r) (fst l) then true else false).

(* ComputeRangeWeightFactor, ti:90-96 *)
Definition range_weight (range : R) (exponent : Z) : R :=
  if Rlt_dec (1 / 1000000) (Rabs range) then 1 / powerRZ range exponent else 0.

(* TSDFRangeDataInserterOptions2D *)
Record toptions := mk_toptions {
  o_truncation : R; o_max_weight : R; o_free_space : bool; o_project : bool;
  o_exponent : Z; o_angle_bandwidth : R; o_distance_bandwidth : R }.

(* UpdateCell, ti:227-239, with SetCell, tsdf_2d.cc:55-68: ToFlatIndex has a CHECK, and a cell that
   has been updated before is left alone *)
Definition read_cell (g : grid3) (truncation : R) (c : Z * Z) : R * R :=
  match g_cell g c with Some x => x | None => (- truncation, 0) end.
Definition blended (max_weight : R) (old : R * R) (sdf weight : R) : R * R :=
  let w := snd old + weight in ((fst old * snd old + sdf * weight) / w, Rmin w max_weight).
Definition update_cell3 (o : toptions) (c : Z * Z) (sdf weight : R) (g : grid3) : option grid3 :=
  if Req_EM_T weight 0 then Some g
  else if contains2 (g_lim g) c then
    if existsb (cell_eqb c) (g_upd g) then Some g
    else Some (mk_tgrid (g_lim g)
                 (fun x => if cell_eqb c x then Some (blended (o_max_weight o) (read_cell g (o_truncation o) c) sdf weight) else g_cell g x)
                 (c :: g_upd g))
  else None.

(* common::Clamp, common/math.h:33-42 *)
Definition rclamp (x lo hi : R) : R := if Rlt_dec hi x then hi else if Rlt_dec x lo then lo else x.

Section Insert.
(* NormalizeAngleDifference, common/math.h:63-69 *)
Variable normalize_angle : R -> R.
(* std::sort with the sorter above, ti:148-149, and EstimateNormals, ti:151-152, as functions of the origin *)
Variable sort : vec3 R -> list (vec3 R) -> list (vec3 R).
Variable estimate_normals : vec3 R -> list (vec3 R) -> list R.

(* the distance and weight for a cell with this center, ti:187-201 and 206-222; there is no normal if
   none is needed *)
Definition norm2 (x y : R) : R := sqrt (x * x + y * y).
Definition cell_update (o : toptions) (origin hit : R * R) (normal : R) (center : R * R) : R * R :=
  let rx := fst hit - fst origin in
  let ry := snd hit - snd origin in
  let range := norm2 rx ry in
  let angle_factor :=
    if Req_EM_T (o_angle_bandwidth o) 0 then 1
    else gaussian (normalize_angle (normal - atan2 (- ry) (- rx))) (o_angle_bandwidth o) in
  let range_factor := if (o_exponent o =? 0)%Z then 1 else range_weight range (o_exponent o) in
  let sdf :=
    if o_project o
    then (fst center - fst hit) * cos normal + (snd center - snd hit) * sin normal
    else range - norm2 (fst center - fst origin) (snd center - snd origin) in
  let sdf := rclamp sdf (- o_truncation o) (o_truncation o) in
  let weight := range_factor * angle_factor in
  (sdf, if Req_EM_T (o_distance_bandwidth o) 0 then weight else weight * gaussian sdf (o_distance_bandwidth o)).

(* the loop over the mask, ti:204-224; CellIsUpdated has the CHECK of ToFlatIndex *)
Fixpoint update_cells (o : toptions) (origin hit : R * R) (normal : R) (mask : list (Z * Z)) (g : grid3) : option grid3 :=
  match mask with
  | [] => Some g
  | c :: mask =>
    if contains2 (g_lim g) c then
      if existsb (cell_eqb c) (g_upd g) then update_cells o origin hit normal mask g
      else
        let u := cell_update o origin hit normal (cell_center2 (g_lim g) c) in
        match update_cell3 o c (fst u) (snd u) g with
        | None => None
        | Some g => update_cells o origin hit normal mask g
        end
    else None
  end.

(* the ends of the ray, ti:171-180 *)
Definition ray_ends (o : toptions) (origin hit : R * R) : (R * R) * (R * R) :=
  let rx := fst hit - fst origin in
  let ry := snd hit - snd origin in
  let ratio := o_truncation o / norm2 rx ry in
  ((if o_free_space o then origin else (fst origin + (1 - ratio) * rx, snd origin + (1 - ratio) * ry)),
   (fst origin + (1 + ratio) * rx, snd origin + (1 + ratio) * ry)).
(* the mask of the ray, ti:181-184; an index that does not fit into int (common/port.h:42) is None *)
Definition fits_int (z : Z) : bool := ((- 2 ^ 31 <=? z) && (z <? 2 ^ 31))%Z.
Definition ray_mask (o : toptions) (l : limits2) (origin hit : R * R) : option (list (Z * Z)) :=
  match superscaled l with
  | None => None
  | Some s =>
    let e := ray_ends o origin hit in
    let b := cell_index2 s (fst (fst e)) (snd (fst e)) in
    let e := cell_index2 s (fst (snd e)) (snd (snd e)) in
    if fits_int (fst b) && fits_int (snd b) && fits_int (fst e) && fits_int (snd e)
    then ray_to_pixel_mask b e subpixel_scale else None
  end.
(* InsertHit, ti:167-225 *)
Definition insert_hit (o : toptions) (origin hit : R * R) (normal : R) (g : grid3) : option grid3 :=
  if Rlt_dec (norm2 (fst hit - fst origin) (snd hit - snd origin)) (o_truncation o) then Some g
  else match ray_mask o (g_lim g) origin hit with
       | None => None
       | Some mask => update_cells o origin hit normal mask g
       end.

(* Insert, ti:131-165: the returns in the order they are used, with their normals; without normals
   the value is not used *)
Definition needs_normals (o : toptions) : bool :=
  o_project o || (if Req_EM_T (o_angle_bandwidth o) 0 then false else true).
Fixpoint with_normals (hits : list (vec3 R)) (normals : list R) : option (list (vec3 R * R)) :=
  match hits, normals with
  | [], _ => Some []
  | h :: hits, n :: normals => match with_normals hits normals with None => None | Some r => Some ((h, n) :: r) end
  | _ :: _, [] => None
  end.
Definition returns_used (o : toptions) (origin : vec3 R) (hits : list (vec3 R)) : option (list (vec3 R * R)) :=
  if needs_normals o then
    let sorted := sort origin hits in
    match estimate_normals origin sorted with
    | [] => Some (map (fun h => (h, 0)) sorted)
    | normals => with_normals sorted normals
    end
  else Some (map (fun h => (h, 0)) hits).
Fixpoint insert_hits (o : toptions) (origin : R * R) (hits : list (vec3 R * R)) (g : grid3) : option grid3 :=
  match hits with
  | [] => Some g
  | (h, n) :: hits =>
    match insert_hit o origin (v0 h, v1 h) n g with
    | None => None
    | Some g => insert_hits o origin hits g
    end
  end.
Definition insert3 (fuel : nat) (o : toptions) (origin : vec3 R) (hits : list (vec3 R)) (g : grid3) : option grid3 :=
  match g_upd g with
  | _ :: _ => None
  | [] =>
    match grow_as_needed fuel (o_truncation o) origin hits g with
    | None => None
    | Some g =>
      match returns_used o origin hits with
      | None => None
      | Some returns =>
        match insert_hits o (v0 origin, v1 origin) returns g with
        | None => None
        | Some g => Some (mk_tgrid (g_lim g) (g_cell g) [])
        end
      end
    end
  end.
End Insert.
