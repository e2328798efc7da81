(* CompressedPointCloud, cartographer/sensor/compressed_point_cloud.cc, on top of the
   DynamicGrid of HG_Model.  A failed CHECK, an unspecified rounding and reading past
   the end of the data are None (Aborted for the grid). *)
From Coq Require Import ZArith List Bool.
From Verif Require Import Vec Float32 G2_Model HG_Model.
Import ListNotations.
Open Scope Z_scope.

Definition vec3f : Type := (f32 * f32 * f32)%type.

(* compressed_point_cloud.cc:33-36: kPrecision = 0.001f (the nearest binary32
   number), kBitsPerCoordinate, kCoordinateMask, kMaxBitsPerDirection *)
Definition kPrecision : f32 := fdiv (f_of_Z 1) (f_of_Z 1000).
Definition kBits : Z := 10.
Definition kMask : Z := Z.shiftl 1 kBits - 1.
Definition kMaxBits : Z := 23.

(* position.cwiseAbs().maxCoeff(), compressed_point_cloud.cc:113 *)
Definition fmax (a b : f32) : f32 := if fltb a b then b else a.
Definition max_coeff (p : vec3f) : f32 :=
  let '(x, y, z) := p in fmax (fmax (fabs x) (fabs y)) (fabs z).
(* the CHECK_LT of compressed_point_cloud.cc:113-115 *)
Definition in_bounds (p : vec3f) : bool :=
  fltb (fdiv (max_coeff p) kPrecision) (f_of_Z (Z.shiftl 1 kMaxBits)).

(* compressed_point_cloud.cc:118-122: block and position in the block *)
Definition raster1 (x : f32) : option (Z * Z) :=
  match f_round_to_int (fdiv x kPrecision) with
  | Some n => Some (Z.shiftr n kBits, Z.land n kMask)
  | None => None
  end.
Definition raster (p : vec3f) : option (Z3 * Z3) :=
  let '(x, y, z) := p in
  match raster1 x, raster1 y, raster1 z with
  | Some (bx, lx), Some (by', ly), Some (bz, lz) => Some ((bx, by', bz), (lx, ly, lz))
  | _, _, _ => None
  end.

(* mapping::HybridGridBase<std::vector<RasterPoint>>; RasterPoint::index is written
   but never read and left out.  IsDefaultValue is empty(), hybrid_grid.h:61-64. *)
Definition is_empty (l : list Z3) : bool := match l with [] => true | _ => false end.
Definition block_ops := grid_ops (list Z3) [] is_empty.
Definition blocks : Type := dynamic (list (option (list (list Z3)))).

(* the body of the loop, compressed_point_cloud.cc:111-127 *)
Definition add_point (st : blocks * Z) (p : vec3f) : outcome (blocks * Z) :=
  let '(g, num_blocks) := st in
  if in_bounds p then
    match raster p with
    | None => Aborted
    | Some (b, l) =>
        match dyn_modify block_ops grow_fuel (fun v => Some (is_empty v, v ++ [l])) g b with
        | Done (fresh, g') => Done (g', num_blocks + (if fresh then 1 else 0))
        | Aborted => Aborted
        | OutOfFuel => OutOfFuel
        end
    end
  else Aborted.
Fixpoint add_points (st : blocks * Z) (ps : list vec3f) : outcome (blocks * Z) :=
  match ps with
  | [] => Done st
  | p :: r =>
      match add_point st p with
      | Done st' => add_points st' r
      | Aborted => Aborted
      | OutOfFuel => OutOfFuel
      end
  end.

(* compressed_point_cloud.cc:140-144 *)
Definition encode_point (l : Z3) : Z :=
  Z.shiftl (Z.shiftl (vz l) kBits + vy l) kBits + vx l.
(* compressed_point_cloud.cc:133-145 for one block; the CHECK_LE on its size *)
Definition encode_block (b : Z3 * list Z3) : option (list Z) :=
  let '(i, pts) := b in
  if vsize pts <=? 2 ^ 31 - 1
  then Some (vsize pts :: vx i :: vy i :: vz i :: map encode_point pts) else None.
Fixpoint encode_blocks (l : list (Z3 * list Z3)) : option (list Z) :=
  match l with
  | [] => Some []
  | b :: r =>
      match encode_block b, encode_blocks r with
      | Some d, Some e => Some (d ++ e)
      | _, _ => None
      end
  end.

(* compressed_point_cloud.h:56-57 *)
Record compressed := { num_points : Z; point_data : list Z }.

(* The constructor, compressed_point_cloud.cc:99-146; the iteration over the blocks
   has fuel. *)
Definition compress (fuel : nat) (ps : list vec3f) : outcome compressed :=
  if vsize ps <=? 2 ^ 31 - 1 then
    match add_points (dyn_new, 0) ps with
    | Done (g, num_blocks) =>
        match dyn_iterate block_ops fuel g (dyn_begin block_ops g) with
        | Done l =>
            match encode_blocks l with
            | Some data =>
                if num_blocks - vsize l =? 0
                then Done {| num_points := vsize ps; point_data := data |} else Aborted
            | None => Aborted
            end
        | Aborted => Aborted
        | OutOfFuel => OutOfFuel
        end
    | Aborted => Aborted
    | OutOfFuel => OutOfFuel
    end
  else Aborted.

(* ReadNextPoint, compressed_point_cloud.cc:79-97.  The state of the iterator:
   remaining_points_in_current_block_, current_block_coordinates_ and the rest of
   the input.  `*input_++ << kBitsPerCoordinate` for a negative block coordinate is
   taken as a multiplication (undefined before C++20). *)
Definition coord (n : Z) : f32 := fmul (f_of_Z n) kPrecision.
Definition decode_point (blk : Z3) (point : Z) : vec3f :=
  (coord (vx blk + Z.land point kMask),
   coord (vy blk + Z.land (Z.shiftr point kBits) kMask),
   coord (vz blk + Z.shiftr point (2 * kBits))).
Definition read_next (st : Z * Z3 * list Z) : option (vec3f * (Z * Z3 * list Z)) :=
  let '(in_block, blk, input) := st in
  let header :=
    if in_block =? 0 then
      match input with
      | n :: x :: y :: z :: r => Some (n, map3 (fun c => Z.shiftl c kBits) (x, y, z), r)
      | _ => None
      end
    else Some (in_block, blk, input) in
  match header with
  | Some (n, blk, point :: r) => Some (decode_point blk point, (n - 1, blk, r))
  | _ => None
  end.

(* Decompress, compressed_point_cloud.cc:171-177: the range-based for over begin(),
   end(), which reads one point per remaining point *)
Fixpoint decode (n : nat) (st : Z * Z3 * list Z) : option (list vec3f) :=
  match n with
  | O => Some []
  | S n =>
      match read_next st with
      | Some (p, st') =>
          match decode n st' with Some l => Some (p :: l) | None => None end
      | None => None
      end
  end.
Definition decompress (c : compressed) : option (list vec3f) :=
  decode (Z.to_nat (num_points c)) (0, (0, 0, 0), point_data c).

(* ToProto and the constructor from a proto, compressed_point_cloud.cc:185-192 and
   148-157: the same two fields *)
Record proto := { pr_num_points : Z; pr_point_data : list Z }.
Definition to_proto (c : compressed) : proto :=
  {| pr_num_points := num_points c; pr_point_data := point_data c |}.
Definition from_proto (p : proto) : compressed :=
  {| num_points := pr_num_points p; point_data := pr_point_data p |}.
