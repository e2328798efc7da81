(* Voxel filters: cartographer/sensor/internal/voxel_filter.cc.  Points are
   triples of binary32 coordinates plus an arbitrary payload (the time of a
   TimedRangefinderPoint, the origin index of a RangeMeasurement).  An operation
   whose C++ result is unspecified (std::lround out of range) or that fails a CHECK
   is None. *)
From Coq Require Import ZArith List Bool Lia.
From Verif Require Import Float32 ZMap.
Import ListNotations.
Open Scope Z_scope.

Definition vec3f : Type := (f32 * f32 * f32)%type.

(* GetVoxelCellIndex, voxel_filter.cc:79-87: the three rounded quotients (an int
   each) ... *)
Definition cell_index (resolution : f32) (p : vec3f) : option (Z * Z * Z) :=
  let '(x, y, z) := p in
  match f_round_to_int (fdiv x resolution), f_round_to_int (fdiv y resolution),
        f_round_to_int (fdiv z resolution) with
  | Some i, Some j, Some k => Some (i, j, k)
  | _, _, _ => None
  end.

(* ... converted to uint64 and packed, voxel_filter.cc:86: unsigned arithmetic
   modulo 2^64 *)
Definition to_u64 (i : Z) : Z := i mod 2 ^ 64.
Definition pack_key (c : Z * Z * Z) : Z :=
  let '(x, y, z) := c in
  let a := (to_u64 x * 2 ^ 42) mod 2 ^ 64 in
  let b := (to_u64 y * 2 ^ 21) mod 2 ^ 64 in
  ((a + b) mod 2 ^ 64 + to_u64 z) mod 2 ^ 64.

Definition voxel_key (resolution : f32) (p : vec3f) : option Z :=
  match cell_index resolution p with
  | Some c => Some (pack_key c)
  | None => None
  end.

(* The keys of all points; one unspecified rounding makes the whole call None. *)
Fixpoint keys_of (resolution : f32) (ps : list vec3f) : option (list Z) :=
  match ps with
  | [] => Some []
  | p :: r =>
      match voxel_key resolution p, keys_of resolution r with
      | Some k, Some ks => Some (k :: ks)
      | _, _ => None
      end
  end.

(* RandomizedVoxelFilterIndices, voxel_filter.cc:95-109, the loop over the points.
   The hash map is kept ordered by key (its iteration order does not matter below).
   [draw n c] is the value of distribution(generator) at the n-th point for the
   range [1, c]: left arbitrary.  The count is an unbounded integer (a count above
   2^31 - 1 would overflow an int). *)
Definition reservoir := list (Z * (Z * nat)).
Fixpoint sample (draw : nat -> Z -> Z) (i : nat) (ks : list Z) (m : reservoir)
  : reservoir :=
  match ks with
  | [] => m
  | k :: r =>
      let '(count, index) := match zfind k m with Some v => v | None => (0, O) end in
      let count := count + 1 in
      let index := if count =? 1 then i
                   else if draw i count =? count then i else index in
      sample draw (S i) r (zput k (count, index) m)
  end.

(* voxel_filter.cc:110-114: points_used, a vector with one flag per point *)
Definition points_used (n : nat) (m : reservoir) : list bool :=
  map (fun i => existsb (fun e => Nat.eqb (snd (snd e)) i) m) (seq 0 n).

Definition filter_indices (draw : nat -> Z -> Z) (resolution : f32) (ps : list vec3f)
  : option (list bool) :=
  match keys_of resolution ps with
  | Some ks => Some (points_used (length ps) (sample draw 0 ks []))
  | None => None
  end.

(* The loops `if (points_used[i]) push_back(v[i])`, voxel_filter.cc:124-129, 147-151
   and 154-158 (the vector may be shorter than the flags). *)
Fixpoint keep {T} (flags : list bool) (l : list T) : list T :=
  match flags, l with
  | b :: fs, x :: r => if b then x :: keep fs r else keep fs r
  | _, _ => []
  end.

(* RandomizedVoxelFilter, voxel_filter.cc:117-130, behind the overloads for
   std::vector<RangefinderPoint>, TimedPointCloud and RangeMeasurement
   (voxel_filter.cc:134-139, 163-178) *)
Definition voxel_filter {T} (pos : T -> vec3f) (draw : nat -> Z -> Z)
  (resolution : f32) (l : list T) : option (list T) :=
  match filter_indices draw resolution (map pos l) with
  | Some flags => Some (keep flags l)
  | None => None
  end.

(* sensor/point_cloud.h:33-100: points and, optionally, one intensity per point *)
Record cloud := { points : list vec3f; intensities : list f32 }.

(* PointCloud::PointCloud, sensor/point_cloud.cc:28-35 *)
Definition make_cloud (ps : list vec3f) (is : list f32) : option cloud :=
  match is with
  | [] => Some {| points := ps; intensities := is |}
  | _ => if Nat.eqb (length ps) (length is)
         then Some {| points := ps; intensities := is |} else None
  end.

(* VoxelFilter for a PointCloud, voxel_filter.cc:141-161 *)
Definition voxel_filter_cloud (draw : nat -> Z -> Z) (resolution : f32) (c : cloud)
  : option cloud :=
  match filter_indices draw resolution (points c) with
  | Some flags =>
      if Nat.leb (length (intensities c)) (length (points c))
      then make_cloud (keep flags (points c)) (keep flags (intensities c))
      else None
  | None => None
  end.

(* PointCloud::copy_if, sensor/point_cloud.h:60-86 *)
Definition copy_if (pred : vec3f -> bool) (c : cloud) : option cloud :=
  match intensities c with
  | [] => make_cloud (filter pred (points c)) []
  | _ => make_cloud (filter pred (points c))
                    (keep (map pred (points c)) (intensities c))
  end.

(* FilterByMaxRange, voxel_filter.cc:31-36.  The norm (Eigen, a square root) is a
   parameter. *)
Definition filter_by_max_range (norm : vec3f -> f32) (max_range : f32) (c : cloud)
  : option cloud :=
  copy_if (fun p => fleb (norm p) max_range) c.

(* The constants 2.f, 1e-2f and 1e-1f of voxel_filter.cc:54-62: the nearest
   binary32 numbers, as fractions with a power of two *)
Definition f_two : f32 := f_of_Z 2.
Definition f_1e_2 : f32 := fdiv (f_of_Z 1) (f_of_Z 100).
Definition f_1e_1 : f32 := fdiv (f_of_Z 1) (f_of_Z 10).

(* Result of the adaptive search: a value, a failure of VoxelFilter, or still
   searching when the fuel ran out *)
Inductive outcome (A : Type) := Done (a : A) | Fail | Running.
Arguments Done {A} a. Arguments Fail {A}. Arguments Running {A}.

Section Adaptive.
(* VoxelFilter(point_cloud, length); the generator is seeded afresh in every call
   (voxel_filter.cc:92), so this is a function of the length.  The size of a cloud
   is that of its points (point_cloud.cc:37). *)
Context {A : Type}.
Variable vf : f32 -> option A.
Variable size : A -> Z.
Variable min_num : f32.

(* result.size() >= options.min_num_points(), voxel_filter.cc:46, 58, 65:
   min_num_points is a float (adaptive_voxel_filter_options.proto:27), so the size
   is converted to float *)
Definition dense (a : A) : bool := fleb min_num (f_of_Z (size a)).

(* The binary search, voxel_filter.cc:62-71 *)
Fixpoint bisect (fuel : nat) (low high : f32) (result : A) : outcome (A * f32 * f32) :=
  if fltb f_1e_1 (fdiv (fsub high low) low) then
    match fuel with
    | O => Running
    | S f =>
        let mid := fdiv (fadd low high) f_two in
        match vf mid with
        | None => Fail
        | Some candidate =>
            if dense candidate then bisect f mid high candidate
            else bisect f low mid result
        end
    end
  else Done (result, low, high).

(* The outer loop, voxel_filter.cc:54-75.  Besides the result, the lengths low and
   high at the end of the binary search are returned (None: the loop ended without
   a dense cloud). *)
Fixpoint search (fuel ifuel : nat) (max_length high : f32) (result : A)
  : outcome (A * option (f32 * f32)) :=
  if fltb (fmul f_1e_2 max_length) high then
    match fuel with
    | O => Running
    | S f =>
        let low := fdiv high f_two in
        match vf low with
        | None => Fail
        | Some result =>
            if dense result then
              match bisect ifuel low high result with
              | Done (r, l, h) => Done (r, Some (l, h))
              | Fail => Fail
              | Running => Running
              end
            else search f ifuel max_length (fdiv high f_two) result
        end
    end
  else Done (result, None).

(* AdaptivelyVoxelFiltered, voxel_filter.cc:38-76 *)
Definition adaptively (fuel ifuel : nat) (max_length : f32) (input : A)
  : outcome (A * option (f32 * f32)) :=
  if fleb (f_of_Z (size input)) min_num then Done (input, None)
  else
    match vf max_length with
    | None => Fail
    | Some result =>
        if dense result then Done (result, None)
        else search fuel ifuel max_length max_length result
    end.
End Adaptive.

(* AdaptiveVoxelFilter, voxel_filter.cc:192-197 *)
Definition cloud_size (c : cloud) : Z := Z.of_nat (length (points c)).
Definition adaptive_voxel_filter (norm : vec3f -> f32) (draw : nat -> Z -> Z)
  (fuel ifuel : nat) (min_num : f32) (max_length max_range : f32) (c : cloud)
  : outcome cloud :=
  match filter_by_max_range norm max_range c with
  | None => Fail
  | Some input =>
      match adaptively (fun l => voxel_filter_cloud draw l input) cloud_size min_num
                       fuel ifuel max_length input with
      | Done (r, _) => Done r
      | Fail => Fail
      | Running => Running
      end
  end.
