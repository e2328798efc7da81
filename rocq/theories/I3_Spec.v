(* Which voxels a 3D scan hits and which are on the free-space segments. *)
From Coq Require Import List ZArith Bool.
From Verif Require Import Float32 HG_Model HG_Spec I3_Model.
Import ListNotations.
Open Scope Z_scope.

(* the integer between o and the exact point o + d * k / n nearest to that point *)
Definition toward (o d k n c : Z) : Prop :=
  (0 <= d -> n * (c - o) <= d * k < n * (c - o + 1)) /\
  (d < 0 -> n * (c - o - 1) < d * k <= n * (c - o)).

(* largest coordinate difference of two voxels *)
Definition distance (a b : Z3) : Z :=
  Z.max (Z.abs (vx b - vx a)) (Z.max (Z.abs (vy b - vy a)) (Z.abs (vz b - vz a))).

(* voxel i is the k-th of the n samples on the way from o to p *)
Definition sample (o p : Z3) (k : Z) (i : Z3) : Prop :=
  let n := distance o p in
  toward (vx o) (vx p - vx o) k n (vx i) /\
  toward (vy o) (vy p - vy o) k n (vy i) /\
  toward (vz o) (vz p - vz o) k n (vz i).

(* the last [free] samples before a hit *)
Definition free_sample (o p : Z3) (free : Z) (i : Z3) : Prop :=
  exists k, 0 <= k < distance o p /\ distance o p - free <= k /\ sample o p k i.

(* voxels of the scan *)
Definition hit_voxel (res : f32) (rd : range_data3) (i : Z3) : Prop :=
  exists p, In p (r3_returns rd) /\ cell_index3 res p = Some i.
Definition free_voxel (res : f32) (rd : range_data3) (free : Z) (i : Z3) : Prop :=
  exists o p, cell_index3 res (r3_origin rd) = Some o /\ hit_voxel res rd p /\ free_sample o p free i.

(* intensities recorded at voxel i, in order *)
Definition recorded (i : Z3) (adds : list (Z3 * f32)) : list f32 :=
  map snd (filter (fun a => same3 (fst a) i) adds).
