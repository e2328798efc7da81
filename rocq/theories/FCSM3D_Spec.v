(* What a 3D correlative match should return, stated without precomputed grids and tree. *)
From Coq Require Import List ZArith Bool.
From Verif Require Import Float32 PV_Model G2_Model HG_Model HG_Spec FCSM3D_Model.
Import ListNotations.
Open Scope Z_scope.

(* the 8-bit value of a voxel: its probability on a scale from 0 for kMinProbability to 255 for
   kMaxProbability; an unknown voxel, or one the grid cannot hold, counts 0 *)
Definition voxel8 (h : hybrid) (i : Z3) : Z :=
  match hy_value h i with
  | Some v =>
      if v =? 0 then 0
      else match f_round_to_int (fmul (fsub (value_to_prob v) kMinProbability)
                                      (fdiv (f_of_Z 255) (fsub kMaxProbability kMinProbability))) with
           | Some c => c
           | None => 0
           end
  | None => 0
  end.
Fixpoint scan_sum3 (h : hybrid) (cells : list Z3) (o : Z3) : Z :=
  match cells with
  | [] => 0
  | c :: r => voxel8 h (vx c + vx o, vy c + vy o, vz c + vz o) + scan_sum3 h r o
  end.
(* the offsets of the search window *)
Definition in_window3 (w : window3) (o : Z3) : Prop :=
  - w_xy w <= vx o <= w_xy w /\ - w_xy w <= vy o <= w_xy w /\ - w_z w <= vz o <= w_z w.
(* a box of indices *)
Definition cells_within (n : Z) (cells : list Z3) : Prop :=
  forall c, In c cells -> within (- n) (n + 1) c.
(* the known voxels leave room below for the precomputed grids *)
Definition room (h : hybrid) (n : Z) : Prop :=
  forall i v, representable i -> hy_value h i = Some v -> v <> 0 -> within (-8192 + n) 8192 i.
(* the i-th of the rotations whose score is at least min_rot *)
Definition nth_rotation (rots : list (Z * list Z3)) (min_rot : Z) (i : Z) (cells : list Z3) (rot : Z) : Prop :=
  0 <= i /\ nth_error (filter (fun r => min_rot <=? fst r) rots) (Z.to_nat i) = Some (rot, cells).
(* the score of a scan at an offset, by looking up every point *)
Definition pose_score3 (to_score : Z -> Z -> Z) (h : hybrid) (cells : list Z3) (o : Z3) : Z :=
  to_score (Z.of_nat (length cells)) (scan_sum3 h cells o).
(* what a match may return: a rotation that scored well enough, and an offset of the window with a
   good enough score of the low resolution matcher *)
Definition acceptable (low_score : Z -> Z3 -> Z) (min_low : Z) (w : window3) (rots : list (Z * list Z3)) (min_rot : Z)
    (i : Z) (o : Z3) (cells : list Z3) (rot : Z) : Prop :=
  nth_rotation rots min_rot i cells rot /\ in_window3 w o /\ min_low <= low_score i o.
