(* Specification of the 2D scan matching costs, independent of the model's computations. *)
From Coq Require Import ZArith Reals List.
From Verif Require Import CF_Model RG_Model I2_Model.
Open Scope R_scope.

(* the centre of cell (i, j) is the lower left one of the four centres around the point *)
Definition lower_left (l : limits2) (x y : R) (i j : Z) : Prop :=
  let (cx, cy) := cell_center2 l (i, j) in
  cx <= x < cx + l_res l /\ cy <= y < cy + l_res l.
Definition strictly_inside (l : limits2) (x y : R) (i j : Z) : Prop :=
  let (cx, cy) := cell_center2 l (i, j) in
  cx < x < cx + l_res l /\ cy < y < cy + l_res l.
(* the four cells around: (i, j), above it, to its right, and both *)
Definition corners (i j : Z) : list (Z * Z) :=
  (i, j) :: (i - 1, j)%Z :: (i, j - 1)%Z :: (i - 1, j - 1)%Z :: nil.
Definition all_known (t : tsdf2) (i j : Z) : Prop :=
  forall c, In c (corners i j) -> get_weight2 t (fst c) (snd c) <> 0.

(* the cost of a cell for a grid continued by the greatest cost *)
Definition continued (l : limits2) (cost : Z -> Z -> R) (i j : Z) : R :=
  if contains2 l (i, j) then cost i j else 9 / 10.

(* sums *)
Fixpoint total_of (l : list R) : R := match l with nil => 0 | cons x l' => x + total_of l' end.

(* the parameters of a pose in the order of the optimizer *)
Definition params2 (p : vec3 R) : nat -> R := fun n => match n with O => v0 p | S O => v1 p | _ => v2 p end.
(* weight and cost of the grid where a pose puts a point *)
Definition seen (f : R -> R -> R) (pose : nat -> R) (p : R * R) : R :=
  let w := r2_apply (mk_vec3 (pose 0%nat) (pose 1%nat) (pose 2%nat)) p in f (fst w) (snd w).
(* more than one and a half cells away from the map *)
Definition off_map (l : limits2) (x y : R) : Prop :=
  l_max_x l + 3 / 2 * l_res l < x \/ x < l_max_x l - (IZR (l_ny l) + 3 / 2) * l_res l \/
  l_max_y l + 3 / 2 * l_res l < y \/ y < l_max_y l - (IZR (l_nx l) + 3 / 2) * l_res l.
