(* Specification of the interpolated grid, independent of the model. *)
From Coq Require Import ZArith Reals.
Open Scope R_scope.

(* k is the largest index of a voxel centre that is at most x *)
Definition largest_below (r x : R) (k : Z) : Prop :=
  IZR k * r <= x /\ forall j, IZR j * r <= x -> (j <= k)%Z.

(* the eight voxels around a point have values in [lo, hi] *)
Definition around_within (g : Z -> Z -> Z -> R) (r x y z lo hi : R) : Prop :=
  forall i j k a b c, largest_below r x i -> largest_below r y j -> largest_below r z k ->
    (a = 0 \/ a = 1)%Z -> (b = 0 \/ b = 1)%Z -> (c = 0 \/ c = 1)%Z ->
    lo <= g (i + a)%Z (j + b)%Z (k + c)%Z <= hi.

(* the parameters with the n-th replaced *)
Definition vary (params : nat -> R) (n : nat) (t : R) : nat -> R := fun m => if Nat.eqb m n then t else params m.
