(* What the voxel filters should do, independently of how they do it. *)
From Coq Require Import ZArith List Reals.
From Verif Require Import Float32 FloatR Float32_Proofs.
Import ListNotations.
Open Scope Z_scope.

(* [out] is obtained from [l] by deleting elements *)
Inductive subsequence {T} : list T -> list T -> Prop :=
| ss_nil : subsequence [] []
| ss_drop : forall x out l, subsequence out l -> subsequence out (x :: l)
| ss_take : forall x out l, subsequence out l -> subsequence (x :: out) (x :: l).

(* The voxel of a point: the three integers nearest to its coordinates divided by
   the resolution (in binary32), ties away from zero. *)
Definition in_voxel (resolution : f32) (p : f32 * f32 * f32) (v : Z * Z * Z) : Prop :=
  let '(x, y, z) := p in
  let '(i, j, k) := v in
  let near a n := ffin (fdiv a resolution) /\ nearest_away (fval (fdiv a resolution)) n in
  near x i /\ near y j /\ near z k.

(* Voxels whose indices fit the 22, 21 and 21 bits of the packed key *)
Definition in_key_range (v : Z * Z * Z) : Prop :=
  let '(i, j, k) := v in
  - 2 ^ 21 <= i < 2 ^ 21 /\ - 2 ^ 20 <= j < 2 ^ 20 /\ - 2 ^ 20 <= k < 2 ^ 20.

Definition point_ok (resolution : f32) (p : f32 * f32 * f32) : Prop :=
  exists v, in_voxel resolution p v /\ in_key_range v.

(* Exactly one point of every occupied voxel *)
Definition one_per_voxel {T} (pos : T -> f32 * f32 * f32) (resolution : f32)
  (out l : list T) : Prop :=
  (forall a p b q c v, out = a ++ p :: b ++ q :: c ->
     in_voxel resolution (pos p) v -> in_voxel resolution (pos q) v -> False) /\
  (forall p v, In p l -> in_voxel resolution (pos p) v ->
     exists q, In q out /\ in_voxel resolution (pos q) v).
