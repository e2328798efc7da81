(* What compressing a point cloud should preserve. *)
From Coq Require Import ZArith List Reals.
From Verif Require Import Float32 FloatR Float32_Proofs.
Open Scope R_scope.

(* 0.001f *)
Definition step : R := 8589935 / 8589934592.

(* A coordinate is replaced by the multiple n * step nearest to it: n is the integer
   nearest to the binary32 quotient (ties away from zero), the product is rounded to
   binary32. *)
Definition on_raster (x y : f32) : Prop :=
  exists n, nearest_away (rnd32 (fval x / step)) n /\ ffin y /\ fval y = rnd32 (IZR n * step).

Definition on_raster3 (p q : f32 * f32 * f32) : Prop :=
  let '(x, y, z) := p in
  let '(x', y', z') := q in on_raster x x' /\ on_raster y y' /\ on_raster z z'.

(* valid finite coordinates below 2^23 steps *)
Definition coord_in (x : f32) : Prop :=
  valid32 x /\ ffin x /\ Rabs (rnd32 (fval x / step)) < 8388608.
Definition point_in (p : f32 * f32 * f32) : Prop :=
  let '(x, y, z) := p in coord_in x /\ coord_in y /\ coord_in z.

(* a point whose coordinates are binary32 numbers other than NaN and infinity *)
Definition coords_valid (p : f32 * f32 * f32) : Prop :=
  let '(x, y, z) := p in
  (valid32 x /\ ffin x) /\ (valid32 y /\ ffin y) /\ (valid32 z /\ ffin z).
