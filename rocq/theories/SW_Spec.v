(* Specification of search windows, independent of the model's computations. *)
From Coq Require Import ZArith Reals List.
From Verif Require Import CF_Model RG_Model I2_Spec.
Open Scope R_scope.

(* the distance of two points of the plane and of space *)
Definition dist_2d (p q : R * R) : R :=
  sqrt ((fst p - fst q) * (fst p - fst q) + (snd p - snd q) * (snd p - snd q)).
Definition dist_3d (p q : vec3 R) : R :=
  sqrt ((v0 p - v0 q) * (v0 p - v0 q) + (v1 p - v1 q) * (v1 p - v1 q) + (v2 p - v2 q) * (v2 p - v2 q)).
(* a point of the plane turned by an angle and moved *)
Definition placed (x y angle : R) (p : vec3 R) : R * R :=
  (cos angle * v0 p - sin angle * v1 p + x, sin angle * v0 p + cos angle * v1 p + y).
(* x is a whole number *)
Definition whole (x : R) : Prop := exists m : Z, x = IZR m.
(* the mean of the probabilities at the points of a cloud under a pose *)
Definition mean_at (probability : vec3 R -> R) (pose : rigid3) (cloud : list (vec3 R)) : R :=
  total_of (map (fun p => probability (r3_apply pose p)) cloud) / INR (length cloud).
