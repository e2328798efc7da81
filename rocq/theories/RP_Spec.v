(* Turns and tilts. *)
From Coq Require Import Reals.
From Verif Require Import CF_Model RG_Model.
Open Scope R_scope.

(* a turn about the vertical axis *)
Definition turned_z (a : R) (p : vec3 R) : vec3 R :=
  mk_vec3 (cos a * v0 p - sin a * v1 p) (sin a * v0 p + cos a * v1 p) (v2 p).
(* a step kept between minus and plus one half *)
Definition limited (d : R) : R := Rmax (- (1 / 2)) (Rmin (1 / 2) d).
Definition up : vec3 R := mk_vec3 0 0 1.
Definition steplen (d0 d1 : R) : R := sqrt (d0 * d0 + d1 * d1).
