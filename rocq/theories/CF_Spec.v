(* Specification of the 2D pose graph cost: composition of planar poses, angles up to full
   turns, and what it means to replace one of the six parameters. *)
From Coq Require Import ZArith Reals.
From Verif Require Import CF_Model.
Open Scope R_scope.

Definition same_angle (a b : R) : Prop := exists k : Z, a = b + IZR k * (2 * PI).

(* the pose b, given relative to the pose a, in the frame of a *)
Definition compose (a b : vec3 R) : vec3 R :=
  mk_vec3 (v0 a + (cos (v2 a) * v0 b - sin (v2 a) * v1 b))
          (v1 a + (sin (v2 a) * v0 b + cos (v2 a) * v1 b))
          (v2 a + v2 b).

Definition at_ {T} (k : nat) (v : vec3 T) : T :=
  match k with O => v0 v | S O => v1 v | _ => v2 v end.
Definition put {T} (k : nat) (x : T) (v : vec3 T) : vec3 T :=
  match k with
  | O => mk_vec3 x (v1 v) (v2 v)
  | S O => mk_vec3 (v0 v) x (v2 v)
  | _ => mk_vec3 (v0 v) (v1 v) x
  end.

(* the i-th residual, as a number *)
Definition residual (rel : vec3 R) (tw rw : R) (i : nat) (start end_ : vec3 R) : R :=
  match analytical_residuals rel tw rw start end_ with Some e => at_ i e | None => 0 end.
