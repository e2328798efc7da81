(* What rigid transforms are expected to do, independently of how they are computed. *)
From Coq Require Import Reals.
From Verif Require Import CF_Model CF_Spec RG_Model.
Open Scope R_scope.

Definition dot (a b : vec3 R) : R := v0 a * v0 b + v1 a * v1 b + v2 a * v2 b.

(* p turned by the angle t about the unit vector u (Rodrigues), component by component *)
Definition turned (u : vec3 R) (t : R) (p : vec3 R) : vec3 R :=
  let k := dot u p * (1 - cos t) in
  mk_vec3 (cos t * v0 p + sin t * (v1 u * v2 p - v2 u * v1 p) + k * v0 u)
          (cos t * v1 p + sin t * (v2 u * v0 p - v0 u * v2 p) + k * v1 u)
          (cos t * v2 p + sin t * (v0 u * v1 p - v1 u * v0 p) + k * v2 u).

(* the squared distance of two points *)
Definition dist2 (p q : vec3 R) : R :=
  (v0 p - v0 q) * (v0 p - v0 q) + (v1 p - v1 q) * (v1 p - v1 q) + (v2 p - v2 q) * (v2 p - v2 q).

(* quaternions that stand for a rotation *)
Definition unit_rotation (q : quat) : Prop := qw q * qw q + qx q * qx q + qy q * qy q + qz q * qz q = 1.
Definition opposite (q : quat) : quat := mk_quat (- qw q) (- qx q) (- qy q) (- qz q).
Definition close (e : R) (a b : quat) : Prop :=
  Rabs (qw a - qw b) <= e /\ Rabs (qx a - qx b) <= e /\ Rabs (qy a - qy b) <= e /\ Rabs (qz a - qz b) <= e.
Definition scaled (k : R) (v : vec3 R) : vec3 R := mk_vec3 (k * v0 v) (k * v1 v) (k * v2 v).
Definition length (v : vec3 R) : R := sqrt (dot v v).
