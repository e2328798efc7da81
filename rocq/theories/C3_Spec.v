(* What the 3D costs are expected to measure. *)
From Coq Require Import Reals.
From Verif Require Import CF_Model RG_Model RG_Spec C3_Model.
Open Scope R_scope.

Definition zero3 : vec3 R := mk_vec3 0 0 0.

(* the pose b seen from a: a turned and shifted by b; rotations are quaternions up to sign *)
Definition composed (a b : rigid3) : rigid3 :=
  mk_rigid3 (vadd (qrot (rot a) (trans b)) (trans a)) (qmul (rot a) (rot b)).
Definition same_rotation (p q : quat) : Prop := p = q \/ p = opposite q.
Definition same_pose (a b : rigid3) : Prop := trans a = trans b /\ same_rotation (rot a) (rot b).

Definition dot4 (a b : quat) : R := qw a * qw b + qx a * qx b + qy a * qy b + qz a * qz b.

(* a point moving with constant acceleration *)
Definition at_time (p v a : vec3 R) (t : R) : vec3 R :=
  mk_vec3 (v0 p + v0 v * t + v0 a * t * t / 2)
          (v1 p + v1 v * t + v1 a * t * t / 2)
          (v2 p + v2 v * t + v2 a * t * t / 2).

(* a point that is f of the way from a to b *)
Definition between (a b : vec3 R) (f : R) : vec3 R :=
  mk_vec3 ((1 - f) * v0 a + f * v0 b) ((1 - f) * v1 a + f * v1 b) ((1 - f) * v2 a + f * v2 b).
