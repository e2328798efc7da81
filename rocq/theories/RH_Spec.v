(* Specification of the rotational scan matcher, independent of the model's computations. *)
From Coq Require Import ZArith Reals List.
From Verif Require Import CF_Model RG_Model.
Open Scope R_scope.

(* a bin of a histogram, counted around the circle of lines *)
Definition around_bin (h : list R) (k : Z) : R := nth (Z.to_nat (k mod Z.of_nat (length h))) h 0.
(* the sum of the bins *)
Fixpoint mass (h : list R) : R := match h with nil => 0 | cons x h' => x + mass h' end.
(* a turn around the z axis *)
Definition turn_z (t : R) (p : vec3 R) : vec3 R :=
  mk_vec3 (cos t * v0 p - sin t * v1 p) (sin t * v0 p + cos t * v1 p) (v2 p).
(* q is exactly in the direction of the negative x axis from p *)
Definition left_of (p q : vec3 R) : Prop := v1 q = v1 p /\ v0 q < v0 p.
(* ascending by a key *)
Fixpoint ascending (l : list R) : Prop :=
  match l with nil => True | cons a l' => (forall b, In b l' -> a <= b) /\ ascending l' end.
(* proportional histograms *)
Definition proportional (a b : list R) : Prop := exists k, 0 < k /\ b = map (Rmult k) a.
