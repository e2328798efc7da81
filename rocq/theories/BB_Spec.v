(* Boundaries of buckets. *)
From Coq Require Import List ZArith Reals.
From Flocq Require Import Core.Core IEEE754.BinarySingleNaN.
From Verif Require Import Float64 FloatR.
Import ListNotations.
Open Scope R_scope.

(* strictly increasing numbers *)
Fixpoint ascending (l : list R) : Prop :=
  match l with a :: ((b :: _) as r) => a < b /\ ascending r | _ => True end.
(* y is x up to k roundings to 53 bits *)
Definition unit_roundoff : R := / 2 ^ 53.
Definition rounded (k : nat) (x y : R) : Prop := (1 - unit_roundoff) ^ k * x <= y <= (1 + unit_roundoff) ^ k * x.
(* each number of the list is the number of its position, up to a rounding per step *)
Definition follows (step : nat -> nat) (exact : nat -> R) (l : list f64) : Prop :=
  forall k b, nth_error l k = Some b -> ffin b /\ rounded (step k) (exact k) (fval b).
