(* Model of the bucket boundaries of metrics: cartographer/metrics/histogram.cc (hc below), in binary64. *)
From Coq Require Import List ZArith Bool SpecFloat.
From Verif Require Import Float64.
Import ListNotations.
Open Scope Z_scope.

(* the loop of FixedWidth, hc:43-46, from a boundary on *)
Fixpoint widths (width boundary : f64) (n : nat) : list f64 :=
  match n with
  | O => []
  | S n' => let b := dadd boundary width in b :: widths width b n'
  end.
(* FixedWidth, hc:39-48 *)
Definition fixed_width (width : f64) (num_finite_buckets : Z) : list f64 :=
  widths width (S754_zero false) (Z.to_nat num_finite_buckets).

(* what a call of ScaledPowersOf does: it fails a CHECK, or is not done after so many iterations, or returns *)
Inductive outcome := CheckFailed | NotDone | Boundaries (l : list f64).
(* the loop of ScaledPowersOf, hc:57-60; fuel: the evaluations of its condition *)
Fixpoint powers (fuel : nat) (base boundary max_value : f64) : outcome :=
  match fuel with
  | O => NotDone
  | S fuel' =>
    if dltb boundary max_value then
      match powers fuel' base (dmul boundary base) max_value with
      | Boundaries l => Boundaries (boundary :: l)
      | o => o
      end
    else Boundaries []
  end.
(* ScaledPowersOf, hc:50-62 *)
Definition scaled_powers_of (fuel : nat) (base scale_factor max_value : f64) : outcome :=
  if dltb (d_of_Z 1) base then
    if dltb (S754_zero false) scale_factor then powers fuel base scale_factor max_value else CheckFailed
  else CheckFailed.
