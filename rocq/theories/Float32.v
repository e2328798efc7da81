(* IEEE 754 binary32 arithmetic as used by the C++ code: each operation is
   rounded to nearest even (no extended precision, no contraction).  Built on the
   axiom-free specification of Coq's standard library (SpecFloat). *)
From Coq Require Import ZArith Bool SpecFloat.
Open Scope Z_scope.

Definition f32 : Type := spec_float.
Definition fadd : f32 -> f32 -> f32 := SFadd 24 128.
Definition fsub : f32 -> f32 -> f32 := SFsub 24 128.
Definition fmul : f32 -> f32 -> f32 := SFmul 24 128.
Definition fdiv : f32 -> f32 -> f32 := SFdiv 24 128.
Definition fltb : f32 -> f32 -> bool := SFltb.
Definition fleb : f32 -> f32 -> bool := SFleb.
Definition feqb : f32 -> f32 -> bool := SFeqb.
Definition fabs : f32 -> f32 := SFabs.
Definition fneg : f32 -> f32 := SFopp.

(* static_cast<float>(int) *)
Definition f_of_Z (z : Z) : f32 := binary_normalize 24 128 z 0 false.

(* std::lround: to nearest, halfway cases away from zero.  The C function has an
   unspecified result for NaN, infinities and values that do not fit a long; this
   is None. *)
Definition lround (x : f32) : option Z :=
  match x with
  | S754_zero _ => Some 0
  | S754_finite s m e =>
      let a := if 0 <=? e then Zpos m * 2 ^ e
               else (2 * Zpos m + 2 ^ (- e)) / (2 * 2 ^ (- e)) in
      let v := if s then - a else a in
      if (- 2 ^ 63 <=? v) && (v <? 2 ^ 63) then Some v else None
  | _ => None
  end.

(* lround assigned to an int (common::RoundToInt, common/port.h:40-42); a value
   outside int is None *)
Definition f_round_to_int (x : f32) : option Z :=
  match lround x with
  | Some v => if (- 2 ^ 31 <=? v) && (v <? 2 ^ 31) then Some v else None
  | None => None
  end.
