(* cartographer/common/time.cc: seconds as doubles and ticks of 100 ns, and the conversions between
   float and double around them.  Ticks are integers without the limits of int64. *)
From Coq Require Import ZArith Bool SpecFloat.
From Verif Require Import Float32 Float64.
Open Scope Z_scope.

(* the period of the clock, time.h:34 *)
Definition ticks_per_second : Z := 10000000.
(* static_cast<int64> of a double: toward zero; undefined behaviour for infinities and NaN *)
Definition d_trunc (x : f64) : option Z :=
  match x with
  | S754_zero _ => Some 0
  | S754_finite s m e =>
      let a := if 0 <=? e then Zpos m * 2 ^ e else Zpos m / 2 ^ (- e) in
      Some (if s then - a else a)
  | _ => None
  end.
(* FromSeconds, time.cc:30-33 *)
Definition from_seconds (x : f64) : option Z := d_trunc (dmul x (d_of_Z ticks_per_second)).
(* ToSeconds, time.cc:35-38 *)
Definition to_seconds (d : Z) : f64 := ddiv (d_of_Z d) (d_of_Z ticks_per_second).
(* float to double *)
Definition widen (x : f32) : f64 :=
  match x with
  | S754_finite s m e => binary_normalize 53 1024 (if s then Zneg m else Zpos m) e s
  | y => y
  end.
(* static_cast<float> of a double *)
Definition narrow (x : f64) : f32 :=
  match x with
  | S754_finite s m e => binary_normalize 24 128 (if s then Zneg m else Zpos m) e s
  | y => y
  end.

(* FromSeconds of a float point time, as in range_data_collator.cc:71 and 77 and
   local_trajectory_builder_2d.cc:133 and 143; 0 where it is undefined *)
Definition point_ticks (t : f32) : Z := match from_seconds (widen t) with Some z => z | None => 0 end.
(* `time += static_cast<float>(common::ToSeconds(d))`, range_data_collator.cc:91-92 and 103 *)
Definition shift_point (d : Z) (t : f32) : f32 := fadd t (narrow (to_seconds d)).
(* CHECK_LE(time, 0.f), local_trajectory_builder_2d.cc:130 *)
Definition point_past (t : f32) : bool := fleb t (f_of_Z 0).
