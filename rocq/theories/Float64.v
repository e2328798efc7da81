(* IEEE 754 binary64 arithmetic as used by the C++ code for double, as Float32.v. *)
From Coq Require Import ZArith Bool SpecFloat.
Open Scope Z_scope.

Definition f64 : Type := spec_float.
Definition dadd : f64 -> f64 -> f64 := SFadd 53 1024.
Definition dsub : f64 -> f64 -> f64 := SFsub 53 1024.
Definition dmul : f64 -> f64 -> f64 := SFmul 53 1024.
Definition ddiv : f64 -> f64 -> f64 := SFdiv 53 1024.
Definition dltb : f64 -> f64 -> bool := SFltb.
Definition dleb : f64 -> f64 -> bool := SFleb.

(* static_cast<double>(int64) *)
Definition d_of_Z (z : Z) : f64 := binary_normalize 53 1024 z 0 false.
Definition is_binary64 (x : f64) : Prop := valid_binary 53 1024 x = true.
