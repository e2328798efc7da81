(* Model of FixedRatioSampler: cartographer/common/fixed_ratio_sampler.cc (fr below). *)
From Coq Require Import List ZArith Bool SpecFloat.
From Verif Require Import Float64.
Import ListNotations.
Open Scope Z_scope.

(* the members, fixed_ratio_sampler.h:44-50 *)
Record sampler := mk_sampler { ratio : f64; num_pulses : Z; num_samples : Z }.

(* constructor, fr:23-27 *)
Definition sampler_new (r : f64) : option sampler :=
  if dleb (S754_zero false) r && dleb r (d_of_Z 1) then Some (mk_sampler r 0 0) else None.

(* Pulse, fr:31-38; None: num_pulses_ overflows *)
Definition pulse (s : sampler) : option (sampler * bool) :=
  let n := num_pulses s + 1 in
  if n <? 2 ^ 63 then
    if dltb (ddiv (d_of_Z (num_samples s)) (d_of_Z n)) (ratio s)
    then Some (mk_sampler (ratio s) n (num_samples s + 1), true)
    else Some (mk_sampler (ratio s) n (num_samples s), false)
  else None.

(* n calls of Pulse: what they returned *)
Fixpoint pulse_n (n : nat) (s : sampler) : option (sampler * list bool) :=
  match n with
  | O => Some (s, [])
  | S k => match pulse s with
           | None => None
           | Some (s1, b) => match pulse_n k s1 with
                             | Some (s2, bs) => Some (s2, b :: bs)
                             | None => None
                             end
           end
  end.
