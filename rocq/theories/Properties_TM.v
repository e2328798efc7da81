(* Properties of durations in seconds and ticks (C58). *)
From Coq Require Import ZArith Bool SpecFloat Reals Lia Lra.
From Flocq Require Import Core.Core IEEE754.BinarySingleNaN.
From Verif Require Import Float32 Float64 FloatR Float32_Proofs FRS_Proofs TM_Model TM_Proofs PE_Model Properties_PE.
Open Scope Z_scope.

(* A duration of up to seven years turned into seconds and back loses at most one tick and never
   grows. *)
Theorem C58_roundtrip : forall d, Z.abs d <= 2 ^ 51 -> exists r,
  from_seconds (to_seconds d) = Some r /\ Z.abs (d - r) <= 1 /\ Z.abs r <= Z.abs d.
Proof. exact roundtrip_ok. Qed.
(* It does lose a tick: 2.1 microseconds come back as 2.0. *)
Theorem C58_roundtrip_refuted : exists d, 0 < d /\ from_seconds (to_seconds d) = Some (d - 1).
Proof. exists 21. split; [lia | vm_compute; reflexivity]. Qed.
Example C58_example : from_seconds (to_seconds 15000001) = Some 15000001 /\ from_seconds (d_of_Z (-3)) = Some (-30000000).
Proof. split; vm_compute; reflexivity. Qed.

(* Longer durations are not shorter in seconds. *)
Theorem C58_monotone : forall a b, a <= b -> dltb (to_seconds b) (to_seconds a) = false.
Proof. exact to_seconds_le. Qed.
Example C58_monotone_example : dltb (to_seconds 20) (to_seconds 21) = true.
Proof. vm_compute. reflexivity. Qed.
(* So that the comparison of durations in the pose extrapolator (pose_extrapolator.cc:168) is as
   C56 asks. *)
Theorem C58_extrapolator : forall K : kit,
  (forall d dur, too_short K d dur = dltb (to_seconds d) (to_seconds dur)) -> sane K.
Proof.
  intros K E. split.
  - intros d dur L. rewrite E. now apply to_seconds_le.
  - intros d d' dur L. rewrite !E. now apply to_seconds_trans.
Qed.

(* FromSeconds of a float is its number of ticks rounded toward zero. *)
Theorem C58_point_times : forall t, valid32 t -> ffin t ->
  from_seconds (widen t) = Some (Ztrunc (fval t * 10000000)%R).
Proof. intros t V F. destruct (point_ticks_ok t V F) as (E1 & <-). exact E1. Qed.
(* Shifting a point time that is not positive to a later or equal time keeps it so, with both
   roundings: the point is up to ticks not after the new time. *)
Theorem C58_shift : forall d t, valid32 t -> ffin t -> (- IZR (2 ^ 40) <= fval t <= 0)%R ->
  - 2 ^ 64 <= d <= 2 ^ 64 -> d + point_ticks t <= 0 ->
  point_past (shift_point d t) = true.
Proof.
  intros d t V F L D S. destruct (shift_ok d t) as (V1 & F1 & L1); [now repeat split | exact D | exact S|].
  unfold point_past. destruct zero32 as (V0 & F0 & E0). now apply fleb_ok.
Qed.
Example C58_shift_example :
  let t := fdiv (f_of_Z (-1)) (f_of_Z 10) in
  point_ticks t = -1000000 /\ point_past (shift_point 1000000 t) = true /\ point_past (shift_point 1000001 t) = false.
Proof. repeat split; vm_compute; reflexivity. Qed.

Print Assumptions C58_roundtrip.
Print Assumptions C58_roundtrip_refuted.
Print Assumptions C58_monotone.
Print Assumptions C58_extrapolator.
Print Assumptions C58_point_times.
Print Assumptions C58_shift.
