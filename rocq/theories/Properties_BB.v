(* C95: bucket boundaries of metrics. *)
From Coq Require Import List ZArith Bool SpecFloat Reals Lia Lra.
From Flocq Require Import Core.Core IEEE754.BinarySingleNaN.
From Verif Require Import Float64 FloatR FRS_Model FRS_Proofs BB_Model BB_Spec BB_Proofs.
Import ListNotations.
Open Scope R_scope.

(* a base of 1 or less (or not a number) and a scale factor of 0 or less (or not a number) fail a CHECK, and nothing
   else does *)
Theorem C95_checks : forall fuel base scale max,
  scaled_powers_of fuel base scale max = CheckFailed <-> dltb (d_of_Z 1) base = false \/ dltb (S754_zero false) scale = false.
Proof.
  intros fuel base scale max. unfold scaled_powers_of. destruct (dltb (d_of_Z 1) base); [|tauto]. destruct (dltb (S754_zero false) scale); [|tauto].
  split; [|intros [X | X]; discriminate X]. intros E. exfalso. revert scale E. induction fuel as [|fuel IH]; intros x E; cbn [powers] in E; [discriminate|].
  destruct (dltb x max); [|discriminate]. destruct (powers fuel base (dmul x base) max) eqn:Q; try discriminate. exact (IH _ Q).
Qed.
Print Assumptions C95_checks.

(* ScaledPowersOf, for every base above 1 (also infinite), every normal scale factor and every maximum: it ends, and
   what it returns is below the maximum, strictly increasing, starts with the scale factor and has the powers of the
   base times the scale factor up to a rounding per step; and it stops only where the next power reaches the maximum,
   up to the same roundings *)
Theorem C95_powers : forall base scale max,
  fvalid 53 1024 base -> fvalid 53 1024 scale -> dltb (d_of_Z 1) base = true -> ffin scale -> bpow radix2 (-1022) <= fval scale ->
  exists n l, (forall fuel, (n <= fuel)%nat -> scaled_powers_of fuel base scale max = Boundaries l) /\
    (forall b, In b l -> dltb b max = true) /\
    ascending (map fval l) /\
    (dltb scale max = true -> nth_error l 0 = Some scale) /\
    follows (fun k => k) (fun k => fval scale * fval base ^ k) l /\
    (ffin base -> fvalid 53 1024 max -> ffin max -> fval max <= (1 + unit_roundoff) ^ length l * (fval scale * fval base ^ length l)).
Proof.
  intros base scale max Vb Vs Lb Fs T. pose proof (bpow_gt_0 radix2 (-1022)) as P. pose proof (bpow_gt_0 radix2 (-1074)) as P'.
  set (k := Z.to_nat (up (bpow radix2 1024 / bpow radix2 (-1074)))).
  assert (K : bpow radix2 1024 <= fval scale + INR k * bpow radix2 (-1074)).
  { destruct (archimed (bpow radix2 1024 / bpow radix2 (-1074))) as [A _]. pose proof (bpow_gt_0 radix2 1024) as Q. assert (D : 0 < bpow radix2 1024 / bpow radix2 (-1074)) by (now apply Rdiv_lt_0_compat).
    assert (E : INR k = IZR (up (bpow radix2 1024 / bpow radix2 (-1074)))) by (unfold k; rewrite INR_IZR_INZ, Z2Nat.id; [reflexivity|]; apply le_IZR; lra).
    rewrite E. apply Rlt_le in A. apply (Rmult_le_compat_r (bpow radix2 (-1074))) in A; [|lra]. unfold Rdiv in A at 1. rewrite Rmult_assoc, Rinv_l in A by lra. lra. }
  clearbody k. destruct (powers_ok base max k Vb Lb scale Vs Fs T K) as [l [E [G1 [G2 [G3 [G4 G5]]]]]]. exists (S k), l.
  assert (Ls : dltb (S754_zero false) scale = true) by (destruct scale as [s|s| |s m e]; try discriminate Fs; [cbn in T; lra|]; destruct s; [|reflexivity]; cbn in T; assert (F2R (Float radix2 (Zneg m) e) < 0) by (now apply F2R_lt_0); lra).
  split; [intros fuel L; unfold scaled_powers_of; rewrite Lb, Ls; now apply (powers_more base max l (S k))|].
  split; [intros b I; rewrite Forall_forall in G1; now apply G1|].
  split; [exact G2|]. split; [|split; [exact G4 | exact G5]].
  intros D. cbn [powers] in E. rewrite D in E. destruct (powers k base (dmul scale base) max); try discriminate E. now injection E as <-.
Qed.
Print Assumptions C95_powers.
(* an infinite scale factor gives no boundaries *)
Theorem C95_infinite : forall fuel base max, dltb (d_of_Z 1) base = true -> scaled_powers_of (S fuel) base (S754_infinity false) max = Boundaries [].
Proof. intros fuel base max L. unfold scaled_powers_of. rewrite L. cbn [dltb SFltb SFcompare powers]. rewrite inf_ltb. reflexivity. Qed.
Print Assumptions C95_infinite.

(* that ScaledPowersOf ends whenever its CHECKs pass is false: the least positive double times the least double above 1
   is itself again *)
Theorem C95_ends_refuted : exists base scale max, fvalid 53 1024 base /\ fvalid 53 1024 scale /\ fvalid 53 1024 max /\
  dltb (d_of_Z 1) base = true /\ dltb (S754_zero false) scale = true /\ forall fuel, scaled_powers_of fuel base scale max = NotDone.
Proof.
  exists (S754_finite false 4503599627370497 (-52)), (S754_finite false 1 (-1074)), (d_of_Z 1).
  assert (L1 : dltb (d_of_Z 1) (S754_finite false 4503599627370497 (-52)) = true) by (vm_compute; reflexivity).
  assert (L2 : dltb (S754_zero false) (S754_finite false 1 (-1074)) = true) by (vm_compute; reflexivity).
  assert (L3 : dltb (S754_finite false 1 (-1074)) (d_of_Z 1) = true) by (vm_compute; reflexivity).
  assert (L4 : dmul (S754_finite false 1 (-1074)) (S754_finite false 4503599627370497 (-52)) = S754_finite false 1 (-1074)) by (vm_compute; reflexivity).
  split; [vm_compute; reflexivity|]. split; [vm_compute; reflexivity|]. split; [apply one_ok|]. split; [exact L1|]. split; [exact L2|].
  intros fuel. unfold scaled_powers_of. rewrite L1, L2. now apply powers_stuck.
Qed.
Print Assumptions C95_ends_refuted.

(* FixedWidth: a negative number of buckets gives none; else, for every positive width and every int number of buckets
   whose product does not overflow, so many boundaries, strictly increasing from 0 on, each its multiple of the width up
   to a rounding per step *)
Theorem C95_widths : forall width n, fvalid 53 1024 width -> ffin width -> 0 < fval width -> (0 <= n < 2 ^ 31)%Z ->
  (1 + unit_roundoff) ^ Z.to_nat n * (IZR n * fval width) < bpow radix2 1024 ->
  let l := fixed_width width n in
  Z.of_nat (length l) = n /\ ascending (0 :: map fval l) /\ follows S (fun k => INR (S k) * fval width) l.
Proof.
  intros w n V F P N O l. assert (E : INR (Z.to_nat n) = IZR n) by (rewrite INR_IZR_INZ, Z2Nat.id by lia; reflexivity).
  assert (B : INR (0 + Z.to_nat n) <= 2 ^ 31) by (cbn [Nat.add]; rewrite E, (pow_IZR 2 31); apply IZR_le; change (2 ^ Z.of_nat 31)%Z with (2 ^ 31)%Z; lia).
  assert (R : rounded 0 (INR 0 * fval w) (fval (S754_zero false))) by (unfold rounded; cbn; lra).
  rewrite <- E in O. destruct (widths_ok w V F P (Z.to_nat n) 0 (S754_zero false) eq_refl eq_refl R B O) as [L [A Fo]].
  split; [unfold l, fixed_width; rewrite L; lia|]. split; [exact A | exact Fo].
Qed.
Print Assumptions C95_widths.
Theorem C95_negative : forall width n, (n <= 0)%Z -> fixed_width width n = [].
Proof. intros w [|n|n] N; try reflexivity. lia. Qed.
Print Assumptions C95_negative.

(* 0.05 as a double, and the boundaries FixedWidth(0.05, 20) of the constraint builders: that the tenth is the double
   0.5 and the last 1 is false *)
Definition w05 : f64 := S754_finite false 7205759403792794 (-57).
Theorem C95_multiples_refuted : exists width n b b',
  nth_error (fixed_width width n) 9 = Some b /\ dltb b (S754_finite false 4503599627370496 (-53)) = true /\
  nth_error (fixed_width width n) 19 = Some b' /\ dltb (d_of_Z 1) b' = true /\
  dmul width (d_of_Z 10) = S754_finite false 4503599627370496 (-53) /\ dmul width (d_of_Z 20) = d_of_Z 1.
Proof.
  exists w05, 20%Z, (S754_finite false 9007199254740991 (-54)), (S754_finite false 4503599627370497 (-52)).
  split; [vm_compute; reflexivity|]. split; [vm_compute; reflexivity|]. split; [vm_compute; reflexivity|]. split; [vm_compute; reflexivity|]. split; vm_compute; reflexivity.
Qed.
Print Assumptions C95_multiples_refuted.

(* ScaledPowersOf(2, 0.01, 100): 14 boundaries, the last 81.92 *)
Definition s001 : f64 := S754_finite false 5764607523034235 (-59).
Example ex_powers : match scaled_powers_of 15 (d_of_Z 2) s001 (d_of_Z 100) with
  | Boundaries l => length l = 14%nat /\ nth_error l 0 = Some s001 /\ nth_error l 13 = Some (S754_finite false 5764607523034235 (-46)) | _ => False end.
Proof. vm_compute. split; [reflexivity|]. split; reflexivity. Qed.
Example ex_not_yet : scaled_powers_of 14 (d_of_Z 2) s001 (d_of_Z 100) = NotDone.
Proof. vm_compute. reflexivity. Qed.
(* a scale factor at the maximum gives no boundaries *)
Example ex_none : scaled_powers_of 1 (d_of_Z 2) (d_of_Z 100) (d_of_Z 100) = Boundaries [].
Proof. vm_compute. reflexivity. Qed.
Example ex_base : scaled_powers_of 9 (d_of_Z 1) s001 (d_of_Z 100) = CheckFailed.
Proof. vm_compute. reflexivity. Qed.
Example ex_widths : length (fixed_width w05 20) = 20%nat /\ nth_error (fixed_width w05 20) 0 = Some w05.
Proof. vm_compute. split; reflexivity. Qed.
