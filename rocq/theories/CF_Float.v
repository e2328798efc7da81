(* NormalizeAngleDifference in binary64. *)
From Coq Require Import ZArith Reals Lia Lra SpecFloat.
From Flocq Require Import Core.Core Sterbenz IEEE754.BinarySingleNaN.
From Verif Require Import FloatR Float64 FRS_Proofs CF_Model.
Open Scope R_scope.

Definition pi_ : R := fval d_pi.
Lemma pi_val : pi_ = 7074237752028440 / 2251799813685248.
Proof.
  unfold pi_. change (fval d_pi) with (IZR 7074237752028440 * bpow radix2 (-51)).
  change (-51)%Z with (- (51))%Z. rewrite bpow_opp. rewrite <- (IZR_Zpower radix2) by lia.
  change (Zpower radix2 51) with 2251799813685248%Z. lra.
Qed.
Lemma pi_b : 3 < pi_ < 4.
Proof. rewrite pi_val. lra. Qed.
Lemma d_pi_ok : valid64 d_pi /\ ffin d_pi.
Proof. split; vm_compute; reflexivity. Qed.
Lemma d_2pi_ok : valid64 d_2pi /\ ffin d_2pi /\ fval d_2pi = 2 * pi_.
Proof.
  assert (E : d_2pi = S754_finite false 7074237752028440 (-50)) by (vm_compute; reflexivity).
  rewrite E. split; [vm_compute; reflexivity|]. split; [reflexivity|].
  unfold pi_. change (fval (S754_finite false 7074237752028440 (-50))) with (IZR 7074237752028440 * bpow radix2 (-50)).
  change (fval d_pi) with (IZR 7074237752028440 * bpow radix2 (-51)).
  change (-50)%Z with (1 + -51)%Z. rewrite bpow_plus. change (bpow radix2 1) with 2. ring.
Qed.
Lemma d_mpi_ok : valid64 (SFopp d_pi) /\ ffin (SFopp d_pi) /\ fval (SFopp d_pi) = - pi_.
Proof.
  split; [vm_compute; reflexivity|]. split; [reflexivity|]. unfold pi_.
  change (fval (SFopp d_pi)) with (IZR (Z.opp 7074237752028440) * bpow radix2 (-51)).
  change (fval d_pi) with (IZR 7074237752028440 * bpow radix2 (-51)).
  rewrite (opp_IZR 7074237752028440). ring.
Qed.

Lemma rnd64_step r : Rabs r <= IZR (2 ^ 51) -> Rabs (rnd64 r - r) <= 1.
Proof.
  intros H. eapply Rle_trans; [apply (frnd_err 53 1024 p53)|].
  change (- (53) + 1)%Z with (-52)%Z. change (3 - 1024 - 53)%Z with (-1074)%Z.
  assert (A : bpow radix2 (-52) * IZR (2 ^ 51) = / 2).
  { change (IZR (2 ^ 51)) with (bpow radix2 51). rewrite <- bpow_plus. reflexivity. }
  assert (B : bpow radix2 (-1074) <= 1) by (change 1 with (bpow radix2 0); apply bpow_le; lia).
  pose proof (bpow_ge_0 radix2 (-52)) as C.
  assert (D : bpow radix2 (-52) * Rabs r <= / 2) by (rewrite <- A; now apply Rmult_le_compat_l). lra.
Qed.
Lemma rnd64_small r : Rabs r <= IZR (2 ^ 51) -> Rabs (rnd64 r) < bpow radix2 1024.
Proof.
  intros H. pose proof (rnd64_step r H) as S. apply Rle_lt_trans with (IZR (2 ^ 51) + 1).
  - replace (rnd64 r) with (r + (rnd64 r - r)) by ring. eapply Rle_trans; [apply Rabs_triang | lra].
  - apply Rlt_trans with (IZR (2 ^ 53)); [rewrite <- plus_IZR; apply IZR_lt; reflexivity | exact pow_1024].
Qed.
Lemma sterb x y : valid64 x -> valid64 y -> fval y / 2 <= fval x <= 2 * fval y -> rnd64 (fval x - fval y) = fval x - fval y.
Proof.
  intros Vx Vy H. unfold frnd. apply round_generic; [apply valid_rnd_N|].
  change (SpecFloat.fexp 53 1024) with (FLT_exp (-1074) 53).
  assert (P : Prec_gt_0 53) by (unfold Prec_gt_0; lia).
  assert (F : forall z, valid64 z -> generic_format radix2 (FLT_exp (-1074) 53) (fval z)).
  { intros z Vz. rewrite <- (frnd_val 53 1024 z Vz). unfold frnd.
    change (SpecFloat.fexp 53 1024) with (FLT_exp (-1074) 53).
    apply generic_format_round; [apply FLT_exp_valid; exact P | apply valid_rnd_N]. }
  apply sterbenz; [apply FLT_exp_valid; exact P | apply FLT_exp_monotone | now apply F | now apply F | exact H].
Qed.

Lemma step_down d : valid64 d -> ffin d -> pi_ < fval d <= IZR (2 ^ 50) ->
  valid64 (dsub d d_2pi) /\ ffin (dsub d d_2pi) /\ - pi_ <= fval (dsub d d_2pi) <= fval d - 1 /\
  (fval d <= 4 * pi_ -> fval (dsub d d_2pi) = fval d - 2 * pi_).
Proof.
  intros V F B. pose proof pi_b as P. destruct d_2pi_ok as [V2 [F2 E2]].
  assert (T : 2 * IZR (2 ^ 50) = IZR (2 ^ 51)) by (rewrite <- mult_IZR; reflexivity).
  assert (T0 : 8 <= IZR (2 ^ 50)) by (apply IZR_le; discriminate).
  assert (A : Rabs (fval d - fval d_2pi) <= IZR (2 ^ 51)) by (rewrite E2; apply Rabs_le; lra).
  destruct (sub_ok 53 1024 p53 m1024 d d_2pi V V2 F F2 (rnd64_small _ A)) as [F3 E3].
  fold (dsub d d_2pi) in F3, E3. rewrite E2 in *.
  split; [now apply (sub_valid 53 1024 p53 m1024)|]. split; [exact F3|]. split; [split|].
  - rewrite E3. destruct d_mpi_ok as [Vm [_ Em]]. rewrite <- Em, <- (frnd_val 53 1024 _ Vm).
    apply (frnd_le 53 1024 p53). rewrite Em. lra.
  - rewrite E3. pose proof (rnd64_step _ A) as S. apply Rabs_le_inv in S. lra.
  - intros L. rewrite E3, <- E2. apply sterb; [exact V | exact V2|]. rewrite E2. lra.
Qed.
Lemma step_up d : valid64 d -> ffin d -> - IZR (2 ^ 50) <= fval d < - pi_ ->
  valid64 (dadd d d_2pi) /\ ffin (dadd d d_2pi) /\ fval d + 1 <= fval (dadd d d_2pi) <= pi_ /\
  (- (4 * pi_) <= fval d -> fval (dadd d d_2pi) = fval d + 2 * pi_).
Proof.
  intros V F B. pose proof pi_b as P. destruct d_2pi_ok as [V2 [F2 E2]].
  assert (T : 2 * IZR (2 ^ 50) = IZR (2 ^ 51)) by (rewrite <- mult_IZR; reflexivity).
  assert (T0 : 8 <= IZR (2 ^ 50)) by (apply IZR_le; discriminate).
  assert (A : Rabs (fval d + fval d_2pi) <= IZR (2 ^ 51)) by (rewrite E2; apply Rabs_le; lra).
  destruct (add_ok 53 1024 p53 m1024 d d_2pi V V2 F F2 (rnd64_small _ A)) as [F3 E3].
  fold (dadd d d_2pi) in F3, E3. rewrite E2 in *.
  split; [now apply (add_valid 53 1024 p53 m1024)|]. split; [exact F3|]. split; [split|].
  - rewrite E3. pose proof (rnd64_step _ A) as S. apply Rabs_le_inv in S. lra.
  - rewrite E3. destruct d_pi_ok as [Vm _]. pose proof (frnd_val 53 1024 _ Vm) as Em. fold pi_ in Em.
    rewrite <- Em at 2. apply (frnd_le 53 1024 p53). lra.
  - intros L. rewrite E3, <- E2.
    assert (Vo : valid64 (SFopp d)) by (destruct d; exact V).
    assert (Eo : fval (SFopp d) = - fval d).
    { destruct d as [z|z| |z m e]; cbn; try lra. destruct z; cbn; unfold F2R; cbn; rewrite ?opp_IZR;
        try (change (Z.neg m) with (- Z.pos m)%Z; rewrite opp_IZR); lra. }
    replace (fval d + fval d_2pi) with (- (fval (SFopp d) - fval d_2pi)) by (rewrite Eo; ring).
    assert (Q : rnd64 (- (fval (SFopp d) - fval d_2pi)) = - rnd64 (fval (SFopp d) - fval d_2pi)).
    { unfold frnd. apply round_NE_opp. }
    rewrite Q, sterb; [reflexivity | exact Vo | exact V2 | rewrite E2, Eo; lra].
Qed.

Lemma down_f fuel : forall d, valid64 d -> ffin d -> fval d <= IZR (2 ^ 50) -> fval d <= pi_ + INR fuel ->
  exists r, d_norm_down fuel d = Some r /\ valid64 r /\ ffin r /\ fval r <= pi_ /\
    (fval d <= pi_ -> r = d) /\ (pi_ < fval d -> - pi_ <= fval r) /\
    (pi_ < fval d <= 3 * pi_ -> fval r = fval d - 2 * pi_).
Proof.
  pose proof pi_b as P. destruct d_pi_ok as [Vp Fp].
  assert (X : forall d, valid64 d -> ffin d -> dltb d_pi d = true <-> pi_ < fval d).
  { intros d V F. apply (ltb_ok 53 1024 _ _ Vp V Fp F). }
  induction fuel as [|fuel IH]; intros d V F B H; cbn [d_norm_down]; destruct (dltb d_pi d) eqn:E.
  - apply X in E; try assumption. cbn [INR] in H. lra.
  - exists d. assert (L : ~ pi_ < fval d) by (intros L; apply X in L; congruence).
    repeat split; try assumption; try lra.
  - apply X in E; try assumption. destruct (step_down d V F ltac:(lra)) as [V' [F' [B' C']]].
    rewrite S_INR in H. destruct (IH (dsub d d_2pi) V' F' ltac:(lra) ltac:(lra)) as [r [Q [Vr [Fr [L1 [L2 [L3 L4]]]]]]].
    exists r. split; [exact Q|]. split; [exact Vr|]. split; [exact Fr|]. split; [exact L1|]. split; [lra|]. split.
    + intros _. destruct (Rle_or_lt (fval (dsub d d_2pi)) pi_) as [Y | Y]; [rewrite (L2 Y); lra | now apply L3].
    + intros [_ Y]. specialize (C' ltac:(lra)). rewrite L2; lra.
  - exists d. assert (L : ~ pi_ < fval d) by (intros L; apply X in L; congruence).
    repeat split; try assumption; try lra.
Qed.
Lemma up_f fuel : forall d, valid64 d -> ffin d -> - IZR (2 ^ 50) <= fval d -> - pi_ - INR fuel <= fval d -> fval d <= pi_ ->
  exists r, d_norm_up fuel d = Some r /\ valid64 r /\ ffin r /\ - pi_ <= fval r <= pi_ /\
    (- pi_ <= fval d -> r = d) /\
    (- (3 * pi_) <= fval d < - pi_ -> fval r = fval d + 2 * pi_).
Proof.
  pose proof pi_b as P. destruct d_mpi_ok as [Vp [Fp Ep]].
  assert (X : forall d, valid64 d -> ffin d -> dltb d (SFopp d_pi) = true <-> fval d < - pi_).
  { intros d V F. rewrite <- Ep. apply (ltb_ok 53 1024 _ _ V Vp F Fp). }
  induction fuel as [|fuel IH]; intros d V F B H U; cbn [d_norm_up]; destruct (dltb d (SFopp d_pi)) eqn:E.
  - apply X in E; try assumption. cbn [INR] in H. lra.
  - exists d. assert (L : ~ fval d < - pi_) by (intros L; apply X in L; congruence).
    repeat split; try assumption; try lra.
  - apply X in E; try assumption. destruct (step_up d V F ltac:(lra)) as [V' [F' [B' C']]].
    rewrite S_INR in H. destruct (IH (dadd d d_2pi) V' F' ltac:(lra) ltac:(lra) ltac:(lra)) as [r [Q [Vr [Fr [L1 [L2 L3]]]]]].
    exists r. split; [exact Q|]. split; [exact Vr|]. split; [exact Fr|]. split; [exact L1|]. split; [lra|].
    intros [Y _]. specialize (C' ltac:(lra)). rewrite L2; lra.
  - exists d. assert (L : ~ fval d < - pi_) by (intros L; apply X in L; congruence).
    repeat split; try assumption; try lra.
Qed.

Lemma normalize_f d : valid64 d -> ffin d -> Rabs (fval d) <= IZR (2 ^ 50) ->
  exists fuel r, d_normalize fuel d = Some r /\ valid64 r /\ ffin r /\ - pi_ <= fval r <= pi_ /\
    (Rabs (fval d) <= pi_ -> r = d) /\
    (pi_ < fval d <= 3 * pi_ -> fval r = fval d - 2 * pi_) /\
    (- (3 * pi_) <= fval d < - pi_ -> fval r = fval d + 2 * pi_).
Proof.
  intros V F B. pose proof pi_b as P. apply Rabs_le_inv in B.
  set (fuel := Z.to_nat (2 ^ 50)).
  assert (I : INR fuel = IZR (2 ^ 50)) by (unfold fuel; rewrite INR_IZR_INZ, Z2Nat.id by discriminate; reflexivity).
  clearbody fuel.
  destruct (down_f fuel d V F ltac:(lra) ltac:(lra)) as [r1 [Q1 [V1 [F1 [A1 [A2 [A3 A4]]]]]]].
  assert (G : - IZR (2 ^ 50) <= fval r1).
  { destruct (Rle_or_lt (fval d) pi_) as [X | X]; [rewrite (A2 X); lra|]. specialize (A3 X).
    assert (8 <= IZR (2 ^ 50)) by (apply IZR_le; discriminate). lra. }
  destruct (up_f fuel r1 V1 F1 G ltac:(lra) A1) as [r2 [Q2 [V2 [F2 [C1 [C2 C3]]]]]].
  exists fuel, r2. unfold d_normalize. rewrite Q1. split; [exact Q2|]. split; [exact V2|]. split; [exact F2|].
  split; [exact C1|]. split; [|split].
  - intros X. apply Rabs_le_inv in X. assert (E : r1 = d) by (apply A2; lra). rewrite <- E. apply C2. rewrite E. lra.
  - intros X. assert (E : r2 = r1) by (apply C2; rewrite A4; lra). rewrite E. now apply A4.
  - intros X. assert (E : r1 = d) by (apply A2; lra). rewrite E in C3. auto.
Qed.

(* a difference from which 2 pi can be subtracted without effect *)
Lemma endless fuel : d_normalize fuel (d_of_Z (2 ^ 60)) = None.
Proof.
  unfold d_normalize. assert (H : d_norm_down fuel (d_of_Z (2 ^ 60)) = None); [|now rewrite H].
  assert (A : dltb d_pi (d_of_Z (2 ^ 60)) = true) by (vm_compute; reflexivity).
  assert (B : dsub (d_of_Z (2 ^ 60)) d_2pi = d_of_Z (2 ^ 60)) by (vm_compute; reflexivity).
  induction fuel as [|fuel IH]; cbn [d_norm_down]; rewrite A; [reflexivity|]. now rewrite B.
Qed.
