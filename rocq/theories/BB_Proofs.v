(* Lemmas about bucket boundaries. *)
From Coq Require Import List ZArith Bool SpecFloat Reals Lia Lra.
From Flocq Require Import Core.Core IEEE754.BinarySingleNaN Relative Plus_error.
From Verif Require Import Float64 FloatR FRS_Model FRS_Proofs BB_Model BB_Spec.
Import ListNotations.
Open Scope R_scope.

Local Instance prec53 : Prec_gt_0 53 := p53.
Lemma u_bpow : unit_roundoff = / 2 * bpow radix2 (- (53) + 1).
Proof. unfold unit_roundoff. change (bpow radix2 (- (53) + 1)) with (/ IZR (2 ^ 52)). rewrite <- Rinv_mult. f_equal. rewrite (pow_IZR 2 53), <- mult_IZR. reflexivity. Qed.
Lemma u_small : 0 < unit_roundoff < 1 / 2.
Proof. rewrite u_bpow. change (bpow radix2 (- (53) + 1)) with (/ IZR (2 ^ 52)). assert (0 < / IZR (2 ^ 52) < 1 / 2) by (split; [apply Rinv_0_lt_compat, IZR_lt; lia | unfold Rdiv; rewrite Rmult_1_l; apply Rinv_lt_contravar; [apply Rmult_lt_0_compat; [lra | apply IZR_lt; lia] | apply IZR_lt; lia]]). lra. Qed.

(* a positive infinity is below nothing *)
Lemma inf_ltb m : dltb (S754_infinity false) m = false.
Proof. now destruct m as [[]|[]| |[] mm e]. Qed.
Lemma one_ok : valid64 (d_of_Z 1) /\ ffin (d_of_Z 1) /\ fval (d_of_Z 1) = 1.
Proof. split; [apply d_of_Z_valid|]. apply d_of_Z_ok. lia. Qed.

(* the least double above 1 *)
Lemma base_ge base : valid64 base -> ffin base -> 1 < fval base -> 1 + bpow radix2 (-52) <= fval base.
Proof.
  intros V F L. destruct (fvalid_B 53 1024 base V) as [b ->]. rewrite fval_B2SF in *.
  assert (G1 : generic_format radix2 (SpecFloat.fexp 53 1024) 1) by (change 1 with (bpow radix2 0); apply generic_format_bpow; cbn; lia).
  change (SpecFloat.fexp 53 1024) with (FLT_exp (-1074) 53) in G1.
  assert (H : succ radix2 (FLT_exp (-1074) 53) 1 <= B2R b) by (apply succ_le_lt; [typeclasses eauto | exact G1 | apply (generic_format_B2R 53 1024) | exact L]).
  rewrite succ_eq_pos in H by lra. change 1 with (bpow radix2 0) in H at 2. rewrite ulp_bpow in H. cbn in H. exact H.
Qed.
Notation tiny := (bpow radix2 (-1022)).
Lemma mul_step x base : valid64 x -> ffin x -> tiny <= fval x -> valid64 base -> ffin base -> 1 < fval base ->
  fval x + bpow radix2 (-1074) <= rnd64 (fval x * fval base) /\
  (1 - unit_roundoff) * (fval x * fval base) <= rnd64 (fval x * fval base) <= (1 + unit_roundoff) * (fval x * fval base).
Proof.
  intros V F T Vb Fb L. pose proof (base_ge base Vb Fb L) as B. pose proof (bpow_gt_0 radix2 (-1022)) as P.
  assert (Px : 0 < fval x) by lra. assert (Gx : generic_format radix2 (SpecFloat.fexp 53 1024) (fval x)) by (destruct (fvalid_B 53 1024 x V) as [b ->]; rewrite fval_B2SF; apply generic_format_B2R).
  change (SpecFloat.fexp 53 1024) with (FLT_exp (-1074) 53) in Gx. split.
  - assert (U : ulp radix2 (FLT_exp (-1074) 53) (fval x) <= fval x * bpow radix2 (-52)).
    { pose proof (ulp_FLT_le radix2 (-1074) 53 (fval x)) as U. rewrite Rabs_pos_eq in U by lra. apply U. exact T. }
    assert (S : succ radix2 (FLT_exp (-1074) 53) (fval x) <= fval x * fval base) by (rewrite succ_eq_pos by lra; nra).
    assert (G : bpow radix2 (-1074) <= ulp radix2 (FLT_exp (-1074) 53) (fval x)) by (apply ulp_ge_ulp_0_FLT || (rewrite ulp_neq_0 by lra; apply bpow_le; unfold cexp, FLT_exp; lia)).
    unfold frnd. change (SpecFloat.fexp 53 1024) with (FLT_exp (-1074) 53). apply Rle_trans with (succ radix2 (FLT_exp (-1074) 53) (fval x)); [rewrite succ_eq_pos by lra; lra|].
    apply round_ge_generic; [typeclasses eauto | typeclasses eauto | apply generic_format_succ; [typeclasses eauto | exact Gx] | exact S].
  - pose proof (relative_error_N_FLT radix2 (-1074) 53 p53 (fun z => negb (Z.even z)) (fval x * fval base)) as E. rewrite <- u_bpow in E.
    assert (Q : tiny <= Rabs (fval x * fval base)) by (rewrite Rabs_pos_eq by nra; nra). specialize (E Q). rewrite (Rabs_pos_eq (fval x * fval base)) in E by nra.
    apply Rabs_le_inv in E. unfold frnd. change (SpecFloat.fexp 53 1024) with (FLT_exp (-1074) 53). lra.
Qed.
(* multiplying a boundary by the base: larger by a step at least, or infinite *)
Lemma dmul_step x base : valid64 x -> ffin x -> tiny <= fval x -> valid64 base -> dltb (d_of_Z 1) base = true ->
  (ffin base /\ ffin (dmul x base) /\ fval (dmul x base) = rnd64 (fval x * fval base) /\ 1 < fval base) \/
  (dmul x base = S754_infinity false /\ (ffin base -> 1 < fval base /\ bpow radix2 1024 <= rnd64 (fval x * fval base))).
Proof.
  intros V F T Vb L. pose proof (bpow_gt_0 radix2 (-1022)) as P. destruct one_ok as [V1 [F1 E1]].
  destruct base as [sb|[]| |sb mb eb] eqn:Eb; try discriminate L.
  - right. split; [|intros X; discriminate X]. destruct x as [sx|sx| |sx mx ex]; try discriminate F; [cbn in T; lra|]. destruct sx; [|reflexivity]. unfold fval in T. cbn in T. assert (F2R (Float radix2 (Zneg mx) ex) < 0) by (now apply F2R_lt_0). lra.
  - rewrite <- Eb in *. assert (Fb : ffin base) by (subst base; reflexivity). assert (Lb : 1 < fval base) by (rewrite <- E1; now apply (ltb_ok 53 1024)).
    destruct (mul_step x base V F T Vb Fb Lb) as [Inc _]. destruct (Rlt_or_le (Rabs (rnd64 (fval x * fval base))) (bpow radix2 1024)) as [O | O].
    + left. destruct (mul_ok 53 1024 p53 m1024 x base V Vb F Fb O) as [A B]. split; [exact Fb|]. split; [exact A|]. split; [exact B | exact Lb].
    + right. split; [|intros _; split; [exact Lb|]; rewrite Rabs_pos_eq in O; [exact O|]; pose proof (bpow_gt_0 radix2 (-1074)); lra]. clear Eb. destruct (fvalid_B 53 1024 x V) as [bx ->]. destruct (fvalid_B 53 1024 base Vb) as [bb ->]. unfold dmul. rewrite (mul_equiv 53 1024 p53 m1024). rewrite !fval_B2SF in *.
      pose proof (Bmult_correct 53 1024 p53 m1024 mode_NE bx bb) as C. rewrite Rlt_bool_false in C by exact O. etransitivity; [exact C|].
      replace (xorb (Bsign bx) (Bsign bb)) with false; [reflexivity|].
      assert (S1 : Bsign bx = false) by (destruct bx as [s|s| |s m e Hb]; cbn in T |- *; try discriminate F; [lra|]; destruct s; [|reflexivity]; assert (F2R (Float radix2 (Zneg m) e) < 0) by (now apply F2R_lt_0); cbn in T; lra).
      assert (S2 : Bsign bb = false) by (destruct bb as [s|s| |s m e Hb]; cbn in Lb |- *; try discriminate Fb; [lra|]; destruct s; [|reflexivity]; assert (F2R (Float radix2 (Zneg m) e) < 0) by (now apply F2R_lt_0); cbn in Lb; lra).
      now rewrite S1, S2.
Qed.

Lemma fval_lt x : valid64 x -> ffin x -> fval x < bpow radix2 1024.
Proof. intros V F. destruct (fvalid_B 53 1024 x V) as [b ->]. rewrite fval_B2SF. eapply Rle_lt_trans; [apply Rle_abs | apply abs_B2R_lt_emax]. Qed.
Lemma rounded_step k x y z b : 0 <= b -> (1 - unit_roundoff) * (x * b) <= y <= (1 + unit_roundoff) * (x * b) ->
  rounded k (y * b ^ k) z -> rounded (S k) (x * b ^ S k) z.
Proof.
  intros B [Y1 Y2] [Z1 Z2]. pose proof u_small as U. assert (Bk : 0 <= b ^ k) by (now apply pow_le). unfold rounded. cbn [pow].
  assert (P1 : 0 <= (1 - unit_roundoff) ^ k) by (apply pow_le; lra). assert (P2 : 0 <= (1 + unit_roundoff) ^ k) by (apply pow_le; lra). split.
  - apply Rle_trans with ((1 - unit_roundoff) ^ k * (y * b ^ k)); [|exact Z1]. replace ((1 - unit_roundoff) * (1 - unit_roundoff) ^ k * (x * (b * b ^ k))) with ((1 - unit_roundoff) ^ k * (((1 - unit_roundoff) * (x * b)) * b ^ k)) by ring.
    apply Rmult_le_compat_l; [exact P1|]. now apply Rmult_le_compat_r.
  - apply Rle_trans with ((1 + unit_roundoff) ^ k * (y * b ^ k)); [exact Z2|]. replace ((1 + unit_roundoff) * (1 + unit_roundoff) ^ k * (x * (b * b ^ k))) with ((1 + unit_roundoff) ^ k * (((1 + unit_roundoff) * (x * b)) * b ^ k)) by ring.
    apply Rmult_le_compat_l; [exact P2|]. now apply Rmult_le_compat_r.
Qed.

Lemma upper_step k x y z b : 0 <= b -> y <= (1 + unit_roundoff) * (x * b) -> z <= (1 + unit_roundoff) ^ k * (y * b ^ k) -> z <= (1 + unit_roundoff) ^ S k * (x * b ^ S k).
Proof.
  intros B Y Z. pose proof u_small as U. assert (Bk : 0 <= b ^ k) by (now apply pow_le). assert (P2 : 0 <= (1 + unit_roundoff) ^ k) by (apply pow_le; lra). cbn [pow].
  apply Rle_trans with ((1 + unit_roundoff) ^ k * (y * b ^ k)); [exact Z|]. replace ((1 + unit_roundoff) * (1 + unit_roundoff) ^ k * (x * (b * b ^ k))) with ((1 + unit_roundoff) ^ k * (((1 + unit_roundoff) * (x * b)) * b ^ k)) by ring.
  apply Rmult_le_compat_l; [exact P2|]. now apply Rmult_le_compat_r.
Qed.

(* what the loop returns from a boundary x on *)
Definition good_powers (base x max : f64) (l : list f64) : Prop :=
  Forall (fun b => dltb b max = true) l /\ ascending (map fval l) /\ (forall b, nth_error l 0 = Some b -> b = x) /\
  follows (fun k => k) (fun k => fval x * fval base ^ k) l /\
  (ffin base -> valid64 max -> ffin max -> fval max <= (1 + unit_roundoff) ^ length l * (fval x * fval base ^ length l)).
Lemma powers_ok base max k : valid64 base -> dltb (d_of_Z 1) base = true -> forall x, valid64 x -> ffin x -> tiny <= fval x ->
  bpow radix2 1024 <= fval x + INR k * bpow radix2 (-1074) -> exists l, powers (S k) base x max = Boundaries l /\ good_powers base x max l.
Proof.
  intros Vb Lb. pose proof u_small as U. pose proof (bpow_gt_0 radix2 (-1022)) as P. pose proof (bpow_gt_0 radix2 (-1074)) as P'.
  induction k as [|k IH]; intros x V F T K; [cbn [INR] in K; pose proof (fval_lt x V F); lra|].
  cbn [powers]. destruct (dltb x max) eqn:D.
  2:{ exists []. split; [reflexivity|]. split; [constructor|]. split; [exact I|]. split; [intros b; discriminate|]. split; [intros j b; destruct j; discriminate|].
      intros _ Vm Fm. cbn [length pow]. rewrite !Rmult_1_l, Rmult_1_r. apply Rnot_lt_le. intros X. apply (ltb_ok 53 1024 _ _ V Vm F Fm) in X. unfold dltb in D. congruence. }
  assert (Vy : valid64 (dmul x base)) by (now apply (mul_valid 53 1024 p53 m1024)).
  assert (First : forall l b, nth_error (x :: l) 0 = Some b -> b = x) by (intros l b Q; now injection Q).
  assert (R0 : rounded 0 (fval x * fval base ^ 0) (fval x)) by (unfold rounded; cbn [pow]; lra).
  destruct (dmul_step x base V F T Vb Lb) as [[Fb [Fy [Ey Lb']]] | [Ey Ov]].
  - destruct (mul_step x base V F T Vb Fb Lb') as [Inc Rel]. rewrite <- Ey in Inc, Rel. rewrite S_INR in K.
    destruct (IH (dmul x base) Vy Fy ltac:(lra) ltac:(lra)) as [l [E [G1 [G2 [G3 [G4 G5]]]]]]. cbn [powers] in E. rewrite E. exists (x :: l). split; [reflexivity|].
    split; [constructor; assumption|]. split; [destruct l as [|y l]; [exact I|]; cbn [map ascending] in *; rewrite (G3 y eq_refl) in *; split; [lra | exact G2]|]. split; [apply First|].
    split; [intros [|j] b Q; [injection Q as <-; split; [exact F | exact R0]|]; destruct (G4 j b Q) as [A B]; split; [exact A|]; apply (rounded_step j (fval x) (fval (dmul x base))); [lra | exact Rel | exact B]|].
    intros _ Vm Fm. specialize (G5 Fb Vm Fm). cbn [length]. apply (upper_step (length l) (fval x) (fval (dmul x base))); [lra | exact (proj2 Rel) | exact G5].
  - rewrite Ey. cbn [powers]. rewrite inf_ltb. exists [x]. split; [reflexivity|]. split; [constructor; [exact D | constructor]|]. split; [exact I|]. split; [apply First|].
    split; [intros [|[|j]] b Q; try discriminate Q; injection Q as <-; split; [exact F | exact R0]|].
    intros Fb Vm Fm. destruct (Ov Fb) as [Lb' O]. destruct (mul_step x base V F T Vb Fb Lb') as [_ Rel]. pose proof (fval_lt max Vm Fm). cbn [length pow]. rewrite !Rmult_1_r. lra.
Qed.

(* fixed widths *)
Lemma format64 x : valid64 x -> generic_format radix2 (FLT_exp (-1074) 53) (fval x).
Proof. intros V. destruct (fvalid_B 53 1024 x V) as [b ->]. rewrite fval_B2SF. apply (generic_format_B2R 53 1024). Qed.
Lemma add_rel x y : valid64 x -> valid64 y -> 0 <= fval x + fval y ->
  (1 - unit_roundoff) * (fval x + fval y) <= rnd64 (fval x + fval y) <= (1 + unit_roundoff) * (fval x + fval y).
Proof.
  intros Vx Vy S. destruct (FLT_plus_error_N_ex radix2 (-1074) 53 (fun z => negb (Z.even z)) (fval x) (fval y) (format64 x Vx) (format64 y Vy)) as [eps [E1 E2]].
  pose proof (u_rod1pu_ro_le_u_ro radix2 53) as E3. assert (E : Rabs eps <= unit_roundoff) by (rewrite u_bpow; eapply Rle_trans; [exact E1 | exact E3]). apply Rabs_le_inv in E.
  unfold frnd. change (SpecFloat.fexp 53 1024) with (FLT_exp (-1074) 53). rewrite E2. nra.
Qed.
Lemma pow_roundoff n : (1 + unit_roundoff) ^ n * (1 - INR n * unit_roundoff) <= 1.
Proof.
  pose proof u_small as U. induction n as [|n IH]; [cbn; lra|]. rewrite S_INR. cbn [pow]. assert (P : 0 <= (1 + unit_roundoff) ^ n) by (apply pow_le; lra). pose proof (pos_INR n) as N.
  apply Rle_trans with ((1 + unit_roundoff) ^ n * (1 - INR n * unit_roundoff)); [|exact IH].
  replace ((1 + unit_roundoff) * (1 + unit_roundoff) ^ n * (1 - (INR n + 1) * unit_roundoff)) with ((1 + unit_roundoff) ^ n * ((1 + unit_roundoff) * (1 - (INR n + 1) * unit_roundoff))) by ring. apply Rmult_le_compat_l; [exact P|]. nra.
Qed.
Lemma pow_le_2 n : INR n <= 2 ^ 31 -> (1 + unit_roundoff) ^ n <= 2.
Proof.
  intros N. pose proof (pow_roundoff n) as H. pose proof u_small as U. assert (P : 0 <= (1 + unit_roundoff) ^ n) by (apply pow_le; lra).
  assert (K : INR n * unit_roundoff <= 1 / 2). { apply Rle_trans with (2 ^ 31 * unit_roundoff); [apply Rmult_le_compat_r; lra|]. unfold unit_roundoff. apply Rmult_le_reg_r with (2 ^ 53); [apply pow_lt; lra|]. rewrite Rmult_assoc, Rinv_l by (apply pow_nonzero; lra). lra. }
  nra.
Qed.
Lemma tiny_le w : valid64 w -> 0 < fval w -> bpow radix2 (-1074) <= fval w.
Proof.
  intros V P. pose proof (format64 w V) as G. apply (generic_format_ge_bpow radix2 (FLT_exp (-1074) 53)); [intros e; unfold FLT_exp; lia | exact P | exact G].
Qed.
Lemma add_step j x w : valid64 x -> valid64 w -> 0 < fval w -> 0 <= fval x -> INR j <= 2 ^ 31 -> fval x <= (1 + unit_roundoff) ^ j * (INR j * fval w) -> fval x < rnd64 (fval x + fval w).
Proof.
  intros Vx Vw Pw Px J B. pose proof (pow_le_2 j J) as H2. pose proof (pos_INR j) as N. pose proof u_small as U. assert (P : 0 <= (1 + unit_roundoff) ^ j) by (apply pow_le; lra).
  pose proof (bpow_gt_0 radix2 (-1074)) as T. assert (Ul : ulp radix2 (FLT_exp (-1074) 53) (fval x) <= fval w).
  { destruct (Rle_or_lt tiny (fval x)) as [L | L].
    - pose proof (ulp_FLT_le radix2 (-1074) 53 (fval x)) as X. rewrite Rabs_pos_eq in X by lra. specialize (X L). eapply Rle_trans; [exact X|]. change (bpow radix2 (1 - 53)) with (/ IZR (2 ^ 52)).
      assert (Y : fval x <= 2 ^ 32 * fval w). { eapply Rle_trans; [exact B|]. replace (2 ^ 32) with (2 * 2 ^ 31) by ring. assert (0 <= INR j * fval w) by nra. assert (INR j * fval w <= 2 ^ 31 * fval w) by (apply Rmult_le_compat_r; lra). nra. }
      apply Rmult_le_reg_r with (IZR (2 ^ 52)); [apply IZR_lt; lia|]. rewrite Rmult_assoc, Rinv_l by (apply not_0_IZR; lia). replace (2 ^ 32) with (IZR (2 ^ 32)) in Y by (rewrite (pow_IZR 2 32); reflexivity).
      assert (IZR (2 ^ 32) <= IZR (2 ^ 52)) by (apply IZR_le; lia). nra.
    - rewrite (ulp_FLT_small radix2 (-1074) 53); [now apply tiny_le|]. rewrite Rabs_pos_eq by lra. eapply Rlt_le_trans; [exact L|]. apply bpow_le. lia. }
  assert (G : 0 < ulp radix2 (FLT_exp (-1074) 53) (fval x)).
  { destruct (Req_dec (fval x) 0) as [Z0 | Z0]; [rewrite Z0, (ulp_FLT_0 radix2 (-1074) 53); exact T | rewrite ulp_neq_0 by exact Z0; apply bpow_gt_0]. }
  apply Rlt_le_trans with (succ radix2 (FLT_exp (-1074) 53) (fval x)); [rewrite succ_eq_pos by lra; lra|].
  unfold frnd. change (SpecFloat.fexp 53 1024) with (FLT_exp (-1074) 53). apply round_ge_generic; [typeclasses eauto | typeclasses eauto | apply generic_format_succ; [typeclasses eauto | now apply format64]|]. rewrite succ_eq_pos by lra. lra.
Qed.
Lemma widths_ok w : valid64 w -> ffin w -> 0 < fval w -> forall n j x, valid64 x -> ffin x -> rounded j (INR j * fval w) (fval x) ->
  INR (j + n) <= 2 ^ 31 -> (1 + unit_roundoff) ^ (j + n) * (INR (j + n) * fval w) < bpow radix2 1024 ->
  length (widths w x n) = n /\ ascending (fval x :: map fval (widths w x n)) /\ follows (fun k => (j + S k)%nat) (fun k => INR (j + S k) * fval w) (widths w x n).
Proof.
  intros Vw Fw Pw. pose proof u_small as U. induction n as [|n IH]; intros j x V F R J O; cbn [widths]; [split; [reflexivity|]; split; [exact I | intros [|k] b; discriminate]|].
  pose proof (pos_INR j) as N. assert (P1 : 0 <= (1 - unit_roundoff) ^ j <= 1) by (split; [apply pow_le; lra | apply Rle_trans with (1 ^ j); [apply pow_incr; lra | rewrite pow1; lra]]). assert (P2 : 1 <= (1 + unit_roundoff) ^ j) by (apply pow_R1_Rle; lra).
  assert (Px : 0 <= fval x) by (destruct R as [R1 _]; eapply Rle_trans; [|exact R1]; apply Rmult_le_pos; [lra | nra]).
  destruct (add_rel x w V Vw ltac:(lra)) as [A1 A2].
  assert (Rn : rounded (S j) (INR (S j) * fval w) (rnd64 (fval x + fval w))).
  { destruct R as [R1 R2]. rewrite S_INR. cbn [rounded pow]. unfold rounded. cbn [pow]. split.
    - apply Rle_trans with ((1 - unit_roundoff) * (fval x + fval w)); [|exact A1]. replace ((1 - unit_roundoff) * (1 - unit_roundoff) ^ j * ((INR j + 1) * fval w)) with ((1 - unit_roundoff) * ((1 - unit_roundoff) ^ j * (INR j * fval w) + (1 - unit_roundoff) ^ j * fval w)) by ring. apply Rmult_le_compat_l; [lra|]. nra.
    - apply Rle_trans with ((1 + unit_roundoff) * (fval x + fval w)); [exact A2|]. replace ((1 + unit_roundoff) * (1 + unit_roundoff) ^ j * ((INR j + 1) * fval w)) with ((1 + unit_roundoff) * ((1 + unit_roundoff) ^ j * (INR j * fval w) + (1 + unit_roundoff) ^ j * fval w)) by ring. apply Rmult_le_compat_l; [lra|]. nra. }
  assert (Inc : fval x < rnd64 (fval x + fval w)). { apply (add_step j); try assumption; [|exact (proj2 R)]. eapply Rle_trans; [|exact J]. apply le_INR. lia. }
  assert (Bd : Rabs (rnd64 (fval x + fval w)) < bpow radix2 1024).
  { rewrite Rabs_pos_eq by lra. eapply Rle_lt_trans; [exact (proj2 Rn)|]. eapply Rle_lt_trans; [|exact O]. apply Rmult_le_compat; [apply pow_le; lra | pose proof (pos_INR (S j)); nra | apply Rle_pow; [lra | lia] | apply Rmult_le_compat_r; [lra|]; apply le_INR; lia]. }
  destruct (add_ok 53 1024 p53 m1024 x w V Vw F Fw Bd) as [Fy Ey]. assert (Vy : valid64 (dadd x w)) by (now apply (add_valid 53 1024 p53 m1024)). unfold dadd in *.
  replace (j + S n)%nat with (S j + n)%nat in * by lia. rewrite <- Ey in Rn, Inc. destruct (IH (S j) (SFadd 53 1024 x w) Vy Fy Rn J O) as [L [A Fo]].
  split; [cbn [length]; now rewrite L|]. split; [cbn [map ascending]; split; [exact Inc | exact A]|].
  intros [|k] b Q; cbn [nth_error] in Q; [injection Q as <-; rewrite Nat.add_1_r; split; [exact Fy | exact Rn]|]. replace (j + S (S k))%nat with (S j + S k)%nat by lia. now apply Fo.
Qed.

Lemma powers_more base max l fuel : forall fuel' x, (fuel <= fuel')%nat -> powers fuel base x max = Boundaries l -> powers fuel' base x max = Boundaries l.
Proof.
  revert l. induction fuel as [|fuel IH]; intros l fuel' x L E; [discriminate|]. destruct fuel' as [|fuel']; [lia|]. cbn [powers] in *. destruct (dltb x max); [|exact E].
  destruct (powers fuel base (dmul x base) max) as [| |l'] eqn:Q; try discriminate. rewrite (IH l' fuel' (dmul x base) ltac:(lia) Q). exact E.
Qed.
Lemma powers_stuck base max x : dltb x max = true -> dmul x base = x -> forall fuel, powers fuel base x max = NotDone.
Proof. intros L S. induction fuel as [|fuel IH]; [reflexivity|]. cbn [powers]. now rewrite L, S, IH. Qed.
