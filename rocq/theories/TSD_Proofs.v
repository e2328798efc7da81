(* The value converter of the TSDF, and the invariant of a TSDF2D. *)
From Coq Require Import List ZArith QArith Bool Reals Lia Lra SpecFloat.
From Flocq Require Import Core.Core IEEE754.BinarySingleNaN.
From Verif Require Import Vec Float32 FloatR Float32_Proofs PV_Model PV_Bounded PV_Near PV_Proofs
  G2_Model G2_Spec G2_Proofs G2_Grow G2_Crop TSD_Model TSD_Spec TSD_Conv.
Import ListNotations.

Section Conv.
Open Scope R_scope.

Lemma double_exact x : valid32 x -> rnd32 (2 * fval x) = 2 * fval x.
Proof.
  intros V. assert (P : Prec_gt_0 24) by reflexivity.
  assert (G : generic_format radix2 (FLT_exp (-149) 24) (fval x)).
  { rewrite <- (rnd32_val x V). apply generic_format_round; typeclasses eauto. }
  apply round_generic; [typeclasses eauto|].
  apply FLT_format_generic in G; [|reflexivity]. destruct G as [f E1 E2 E3].
  apply generic_format_FLT. exists (Float radix2 (Fnum f) (Fexp f + 1)).
  - rewrite E1. unfold F2R. cbn [Fnum Fexp]. rewrite bpow_plus. change (bpow radix2 1) with 2. ring.
  - exact E2.
  - cbn [Fexp]. eapply Z.le_trans; [exact E3|]. lia.
Qed.

Lemma neg_ok x : valid32 x -> ffin x ->
  valid32 (fneg x) /\ ffin (fneg x) /\ fval (fneg x) = - fval x.
Proof.
  intros V F. destruct x as [s | s | | s m e]; try discriminate.
  - repeat split. unfold fval; cbn. lra.
  - split; [exact V|]. split; [reflexivity|]. unfold fval. cbn [fneg SFopp SF2R].
    destruct s; cbn [negb cond_Zopp]; unfold F2R; cbn [Fnum Fexp]; 
      change (Zneg m) with (- Zpos m)%Z; rewrite opp_IZR; ring.
Qed.

Lemma usable_ok x : usable x -> valid32 x /\ ffin x /\ / IZR (2 ^ 30) <= fval x <= IZR (2 ^ 30).
Proof.
  intros [V [A B]]. assert (F : ffin x).
  { destruct x as [s | s | | s m e]; try reflexivity; try (destruct s; discriminate). discriminate. }
  split; [exact V|]. split; [exact F|].
  apply (fleb_ok small30 x eq_refl V eq_refl F) in A. apply (fleb_ok x large30 V eq_refl F eq_refl) in B.
  assert (E1 : fval small30 = / IZR (2 ^ 30)).
  { fcompute small30. rewrite fval_pos. change (-53)%Z with (- (53))%Z. rewrite bpow_neg.
    replace (IZR (2 ^ 53)) with (IZR (2 ^ 30) * IZR (2 ^ 23)) by (rewrite <- mult_IZR; reflexivity).
    change (IZR 8388608) with (IZR (2 ^ 23)). field. split; apply IZR_neq; lia. }
  assert (E2 : fval large30 = IZR (2 ^ 30)).
  { fcompute large30. rewrite fval_pos. change 7%Z with (Z.of_nat 7). rewrite <- (IZR_Zpower radix2) by lia.
    rewrite <- mult_IZR. reflexivity. }
  rewrite E1 in A. rewrite E2 in B. auto.
Qed.

Section One.
Variable c : converter.
Hypothesis U : usable_conv c.
Let T := fval (max_tsd c).
Let W := fval (max_weight c).

Lemma zero_ok : valid32 min_weight /\ ffin min_weight /\ fval min_weight = 0.
Proof. repeat split. Qed.

(* the premises of the general conversion lemmas, for the distances *)
Lemma tsd_premises :
  valid32 (min_tsd c) /\ valid32 (max_tsd c) /\ ffin (min_tsd c) /\ ffin (max_tsd c) /\
  / IZR (2 ^ 60) <= fval (max_tsd c) - fval (min_tsd c) <= IZR (2 ^ 60) /\
  - (fval (max_tsd c) - fval (min_tsd c)) <= fval (min_tsd c) <= 0 /\
  rnd32 (fval (max_tsd c) - fval (min_tsd c)) = fval (max_tsd c) - fval (min_tsd c) /\
  fval (min_tsd c) = - T /\ 0 < T.
Proof.
  destruct U as [UT _]. destruct (usable_ok _ UT) as [V [F [B1 B2]]].
  destruct (neg_ok _ V F) as [Vn [Fn En]]. unfold min_tsd in *. rewrite En. fold T. fold T in B1, B2.
  assert (P : 0 < T) by (eapply Rlt_le_trans; [|exact B1]; apply Rinv_0_lt_compat; apply IZR_lt; reflexivity).
  do 4 (split; [assumption|]). split; [split|].
  - apply Rle_trans with T; [|lra]. eapply Rle_trans; [|exact B1].
    apply Rinv_le; [apply IZR_lt; reflexivity | apply IZR_le; discriminate].
  - apply Rle_trans with (2 * IZR (2 ^ 30)); [lra|]. rewrite <- mult_IZR. apply IZR_le. discriminate.
  - split; [lra|]. split; [|split; [reflexivity | exact P]].
    replace (T - - T) with (2 * T) by ring. now apply double_exact.
Qed.

Lemma weight_premises :
  valid32 min_weight /\ valid32 (max_weight c) /\ ffin min_weight /\ ffin (max_weight c) /\
  / IZR (2 ^ 60) <= fval (max_weight c) - fval min_weight <= IZR (2 ^ 60) /\
  - (fval (max_weight c) - fval min_weight) <= fval min_weight <= 0 /\
  rnd32 (fval (max_weight c) - fval min_weight) = fval (max_weight c) - fval min_weight /\ 0 < W.
Proof.
  destruct U as [_ UW]. destruct (usable_ok _ UW) as [V [F [B1 B2]]].
  destruct zero_ok as [V0 [F0 E0]]. rewrite E0. fold W. fold W in B1, B2.
  assert (P : 0 < W) by (eapply Rlt_le_trans; [|exact B1]; apply Rinv_0_lt_compat; apply IZR_lt; reflexivity).
  do 4 (split; [assumption|]). split; [split|].
  - apply Rle_trans with W; [|lra]. eapply Rle_trans; [|exact B1].
    apply Rinv_le; [apply IZR_lt; reflexivity | apply IZR_le; discriminate].
  - apply Rle_trans with (IZR (2 ^ 30)); [lra|]. apply IZR_le. discriminate.
  - split; [lra|]. split; [|exact P]. rewrite Rminus_0_r. now apply rnd32_val.
Qed.

Lemma tsd_to_value_eq x : tsd_to_value c x = bounded_float_to_value x (min_tsd c) (max_tsd c).
Proof. reflexivity. Qed.
Lemma weight_to_value_eq x : weight_to_value c x = bounded_float_to_value x min_weight (max_weight c).
Proof. reflexivity. Qed.

Ltac tsd_pre := destruct tsd_premises as [P1 [P2 [P3 [P4 [[P5 P6] [P7 [P8 [P9 P10]]]]]]]].
Ltac weight_pre := destruct weight_premises as [P1 [P2 [P3 [P4 [[P5 P6] [P7 [P8 P9]]]]]]].

Lemma tsd_bounds : bounds_ok (min_tsd c) (max_tsd c).
Proof. tsd_pre. apply gen_bounds; assumption. Qed.
Lemma weight_bounds : bounds_ok min_weight (max_weight c).
Proof. weight_pre. apply gen_bounds; assumption. Qed.

Lemma mod_marker v : (0 <= v <= 32767)%Z -> ((v + 32768) mod 32768 = v)%Z.
Proof. intros H. replace (v + 32768)%Z with (v + 1 * 32768)%Z by ring. rewrite Z.mod_add by lia. apply Z.mod_small. lia. Qed.
Lemma tsd_marked v : (0 <= v <= 32767)%Z -> value_to_tsd c (v + 32768) = value_to_tsd c v.
Proof. intros H. unfold value_to_tsd, table_value. rewrite mod_marker, (Z.mod_small v) by lia. reflexivity. Qed.
Lemma weight_marked v : (0 <= v <= 32767)%Z -> value_to_weight c (v + 32768) = value_to_weight c v.
Proof. intros H. unfold value_to_weight, table_value. rewrite mod_marker, (Z.mod_small v) by lia. reflexivity. Qed.

Lemma tsd_round v : (1 <= v <= 32767)%Z -> tsd_to_value c (value_to_tsd c v) = Some v.
Proof. intros H. tsd_pre. rewrite tsd_to_value_eq. apply gen_round; assumption. Qed.
Lemma weight_round v : (1 <= v <= 32767)%Z -> weight_to_value c (value_to_weight c v) = Some v.
Proof. intros H. weight_pre. rewrite weight_to_value_eq. apply gen_round; assumption. Qed.

Lemma tsd_range x : valid32 x -> x <> S754_nan ->
  exists v, tsd_to_value c x = Some v /\ (1 <= v <= 32767)%Z.
Proof. intros V N. apply range_of; [apply tsd_bounds | exact V | exact N]. Qed.
Lemma weight_range x : valid32 x -> x <> S754_nan ->
  exists v, weight_to_value c x = Some v /\ (1 <= v <= 32767)%Z.
Proof. intros V N. apply range_of; [apply weight_bounds | exact V | exact N]. Qed.

Lemma tsd_mono x y u v : valid32 x -> valid32 y -> x <> S754_nan -> y <> S754_nan ->
  fleb x y = true -> tsd_to_value c x = Some u -> tsd_to_value c y = Some v -> (u <= v)%Z.
Proof. intros ? ? ? ? ? A B. eapply (mono_of _ _ x y u v tsd_bounds); eassumption. Qed.
Lemma weight_mono x y u v : valid32 x -> valid32 y -> x <> S754_nan -> y <> S754_nan ->
  fleb x y = true -> weight_to_value c x = Some u -> weight_to_value c y = Some v -> (u <= v)%Z.
Proof. intros ? ? ? ? ? A B. eapply (mono_of _ _ x y u v weight_bounds); eassumption. Qed.

Lemma tsd_strict u v : (1 <= u)%Z -> (u < v)%Z -> (v <= 32767)%Z ->
  fltb (value_to_tsd c u) (value_to_tsd c v) = true.
Proof. intros. tsd_pre. apply gen_strict; assumption. Qed.
Lemma weight_strict u v : (1 <= u)%Z -> (u < v)%Z -> (v <= 32767)%Z ->
  fltb (value_to_weight c u) (value_to_weight c v) = true.
Proof. intros. weight_pre. apply gen_strict; assumption. Qed.

Lemma tsd_loss x v : valid32 x -> ffin x -> tsd_to_value c x = Some v ->
  Rabs (fval (value_to_tsd c v) - Rmax (- T) (Rmin T (fval x))) <= T / 30000.
Proof.
  intros V F E. tsd_pre. pose proof (gen_near _ _ (min_tsd c) P1 P2 P3 P4 P5 P6 P7 P8 x v V F E) as G.
  rewrite P9 in G. fold T in G. unfold value_to_tsd. lra.
Qed.
Lemma weight_loss x v : valid32 x -> ffin x -> weight_to_value c x = Some v ->
  Rabs (fval (value_to_weight c v) - Rmax 0 (Rmin W (fval x))) <= W / 60000.
Proof.
  intros V F E. weight_pre. pose proof (gen_near _ _ min_weight P1 P2 P3 P4 P5 P6 P7 P8 x v V F E) as G.
  destruct zero_ok as [_ [_ E0]]. rewrite E0 in G. fold W in G. unfold value_to_weight. lra.
Qed.

(* the floats of values, in real numbers *)
Lemma tsd_float v : (1 <= v <= 32767)%Z -> valid32 (value_to_tsd c v) /\ ffin (value_to_tsd c v) /\
  Rabs (fval (value_to_tsd c v) - T * ((IZR v - 16384) / 16383)) <= T / 1000000.
Proof.
  intros H. tsd_pre. destruct (value_near _ _ (min_tsd c) P1 P2 P3 P4 P5 P6 P7 P8 v H) as [V [F [E N]]].
  split; [exact V|]. split; [exact F|]. unfold value_to_tsd. rewrite E. unfold exact_value in N.
  rewrite P9 in N. fold T in N. apply Rabs_le_inv in N. apply Rabs_le.
  replace (- T + (T - - T) * ((IZR v - 1) / 32766)) with (T * ((IZR v - 16384) / 16383)) in N by field.
  lra.
Qed.
Lemma weight_float v : (1 <= v <= 32767)%Z -> valid32 (value_to_weight c v) /\ ffin (value_to_weight c v) /\
  Rabs (fval (value_to_weight c v) - W * ((IZR v - 1) / 32766)) <= W / 1000000 /\
  0 <= fval (value_to_weight c v).
Proof.
  intros H. weight_pre.
  destruct (value_near _ _ min_weight P1 P2 P3 P4 P5 P6 P7 P8 v H) as [V [F [E N]]].
  destruct zero_ok as [_ [_ E0]]. unfold exact_value in N. rewrite E0 in N. fold W in N. 
  split; [exact V|]. split; [exact F|]. unfold value_to_weight. rewrite E. split.
  - apply Rabs_le_inv in N. apply Rabs_le. rewrite Rminus_0_r, Rplus_0_l in N. lra.
  - apply Rle_trans with (back_of min_weight (max_weight c) 1).
    + unfold back_of. rewrite Rmult_1_l.
      destruct (scale_fin _ _ P1 P2 P3 P4 P5 P6 P8) as [Vs [Fs [Es Ps]]].
      set (k := fdiv (fsub (max_weight c) min_weight) (f_of_Z 32766)) in *.
      rewrite (rnd32_val k Vs). destruct (fsub_ok min_weight k P1 Vs P3 Fs) as [_ ->].
      { rewrite E0. replace (0 - fval k) with (- fval k) by ring.
        unfold rnd32. rewrite round_NE_opp. rewrite Rabs_Ropp. fold (rnd32 (fval k)).
        apply (small_D _ _ P6). rewrite E0, Rminus_0_r. fold W. rewrite E0, Rminus_0_r in Es. fold W in Es.
        apply Rabs_le_inv in Es. rewrite Rabs_pos_eq; lra. }
      rewrite E0. replace (0 - fval k) with (- fval k) by ring.
      unfold rnd32 at 2. rewrite round_NE_opp. fold (rnd32 (fval k)).
      rewrite (rnd32_val k Vs). rewrite Rplus_opp_r. rewrite rnd32_0. lra.
    + apply (back_of_le _ _ P1 P2 P3 P4 P5 P6 P8). lia.
Qed.
End One.
End Conv.
