(* The float32 expressions of the two branch-and-bound scan matchers are monotone and stay in range. *)
From Coq Require Import List ZArith Bool SpecFloat Reals Lia Lra.
From Flocq Require Import Core.Core IEEE754.BinarySingleNaN.
From Verif Require Import Float32 FloatR Float32_Proofs PV_Model PV_Bounded.
Open Scope Z_scope.

(* a finite float32 as a multiple of 2^-149: the integers that stand for floats in FCSM2D_Model and
   FCSM3D_Model *)
Definition fkey (x : f32) : Z :=
  match x with
  | S754_finite s m e => (if s then - Zpos m else Zpos m) * 2 ^ (e + 149)
  | _ => 0
  end.
(* ComputeCellValue, fast_correlative_scan_matcher_2d.cc:163-165, and the conversion of
   precomputation_grid_3d.cc:53-57 *)
Definition quant_f (lo hi x : f32) : option Z :=
  f_round_to_int (fmul (fsub x lo) (fdiv (f_of_Z 255) (fsub hi lo))).
(* ToScore(sum / n), fast_correlative_scan_matcher_2d.h:74-76 and .cc:328-329, and
   ToProbability(sum / n), precomputation_grid_3d.h:32-35 and
   fast_correlative_scan_matcher_3d.cc:349-351 *)
Definition score_f (lo hi : f32) (n sum : Z) : f32 :=
  fadd lo (fmul (fdiv (f_of_Z sum) (f_of_Z n)) (fdiv (fsub hi lo) (f_of_Z 255))).
(* a range of scores: inside the unit interval and at least one half wide *)
Definition score_range (lo hi : f32) : Prop :=
  valid32 lo /\ valid32 hi /\ ffin lo /\ ffin hi /\
  (0 <= fval lo)%R /\ (fval hi <= 1)%R /\ (fval lo + / 2 <= fval hi)%R.

Open Scope R_scope.
Lemma fkey_val x : valid32 x -> ffin x -> fval x = IZR (fkey x) * bpow radix2 (-149).
Proof.
  destruct x as [s | s | | s m e]; try discriminate; intros V _; [cbn; lra|].
  assert (E : (-149 <= e)%Z).
  { unfold fvalid, SpecFloat.valid_binary, SpecFloat.bounded in V. apply andb_prop in V as [V _].
    unfold SpecFloat.canonical_mantissa in V. apply Zeq_bool_eq in V. unfold SpecFloat.fexp, SpecFloat.emin in V. lia. }
  unfold fval, SF2R, fkey, F2R. cbn [Fnum Fexp cond_Zopp].
  rewrite mult_IZR. replace e with (e + 149 + -149)%Z at 1 by lia. rewrite bpow_plus.
  replace (IZR (2 ^ (e + 149))) with (bpow radix2 (e + 149)) by (rewrite <- (IZR_Zpower radix2) by lia; reflexivity).
  destruct s; cbn [cond_Zopp]; ring.
Qed.
Lemma fkey_le x y : valid32 x -> valid32 y -> ffin x -> ffin y -> (fkey x <= fkey y)%Z <-> fval x <= fval y.
Proof.
  intros Vx Vy Fx Fy. rewrite (fkey_val x), (fkey_val y) by assumption. pose proof (bpow_gt_0 radix2 (-149)) as P. split.
  - intros H. apply IZR_le in H. apply Rmult_le_compat_r; lra.
  - intros H. apply le_IZR. eapply Rmult_le_reg_r; eassumption.
Qed.
(* the integers are ordered as the floats *)
Lemma fkey_order x y : valid32 x -> valid32 y -> ffin x -> ffin y -> (fkey x <=? fkey y)%Z = fleb x y.
Proof.
  intros Vx Vy Fx Fy. apply eq_true_iff_eq. rewrite Z.leb_le, fkey_le, fleb_ok by assumption. reflexivity.
Qed.

Lemma rnd_pos x : 0 <= x -> 0 <= rnd32 x.
Proof. intros H. rewrite <- rnd32_0. now apply rnd32_le. Qed.
Lemma rnd_fix z : valid32 (f_of_Z z) -> fval (f_of_Z z) = IZR z -> rnd32 (IZR z) = IZR z.
Proof. intros V E. rewrite <- E. now apply rnd32_val. Qed.
Lemma val_1 : valid32 (f_of_Z 1) /\ ffin (f_of_Z 1) /\ fval (f_of_Z 1) = 1.
Proof.
  split; [apply f_of_Z_valid|]. split; [reflexivity|].
  fcompute (f_of_Z 1). rewrite fval_pos. change (-23)%Z with (- (23))%Z. rewrite bpow_neg. simpl. lra.
Qed.
Lemma val_255 : valid32 (f_of_Z 255) /\ ffin (f_of_Z 255) /\ fval (f_of_Z 255) = 255.
Proof.
  split; [apply f_of_Z_valid|]. split; [reflexivity|].
  fcompute (f_of_Z 255). rewrite fval_pos. change (-16)%Z with (- (16))%Z. rewrite bpow_neg. simpl. lra.
Qed.
Lemma rnd_1 : rnd32 1 = 1. Proof. apply (rnd_fix 1); apply val_1. Qed.
Lemma rnd_255 : rnd32 255 = 255. Proof. apply (rnd_fix 255); apply val_255. Qed.
Lemma rnd_half : rnd32 (/ 2) = / 2.
Proof.
  assert (E : fval (S754_finite false 8388608 (-24)) = / 2).
  { rewrite fval_pos. change (-24)%Z with (- (24))%Z. rewrite bpow_neg. simpl. lra. }
  rewrite <- E. apply rnd32_val. reflexivity.
Qed.
Lemma rnd_64 : rnd32 (IZR (2 ^ 64)) = IZR (2 ^ 64).
Proof. apply (rnd_fix (2 ^ 64)); apply two64_val. Qed.
Lemma rnd_le64 x : x <= IZR (2 ^ 64) -> rnd32 x <= IZR (2 ^ 64).
Proof. intros H. rewrite <- rnd_64. now apply rnd32_le. Qed.
Lemma rnd_ok x : 0 <= x <= 3 * IZR (2 ^ 64) -> Rabs (rnd32 x) < bpow radix2 128.
Proof. intros [A B]. apply rnd32_small. rewrite Rabs_pos_eq by exact A. eapply Rle_trans; [exact B|]. rewrite <- mult_IZR. apply IZR_le. discriminate. Qed.
Lemma of_Z_nonneg z : (0 <= z < 2 ^ 62)%Z -> ffin (f_of_Z z) /\ fval (f_of_Z z) = rnd32 (IZR z) /\ 0 <= fval (f_of_Z z) <= IZR (2 ^ 62).
Proof.
  intros H. assert (P : 0 <= IZR z < IZR (2 ^ 62)) by (split; [apply (IZR_le 0) | apply IZR_lt]; lia).
  assert (B : IZR (2 ^ 62) <= 3 * IZR (2 ^ 64)) by (rewrite <- mult_IZR; apply IZR_le; discriminate).
  destruct (of_Z_ok 24 128 p24 m128 z) as [F E]; [apply rnd_ok; lra|].
  split; [exact F|]. split; [exact E|]. unfold f_of_Z. rewrite E. split; [apply rnd_pos; lra|].
  assert (E62 : rnd32 (IZR (2 ^ 62)) = IZR (2 ^ 62)).
  { apply rnd_fix; [apply f_of_Z_valid|]. fcompute (f_of_Z (2 ^ 62)). rewrite fval_pos.
    rewrite <- (IZR_Zpower radix2) by lia. rewrite <- mult_IZR. reflexivity. }
  rewrite <- E62. apply rnd32_le. lra.
Qed.

Section Range.
Variables lo hi : f32.
Hypothesis HR : score_range lo hi.
Notation D := (fsub hi lo).
Lemma d_ok : valid32 D /\ ffin D /\ fval D = rnd32 (fval hi - fval lo) /\ / 2 <= fval D <= 1.
Proof.
  destruct HR as (Vl & Vh & Fl & Fh & L0 & H1 & W).
  assert (B : / 2 <= fval hi - fval lo <= 1) by lra.
  destruct (fsub_ok hi lo Vh Vl Fh Fl) as [F E].
  { apply rnd_ok. pose proof (IZR_le 1 (2 ^ 64) ltac:(lia)). lra. }
  split; [now apply fsub_valid|]. split; [exact F|]. split; [exact E|]. rewrite E.
  split; [rewrite <- rnd_half | rewrite <- rnd_1]; apply rnd32_le; lra.
Qed.
Lemma s_ok : let S := fdiv (f_of_Z 255) D in valid32 S /\ ffin S /\ fval S = rnd32 (255 / fval D) /\ 255 <= fval S <= 512.
Proof.
  destruct d_ok as (V & F & _ & B). destruct val_255 as (V5 & F5 & E5). cbv zeta.
  assert (Q : 255 <= 255 / fval D <= 512).
  { split; apply (Rmult_le_reg_r (fval D)); try lra; unfold Rdiv; rewrite Rmult_assoc, Rinv_l by lra; lra. }
  destruct (fdiv_ok (f_of_Z 255) D V5 V F5) as [F' E]; [lra | rewrite E5; apply rnd_ok; pose proof (IZR_le 512 (2 ^ 64) ltac:(lia)); lra|].
  split; [now apply fdiv_valid|]. split; [exact F'|]. rewrite E5 in E. split; [exact E|]. rewrite E.
  assert (E512 : rnd32 512 = 512).
  { apply (rnd_fix 512); [apply f_of_Z_valid|]. fcompute (f_of_Z 512). rewrite fval_pos.
    change (-14)%Z with (- (14))%Z. rewrite bpow_neg. simpl. lra. }
  split; [rewrite <- rnd_255 at 1 | rewrite <- E512]; apply rnd32_le; lra.
Qed.

Definition spread (x : f32) : f32 := fmul (fsub x lo) (fdiv (f_of_Z 255) D).
Lemma spread_ok x : valid32 x -> ffin x -> fval lo <= fval x <= fval hi ->
  ffin (spread x) /\ fval (spread x) = rnd32 (rnd32 (fval x - fval lo) * fval (fdiv (f_of_Z 255) D)) /\
  0 <= fval (spread x) < 255 + / 2.
Proof.
  intros V F [A B]. destruct s_ok as (VS & FS & ES & BS). destruct d_ok as (VD & FD & ED & BD).
  destruct HR as (Vl & Vh & Fl & Fh & L0 & H1 & W).
  set (S := fdiv (f_of_Z 255) D) in *.
  assert (P : 0 <= rnd32 (fval x - fval lo) <= fval D).
  { split; [apply rnd_pos; lra|]. rewrite ED. apply rnd32_le. lra. }
  pose proof (IZR_le 512 (2 ^ 64) ltac:(lia)) as L64.
  destruct (fsub_ok x lo V Vl F Fl) as [F1 E1]; [apply rnd_ok; lra|].
  assert (Q : 0 <= rnd32 (fval x - fval lo) * fval S <= fval D * fval S).
  { split; [apply Rmult_le_pos; lra | apply Rmult_le_compat_r; lra]. }
  assert (T : fval D * fval S <= 255 + / 8).
  { pose proof (rnd32_err (255 / fval D)) as Er. rewrite <- ES in Er. apply Rabs_le_inv in Er.
    assert (Q5 : 255 / fval D <= 510).
    { apply (Rmult_le_reg_r (fval D)); [lra|]. unfold Rdiv. rewrite Rmult_assoc, Rinv_l by lra. lra. }
    assert (Q0 : 0 <= 255 / fval D).
    { apply Rmult_le_pos; [lra|]. apply Rlt_le, Rinv_0_lt_compat. lra. }
    rewrite (Rabs_pos_eq (255 / fval D)) in Er by exact Q0.
    assert (U : fval S <= 255 / fval D + / 8).
    { enough (/ 16777216 * (255 / fval D) + / IZR (2 ^ 150) <= / 8) by lra.
      assert (I2 : / IZR (2 ^ 150) <= / 16) by (apply Rinv_le; [lra | apply IZR_le; lia]).
      lra. }
    apply Rle_trans with (fval D * (255 / fval D + / 8)); [apply Rmult_le_compat_l; lra|].
    rewrite Rmult_plus_distr_l. unfold Rdiv. rewrite (Rmult_comm 255), <- Rmult_assoc, Rinv_r by lra. lra. }
  destruct (fmul_ok (fsub x lo) S (fsub_valid _ _ V Vl) VS F1 FS) as [F2 E2]; [rewrite E1; apply rnd_ok; lra|].
  rewrite E1 in E2. unfold spread. fold S. split; [exact F2|]. split; [exact E2|]. rewrite E2. split; [apply rnd_pos; lra|].
  assert (E4 : rnd32 (255 + / 4) = 255 + / 4).
  { assert (Ev : fval (S754_finite false 16728064 (-16)) = 255 + / 4).
    { rewrite fval_pos. change (-16)%Z with (- (16))%Z. rewrite bpow_neg. simpl. lra. }
    rewrite <- Ev. apply rnd32_val. reflexivity. }
  apply Rle_lt_trans with (255 + / 4); [rewrite <- E4; apply rnd32_le; lra | lra].
Qed.
(* the 8-bit value exists and passes the CHECKs *)
Lemma quant_f_ok x : valid32 x -> ffin x -> fval lo <= fval x <= fval hi ->
  exists c, quant_f lo hi x = Some c /\ (0 <= c <= 255)%Z /\ nearest_away (fval (spread x)) c.
Proof.
  intros V F B. destruct (spread_ok x V F B) as (F' & _ & R).
  destruct (round_to_int_ok (spread x) F') as (c & E & N).
  { rewrite Rabs_pos_eq by lra. apply Rlt_trans with 256; [lra | apply IZR_lt; reflexivity]. }
  exists c. split; [exact E|]. split; [|exact N]. destruct N as [N _]. specialize (N (proj1 R)). split.
  - apply Z.lt_succ_r, lt_IZR. rewrite succ_IZR. lra.
  - apply Z.lt_succ_r, lt_IZR. change (IZR (Z.succ 255)) with 256. lra.
Qed.
Lemma quant_f_mono x y c d : valid32 x -> valid32 y -> ffin x -> ffin y ->
  fval lo <= fval x -> fval x <= fval y -> fval y <= fval hi ->
  quant_f lo hi x = Some c -> quant_f lo hi y = Some d -> (c <= d)%Z.
Proof.
  intros Vx Vy Fx Fy A B C Ec Ed.
  destruct (quant_f_ok x Vx Fx) as (c' & E1 & _ & N1); [lra|]. destruct (quant_f_ok y Vy Fy) as (d' & E2 & _ & N2); [lra|].
  rewrite E1 in Ec. rewrite E2 in Ed. injection Ec as <-. injection Ed as <-.
  refine (nearest_away_mono _ _ _ _ _ N1 N2).
  destruct (spread_ok x Vx Fx) as (_ & -> & _); [lra|]. destruct (spread_ok y Vy Fy) as (_ & -> & _); [lra|].
  destruct s_ok as (_ & _ & _ & BS). apply rnd32_le. apply Rmult_le_compat_r; [lra|]. apply rnd32_le. lra.
Qed.

(* the score of a sum that fits an int *)
Lemma score_f_val n s : (1 <= n < 2 ^ 62)%Z -> (0 <= s < 2 ^ 62)%Z ->
  valid32 (score_f lo hi n s) /\ ffin (score_f lo hi n s) /\
  fval (score_f lo hi n s) =
    rnd32 (fval lo + rnd32 (rnd32 (fval (f_of_Z s) / fval (f_of_Z n)) * fval (fdiv D (f_of_Z 255)))) /\
  0 <= fval (fdiv D (f_of_Z 255)) /\ 1 <= fval (f_of_Z n).
Proof.
  intros Hn Hs. destruct d_ok as (VD & FD & ED & BD). destruct val_255 as (V5 & F5 & E5).
  destruct HR as (Vl & Vh & Fl & Fh & L0 & H1 & W).
  destruct (of_Z_nonneg s Hs) as (Fs & Es & Bs). destruct (of_Z_nonneg n ltac:(lia)) as (Fn & En & Bn).
  pose proof (IZR_le 512 (2 ^ 62) ltac:(lia)) as L62. pose proof (IZR_le (2 ^ 62) (2 ^ 64) ltac:(lia)) as L64.
  assert (N1 : 1 <= fval (f_of_Z n)).
  { rewrite En, <- rnd_1. apply rnd32_le. apply (IZR_le 1). lia. }
  assert (Q1 : 0 <= fval (f_of_Z s) / fval (f_of_Z n) <= IZR (2 ^ 64)).
  { split; apply (Rmult_le_reg_r (fval (f_of_Z n))); try lra; unfold Rdiv; rewrite Rmult_assoc, Rinv_l by lra; lra. }
  destruct (fdiv_ok (f_of_Z s) (f_of_Z n) (f_of_Z_valid _) (f_of_Z_valid _) Fs) as [F1 E1]; [lra | apply rnd_ok; lra|].
  assert (Q2 : 0 <= fval D / fval (f_of_Z 255) <= 1).
  { rewrite E5. lra. }
  destruct (fdiv_ok D (f_of_Z 255) VD V5 FD) as [F2 E2]; [lra | apply rnd_ok; lra|].
  assert (B1 : 0 <= fval (fdiv (f_of_Z s) (f_of_Z n)) <= IZR (2 ^ 64)).
  { rewrite E1. split; [apply rnd_pos; lra | apply rnd_le64; lra]. }
  assert (B2 : 0 <= fval (fdiv D (f_of_Z 255)) <= 1).
  { rewrite E2. split; [apply rnd_pos; lra | rewrite <- rnd_1; apply rnd32_le; lra]. }
  assert (Q3 : 0 <= fval (fdiv (f_of_Z s) (f_of_Z n)) * fval (fdiv D (f_of_Z 255)) <= IZR (2 ^ 64)).
  { split; [apply Rmult_le_pos; lra|]. apply Rle_trans with (IZR (2 ^ 64) * 1); [apply Rmult_le_compat; lra | lra]. }
  pose proof (fdiv_valid _ _ (f_of_Z_valid s) (f_of_Z_valid n)) as V1.
  pose proof (fdiv_valid _ _ VD V5) as V2.
  destruct (fmul_ok _ _ V1 V2 F1 F2) as [F3 E3]; [apply rnd_ok; lra|].
  pose proof (fmul_valid _ _ V1 V2) as V3.
  assert (B3 : 0 <= fval (fmul (fdiv (f_of_Z s) (f_of_Z n)) (fdiv D (f_of_Z 255))) <= IZR (2 ^ 64)).
  { rewrite E3. split; [apply rnd_pos; lra | apply rnd_le64; lra]. }
  destruct (fadd_ok _ _ Vl V3 Fl F3) as [F4 E4]; [apply rnd_ok; lra|].
  split; [now apply fadd_valid|]. split; [exact F4|]. split; [|split; [apply B2 | exact N1]].
  unfold score_f. rewrite E4, E3, E1. reflexivity.
Qed.
Lemma score_f_mono n a b : (1 <= n < 2 ^ 62)%Z -> (0 <= a <= b)%Z -> (b < 2 ^ 62)%Z ->
  fval (score_f lo hi n a) <= fval (score_f lo hi n b).
Proof.
  intros Hn Hab Hb. destruct (score_f_val n a Hn ltac:(lia)) as (_ & _ & -> & P & N1).
  destruct (score_f_val n b Hn ltac:(lia)) as (_ & _ & -> & _ & _).
  apply rnd32_le. apply Rplus_le_compat_l. apply rnd32_le. apply Rmult_le_compat_r; [exact P|]. apply rnd32_le.
  apply Rmult_le_compat_r; [apply Rlt_le, Rinv_0_lt_compat; lra|].
  destruct (of_Z_nonneg a ltac:(lia)) as (_ & -> & _). destruct (of_Z_nonneg b ltac:(lia)) as (_ & -> & _).
  apply rnd32_le. apply IZR_le. lia.
Qed.
Lemma score_key_mono n a b : (1 <= n < 2 ^ 62)%Z -> (0 <= a <= b)%Z -> (b < 2 ^ 62)%Z ->
  (fkey (score_f lo hi n a) <= fkey (score_f lo hi n b))%Z.
Proof.
  intros Hn Hab Hb. destruct (score_f_val n a Hn ltac:(lia)) as (Va & Fa & _). destruct (score_f_val n b Hn ltac:(lia)) as (Vb & Fb & _).
  apply fkey_le; auto. now apply score_f_mono.
Qed.
End Range.

(* the range of the 3D matcher *)
Lemma prob_range : score_range kMinProbability kMaxProbability.
Proof.
  destruct prob_pre as (A & B & C & E & V1 & V2). unfold score_range. rewrite V1, V2. do 4 (split; [assumption|]). lra.
Qed.
(* the range of the 2D matcher on a ProbabilityGrid: min_score_ and max_score_,
   fast_correlative_scan_matcher_2d.cc:97-98 *)
Definition cost_lo : f32 := one_minus kMaxCost.
Definition cost_hi : f32 := one_minus kMinCost.
Lemma cost_range : score_range cost_lo cost_hi.
Proof.
  unfold score_range. do 4 (split; [vm_compute; reflexivity|]).
  fcompute cost_lo. fcompute cost_hi. rewrite !fval_pos.
  repeat match goal with |- context [bpow radix2 (Zneg ?p)] => change (Zneg p) with (- Zpos p)%Z; rewrite (bpow_neg p) end.
  simpl. lra.
Qed.

(* ---- from the integers back to floats ---- *)
Lemma bn_ok z e : Rabs (rnd32 (IZR z * bpow radix2 e)) < bpow radix2 128 ->
  ffin (SpecFloat.binary_normalize 24 128 z e false) /\
  fval (SpecFloat.binary_normalize 24 128 z e false) = rnd32 (IZR z * bpow radix2 e).
Proof.
  intros L. rewrite (bn_equiv 24 128 p24 m128), fval_B2SF, ffin_B2SF.
  pose proof (binary_normalize_correct 24 128 p24 m128 mode_NE z e false) as C. cbv zeta in C.
  unfold F2R in C. cbn [Fnum Fexp] in C. rewrite Rlt_bool_true in C by exact L. destruct C as [C1 [C2 _]]. now split.
Qed.
Definition unkey (z : Z) : f32 := SpecFloat.binary_normalize 24 128 z (-149) false.
Section Keys.
Variables lo hi : f32.
Hypothesis HR : score_range lo hi.
(* quant_f on the integer of a float; outside of the range the value at its end *)
Definition quant_key (z : Z) : Z :=
  match quant_f lo hi (unkey (Z.max (fkey lo) (Z.min z (fkey hi)))) with Some c => c | None => 0%Z end.
Lemma unkey_ok z : (fkey lo <= z <= fkey hi)%Z ->
  valid32 (unkey z) /\ ffin (unkey z) /\ fval (unkey z) = rnd32 (IZR z * bpow radix2 (-149)) /\
  fval lo <= fval (unkey z) <= fval hi.
Proof.
  intros H. destruct HR as (Vl & Vh & Fl & Fh & L0 & H1 & W). pose proof (bpow_gt_0 radix2 (-149)) as P.
  assert (B : fval lo <= IZR z * bpow radix2 (-149) <= fval hi).
  { rewrite (fkey_val lo Vl Fl), (fkey_val hi Vh Fh). split; apply Rmult_le_compat_r; try lra; apply IZR_le; lia. }
  destruct (bn_ok z (-149)) as [F E]. { apply rnd_ok. pose proof (IZR_le 1 (2 ^ 64) ltac:(lia)). lra. }
  split; [exact (of_Z_valid 24 128 p24 m128 z (-149))|]. split; [exact F|]. split; [exact E|]. unfold unkey. rewrite E.
  rewrite <- (rnd32_val lo Vl), <- (rnd32_val hi Vh). split; apply rnd32_le; lra.
Qed.
Lemma quant_key_mono a b : (a <= b)%Z -> (quant_key a <= quant_key b)%Z.
Proof.
  intros H. unfold quant_key. destruct HR as (Vl & Vh & Fl & Fh & L0 & H1 & W).
  assert (K : (fkey lo <= fkey hi)%Z) by (apply fkey_le; auto; lra).
  set (a' := Z.max (fkey lo) (Z.min a (fkey hi))). set (b' := Z.max (fkey lo) (Z.min b (fkey hi))).
  destruct (unkey_ok a') as (Va & Fa & Ea & Ba); [unfold a'; lia|]. destruct (unkey_ok b') as (Vb & Fb & Eb & Bb); [unfold b'; lia|].
  destruct (quant_f_ok lo hi HR _ Va Fa Ba) as (c & Ec & _). destruct (quant_f_ok lo hi HR _ Vb Fb Bb) as (d & Ed & _). rewrite Ec, Ed.
  apply (quant_f_mono lo hi HR (unkey a') (unkey b')); auto; try lra. rewrite Ea, Eb. apply rnd32_le.
  apply Rmult_le_compat_r; [apply bpow_ge_0|]. apply IZR_le. unfold a', b'. lia.
Qed.
Lemma quant_key_eq x : valid32 x -> ffin x -> fval lo <= fval x <= fval hi -> quant_f lo hi x = Some (quant_key (fkey x)).
Proof.
  intros V F B. destruct HR as (Vl & Vh & Fl & Fh & L0 & H1 & W). unfold quant_key.
  assert (K : (fkey lo <= fkey x <= fkey hi)%Z) by (split; apply fkey_le; auto; lra).
  replace (Z.max (fkey lo) (Z.min (fkey x) (fkey hi))) with (fkey x) by lia.
  destruct (unkey_ok (fkey x) K) as (Vu & Fu & Eu & Bu). rewrite <- (fkey_val x V F), (rnd32_val x V) in Eu.
  destruct (quant_f_ok lo hi HR x V F B) as (c & Ec & _). destruct (quant_f_ok lo hi HR _ Vu Fu Bu) as (d & Ed & _).
  rewrite Ec, Ed. f_equal. apply Z.le_antisymm.
  - apply (quant_f_mono lo hi HR x (unkey (fkey x))); auto; lra.
  - apply (quant_f_mono lo hi HR (unkey (fkey x)) x); auto; lra.
Qed.
Lemma quant_key_range z : (0 <= quant_key z <= 255)%Z.
Proof.
  unfold quant_key. destruct HR as (Vl & Vh & Fl & Fh & L0 & H1 & W). assert (K : (fkey lo <= fkey hi)%Z) by (apply fkey_le; auto; lra).
  destruct (unkey_ok (Z.max (fkey lo) (Z.min z (fkey hi)))) as (Va & Fa & Ea & Ba); [lia|].
  destruct (quant_f_ok lo hi HR _ Va Fa Ba) as (c & Ec & R & _). now rewrite Ec.
Qed.
End Keys.

Lemma fabs_pos x : ffin x -> 0 < fval x -> fabs x = x.
Proof.
  destruct x as [s | s | | s m e]; try discriminate; intros _ P; [cbn in P; lra|].
  destruct s; [|reflexivity]. exfalso. pose proof (F2R_lt_0 radix2 (Float radix2 (Zneg m) e) eq_refl) as Q.
  unfold fval, SF2R in P. cbn [cond_Zopp] in P. change (- Zpos m)%Z with (Zneg m) in P. lra.
Qed.
