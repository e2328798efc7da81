From Coq Require Import ZArith Reals Lra Lia List Bool.
From Verif Require Import Vec CF_Model RG_Model IG_Model IG_Proofs TX_Model TX_Spec.
Import ListNotations.
Open Scope R_scope.

Lemma lround_mono a b : a <= b -> (lround a <= lround b)%Z.
Proof.
  intros H. unfold lround.
  pose proof (floor_spec (a + 1 / 2)). pose proof (floor_spec (b + 1 / 2)).
  pose proof (floor_spec (- a + 1 / 2)). pose proof (floor_spec (- b + 1 / 2)).
  destruct (Rle_dec 0 a), (Rle_dec 0 b); try lra.
  - assert (E : IZR (Int_part (a + 1 / 2)) < IZR (Int_part (b + 1 / 2) + 1)) by (rewrite plus_IZR; lra).
    apply lt_IZR in E. lia.
  - assert (E : IZR (-1) < IZR (Int_part (b + 1 / 2))) by (replace (IZR (-1)) with (-1) by reflexivity; lra).
    assert (F : IZR (-1) < IZR (Int_part (- a + 1 / 2))) by (replace (IZR (-1)) with (-1) by reflexivity; lra).
    apply lt_IZR in E, F. lia.
  - assert (E : IZR (Int_part (- b + 1 / 2)) < IZR (Int_part (- a + 1 / 2) + 1)) by (rewrite plus_IZR; lra).
    apply lt_IZR in E. lia.
Qed.
Lemma lround_unique x k : IZR k - 1 / 2 < x < IZR k + 1 / 2 -> lround x = k.
Proof.
  intros H. pose proof (lround_near x).
  assert (A : IZR (lround x) < IZR (k + 1)) by (rewrite plus_IZR; lra).
  assert (B : IZR k < IZR (lround x + 1)) by (rewrite plus_IZR; lra).
  apply lt_IZR in A, B. lia.
Qed.

(* ---- log odds *)
Lemma ln9_pos : 0 < ln 9.
Proof. rewrite <- ln_1. apply ln_increasing; lra. Qed.
Lemma logit_log_odds p : 0 < p < 1 -> logit p = log_odds p.
Proof. intros H. unfold logit, log_odds, Rdiv. rewrite ln_mult, ln_Rinv; try lra. apply Rinv_0_lt_compat. lra. Qed.
Lemma logit_min : logit k_min_probability = - ln 9.
Proof. unfold logit, k_min_probability. rewrite <- ln_Rinv by lra. f_equal. field. Qed.
Lemma logit_max : logit k_max_probability = ln 9.
Proof. unfold logit, k_max_probability. f_equal. field. Qed.
Lemma log_odds_mono p q : 0 < p -> p <= q -> q < 1 -> log_odds p <= log_odds q.
Proof.
  intros A B C. unfold log_odds. destruct (Req_dec p q) as [->|N]; [lra|].
  assert (ln p < ln q) by (apply ln_increasing; lra).
  assert (ln (1 - q) < ln (1 - p)) by (apply ln_increasing; lra). lra.
Qed.
Lemma log_odds_flip p : log_odds (1 - p) = - log_odds p.
Proof. unfold log_odds. replace (1 - (1 - p)) with p by ring. ring. Qed.
Lemma log_odds_range p : 1 / 10 <= p <= 9 / 10 -> - ln 9 <= log_odds p <= ln 9.
Proof.
  intros H. rewrite <- logit_min, <- logit_max, !logit_log_odds by (unfold k_min_probability, k_max_probability; lra).
  split; apply log_odds_mono; unfold k_min_probability, k_max_probability; lra.
Qed.

(* the scaled log odds *)
Definition scaled (p : R) : R := 127 + log_odds p / log_odds_step.
Lemma step_pos : 0 < log_odds_step.
Proof. unfold log_odds_step. pose proof ln9_pos. lra. Qed.
Lemma scaled_form p : 0 < p < 1 ->
  (logit p - logit k_min_probability) * 254 / (logit k_max_probability - logit k_min_probability) = scaled p.
Proof.
  intros H. rewrite logit_min, logit_max, logit_log_odds by exact H. unfold scaled, log_odds_step. pose proof ln9_pos. field. lra.
Qed.
Lemma scaled_range p : 1 / 10 <= p <= 9 / 10 -> 0 <= scaled p <= 254.
Proof.
  intros H. pose proof (log_odds_range p H). pose proof step_pos as P. unfold scaled.
  assert (E : log_odds p / log_odds_step * log_odds_step = log_odds p) by (field; lra).
  assert (L : 127 * log_odds_step = ln 9) by (unfold log_odds_step; field). split; nra.
Qed.
Lemma integer_form p : 1 / 10 <= p <= 9 / 10 ->
  log_odds_integer p = Some (lround (scaled p) + 1)%Z /\ (0 <= lround (scaled p) <= 254)%Z.
Proof.
  intros H. assert (B : (0 <= lround (scaled p) <= 254)%Z).
  { pose proof (scaled_range p H) as [A B]. apply lround_mono in A. apply lround_mono in B.
    rewrite lround_Z in A, B. lia. }
  split; [|exact B]. unfold log_odds_integer. rewrite scaled_form by lra. cbv zeta.
  replace ((1 <=? lround (scaled p) + 1) && (lround (scaled p) + 1 <=? 255))%Z with true by (symmetry; apply andb_true_intro; split; apply Z.leb_le; lia).
  reflexivity.
Qed.
Lemma scaled_mono p q : 0 < p -> p <= q -> q < 1 -> scaled p <= scaled q.
Proof.
  intros A B C. unfold scaled. pose proof (log_odds_mono p q A B C). pose proof step_pos.
  apply Rplus_le_compat_l. unfold Rdiv. apply Rmult_le_compat_r; [|exact H].
  left. now apply Rinv_0_lt_compat.
Qed.
Lemma scaled_flip p : scaled (1 - p) = 254 - scaled p.
Proof. unfold scaled. rewrite log_odds_flip. field. pose proof step_pos. lra. Qed.
Lemma lround_flip t : ~ tie t -> lround (254 - t) = (254 - lround t)%Z.
Proof.
  intros N. apply lround_unique. rewrite minus_IZR. pose proof (lround_near t) as [A B].
  assert (t <> IZR (lround t) + 1 / 2) by (intros E; apply N; now exists (lround t)).
  assert (t <> IZR (lround t) - 1 / 2).
  { intros E. apply N. exists (lround t - 1)%Z. rewrite minus_IZR. lra. }
  lra.
Qed.
Lemma lround_tie k : (0 <= k)%Z -> lround (IZR k + 1 / 2) = (k + 1)%Z.
Proof.
  intros H. unfold lround. apply IZR_le in H. destruct (Rle_dec 0 (IZR k + 1 / 2)); [|lra].
  apply floor_unique. rewrite plus_IZR. lra.
Qed.
(* a probability with given log odds *)
Lemma log_odds_surj x : exists p, 0 < p < 1 /\ log_odds p = x.
Proof.
  pose proof (exp_pos x) as E. exists (exp x / (1 + exp x)).
  assert (I : 0 < / (1 + exp x)) by (apply Rinv_0_lt_compat; lra).
  assert (F : 1 - exp x / (1 + exp x) = / (1 + exp x)) by (field; lra).
  split.
  - split; [unfold Rdiv; now apply Rmult_lt_0_compat|].
    assert (0 < 1 - exp x / (1 + exp x)) by now rewrite F. lra.
  - unfold log_odds. rewrite F. unfold Rdiv. rewrite ln_mult, ln_exp by assumption. ring.
Qed.
Lemma range_of_log_odds p : 0 < p < 1 -> - ln 9 <= log_odds p <= ln 9 -> 1 / 10 <= p <= 9 / 10.
Proof.
  intros H [A B].
  assert (L1 : log_odds (1 / 10) = - ln 9) by (rewrite <- logit_log_odds by lra; apply logit_min).
  assert (L2 : log_odds (9 / 10) = ln 9) by (rewrite <- logit_log_odds by lra; apply logit_max).
  unfold log_odds in *. split; apply Rnot_lt_le; intros C.
  - assert (ln p < ln (1 / 10)) by (apply ln_increasing; lra).
    assert (ln (1 - 1 / 10) < ln (1 - p)) by (apply ln_increasing; lra). lra.
  - assert (ln (9 / 10) < ln p) by (apply ln_increasing; lra).
    assert (ln (1 - p) < ln (1 - 9 / 10)) by (apply ln_increasing; lra). lra.
Qed.

(* ---- texels *)
Lemma texel_pos d : (0 < d <= 255)%Z -> texel d = (d, 0)%Z.
Proof.
  intros H. unfold texel. rewrite (proj2 (Z.ltb_lt 0 d)) by lia. rewrite Z.mod_small by lia.
  now rewrite (proj2 (Z.eqb_neq d 0)) by lia.
Qed.
Lemma texel_neg d : (-255 <= d < 0)%Z -> texel d = (0, - d)%Z.
Proof.
  intros H. unfold texel. rewrite (proj2 (Z.ltb_ge 0 d)) by lia. rewrite Z.mod_small by lia.
  rewrite (proj2 (Z.eqb_neq (- d) 0)) by lia. now rewrite andb_false_r.
Qed.
Lemma texel_zero : texel 0 = (0, 1)%Z.
Proof. reflexivity. Qed.
Lemma texel_cases d : (-255 <= d <= 255)%Z ->
  (0 < d /\ texel d = (d, 0))%Z \/ (d < 0 /\ texel d = (0, - d))%Z \/ (d = 0 /\ texel d = (0, 1))%Z.
Proof.
  intros H. destruct (Z.lt_trichotomy d 0) as [L|[->|L]].
  - right. left. split; [exact L|]. apply texel_neg. lia.
  - right. right. now split.
  - left. split; [exact L|]. apply texel_pos. lia.
Qed.

Lemma tsdf_range tsd mt w mw : 0 < mt -> Rabs tsd <= mt -> 0 < mw -> 0 <= w <= mw ->
  (-128 <= tsdf_delta tsd mt w mw <= 127)%Z.
Proof.
  intros A B C D. unfold tsdf_delta.
  assert (F : w / mw * mw = w) by (field; lra).
  assert (W : 0 <= w / mw <= 1).
  { split; [apply (Rmult_le_reg_r mw); lra|apply (Rmult_le_reg_r mw); lra]. }
  assert (G : Rabs tsd / mt * mt = Rabs tsd) by (field; lra).
  pose proof (Rabs_pos tsd).
  assert (X : 0 <= Rabs tsd / mt <= 1) by (split; apply (Rmult_le_reg_r mt); lra).
  assert (S : 0 <= sqrt (Rabs tsd / mt) <= 1).
  { split; [apply sqrt_pos|]. rewrite <- sqrt_1. apply sqrt_le_1_alt. lra. }
  set (s := sqrt (Rabs tsd / mt)) in *. set (k := w / mw) in *.
  assert (L1 : IZR (-128) <= k * (s * 255 - 128)) by (replace (IZR (-128)) with (-128) by reflexivity; nra).
  assert (L2 : k * (s * 255 - 128) <= 127) by nra.
  apply lround_mono in L1. apply lround_mono in L2. rewrite lround_Z in L1, L2. lia.
Qed.
