(* Rounding error bounds for the cell value conversions: every conversion is within a
   few units of 2^-24 of the ideal real-number one, and the quantization steps are 409
   such units apart. *)
From Coq Require Import ZArith Bool Reals Lia Lra SpecFloat.
From Flocq Require Import Core.Core IEEE754.BinarySingleNaN.
From Verif Require Import Float32 FloatR Float32_Proofs PV_Model PV_Bounded.
Open Scope R_scope.

(* the probability or cost that a known value stands for *)
Definition ideal (v : Z) : R := / 10 + (8 / 10) * (IZR v - 1) / 32766.

Lemma ideal_compl v : 1 - ideal v = ideal (32768 - v).
Proof. unfold ideal. rewrite minus_IZR. lra. Qed.
Lemma ideal_gap u v : (u < v)%Z -> ideal u + 400 * u24 <= ideal v.
Proof.
  intros H. unfold ideal. assert (IZR u + 1 <= IZR v) by (rewrite <- succ_IZR; apply IZR_le; lia). lra.
Qed.
Lemma ideal_bound v : (1 <= v <= 32767)%Z -> / 10 <= ideal v <= 9 / 10.
Proof.
  intros [A B]. apply IZR_le in A. apply IZR_le in B. unfold ideal. lra.
Qed.

Lemma rnd_pos r : 0 <= r -> r - u24 * r - u24 / 1000 <= rnd32 r <= r + u24 * r + u24 / 1000.
Proof.
  intros H. pose proof (rnd32_err r) as E. rewrite (Rabs_pos_eq r H) in E. apply Rabs_le_inv in E.
  assert (T : / IZR (2 ^ 150) <= u24 / 1000).
  { replace (u24 / 1000) with (/ 16777216000) by lra. apply Rinv_le; [lra|]. apply IZR_le. discriminate. }
  lra.
Qed.
Lemma small99 r : Rabs r <= 100000 -> Rabs (rnd32 r) < bpow radix2 128.
Proof.
  intros H. apply rnd32_small. eapply Rle_trans; [exact H|]. apply IZR_le. discriminate.
Qed.

Lemma nearest_ge x k m : nearest_away x k -> IZR m - / 2 < x -> (m <= k)%Z.
Proof.
  intros [A B] H. apply Z.lt_succ_r. apply lt_IZR. rewrite succ_IZR.
  destruct (Rle_or_lt 0 x) as [P | P]; [specialize (A P) | specialize (B P)]; lra.
Qed.
Lemma nearest_le x k m : nearest_away x k -> x < IZR m + / 2 -> (k <= m)%Z.
Proof.
  intros [A B] H. apply Z.lt_succ_r. apply lt_IZR. rewrite succ_IZR.
  destruct (Rle_or_lt 0 x) as [P | P]; [specialize (A P) | specialize (B P)]; lra.
Qed.

Section Conv.
Variables lo hi unk : f32.
Let scale := fdiv (fsub hi lo) (f_of_Z 32766).
Let off := fsub lo scale.
Let S := fdiv (f_of_Z 32766) (fsub hi lo).
Hypothesis B : bounds_ok lo hi.
Hypothesis Elo : 13421773 / 134217728 <= fval lo <= 13421776 / 134217728.
Hypothesis Ehi : fval hi = 15099494 / 16777216.
Hypothesis Fs : ffin scale.
Hypothesis Es : fval scale = 13422591 / 549755813888.
Hypothesis Fo : ffin off.
Hypothesis Eo : 13418496 / 134217728 <= fval off <= 13418499 / 134217728.
Hypothesis ES : fval S = 10485121 / 256.

Lemma conv_scaled x : valid32 x -> ffin x -> exists k c,
  bounded_float_to_value x lo hi = Some (k + 1)%Z /\ nearest_away c k /\
  exists y, c = rnd32 (rnd32 (y - fval lo) * fval S) /\ fval lo <= y <= fval hi /\
            (y = fval x \/ (y = fval lo /\ fval x <= fval lo) \/ (y = fval hi /\ fval hi <= fval x)).
Proof.
  intros V F.
  destruct B as (B1 & B2 & B3 & B4 & B5 & B6 & B7 & B8 & B9 & B10 & B11 & B12 & B13 & B14).
  pose proof (fin_not_nan x F) as N.
  destruct (bftv_ok lo hi B1 B2 B3 B4 B5 B6 B7 B8 B9 B10 B11 B12 x V N) as [k [E A]].
  destruct (fclamp_ok lo hi B1 B2 B3 B4 B5 x V N) as [V1 [F1 C1]].
  destruct (scaled_ok lo hi B1 B2 B3 B4 B6 B7 B8 B9 B10 B11 B12 _ V1 F1 C1) as [_ [Ec _]].
  exists k. eexists. split; [exact E|]. split; [exact A|].
  exists (fval (fclamp x lo hi)). split; [exact Ec|]. split; [exact C1|].
  unfold fclamp. destruct (fltb hi x) eqn:E1.
  - right. right. split; [reflexivity|]. apply (fltb_ok _ _ B2 V B4 F) in E1. lra.
  - destruct (fltb x lo) eqn:E2; [|now left].
    right. left. split; [reflexivity|]. apply (fltb_ok _ _ V B1 F B3) in E2. lra.
Qed.

Lemma scaled_near y : fval lo <= y <= fval hi ->
  (y - fval lo) * (10485121 / 256) - / 100 <= rnd32 (rnd32 (y - fval lo) * fval S)
  <= (y - fval lo) * (10485121 / 256) + / 100.
Proof.
  intros H. rewrite ES.
  pose proof (rnd_pos (y - fval lo) ltac:(lra)) as R1.
  assert (P : 0 <= rnd32 (y - fval lo)) by (rewrite <- rnd32_0; apply rnd32_le; lra).
  pose proof (rnd_pos (rnd32 (y - fval lo) * (10485121 / 256)) ltac:(lra)) as R2.
  lra.
Qed.

(* one-sided quantization bounds *)
Lemma conv_ge x v r : valid32 x -> ffin x -> (1 <= v <= 32767)%Z ->
  ideal v - 100 * u24 <= fval x -> bounded_float_to_value x lo hi = Some r -> (v <= r)%Z.
Proof.
  intros V F Hv H E. destruct (conv_scaled x V F) as [k [c [Ek [A [y [Ec [By Cy]]]]]]].
  rewrite E in Ek. injection Ek as ->.
  enough (v - 1 <= k)%Z by lia. apply (nearest_ge c k _ A). rewrite minus_IZR.
  pose proof (scaled_near y By) as Sn. rewrite <- Ec in Sn.
  assert (Hy : ideal v - 102 * u24 <= y).
  { destruct (ideal_bound v Hv). destruct Cy as [-> | [[-> Q] | [-> Q]]]; lra. }
  unfold ideal in Hy. destruct Hv as [V1 V2]. apply IZR_le in V1. apply IZR_le in V2. lra.
Qed.
Lemma conv_le x v r : valid32 x -> ffin x -> (1 <= v <= 32767)%Z ->
  fval x <= ideal v + 100 * u24 -> bounded_float_to_value x lo hi = Some r -> (r <= v)%Z.
Proof.
  intros V F Hv H E. destruct (conv_scaled x V F) as [k [c [Ek [A [y [Ec [By Cy]]]]]]].
  rewrite E in Ek. injection Ek as ->.
  enough (k <= v - 1)%Z by lia. apply (nearest_le c k _ A). rewrite minus_IZR.
  pose proof (scaled_near y By) as Sn. rewrite <- Ec in Sn.
  assert (Hy : y <= ideal v + 102 * u24).
  { destruct (ideal_bound v Hv). destruct Cy as [-> | [[-> Q] | [-> Q]]]; lra. }
  unfold ideal in Hy. destruct Hv as [V1 V2]. apply IZR_le in V1. apply IZR_le in V2. lra.
Qed.
Lemma conv_eq x v : valid32 x -> ffin x -> (1 <= v <= 32767)%Z ->
  Rabs (fval x - ideal v) <= 100 * u24 -> bounded_float_to_value x lo hi = Some v.
Proof.
  intros V F Hv H. apply Rabs_le_inv in H.
  destruct (range_of lo hi x B V (fin_not_nan x F)) as [r [E _]].
  pose proof (conv_ge x v r V F Hv ltac:(lra) E). pose proof (conv_le x v r V F Hv ltac:(lra) E).
  rewrite E. f_equal. lia.
Qed.

(* value to float *)
Definition back (v : Z) : R := rnd32 (rnd32 (rnd32 (IZR v) * fval scale) + fval off).
Lemma back_le u v : (0 <= u <= v)%Z -> back u <= back v.
Proof.
  intros H. unfold back. apply rnd32_le. apply Rplus_le_compat_r. apply rnd32_le.
  apply Rmult_le_compat_r; [lra|]. apply rnd32_le. apply IZR_le. lia.
Qed.
Lemma back_near v : (1 <= v <= 32767)%Z -> Rabs (back v - ideal v) <= 8 * u24.
Proof.
  intros [V1 V2]. apply IZR_le in V1. apply IZR_le in V2. unfold back. rewrite Es.
  pose proof (rnd_pos (IZR v) ltac:(lra)) as R1.
  pose proof (rnd_pos (rnd32 (IZR v) * (13422591 / 549755813888)) ltac:(lra)) as R2.
  pose proof (rnd_pos (rnd32 (rnd32 (IZR v) * (13422591 / 549755813888)) + fval off) ltac:(lra)) as R3.
  apply Rabs_le. unfold ideal. lra.
Qed.
Lemma slow_ok v : (1 <= v <= 32767)%Z ->
  valid32 (table_value unk lo hi v) /\ ffin (table_value unk lo hi v) /\
  fval (table_value unk lo hi v) = back v.
Proof.
  intros Hv. pose proof B as (B1 & B2 & _).
  assert (Vs : valid32 scale) by (apply fdiv_valid; [now apply fsub_valid | apply f_of_Z_valid]).
  assert (Vo : valid32 off) by now apply fsub_valid.
  unfold table_value. rewrite Z.mod_small by lia. unfold slow_value, kUnknown.
  destruct (Z.eqb_spec v 0); [lia|]. cbv zeta. fold scale. fold off.
  destruct Hv as [V1 V2]. apply IZR_le in V1. apply IZR_le in V2.
  pose proof (rnd_pos (IZR v) ltac:(lra)) as R1.
  assert (A0 : Rabs (IZR v) <= 100000) by (apply Rabs_le; lra).
  destruct (of_Z_ok 24 128 p24 m128 v (small99 _ A0)) as [F1 E1].
  fold (f_of_Z v) in F1, E1.
  assert (A1 : Rabs (fval (f_of_Z v) * fval scale) <= 100000).
  { rewrite E1, Es. apply Rabs_le. lra. }
  destruct (fmul_ok _ _ (f_of_Z_valid v) Vs F1 Fs (small99 _ A1)) as [F2 E2]. rewrite E1 in E2.
  pose proof (rnd_pos (rnd32 (IZR v) * (13422591 / 549755813888)) ltac:(lra)) as R2.
  assert (A2 : Rabs (fval (fmul (f_of_Z v) scale) + fval off) <= 100000).
  { rewrite E2, Es. apply Rabs_le. lra. }
  assert (Vm : valid32 (fmul (f_of_Z v) scale)) by (apply fmul_valid; [apply f_of_Z_valid | exact Vs]).
  destruct (fadd_ok _ _ Vm Vo F2 Fo (small99 _ A2)) as [F3 E3]. rewrite E2 in E3.
  split; [now apply fadd_valid|]. split; [exact F3 | exact E3].
Qed.
End Conv.

Lemma frac27 a : IZR (Zpos a) * / IZR (2 ^ 27) = IZR (Zpos a) / 134217728.
Proof. reflexivity. Qed.

Ltac num c := fcompute c; rewrite fval_pos;
  match goal with |- context [bpow radix2 (Zneg ?k)] => change (Zneg k) with (- Zpos k)%Z end;
  rewrite bpow_neg; simpl; lra.

Lemma fval_num m e : fval (S754_finite false m (Zneg e)) = IZR (Zpos m) / IZR (2 ^ Zpos e).
Proof. rewrite fval_pos. change (Zneg e) with (- Zpos e)%Z. now rewrite bpow_neg. Qed.

Definition pscale : f32 := fdiv (fsub kMaxProbability kMinProbability) (f_of_Z 32766).
Definition poff : f32 := fsub kMinProbability pscale.
Definition pinv : f32 := fdiv (f_of_Z 32766) (fsub kMaxProbability kMinProbability).
Definition cscale : f32 := fdiv (fsub kMaxCost kMinCost) (f_of_Z 32766).
Definition coff : f32 := fsub kMinCost cscale.
Definition cinv : f32 := fdiv (f_of_Z 32766) (fsub kMaxCost kMinCost).

Lemma pscale_c : pscale = S754_finite false 13422591 (-39). Proof. vm_compute. reflexivity. Qed.
Lemma poff_c : poff = S754_finite false 13418496 (-27). Proof. vm_compute. reflexivity. Qed.
Lemma pinv_c : pinv = S754_finite false 10485121 (-8). Proof. vm_compute. reflexivity. Qed.
Lemma cscale_c : cscale = S754_finite false 13422591 (-39). Proof. vm_compute. reflexivity. Qed.
Lemma coff_c : coff = S754_finite false 13418499 (-27). Proof. vm_compute. reflexivity. Qed.
Lemma cinv_c : cinv = S754_finite false 10485121 (-8). Proof. vm_compute. reflexivity. Qed.

Lemma p39 : IZR (2 ^ 39) = 549755813888. Proof. reflexivity. Qed.

Lemma p_Fs : ffin pscale. Proof. rewrite pscale_c. reflexivity. Qed.
Lemma p_Es : fval pscale = 13422591 / 549755813888.
Proof. rewrite pscale_c. apply fval_num. Qed.
Lemma p_Fo : ffin poff. Proof. rewrite poff_c. reflexivity. Qed.
Lemma p_Eo : fval poff = 13418496 / 134217728.
Proof. rewrite poff_c. apply fval_num. Qed.
Lemma p_ES : fval pinv = 10485121 / 256.
Proof. rewrite pinv_c. apply fval_num. Qed.
Lemma c_Fs : ffin cscale. Proof. rewrite cscale_c. reflexivity. Qed.
Lemma c_Es : fval cscale = 13422591 / 549755813888.
Proof. rewrite cscale_c. apply fval_num. Qed.
Lemma c_Fo : ffin coff. Proof. rewrite coff_c. reflexivity. Qed.
Lemma c_Eo : fval coff = 13418499 / 134217728.
Proof. rewrite coff_c. apply fval_num. Qed.
Lemma c_ES : fval cinv = 10485121 / 256.
Proof. rewrite cinv_c. apply fval_num. Qed.

Lemma p_Elo : 13421773 / 134217728 <= fval kMinProbability <= 13421776 / 134217728.
Proof. destruct prob_pre as [_ [_ [_ [_ [-> _]]]]]. lra. Qed.
Lemma p_Ehi : fval kMaxProbability = 15099494 / 16777216.
Proof. apply prob_pre. Qed.
Lemma c_Elo : 13421773 / 134217728 <= fval kMinCost <= 13421776 / 134217728.
Proof. destruct cost_pre as [_ [_ [_ [_ [-> _]]]]]. lra. Qed.
Lemma c_Ehi : fval kMaxCost = 15099494 / 16777216.
Proof. apply cost_pre. Qed.
Lemma p_Eo' : 13418496 / 134217728 <= fval poff <= 13418499 / 134217728.
Proof. rewrite p_Eo. lra. Qed.
Lemma c_Eo' : 13418496 / 134217728 <= fval coff <= 13418499 / 134217728.
Proof. rewrite c_Eo. lra. Qed.

Definition prob_ge := conv_ge _ _ prob_bounds p_Elo p_Ehi p_ES.
Definition prob_le := conv_le _ _ prob_bounds p_Elo p_Ehi p_ES.
Definition prob_eq := conv_eq _ _ prob_bounds p_Elo p_Ehi p_ES.
Definition cost_ge := conv_ge _ _ cost_bounds c_Elo c_Ehi c_ES.
Definition cost_le := conv_le _ _ cost_bounds c_Elo c_Ehi c_ES.
Definition cost_eq := conv_eq _ _ cost_bounds c_Elo c_Ehi c_ES.

Lemma prob_of v : (1 <= v <= 32767)%Z ->
  valid32 (value_to_prob v) /\ ffin (value_to_prob v) /\
  fval (value_to_prob v) = back kMinProbability kMaxProbability v /\
  Rabs (fval (value_to_prob v) - ideal v) <= 8 * u24.
Proof.
  intros H. destruct (slow_ok _ _ kMinProbability prob_bounds p_Fs p_Es p_Fo p_Eo' v H) as [V [F E]].
  split; [exact V|]. split; [exact F|]. split; [exact E|].
  change (Rabs (fval (table_value kMinProbability kMinProbability kMaxProbability v) - ideal v) <= 8 * u24).
  rewrite E. exact (back_near _ _ p_Es p_Eo' v H).
Qed.
Lemma cost_of v : (1 <= v <= 32767)%Z ->
  valid32 (value_to_cost v) /\ ffin (value_to_cost v) /\
  fval (value_to_cost v) = back kMinCost kMaxCost v /\
  Rabs (fval (value_to_cost v) - ideal v) <= 8 * u24.
Proof.
  intros H. destruct (slow_ok _ _ kMaxCost cost_bounds c_Fs c_Es c_Fo c_Eo' v H) as [V [F E]].
  split; [exact V|]. split; [exact F|]. split; [exact E|].
  change (Rabs (fval (table_value kMaxCost kMinCost kMaxCost v) - ideal v) <= 8 * u24).
  rewrite E. exact (back_near _ _ c_Es c_Eo' v H).
Qed.

(* 1 - x *)
Lemma compl_near x r e : valid32 x -> ffin x -> 0 <= r <= 1 -> 0 <= e <= 100 * u24 ->
  Rabs (fval x - r) <= e ->
  valid32 (one_minus x) /\ ffin (one_minus x) /\ Rabs (fval (one_minus x) - (1 - r)) <= e + 2 * u24.
Proof.
  intros V F Hr He H. apply Rabs_le_inv in H.
  assert (A : Rabs (fval x) <= 4) by (apply Rabs_le; lra).
  destruct (one_minus_ok x V F A) as [V1 [F1 E1]]. split; [exact V1|]. split; [exact F1|].
  rewrite E1. pose proof (rnd32_err (1 - fval x)) as Er. pose proof tiny_le.
  assert (Rabs (1 - fval x) <= 1 + 100 * u24) by (apply Rabs_le; lra).
  apply Rabs_le_inv in Er. apply Rabs_le. lra.
Qed.

(* the update of a probability p with odds o, in real numbers *)
Definition upd (o p : R) : R := o * p / (1 - p + o * p).

Lemma upd_den o p : 0 <= o -> 9 / 100 <= p <= 91 / 100 -> 0 < 1 - p + o * p.
Proof. intros Ho Hp. assert (0 <= o * p) by (apply Rmult_le_pos; lra). lra. Qed.

Lemma upd_odds o p : 0 <= o -> 9 / 100 <= p <= 91 / 100 ->
  upd o p = (o * (p / (1 - p))) / (o * (p / (1 - p)) + 1).
Proof.
  intros Ho Hp. pose proof (upd_den o p Ho Hp). unfold upd. field. split; [|lra].
  replace (o * p + (1 - p)) with (1 - p + o * p) by ring. lra.
Qed.

Lemma odds_near p : valid32 p -> ffin p -> 9 / 100 <= fval p <= 91 / 100 ->
  ffin (odds p) /\ valid32 (odds p) /\
  Rabs (fval (odds p) - fval p / (1 - fval p)) <= 3 * u24 * (fval p / (1 - fval p)) /\
  0 <= fval (odds p) <= 16 /\ 0 < fval p / (1 - fval p) <= 15.
Proof.
  intros V F H. destruct one_val as [V1 [F1 E1]].
  assert (A : Rabs (fval p) <= 4) by (apply Rabs_le; lra).
  destruct (one_minus_ok p V F A) as [Vw [Fw Ew]].
  set (P := fval p) in *. pose proof (rnd_pos (1 - P) ltac:(lra)) as Rw. rewrite <- Ew in Rw.
  set (w := fval (one_minus p)) in *.
  assert (Wp : 8 / 100 < w) by lra.
  set (D := P / (1 - P)).
  assert (DP : D * (1 - P) = P) by (unfold D; field; lra).
  assert (D1 : 9 / 100 <= D).
  { apply Rmult_le_reg_r with (1 - P); [lra|]. rewrite DP. lra. }
  assert (D2 : D <= 11).
  { apply Rmult_le_reg_r with (1 - P); [lra|]. rewrite DP. lra. }
  set (q := P / w). assert (QW : q * w = P) by (unfold q; field; lra).
  assert (Q1 : D * (1 - (12 / 10) * u24) <= q).
  { apply Rmult_le_reg_r with w; [lra|]. rewrite QW, <- DP.
    replace (D * (1 - 12 / 10 * u24) * w) with (D * ((1 - 12 / 10 * u24) * w)) by ring.
    apply Rmult_le_compat_l; [lra|]. lra. }
  assert (Q2 : q <= D * (1 + (12 / 10) * u24)).
  { apply Rmult_le_reg_r with w; [lra|]. rewrite QW, <- DP at 1.
    replace (D * (1 + 12 / 10 * u24) * w) with (D * ((1 + 12 / 10 * u24) * w)) by ring.
    apply Rmult_le_compat_l; [lra|]. lra. }
  assert (Bq : Rabs (fval p / fval (fsub f_one p)) <= 100000).
  { change (fval (fsub f_one p)) with w. fold P. fold q. apply Rabs_le. lra. }
  assert (Nz : fval (fsub f_one p) <> 0) by (change (fval (fsub f_one p)) with w; lra).
  destruct (fdiv_ok p (fsub f_one p) V Vw F Nz (small99 _ Bq)) as [Fd Ed].
  change (fval (fsub f_one p)) with w in Ed. fold P q in Ed.
  split; [exact Fd|]. split; [now apply odds_valid|].
  unfold odds. rewrite Ed. pose proof (rnd_pos q ltac:(lra)) as Rq.
  split; [|lra]. apply Rabs_le. lra.
Qed.

Lemma upd_near o p : valid32 o -> ffin o -> 0 <= fval o <= IZR (2 ^ 64) ->
  valid32 p -> ffin p -> 9 / 100 <= fval p <= 91 / 100 ->
  let q := probability_from_odds (fmul o (odds p)) in
  valid32 q /\ ffin q /\ Rabs (fval q - upd (fval o) (fval p)) <= 10 * u24 /\
  0 <= upd (fval o) (fval p) <= 1.
Proof.
  intros Vo Fo Bo Vp Fp Bp. cbv zeta.
  destruct (odds_near p Vp Fp Bp) as [Fd [Vd [Ed [Bd BD]]]].
  rewrite (upd_odds _ _ (proj1 Bo) Bp). set (D := fval p / (1 - fval p)) in *.
  set (d := fval (odds p)) in *. set (O := fval o) in *. set (X := O * D).
  assert (XP : 0 <= X) by (apply Rmult_le_pos; lra).
  assert (OdP : 0 <= O * d) by (apply Rmult_le_pos; lra).
  assert (E64 : 0 <= IZR (2 ^ 64)) by (apply IZR_le; discriminate).
  assert (OdB : O * d <= IZR (2 ^ 64) * 16) by (apply Rmult_le_compat; lra).
  assert (A : Rabs (fval o * fval (odds p)) <= IZR (2 ^ 99)).
  { fold O d. rewrite Rabs_pos_eq by lra. eapply Rle_trans; [exact OdB|]. rewrite <- mult_IZR.
    apply IZR_le. discriminate. }
  destruct (fmul_ok o (odds p) Vo Vd Fo Fd (rnd32_small _ A)) as [Fx Ex]. fold O d in Ex.
  pose proof (rnd_pos (O * d) OdP) as Rx. rewrite <- Ex in Rx.
  set (x := fval (fmul o (odds p))) in *.
  assert (x0 : 0 <= x) by (rewrite Ex, <- rnd32_0; apply rnd32_le; exact OdP).
  assert (Near : Rabs (x - X) <= 42 / 10 * u24 * X + u24 / 100).
  { apply Rabs_le_inv in Ed.
    assert (L1 : O * (D - 3 * u24 * D) <= O * d) by (apply Rmult_le_compat_l; lra).
    assert (L2 : O * d <= O * (D + 3 * u24 * D)) by (apply Rmult_le_compat_l; lra).
    replace (O * (D - 3 * u24 * D)) with (X - 3 * u24 * X) in L1 by (unfold X; ring).
    replace (O * (D + 3 * u24 * D)) with (X + 3 * u24 * X) in L2 by (unfold X; ring).
    apply Rabs_le. lra. }
  assert (xB : x <= IZR (2 ^ 90)).
  { apply Rle_trans with (IZR (2 ^ 64) * 16 * 2 + 1); [lra|].
    rewrite <- !mult_IZR, <- plus_IZR. apply IZR_le. discriminate. }
  assert (Vx : valid32 (fmul o (odds p))) by now apply fmul_valid.
  destruct (pfo_ok _ Vx Fx (conj x0 xB)) as [Vq [Fq Eq]]. fold x in Eq.
  split; [exact Vq|]. split; [exact Fq|]. split.
  - apply Rabs_le_inv in Eq.
    assert (G : Rabs (x / (x + 1) - X / (X + 1)) <= 43 / 10 * u24).
    { replace (x / (x + 1) - X / (X + 1)) with ((x - X) * (/ (x + 1) * / (X + 1))) by (field; lra).
      rewrite Rabs_mult. rewrite (Rabs_pos_eq (/ (x + 1) * / (X + 1))).
      2:{ apply Rmult_le_pos; left; apply Rinv_0_lt_compat; lra. }
      apply Rmult_le_reg_r with ((x + 1) * (X + 1)); [apply Rmult_lt_0_compat; lra|].
      replace (Rabs (x - X) * (/ (x + 1) * / (X + 1)) * ((x + 1) * (X + 1))) with (Rabs (x - X)) by (field; lra).
      eapply Rle_trans; [exact Near|].
      assert (0 <= x * X) by (apply Rmult_le_pos; lra). lra. }
    apply Rabs_le_inv in G. apply Rabs_le. lra.
  - now apply frac_bound.
Qed.

Lemma upd_ge o p : 1 <= o -> 9 / 100 <= p <= 91 / 100 -> p <= upd o p.
Proof.
  intros Ho Hp. pose proof (upd_den o p ltac:(lra) Hp) as D. unfold upd.
  apply Rmult_le_reg_r with (1 - p + o * p); [exact D|].
  unfold Rdiv. rewrite Rmult_assoc, Rinv_l by lra.
  assert (0 <= (o - 1) * (p * (1 - p))) by (apply Rmult_le_pos; [lra | apply Rmult_le_pos; lra]). lra.
Qed.
Lemma upd_le o p : 0 <= o <= 1 -> 9 / 100 <= p <= 91 / 100 -> upd o p <= p.
Proof.
  intros Ho Hp. pose proof (upd_den o p ltac:(lra) Hp) as D. unfold upd.
  apply Rmult_le_reg_r with (1 - p + o * p); [exact D|].
  unfold Rdiv. rewrite Rmult_assoc, Rinv_l by lra.
  assert (0 <= (1 - o) * (p * (1 - p))) by (apply Rmult_le_pos; [lra | apply Rmult_le_pos; lra]). lra.
Qed.

(* where the result is not clamped the update does not squeeze neighbours together *)
Lemma upd_gap o a b : 0 <= o -> 9 / 100 <= a -> a + 370 * u24 <= b -> b <= 91 / 100 ->
  / 10 <= upd o a -> upd o b <= 9 / 10 -> upd o a + 30 * u24 <= upd o b.
Proof.
  intros Ho Ha Hab Hb HA HB.
  pose proof (upd_den o a Ho ltac:(lra)) as Da. pose proof (upd_den o b Ho ltac:(lra)) as Db.
  set (A := upd o a) in *. set (C := upd o b) in *.
  assert (K : (C - A) * (a * (1 - b)) = (b - a) * (A * (1 - C))).
  { unfold A, C, upd. field. split; lra. }
  assert (S : 0 < a * (1 - b) <= / 4).
  { split; [apply Rmult_lt_0_compat; lra|].
    assert (a * (1 - b) <= a * (1 - a)) by (apply Rmult_le_compat_l; lra).
    assert (0 <= (a - / 2) * (a - / 2)) by apply Rle_0_sqr. lra. }
  assert (AC : A <= 9 / 10).
  { destruct (Rle_or_lt A (9 / 10)) as [|Q]; [assumption|]. exfalso.
    assert (0 <= (b - a) * (A * (1 - C))) by (apply Rmult_le_pos; [lra | apply Rmult_le_pos; lra]).
    assert ((C - A) * (a * (1 - b)) < 0).
    { replace 0 with (0 * (a * (1 - b))) by ring. apply Rmult_lt_compat_r; lra. }
    lra. }
  destruct (Rle_or_lt (A + / 10) C) as [|Q]; [lra|].
  assert (M : / 25 <= A * (1 - C)).
  { destruct (Rle_or_lt A (4 / 10)) as [L | L].
    - apply Rle_trans with (/ 10 * (/ 2)); [lra|]. apply Rmult_le_compat; lra.
    - apply Rle_trans with (4 / 10 * (/ 10)); [lra|]. apply Rmult_le_compat; lra. }
  assert (N : 370 * u24 * / 25 <= (b - a) * (A * (1 - C))) by (apply Rmult_le_compat; lra).
  destruct (Rle_or_lt (A + 30 * u24) C) as [|Q2]; [assumption|]. exfalso.
  assert ((C - A) * (a * (1 - b)) <= 30 * u24 * (/ 4)).
  { destruct (Rle_or_lt 0 (C - A)).
    - apply Rmult_le_compat; lra.
    - apply Rle_trans with 0; [|lra]. replace 0 with (0 * (a * (1 - b))) by ring.
      apply Rmult_le_compat_r; lra. }
  lra.
Qed.
