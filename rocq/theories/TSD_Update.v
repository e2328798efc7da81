(* UpdateCell moves a cell towards the measurement, and the scan matcher's score of a
   TSDF lies between 0 and 1 where the conversion table stays within the bounds. *)
From Coq Require Import List ZArith QArith Bool Reals Lia Lra SpecFloat.
From Flocq Require Import Core.Core IEEE754.BinarySingleNaN.
From Verif Require Import Vec Float32 FloatR Float32_Proofs PV_Model PV_Bounded PV_Near PV_Proofs
  G2_Model G2_Round G2_Spec G2_Proofs G2_Grow G2_Crop
  TSD_Model TSD_Spec TSD_Conv TSD_Proofs TSD_Grid TSD_Crop.
From Verif Require CPC_Float.
Import ListNotations.
Open Scope R_scope.

Lemma scale_abs x t w : 0 <= w -> Rabs x <= 1001 / 1000 * t -> Rabs (x * w) <= 1001 / 1000 * (t * w).
Proof.
  intros H1 H2. rewrite Rabs_mult, (Rabs_pos_eq w H1).
  replace (1001 / 1000 * (t * w)) with (1001 / 1000 * t * w) by ring. now apply Rmult_le_compat_r.
Qed.

Section Average.
Variables d0 w0 s uw : f32.
Variable T : R.
Hypothesis Vd : valid32 d0. Hypothesis Fd : ffin d0.
Hypothesis Vw : valid32 w0. Hypothesis Fw : ffin w0.
Hypothesis Vs : valid32 s. Hypothesis Fs : ffin s.
Hypothesis Vu : valid32 uw. Hypothesis Fu : ffin uw.
Hypothesis T1 : / IZR (2 ^ 30) <= T <= IZR (2 ^ 30).
Hypothesis Hd : Rabs (fval d0) <= 1001 / 1000 * T.
Hypothesis Hs : Rabs (fval s) <= T.
Hypothesis Hw : 0 <= fval w0 <= 2 * IZR (2 ^ 30).
Hypothesis Hu : / IZR (2 ^ 60) <= fval uw <= IZR (2 ^ 60).

Let S := fval w0 + fval uw.
Let A := fval d0 * fval w0 + fval s * fval uw.

Lemma avg_ok :
  valid32 (fadd w0 uw) /\ ffin (fadd w0 uw) /\ fval w0 <= fval (fadd w0 uw) /\
  Rabs (fval (fadd w0 uw) - S) <= 2 * u24 * S /\
  let q := fdiv (fadd (fmul d0 w0) (fmul s uw)) (fadd w0 uw) in
  valid32 q /\ ffin q /\ Rabs (fval q - A / S) <= 20 * u24 * T.
Proof.
  assert (Q30 : 0 < / IZR (2 ^ 30)) by (apply Rinv_0_lt_compat; apply IZR_lt; reflexivity).
  assert (Q60 : 0 < / IZR (2 ^ 60)) by (apply Rinv_0_lt_compat; apply IZR_lt; reflexivity).
  assert (S0 : 0 < S) by (unfold S; lra). assert (T0 : 0 < T) by lra.
  assert (S1 : S <= IZR (2 ^ 62)).
  { unfold S. replace (IZR (2 ^ 62)) with (IZR (2 ^ 60) + 3 * IZR (2 ^ 60))
      by (rewrite <- mult_IZR, <- plus_IZR; reflexivity).
    assert (IZR (2 ^ 30) <= IZR (2 ^ 60)) by (apply IZR_le; discriminate). lra. }
  assert (tS : tiny <= S / 1000000000000000000).
  { apply Rle_trans with (/ IZR (2 ^ 60) / 1000000000000000000); [|unfold S; lra].
    unfold tiny, Rdiv. rewrite <- Rinv_mult. apply Rinv_le.
    - apply Rmult_lt_0_compat; [apply IZR_lt; reflexivity | lra].
    - rewrite <- mult_IZR. apply IZR_le. discriminate. }
  assert (tT : tiny <= T / 1000000000000000000).
  { apply Rle_trans with (/ IZR (2 ^ 30) / 1000000000000000000); [|lra].
    unfold tiny, Rdiv. rewrite <- Rinv_mult. apply Rinv_le.
    - apply Rmult_lt_0_compat; [apply IZR_lt; reflexivity | lra].
    - rewrite <- mult_IZR. apply IZR_le. discriminate. }
  assert (tX : tiny <= T * S / 1000000000000000000).
  { apply Rle_trans with (/ IZR (2 ^ 30) * / IZR (2 ^ 60) / 1000000000000000000).
    - unfold tiny, Rdiv. rewrite <- !Rinv_mult. apply Rinv_le.
      + rewrite <- !mult_IZR. apply IZR_lt. reflexivity.
      + rewrite <- !mult_IZR. apply IZR_le. discriminate.
    - apply Rmult_le_compat_r; [lra|]. apply Rmult_le_compat; unfold S; lra. }
  assert (X0 : 0 < T * S) by (apply Rmult_lt_0_compat; lra).
  assert (X1 : T * S <= IZR (2 ^ 92)).
  { replace (2 ^ 92)%Z with (2 ^ 30 * 2 ^ 62)%Z by reflexivity. rewrite mult_IZR.
    apply Rmult_le_compat; lra. }
  assert (big : 4 * IZR (2 ^ 92) <= IZR (2 ^ 99)) by (rewrite <- mult_IZR; apply IZR_le; discriminate).
  assert (big62 : 4 * IZR (2 ^ 62) <= IZR (2 ^ 99)) by (rewrite <- mult_IZR; apply IZR_le; discriminate).
  assert (big30 : 4 * IZR (2 ^ 30) <= IZR (2 ^ 99)) by (rewrite <- mult_IZR; apply IZR_le; discriminate).
  assert (XE : T * S = T * fval w0 + T * fval uw) by (unfold S; ring).
  assert (a0 : 0 <= T * fval w0) by (apply Rmult_le_pos; lra).
  assert (b0 : 0 <= T * fval uw) by (apply Rmult_le_pos; lra).
  pose proof (scale_abs (fval d0) T (fval w0) ltac:(lra) Hd) as M1.
  pose proof (scale_abs (fval s) T (fval uw) ltac:(lra) ltac:(lra)) as M2.
  pose proof (rnd_abs _ _ M1) as R1. pose proof (rnd_abs _ _ M2) as R2.
  destruct (fmul_ok d0 w0 Vd Vw Fd Fw) as [F1 E1]; [apply rnd32_small; lra|].
  destruct (fmul_ok s uw Vs Vu Fs Fu) as [F2 E2]; [apply rnd32_small; lra|].
  rewrite <- E1 in R1. rewrite <- E2 in R2.
  set (p1 := fmul d0 w0) in *. set (p2 := fmul s uw) in *.
  assert (V1 : valid32 p1) by now apply fmul_valid. assert (V2 : valid32 p2) by now apply fmul_valid.
  apply Rabs_le_inv in R1. apply Rabs_le_inv in R2. apply Rabs_le_inv in M1. apply Rabs_le_inv in M2.
  assert (M3 : Rabs (fval p1 + fval p2) <= 1002 / 1000 * (T * S)) by (apply Rabs_le; lra).
  pose proof (rnd_abs _ _ M3) as R3.
  destruct (fadd_ok p1 p2 V1 V2 F1 F2) as [F3 E3]; [apply rnd32_small; lra|].
  rewrite <- E3 in R3. set (num := fadd p1 p2) in *.
  assert (V3 : valid32 num) by now apply fadd_valid. apply Rabs_le_inv in R3.
  assert (N1 : Rabs (fval num - A) <= 3 * u24 * (T * S)).
  { unfold A. apply Rabs_le. lra. }
  assert (MS : Rabs (fval w0 + fval uw) <= S) by (fold S; rewrite Rabs_pos_eq; lra).
  pose proof (rnd_abs _ _ MS) as R4.
  destruct (fadd_ok w0 uw Vw Vu Fw Fu) as [F4 E4]; [apply rnd32_small; lra|].
  rewrite <- E4 in R4. 
  assert (W4 : fval w0 <= fval (fadd w0 uw)).
  { rewrite E4. rewrite <- (rnd32_val w0 Vw) at 1. apply rnd32_le. lra. }
  assert (V4 : valid32 (fadd w0 uw)) by now apply fadd_valid.
  split; [exact V4|]. split; [exact F4|]. split; [exact W4|]. cbv zeta.
  set (w' := fadd w0 uw) in *. fold S in R4. apply Rabs_le_inv in R4.
  split; [apply Rabs_le; lra|].
  assert (w1 : S <= 2 * fval w') by lra. assert (w2 : 0 < fval w') by lra.
  set (r := fval num / fval w'). set (avg := A / S).
  assert (Er : r * fval w' = fval num) by (unfold r; field; lra).
  assert (Ea : avg * S = A) by (unfold avg; field; lra).
  assert (Aa : Rabs A <= 1001 / 1000 * (T * S)) by (unfold A; apply Rabs_le; lra).
  assert (Ba : Rabs avg <= 1001 / 1000 * T).
  { unfold avg, Rdiv. rewrite Rabs_mult, (Rabs_pos_eq (/ S)) by (apply Rlt_le, Rinv_0_lt_compat; lra).
    apply Rle_trans with (1001 / 1000 * (T * S) * / S).
    - apply Rmult_le_compat_r; [apply Rlt_le, Rinv_0_lt_compat; lra | exact Aa].
    - apply Req_le. field. lra. }
  assert (G : Rabs (r - avg) <= 9 * u24 * T).
  { apply Rmult_le_reg_r with (fval w'); [exact w2|].
    replace (Rabs (r - avg) * fval w') with (Rabs ((r - avg) * fval w'))
      by (rewrite Rabs_mult, (Rabs_pos_eq (fval w')); lra).
    replace ((r - avg) * fval w') with ((fval num - A) + avg * (S - fval w'))
      by (rewrite <- Er, <- Ea; ring).
    eapply Rle_trans; [apply Rabs_triang|].
    assert (Q : Rabs (avg * (S - fval w')) <= 1001 / 1000 * T * (101 / 100 * u24 * S)).
    { rewrite Rabs_mult. apply Rmult_le_compat; try apply Rabs_pos; [exact Ba|]. apply Rabs_le. lra. }
    assert (K : T * S <= 2 * (T * fval w')).
    { replace (2 * (T * fval w')) with (T * (2 * fval w')) by ring. apply Rmult_le_compat_l; lra. }
    replace (1001 / 1000 * T * (101 / 100 * u24 * S)) with (1001 / 1000 * (101 / 100) * u24 * (T * S)) in Q by ring.
    replace (9 * u24 * T * fval w') with (9 * u24 * (T * fval w')) by ring. lra. }
  apply Rabs_le_inv in G. apply Rabs_le_inv in Ba.
  assert (M5 : Rabs r <= 1002 / 1000 * T) by (apply Rabs_le; lra).
  pose proof (rnd_abs _ _ M5) as R5.
  destruct (fdiv_ok num w' V3 V4 F3) as [F5 E5]; [lra | apply rnd32_small; fold r; lra|].
  fold r in E5. rewrite <- E5 in R5. apply Rabs_le_inv in R5.
  split; [now apply fdiv_valid|]. split; [exact F5|]. apply Rabs_le. lra.
Qed.
End Average.

(* a number between the two distances *)
Lemma avg_between d s w u : 0 <= w -> 0 < u ->
  (d <= s -> d <= (d * w + s * u) / (w + u) <= s) /\ (s <= d -> s <= (d * w + s * u) / (w + u) <= d).
Proof.
  intros Hw Hu. assert (P : 0 < / (w + u)) by (apply Rinv_0_lt_compat; lra).
  assert (E : forall z, z = (z * w + z * u) * / (w + u)) by (intros; field; lra).
  unfold Rdiv. split; intros H; split.
  - rewrite (E d) at 1. apply Rmult_le_compat_r; [lra|]. apply Rplus_le_compat_l. apply Rmult_le_compat_r; lra.
  - rewrite (E s) at 2. apply Rmult_le_compat_r; [lra|]. apply Rplus_le_compat_r. apply Rmult_le_compat_r; lra.
  - rewrite (E s) at 1. apply Rmult_le_compat_r; [lra|]. apply Rplus_le_compat_r. apply Rmult_le_compat_r; lra.
  - rewrite (E d) at 2. apply Rmult_le_compat_r; [lra|]. apply Rplus_le_compat_l. apply Rmult_le_compat_r; lra.
Qed.

Section Update.
Variable c : converter.
Hypothesis U : usable_conv c.
Let T := fval (max_tsd c).
Let W := fval (max_weight c).

Lemma T_range : / IZR (2 ^ 30) <= T <= IZR (2 ^ 30) /\ 0 < T.
Proof.
  destruct U as [A _]. destruct (usable_ok _ A) as [_ [_ B]]. split; [exact B|].
  destruct B as [B _]. eapply Rlt_le_trans; [|exact B]. apply Rinv_0_lt_compat. apply IZR_lt. reflexivity.
Qed.
Lemma W_range : / IZR (2 ^ 30) <= W <= IZR (2 ^ 30) /\ 0 < W.
Proof.
  destruct U as [_ A]. destruct (usable_ok _ A) as [_ [_ B]]. split; [exact B|].
  destruct B as [B _]. eapply Rlt_le_trans; [|exact B]. apply Rinv_0_lt_compat. apply IZR_lt. reflexivity.
Qed.

Lemma tsd_any v : (0 <= v <= 32767)%Z -> valid32 (value_to_tsd c v) /\ ffin (value_to_tsd c v) /\
  Rabs (fval (value_to_tsd c v)) <= T + T / 1000000.
Proof.
  intros H. destruct T_range as [_ P]. destruct (Z.eq_dec v 0) as [-> | N].
  - change (value_to_tsd c 0) with (min_tsd c).
    destruct (tsd_premises c U) as [P1 [_ [P3 [_ [_ [_ [_ [P9 _]]]]]]]].
    split; [exact P1|]. split; [exact P3|]. rewrite P9, Rabs_Ropp. fold T. rewrite Rabs_pos_eq; lra.
  - destruct (tsd_float c U v ltac:(lia)) as [V [F E]]. split; [exact V|]. split; [exact F|].
    fold T in E. apply Rabs_le_inv in E.
    assert (B : - 1 <= (IZR v - 16384) / 16383 <= 1).
    { assert (1 <= IZR v <= 32767) by (split; apply IZR_le; lia). lra. }
    assert (- T <= T * ((IZR v - 16384) / 16383) <= T).
    { split.
      - replace (- T) with (T * (-1)) by ring. apply Rmult_le_compat_l; lra.
      - replace T with (T * 1) at 2 by ring. apply Rmult_le_compat_l; lra. }
    apply Rabs_le. lra.
Qed.

Lemma weight_any v : (0 <= v <= 32767)%Z -> valid32 (value_to_weight c v) /\ ffin (value_to_weight c v) /\
  0 <= fval (value_to_weight c v) <= W + W / 1000000 /\ (v = 0%Z -> fval (value_to_weight c v) = 0).
Proof.
  intros H. destruct W_range as [_ P]. destruct zero_ok as [Z1 [Z2 Z3]]. destruct (Z.eq_dec v 0) as [-> | N].
  - change (value_to_weight c 0) with min_weight. rewrite Z3.
    split; [exact Z1|]. split; [exact Z2|]. split; [lra | auto].
  - destruct (weight_float c U v ltac:(lia)) as [V [F [E E0]]]. split; [exact V|]. split; [exact F|].
    split; [|intros; lia]. split; [exact E0|].
    fold W in E. apply Rabs_le_inv in E.
    assert (W * ((IZR v - 1) / 32766) <= W * 1); [|lra].
    apply Rmult_le_compat_l; [lra|].
    assert (1 <= IZR v <= 32767) by (split; apply IZR_le; lia). lra.
Qed.
End Update.

(* the two numbers of a cell *)
Lemma pair_read t x y : twf t -> contains (g_lim (t_grid t)) x y = true ->
  exists v w, cell_pair t x y = Some (v, w) /\ (0 <= v <= 32767)%Z /\ (0 <= w <= 32767)%Z /\
    (v = 0 <-> w = 0)%Z /\
    get_tsd_and_weight t x y = Some (value_to_tsd (t_conv t) v, value_to_weight (t_conv t) w).
Proof.
  intros R C. destruct (cell_value_some (t_grid t) x y (wf_size _ (tw_grid _ R)) C) as [v Ev].
  destruct (same_known_weight t x y v R Ev) as [w [Ew [Bw K]]].
  destruct (unmark_range _ x y v (tw_grid _ R) Ev) as [B [N M]].
  exists (unmark v), w. unfold cell_pair, get_tsd_and_weight. rewrite C, Ev, Ew.
  split; [reflexivity|]. split; [exact B|]. split; [exact Bw|]. split.
  - destruct (Z.eq_dec v 0) as [-> | Nv].
    + assert (w = 0)%Z by (destruct (Z.eq_dec w 0); [assumption | exfalso; tauto]). subst w. split; reflexivity.
    + specialize (N Nv). split; intros; [lia|]. exfalso. tauto.
  - destruct M as [M | M]; [rewrite <- M; reflexivity|].
    rewrite M at 1. rewrite tsd_marked by exact B. reflexivity.
Qed.

Lemma ge_of_lt a b : valid32 a -> valid32 b -> ffin a -> ffin b -> fltb a b = false -> fval b <= fval a.
Proof.
  intros Va Vb Fa Fb H. destruct (Rle_or_lt (fval b) (fval a)) as [L | L]; [exact L|].
  apply (fltb_ok a b Va Vb Fa Fb) in L. congruence.
Qed.

Lemma update_ok t x y s uw : twf t -> contains (g_lim (t_grid t)) x y = true -> ~ marked t x y ->
  valid32 s -> ffin s -> Rabs (fval s) <= fval (max_tsd (t_conv t)) ->
  valid32 uw -> ffin uw -> / IZR (2 ^ 60) <= fval uw <= IZR (2 ^ 60) ->
  let c := t_conv t in
  let T := fval (max_tsd c) in let W := fval (max_weight c) in
  exists v w vs t' a b, cell_pair t x y = Some (v, w) /\ tsd_to_value c s = Some vs /\
    update_cell t (max_weight c) x y s uw = Some t' /\ twf t' /\ t_conv t' = c /\
    g_lim (t_grid t') = g_lim (t_grid t) /\
    cell_pair t' x y = Some (a, b) /\ (1 <= a <= 32767)%Z /\ (1 <= b <= 32767)%Z /\
    (forall x' y', (x', y') <> (x, y) -> cell_pair t' x' y' = cell_pair t x' y') /\
    (let d0 := fval (value_to_tsd c v) in let w0 := fval (value_to_weight c w) in
     Rabs (fval (value_to_tsd c a) - (d0 * w0 + fval s * fval uw) / (w0 + fval uw)) <= T / 25000 /\
     Rabs (fval (value_to_weight c b) - Rmin W (w0 + fval uw)) <= W / 50000) /\
    (w <= b)%Z /\
    (v <> 0%Z -> fleb (value_to_tsd c v) s = true -> (v <= a <= vs + 1)%Z) /\
    (v <> 0%Z -> fleb s (value_to_tsd c v) = true -> (vs - 1 <= a <= v)%Z) /\
    (v = 0%Z -> (vs - 1 <= a <= vs + 1)%Z).
Proof.
  intros R C NM Vs Fs Hs Vu Fu Hu c T W.
  pose proof (tw_conv _ R) as U. fold c in U.
  destruct (pair_read t x y R C) as [v [w [Ep [Bv [Bw [K G]]]]]]. fold c in G.
  destruct (tsd_any c U v Bv) as [Vd [Fd Hd]]. destruct (weight_any c U w Bw) as [Vw [Fw [Hw Hw0]]].
  destruct (T_range c U) as [TR T0]. destruct (W_range c U) as [WR W0]. fold T in TR, T0, Hd. fold W in WR, W0, Hw.
  set (d0 := value_to_tsd c v) in *. set (w0 := value_to_weight c w) in *.
  assert (U0 : 0 < fval uw).
  { eapply Rlt_le_trans; [|apply Hu]. apply Rinv_0_lt_compat. apply IZR_lt. reflexivity. }
  destruct (avg_ok d0 w0 s uw T Vd Fd Vw Fw Vs Fs Vu Fu TR ltac:(lra) Hs ltac:(lra) Hu)
    as [Vw' [Fw' [Lw' [Ew' [Vq [Fq Eq]]]]]].
  set (w' := fadd w0 uw) in *. set (q := fdiv (fadd (fmul d0 w0) (fmul s uw)) w') in *.
  destruct (avg_between (fval d0) (fval s) (fval w0) (fval uw) ltac:(lra) U0) as [A1 A2].
  set (S := fval w0 + fval uw) in *.
  set (avg := (fval d0 * fval w0 + fval s * fval uw) / S) in *.
  destruct (usable_ok _ (proj2 U)) as [VW [FW _]].
  (* the weight *)
  set (m := fmin w' (max_weight c)).
  assert (Vm : valid32 m) by now apply fmin_valid.
  assert (Fm : ffin m) by (unfold m, fmin; destruct (fltb _ _); assumption).
  assert (Em : fval m = Rmin W (fval w')).
  { unfold m, fmin. destruct (fltb (max_weight c) w') eqn:L.
    - apply (fltb_ok _ _ VW Vw' FW Fw') in L. fold W in L. rewrite Rmin_left by lra. reflexivity.
    - apply (ge_of_lt _ _ VW Vw' FW Fw') in L. fold W in L. rewrite Rmin_right by lra. reflexivity. }
  destruct (tsd_range c U q Vq (fin_not_nan q Fq)) as [a [Ea Ba]].
  destruct (weight_range c U m Vm (fin_not_nan m Fm)) as [b [Eb Bb]].
  destruct (tsd_range c U s Vs (fin_not_nan s Fs)) as [vs [Evs Bvs]].
  destruct (set_cell_ok t x y q m a b R C Ea Eb Ba Bb) as [t' [Et [R' [Lt [Ct [_ N]]]]]].
  destruct (N NM) as [_ V]. clear N.
  exists v, w, vs, t', a, b. split; [exact Ep|]. split; [exact Evs|].
  split.
  { unfold update_cell. assert (Z : feqb uw f_zero = false).
    { destruct uw as [z|z| |z mm ee]; try discriminate; [|destruct z; reflexivity].
      exfalso. unfold fval in U0. cbn in U0. lra. }
    rewrite Z, G. fold w'. fold q. fold m. exact Et. }
  split; [exact R'|]. split; [exact Ct|]. split; [exact Lt|].
  split.
  { unfold cell_pair. destruct (V x y) as [-> ->]. rewrite !Z.eqb_refl. cbn [andb].
    rewrite unmark_marked by exact Ba. reflexivity. }
  split; [exact Ba|]. split; [exact Bb|]. split.
  { intros x' y' NE. unfold cell_pair. destruct (V x' y') as [-> ->].
    destruct (Z.eqb_spec x' x); destruct (Z.eqb_spec y' y); cbn [andb]; try reflexivity. congruence. }
  change (Rabs (fval s) <= T) in Hs. apply Rabs_le_inv in Hs.
  apply Rabs_le_inv in Eq. apply Rabs_le_inv in Ew'. apply Rabs_le_inv in Hd.
  assert (Bavg : - (T + T / 1000000) <= avg <= T + T / 1000000).
  { destruct (Rle_or_lt (fval d0) (fval s)) as [L | L]; [specialize (A1 L) | specialize (A2 (Rlt_le _ _ L))]; lra. }
  split.
  { cbv zeta. fold d0 w0 S avg. split.
    - pose proof (tsd_loss c U q a Vq Fq Ea) as L. fold T in L. apply Rabs_le_inv in L.
      revert L. unfold Rmax, Rmin. repeat destruct (Rle_dec _ _); intros L; apply Rabs_le; lra.
    - pose proof (weight_loss c U m b Vm Fm Eb) as L. fold W in L. rewrite Em in L. apply Rabs_le_inv in L.
      revert L. unfold Rmax, Rmin. repeat destruct (Rle_dec _ _); intros L; apply Rabs_le; lra. }
  split.
  { destruct (Z.eq_dec w 0) as [-> | Nw]; [lia|].
    destruct (fltb (max_weight c) w') eqn:L.
    - assert (m = max_weight c) by (unfold m, fmin; rewrite L; reflexivity).
      assert (b = 32767)%Z; [|lia].
      pose proof (weight_bounds c U) as B. rewrite weight_to_value_eq in Eb.
      rewrite H in Eb. unfold bounds_ok in B. cbv zeta in B.
      decompose [and] B. congruence.
    - assert (m = w') by (unfold m, fmin; rewrite L; reflexivity). rewrite H in Eb.
      apply (weight_mono c U w0 w' w b Vw Vw' (fin_not_nan _ Fw) (fin_not_nan _ Fw')); [|apply weight_round; [exact U | lia] | exact Eb].
      apply (fleb_ok w0 w' Vw Vw' Fw Fw'). exact Lw'. }
  destruct (tsd_premises c U) as [P1 [P2 [P3 [P4 [[P5 P6] [P7 [P8 [P9 P10]]]]]]]].
  rewrite tsd_to_value_eq in Ea, Evs.
  assert (DD : fval (max_tsd c) - fval (min_tsd c) = 2 * T) by (rewrite P9; fold T; ring).
  assert (up : fval q <= fval s + 100 * u24 * (fval (max_tsd c) - fval (min_tsd c)) -> (a <= vs + 1)%Z).
  { intros H. exact (gen_step _ _ P1 P2 P3 P4 P5 P6 P8 q s a vs Vq Fq Vs Fs H Ea Evs). }
  assert (dn : fval s <= fval q + 100 * u24 * (fval (max_tsd c) - fval (min_tsd c)) -> (vs <= a + 1)%Z).
  { intros H. exact (gen_step _ _ P1 P2 P3 P4 P5 P6 P8 s q vs a Vs Fs Vq Fq H Evs Ea). }
  rewrite DD in up, dn.
  split; [|split].
  - intros Nv L. apply (fleb_ok d0 s Vd Vs Fd Fs) in L. specialize (A1 L). split; [|apply up; lra].
    apply (gen_ge _ _ (min_tsd c) P1 P2 P3 P4 P5 P6 P7 P8 q v a Vq Fq ltac:(lia)); [|exact Ea].
    fold (value_to_tsd c v). fold d0. rewrite DD. lra.
  - intros Nv L. apply (fleb_ok s d0 Vs Vd Fs Fd) in L. specialize (A2 L). split; [apply Z.le_sub_le_add_r; apply dn; lra|].
    apply (gen_le _ _ (min_tsd c) P1 P2 P3 P4 P5 P6 P7 P8 q v a Vq Fq ltac:(lia)); [|exact Ea].
    fold (value_to_tsd c v). fold d0. rewrite DD. lra.
  - intros Zv. assert (Zw : w = 0%Z) by tauto. specialize (Hw0 Zw).
    assert (avg = fval s). { unfold avg, S. rewrite Hw0. field. lra. }
    split; [apply Z.le_sub_le_add_r; apply dn; lra | apply up; lra].
Qed.

(* the scan matcher's score *)
Definition cap : R := IZR (2 ^ 60).
Lemma cap_sum x y : x <= cap -> y <= IZR (2 ^ 31) -> rnd32 (x + y) <= cap.
Proof.
  intros Hx Hy. apply Rle_trans with (rnd32 (IZR (2 ^ 60) + IZR (2 ^ 31))).
  - apply rnd32_le. unfold cap in Hx. lra.
  - assert (E1 : fval (f_of_Z (2 ^ 60)) = IZR (2 ^ 60)).
    { fcompute (f_of_Z (2 ^ 60)). rewrite fval_pos. change 37%Z with (Z.of_nat 37).
      rewrite <- (IZR_Zpower radix2) by lia. rewrite <- mult_IZR. reflexivity. }
    assert (E2 : fval (f_of_Z (2 ^ 31)) = IZR (2 ^ 31)).
    { fcompute (f_of_Z (2 ^ 31)). rewrite fval_pos. change 8%Z with (Z.of_nat 8).
      rewrite <- (IZR_Zpower radix2) by lia. rewrite <- mult_IZR. reflexivity. }
    assert (F1 : ffin (f_of_Z (2 ^ 60))) by (vm_compute; reflexivity).
    assert (F2 : ffin (f_of_Z (2 ^ 31))) by (vm_compute; reflexivity).
    destruct (fadd_ok (f_of_Z (2 ^ 60)) (f_of_Z (2 ^ 31)) (f_of_Z_valid _) (f_of_Z_valid _) F1 F2) as [_ E].
    { rewrite E1, E2. apply rnd32_small. rewrite <- plus_IZR, <- abs_IZR. apply IZR_le. discriminate. }
    rewrite E1, E2 in E. rewrite <- E.
    replace (fadd (f_of_Z (2 ^ 60)) (f_of_Z (2 ^ 31))) with (f_of_Z (2 ^ 60)) by (vm_compute; reflexivity).
    rewrite E1. apply Rle_refl.
Qed.

Section Score.
Variable t : tsdf.
Hypothesis R : twf t.
Let c := t_conv t.
Let T := fval (max_tsd c).
Hypothesis H1 : fleb (value_to_tsd c 32767) (max_tsd c) = true.
Hypothesis H2 : fleb (min_tsd c) (value_to_tsd c 1) = true.
Local Notation U := (tw_conv _ R).

Lemma tsd_le u v : (1 <= u <= v)%Z -> (v <= 32767)%Z -> fval (value_to_tsd c u) <= fval (value_to_tsd c v).
Proof.
  intros A B. destruct (Z.eq_dec u v) as [-> | N]; [apply Rle_refl|].
  destruct (tsd_float c U u ltac:(lia)) as [Vu [Fu _]]. destruct (tsd_float c U v ltac:(lia)) as [Vv [Fv _]].
  apply Rlt_le. apply (fltb_ok _ _ Vu Vv Fu Fv). apply tsd_strict; [exact U | lia..].
Qed.

Lemma tsd_in v : (0 <= v <= 32767)%Z -> Rabs (fval (value_to_tsd c v)) <= T.
Proof.
  intros H. destruct (tsd_premises c U) as [P1 [P2 [P3 [P4 [_ [_ [_ [P9 P10]]]]]]]].
  fold T in P9, P10. destruct (Z.eq_dec v 0) as [-> | N].
  - change (value_to_tsd c 0) with (min_tsd c). rewrite P9, Rabs_Ropp, Rabs_pos_eq; lra.
  - destruct (tsd_float c U 1 ltac:(lia)) as [V1 [F1 _]]. destruct (tsd_float c U 32767 ltac:(lia)) as [V2 [F2 _]].
    apply (fleb_ok _ _ V2 P2 F2 P4) in H1. apply (fleb_ok _ _ P1 V1 P3 F1) in H2.
    fold T in H1. rewrite P9 in H2.
    pose proof (tsd_le 1 v ltac:(lia) ltac:(lia)). pose proof (tsd_le v 32767 ltac:(lia) ltac:(lia)).
    apply Rabs_le. lra.
Qed.

Lemma read_in x y : exists d w, get_tsd_and_weight t x y = Some (d, w) /\ valid32 d /\ ffin d /\
  Rabs (fval d) <= T /\ valid32 w /\ ffin w /\ 0 <= fval w <= IZR (2 ^ 31).
Proof.
  assert (Q : 2 * IZR (2 ^ 30) = IZR (2 ^ 31)) by (rewrite <- mult_IZR; reflexivity).
  destruct (contains (g_lim (t_grid t)) x y) eqn:C.
  - destruct (pair_read t x y R C) as [v [w [_ [Bv [Bw [_ E]]]]]]. fold c in E.
    destruct (tsd_any c U v Bv) as [V [F _]]. destruct (weight_any c U w Bw) as [Vw [Fw [B _]]].
    destruct (W_range c U) as [[_ L] _].
    do 2 eexists. split; [exact E|]. split; [exact V|]. split; [exact F|]. split; [now apply tsd_in|].
    split; [exact Vw|]. split; [exact Fw|]. lra.
  - destruct (tsd_premises c U) as [P1 [_ [P3 _]]]. destruct zero_ok as [Z1 [Z2 Z3]].
    exists (min_tsd c), min_weight. split; [unfold get_tsd_and_weight; rewrite C; reflexivity|].
    split; [exact P1|]. split; [exact P3|]. split; [exact (tsd_in 0 ltac:(lia))|].
    split; [exact Z1|]. split; [exact Z2|]. rewrite Z3. split; [lra | apply IZR_le; discriminate].
Qed.

Lemma loop_in dx dy scan : forall s w, valid32 s -> ffin s -> valid32 w -> ffin w ->
  0 <= fval s <= fval w -> fval w <= cap ->
  exists s' w', score_loop t dx dy scan s w = Some (s', w') /\ valid32 s' /\ ffin s' /\ valid32 w' /\ ffin w' /\
    0 <= fval s' <= fval w' /\ fval w' <= cap.
Proof.
  assert (BC : cap <= IZR (2 ^ 62)) by (apply IZR_le; discriminate).
  assert (BB : IZR (2 ^ 62) + IZR (2 ^ 62) <= IZR (2 ^ 99)) by (rewrite <- plus_IZR; apply IZR_le; discriminate).
  assert (B31 : IZR (2 ^ 31) <= IZR (2 ^ 62)) by (apply IZR_le; discriminate).
  assert (B30 : IZR (2 ^ 30) <= IZR (2 ^ 62)) by (apply IZR_le; discriminate).
  assert (B1 : 1 <= IZR (2 ^ 62)) by (apply IZR_le; discriminate).
  induction scan as [|[x y] scan IH]; intros s w Vs Fs Vw Fw B C; cbn [score_loop].
  - exists s, w. auto 10.
  - destruct (read_in (x + dx) (y + dy)) as [d [u [E [Vd [Fd [Bd [Vu [Fu Bu]]]]]]]]. rewrite E.
    rewrite (tw_max _ R). fold c.
    destruct (tsd_premises c U) as [_ [P2 [_ [P4 [_ [_ [_ [_ P10]]]]]]]]. fold T in P10.
    destruct (T_range c U) as [[_ TB] _]. fold T in TB.
    destruct (CPC_Float.fabs_ok d Vd Fd) as [Va [Fa Ea]].
    pose proof (Rabs_pos (fval d)) as A0.
    assert (D0 : 0 <= rnd32 (T - Rabs (fval d)) <= T).
    { split; [rewrite <- rnd32_0; apply rnd32_le; lra|].
      unfold T at 2. rewrite <- (rnd32_val _ P2). apply rnd32_le. fold T. lra. }
    destruct (fsub_ok (max_tsd c) (fabs d) P2 Va P4 Fa) as [F1 E1].
    { rewrite Ea. fold T. apply rnd32_small. rewrite Rabs_pos_eq; lra. }
    rewrite Ea in E1. fold T in E1. rewrite <- E1 in D0.
    assert (V1 : valid32 (fsub (max_tsd c) (fabs d))) by now apply fsub_valid.
    set (a := fsub (max_tsd c) (fabs d)) in *.
    assert (I : 0 < / T) by (apply Rinv_0_lt_compat; lra).
    assert (Q : 0 <= fval a / T <= 1).
    { unfold Rdiv. split; [apply Rmult_le_pos; lra|].
      apply Rle_trans with (T * / T); [apply Rmult_le_compat_r; lra | apply Req_le; field; lra]. }
    destruct (fdiv_ok a (max_tsd c) V1 P2 F1) as [F2 E2].
    { fold T. lra. } { fold T. apply rnd32_small. rewrite Rabs_pos_eq; lra. }
    fold T in E2.
    assert (Q2 : 0 <= fval (fdiv a (max_tsd c)) <= 1).
    { rewrite E2. split; [rewrite <- rnd32_0; apply rnd32_le; lra|].
      rewrite <- (rnd32_int 1) by lia. apply rnd32_le. lra. }
    assert (V2 : valid32 (fdiv a (max_tsd c))) by now apply fdiv_valid.
    set (n := fdiv a (max_tsd c)) in *.
    assert (M : 0 <= fval n * fval u <= fval u).
    { split; [apply Rmult_le_pos; lra|]. rewrite <- (Rmult_1_l (fval u)) at 2. apply Rmult_le_compat_r; lra. }
    destruct (fmul_ok n u V2 Vu F2 Fu) as [F3 E3].
    { apply rnd32_small. rewrite Rabs_pos_eq; lra. }
    assert (Q3 : 0 <= fval (fmul n u) <= fval u).
    { rewrite E3. split; [rewrite <- rnd32_0; apply rnd32_le; lra|].
      rewrite <- (rnd32_val u Vu). apply rnd32_le. rewrite (rnd32_val u Vu). lra. }
    assert (V3 : valid32 (fmul n u)) by now apply fmul_valid.
    set (p := fmul n u) in *.
    destruct (fadd_ok s p Vs V3 Fs F3) as [F4 E4].
    { apply rnd32_small. rewrite Rabs_pos_eq; lra. }
    destruct (fadd_ok w u Vw Vu Fw Fu) as [F5 E5].
    { apply rnd32_small. rewrite Rabs_pos_eq; lra. }
    apply IH; try assumption; try (now apply fadd_valid).
    + rewrite E4, E5. split; [rewrite <- rnd32_0; apply rnd32_le; lra | apply rnd32_le; lra].
    + rewrite E5. apply cap_sum; lra.
Qed.

Lemma score_in dx dy scan : exists s, candidate_score t dx dy scan = Some s /\
  valid32 s /\ fleb f_zero s = true /\ fleb s (f_of_Z 1) = true.
Proof.
  assert (Z0 : valid32 f_zero /\ ffin f_zero /\ fval f_zero = 0) by (repeat split).
  assert (O1 : valid32 (f_of_Z 1) /\ ffin (f_of_Z 1) /\ fval (f_of_Z 1) = 1).
  { split; [apply f_of_Z_valid|]. apply of_Z_fin. lia. }
  destruct Z0 as [Vz [Fz Ez]]. destruct O1 as [Vo [Fo Eo]].
  destruct (loop_in dx dy scan f_zero f_zero Vz Fz Vz Fz) as [s [w [E [Vs [Fs [Vw [Fw [B C]]]]]]]].
  { rewrite Ez. lra. } { rewrite Ez. apply IZR_le. discriminate. }
  unfold candidate_score. rewrite E. destruct (feqb w f_zero) eqn:Q.
  - exists f_zero. split; [reflexivity|]. split; [exact Vz|]. split; reflexivity.
  - assert (P : 0 < fval w).
    { rewrite <- Ez. apply (fltb_ok f_zero w Vz Vw Fz Fw).
      destruct w as [z|z| |z m e]; try discriminate. destruct z; [|reflexivity].
      exfalso. assert (L : fltb (S754_finite true m e) f_zero = true) by reflexivity.
      apply (fltb_ok _ f_zero Vw Vz Fw Fz) in L. lra. }
    assert (I : 0 < / fval w) by (apply Rinv_0_lt_compat; lra).
    assert (G : 0 <= fval s / fval w <= 1).
    { unfold Rdiv. split; [apply Rmult_le_pos; lra|].
      apply Rle_trans with (fval w * / fval w); [apply Rmult_le_compat_r; lra | apply Req_le; field; lra]. }
    destruct (fdiv_ok s w Vs Vw Fs) as [F2 E2]; [lra | apply rnd32_small; rewrite Rabs_pos_eq;
      [apply Rle_trans with 1; [lra | apply IZR_le; discriminate] | lra] |].
    assert (V2 : valid32 (fdiv s w)) by now apply fdiv_valid.
    assert (L0 : fleb f_zero (fdiv s w) = true).
    { apply (fleb_ok _ _ Vz V2 Fz F2). rewrite Ez, E2. rewrite <- rnd32_0. apply rnd32_le. lra. }
    rewrite L0. exists (fdiv s w). split; [reflexivity|]. split; [exact V2|]. split; [exact L0|].
    apply (fleb_ok _ _ V2 Vo F2 Fo). rewrite Eo, E2. rewrite <- (rnd32_int 1) by lia. apply rnd32_le. lra.
Qed.
End Score.
