(* The real time correlative scan matcher: candidates, scores and the maximum. *)
From Coq Require Import List ZArith Bool Reals Lia Lra SpecFloat Sorted.
From Flocq Require Import Core.Core IEEE754.BinarySingleNaN.
From Verif Require Import Vec Float32 FloatR Float32_Proofs PV_Model PV_Bounded PV_Near PV_Proofs
  G2_Model G2_Round G2_Spec G2_Proofs
  TSD_Model TSD_Spec TSD_Conv TSD_Proofs TSD_Grid TSD_Update RT_Model RT_Spec.
Import ListNotations.
Open Scope Z_scope.

(* the candidates *)
Lemma In_upto lo hi k : In k (upto lo hi) <-> lo <= k <= hi.
Proof.
  unfold upto. rewrite in_map_iff. split.
  - intros [j [<- H]]. apply In_zrange in H. lia.
  - intros H. exists (k - lo). split; [lia|]. apply In_zrange. lia.
Qed.
Lemma upto_length lo hi : Z.of_nat (length (upto lo hi)) = Z.max 0 (hi - lo + 1).
Proof. unfold upto. rewrite map_length, zrange_seq, map_length, seq_length. lia. Qed.

Lemma sorted_map {A B} (f : A -> B) (P : A -> A -> Prop) (Q : B -> B -> Prop) l :
  (forall a b, P a b -> Q (f a) (f b)) -> StronglySorted P l -> StronglySorted Q (map f l).
Proof.
  intros H S. induction S as [|a l S IH F]; cbn [map]; constructor; [exact IH|].
  apply Forall_map. eapply Forall_impl; [|exact F]. intros b. apply H.
Qed.
Lemma zfrom_sorted n : forall a, StronglySorted Z.lt (zfrom a n).
Proof.
  induction n as [|n IH]; intros a; cbn [zfrom]; constructor; [apply IH|].
  clear IH. assert (G : forall m b, a < b -> Forall (Z.lt a) (zfrom b m)).
  { induction m as [|m IH]; intros b H; cbn [zfrom]; constructor; [exact H | apply IH; lia]. }
  apply G. lia.
Qed.
Lemma upto_sorted lo hi : StronglySorted Z.lt (upto lo hi).
Proof. unfold upto. apply sorted_map with (P := Z.lt); [intros; lia | apply zfrom_sorted]. Qed.

Lemma sorted_app {A} (P : A -> A -> Prop) l1 l2 : StronglySorted P l1 -> StronglySorted P l2 ->
  (forall a b, In a l1 -> In b l2 -> P a b) -> StronglySorted P (l1 ++ l2).
Proof.
  intros S1 S2 H. induction S1 as [|a l S IH F]; cbn [app]; [exact S2|]. constructor.
  - apply IH. intros x y I J. apply H; [now right | exact J].
  - apply Forall_app. split; [exact F|]. apply Forall_forall. intros y J. apply H; [now left | exact J].
Qed.

Definition block (i : Z) (b : lbounds) : list cand :=
  flat_map (fun x => map (mk_cand i x) (upto (min_y b) (max_y b))) (upto (min_x b) (max_x b)).
Lemma In_block i b c : In c (block i b) <->
  c_scan c = i /\ min_x b <= c_x c <= max_x b /\ min_y b <= c_y c <= max_y b.
Proof.
  unfold block. rewrite in_flat_map. split.
  - intros [x [X H]]. apply in_map_iff in H as [y [<- Y]]. apply In_upto in X. apply In_upto in Y. cbn. auto.
  - destruct c as [s x y]. cbn. intros [-> [X Y]]. exists x. split; [now apply In_upto|].
    apply in_map_iff. exists y. split; [reflexivity | now apply In_upto].
Qed.
Lemma block_sorted i b : StronglySorted before (block i b).
Proof.
  unfold block. assert (G : forall xs, StronglySorted Z.lt xs ->
    StronglySorted before (flat_map (fun x => map (mk_cand i x) (upto (min_y b) (max_y b))) xs)).
  { induction 1 as [|x xs S IH F]; cbn [flat_map]; [constructor|]. apply sorted_app; [|exact IH|].
    - apply sorted_map with (P := Z.lt); [|apply upto_sorted]. intros u v H. right. cbn. auto.
    - intros u v I J. apply in_map_iff in I as [y [<- _]]. apply in_flat_map in J as [x' [X' J]].
      apply in_map_iff in J as [y' [<- _]]. rewrite Forall_forall in F. specialize (F _ X').
      right. cbn. auto. }
  apply G. apply upto_sorted.
Qed.
Lemma block_length i b : Z.of_nat (length (block i b)) =
  Z.max 0 (max_x b - min_x b + 1) * Z.max 0 (max_y b - min_y b + 1).
Proof.
  unfold block. rewrite <- !upto_length. generalize (upto (min_x b) (max_x b)) as xs.
  induction xs as [|x xs IH]; [reflexivity|]. cbn [flat_map]. rewrite app_length, map_length. 
  rewrite Nat2Z.inj_add, IH. cbn [length]. lia.
Qed.

Lemma gen_in b n : forall i c, In c (gen_loop i (repeat b n)) <->
  i <= c_scan c < i + Z.of_nat n /\ min_x b <= c_x c <= max_x b /\ min_y b <= c_y c <= max_y b.
Proof.
  induction n as [|n IH]; intros i c; cbn [repeat gen_loop]; [split; [intros [] | lia]|].
  fold (block i b). rewrite in_app_iff, In_block, IH. lia.
Qed.
Lemma gen_sorted b n : forall i, StronglySorted before (gen_loop i (repeat b n)).
Proof.
  induction n as [|n IH]; intros i; cbn [repeat gen_loop]; [constructor|]. fold (block i b).
  apply sorted_app; [apply block_sorted | apply IH|]. intros u v I J.
  apply In_block in I. apply gen_in in J. left. lia.
Qed.
Lemma gen_length b n : forall i, Z.of_nat (length (gen_loop i (repeat b n))) =
  Z.of_nat n * (Z.max 0 (max_x b - min_x b + 1) * Z.max 0 (max_y b - min_y b + 1)).
Proof.
  induction n as [|n IH]; intros i; cbn [repeat gen_loop]; [reflexivity|]. fold (block i b).
  rewrite app_length, Nat2Z.inj_add, block_length, IH. lia.
Qed.
Lemma count_ok b n : forall a, 0 <= a ->
  let nx := max_x b - min_x b + 1 in let ny := max_y b - min_y b + 1 in
  int_ok nx = true -> int_ok ny = true -> 0 <= nx * ny ->
  a + Z.of_nat n * (nx * ny) < 2 ^ 31 -> (n = 0%nat -> True) ->
  count_loop (repeat b n) a = Some (a + Z.of_nat n * (nx * ny)).
Proof.
  induction n as [|n IH]; intros a A nx ny Ix Iy P L _; cbn [repeat count_loop]; [f_equal; lia|].
  fold nx ny. rewrite Ix, Iy.
  assert (Q : int_ok (nx * ny) = true) by (unfold int_ok; apply andb_true_iff; split; [apply Z.leb_le | apply Z.ltb_lt]; lia).
  assert (Q2 : int_ok (a + nx * ny) = true) by (unfold int_ok; apply andb_true_iff; split; [apply Z.leb_le | apply Z.ltb_lt]; lia).
  rewrite Q, Q2. cbn [andb]. rewrite IH; try assumption; try lia; fold nx ny; try (f_equal; lia); try lia.
Qed.

Lemma int_ok_small z : - 2 ^ 31 <= z < 2 ^ 31 -> int_ok z = true.
Proof. intros H. unfold int_ok. apply andb_true_iff. split; [apply Z.leb_le | apply Z.ltb_lt]; lia. Qed.

Lemma generate_ok n N : 0 <= n -> 0 <= N -> (2 * N + 1) * ((2 * n + 1) * (2 * n + 1)) < 2 ^ 31 ->
  exists sp cs, new_search n N = Some sp /\ num_angular sp = N /\ generate sp = Some cs /\
    (forall c, In c cs <-> in_window n N c) /\ StronglySorted before cs /\
    Z.of_nat (length cs) = (2 * N + 1) * ((2 * n + 1) * (2 * n + 1)).
Proof.
  intros Hn HN L. unfold new_search. destruct (Z.ltb_spec (2 * N + 1) 0); [lia|].
  set (b := mk_lbounds (- n) n (- n) n). set (k := Z.to_nat (2 * N + 1)).
  do 2 eexists. split; [reflexivity|]. split; [reflexivity|].
  assert (B : 2 * n + 1 < 2 ^ 31) by nia.
  assert (E : n - - n + 1 = 2 * n + 1) by lia.
  assert (W : Z.of_nat (length (gen_loop 0 (repeat b k))) = (2 * N + 1) * ((2 * n + 1) * (2 * n + 1))).
  { rewrite gen_length. cbn [max_x min_x max_y min_y b]. rewrite E. unfold k. rewrite Z2Nat.id by lia.
    rewrite Z.max_r by lia. reflexivity. }
  split.
  { unfold generate. cbn [linear_bounds]. rewrite (count_ok b k 0); cbn [max_x min_x max_y min_y b]; rewrite ?E;
      try (apply int_ok_small; lia); try lia; try (unfold k; rewrite Z2Nat.id by lia; lia).
    rewrite W. unfold k. rewrite Z2Nat.id by lia. rewrite Z.add_0_l, Z.eqb_refl. reflexivity. }
  split; [|split; [apply gen_sorted | exact W]].
  intros c. rewrite gen_in. cbn [max_x min_x max_y min_y b]. unfold in_window, k. rewrite Z2Nat.id by lia. lia.
Qed.

(* a negative linear window *)
Lemma generate_negative n N sp : n < 0 -> 0 <= N -> new_search n N = Some sp -> generate sp = None.
Proof.
  intros Hn HN. unfold new_search. destruct (Z.ltb_spec (2 * N + 1) 0); [lia|].
  set (b := mk_lbounds (- n) n (- n) n). intros E. assert (LB : linear_bounds sp = repeat b (Z.to_nat (2 * N + 1))).
  { change (linear_bounds sp) with (match Some sp with Some q => linear_bounds q | None => [] end). now rewrite <- E. }
  unfold generate. rewrite LB. set (k := Z.to_nat (2 * N + 1)).
  destruct (count_loop (repeat b k) 0) as [m|] eqn:C; [|reflexivity].
  assert (G : forall j a m, count_loop (repeat b j) a = Some m -> m = a + Z.of_nat j * ((2 * n + 1) * (2 * n + 1))).
  { induction j as [|j IH]; intros a m0 Q; cbn [repeat count_loop] in Q; [injection Q as <-; lia|].
    destruct (_ && _) in Q; [|discriminate]. apply IH in Q. cbn [max_x min_x max_y min_y b] in Q. lia. }
  apply G in C. rewrite gen_length. cbn [max_x min_x max_y min_y b].
  destruct (Z.eqb_spec (Z.of_nat k * (Z.max 0 (n - - n + 1) * Z.max 0 (n - - n + 1))) m) as [Q|Q]; [|reflexivity].
  exfalso. rewrite Z.max_l in Q by lia. subst m. assert (1 <= Z.of_nat k) by (unfold k; lia). nia.
Qed.

(* scores *)
Section Scores.
Open Scope R_scope.
Variable g : grid.
Hypothesis W : wf g.

Lemma prob_in x y : exists p, get_probability g x y = Some p /\ valid32 p /\ ffin p /\
  9 / 100 <= fval p <= 91 / 100.
Proof.
  assert (M : valid32 kMinProbability /\ ffin kMinProbability /\ 9 / 100 <= fval kMinProbability <= 91 / 100).
  { destruct prob_pre as [V [_ [F [_ [E _]]]]]. rewrite E. split; [exact V|]. split; [exact F|]. lra. }
  unfold get_probability. destruct (contains (g_lim g) x y) eqn:C; [|exists kMinProbability; tauto].
  destruct (cell_value_some g x y (wf_size _ W) C) as [v Ev]. rewrite Ev.
  exists (one_minus (value_to_cost v)). split; [reflexivity|].
  destruct (wf_cell_range g x y v W Ev) as [B NE].
  assert (Q : (v mod 32768 = 0 \/ 1 <= v mod 32768 <= 32767)%Z).
  { pose proof (Z.mod_pos_bound v 32768 ltac:(lia)). lia. }
  assert (E : value_to_cost v = value_to_cost (v mod 32768)).
  { unfold value_to_cost, table_value. now rewrite Zmod_mod. }
  rewrite E. destruct Q as [Z0 | Q].
  - rewrite Z0. assert (E0 : one_minus (value_to_cost 0) = kMinCost) by (vm_compute; reflexivity).
    rewrite E0. destruct cost_pre as [V [_ [F [_ [Ec _]]]]]. rewrite Ec. split; [exact V|]. split; [exact F|]. lra.
  - destruct (ccell_near _ Q) as [V [F [_ B']]]. unfold ccell in B'. auto.
Qed.

Lemma sum24 x y : x <= IZR (2 ^ 24) -> y <= 1 -> rnd32 (x + y) <= IZR (2 ^ 24).
Proof.
  intros Hx Hy. apply Rle_trans with (rnd32 (IZR (2 ^ 24) + IZR 1)); [apply rnd32_le; lra|].
  assert (E1 : fval (f_of_Z (2 ^ 24)) = IZR (2 ^ 24)).
  { fcompute (f_of_Z (2 ^ 24)). rewrite fval_pos. change 1%Z with (Z.of_nat 1).
    rewrite <- (IZR_Zpower radix2) by lia. rewrite <- mult_IZR. reflexivity. }
  destruct (of_Z_fin 1 ltac:(lia)) as [F2 E2].
  assert (F1 : ffin (f_of_Z (2 ^ 24))) by (vm_compute; reflexivity).
  destruct (fadd_ok (f_of_Z (2 ^ 24)) (f_of_Z 1) (f_of_Z_valid _) (f_of_Z_valid _) F1 F2) as [_ E].
  { rewrite E1, E2. apply rnd32_small. rewrite <- plus_IZR, <- abs_IZR. apply IZR_le. discriminate. }
  rewrite E1, E2 in E. rewrite <- E.
  replace (fadd (f_of_Z (2 ^ 24)) (f_of_Z 1)) with (f_of_Z (2 ^ 24)) by (vm_compute; reflexivity).
  rewrite E1. apply Rle_refl.
Qed.

Lemma tiny_u : tiny <= u24 / 100.
Proof. unfold tiny. replace (u24 / 100) with (/ 1677721600) by lra. apply Rinv_le; [lra|]. apply IZR_le. discriminate. Qed.

Lemma loop_ok dx dy scan : forall s k acc, valid32 s -> ffin s -> (0 <= k)%Z ->
  0 <= fval s <= IZR (2 ^ 24) -> fval s <= IZR k -> ((1 <= k)%Z -> 9 / 100 <= fval s) ->
  ((k <= 2 ^ 24)%Z -> Rabs (fval s - acc) <= IZR k * IZR k * u24) ->
  let m := (k + Z.of_nat (length scan))%Z in
  exists s', prob_loop g dx dy scan s = Some s' /\ valid32 s' /\ ffin s' /\
    0 <= fval s' <= IZR (2 ^ 24) /\ fval s' <= IZR m /\ ((1 <= m)%Z -> 9 / 100 <= fval s') /\
    ((m <= 2 ^ 24)%Z -> Rabs (fval s' - (acc + prob_sum g dx dy scan)) <= IZR m * IZR m * u24).
Proof.
  assert (B24 : IZR (2 ^ 24) + 1 <= IZR (2 ^ 99)) by (rewrite <- plus_IZR; apply IZR_le; discriminate).
  induction scan as [|[x y] scan IH]; intros s k acc Vs Fs K B1 B2 B3 B4 m; cbn [prob_loop].
  - exists s. unfold m. cbn [length]. change (Z.of_nat 0) with 0%Z. rewrite Z.add_0_r.
    cbn [prob_sum fold_right]. rewrite Rplus_0_r. auto 10.
  - destruct (prob_in (x + dx) (y + dy)) as [p [E [Vp [Fp Bp]]]]. rewrite E.
    destruct (fadd_ok s p Vs Vp Fs Fp) as [F1 E1]; [apply rnd32_small; rewrite Rabs_pos_eq; lra|].
    destruct (IH (fadd s p) (k + 1)%Z (acc + fval p)) as [s' H].
    + now apply fadd_valid.
    + exact F1.
    + lia.
    + rewrite E1. split; [rewrite <- rnd32_0; apply rnd32_le; lra | apply sum24; lra].
    + rewrite E1. destruct (Z_le_gt_dec (k + 1) (2 ^ 24)) as [L | L].
      * rewrite <- (rnd32_int (k + 1)) by lia. apply rnd32_le. rewrite plus_IZR. lra.
      * apply Rle_trans with (IZR (2 ^ 24)); [apply sum24; lra | apply IZR_le; lia].
    + intros _. rewrite E1. apply Rle_trans with (fval p); [lra|].
      rewrite <- (rnd32_val p Vp) at 1. apply rnd32_le. lra.
    + intros L. specialize (B4 ltac:(lia)). rewrite E1.
      assert (K0 : 0 <= IZR k) by (apply IZR_le; lia).
      assert (A : Rabs (fval s + fval p) <= IZR k + 91 / 100) by (rewrite Rabs_pos_eq; lra).
      pose proof (rnd_abs _ _ A) as R. pose proof tiny_u as T.
      apply Rabs_le_inv in R. apply Rabs_le_inv in B4. rewrite plus_IZR.
      replace ((IZR k + 1) * (IZR k + 1) * u24) with (IZR k * IZR k * u24 + 2 * (IZR k * u24) + u24) by ring.
      assert (0 <= IZR k * u24) by (apply Rmult_le_pos; lra).
      apply Rabs_le. lra.
    + replace (k + 1 + Z.of_nat (length scan))%Z with m in H by (unfold m; cbn [length]; lia).
      exists s'. cbn [prob_sum fold_right fst snd] in *. unfold prob_at at 1. rewrite E.
      fold (prob_sum g dx dy scan).
      replace (acc + (fval p + prob_sum g dx dy scan)) with (acc + fval p + prob_sum g dx dy scan) by ring.
      exact H.
Qed.

Lemma prob_score_ok dx dy scan : scan <> [] -> (Z.of_nat (length scan) < 2 ^ 64)%Z ->
  exists s, prob_score g dx dy scan = Some s /\ valid32 s /\ ffin s /\ 0 < fval s <= 1 /\
    let n := Z.of_nat (length scan) in
    ((n <= 2 ^ 24)%Z -> Rabs (fval s - prob_sum g dx dy scan / IZR n) <= (IZR n + 2) * u24).
Proof.
  intros NE L. set (n := Z.of_nat (length scan)).
  assert (N1 : (1 <= n)%Z) by (unfold n; destruct scan; [congruence | cbn [length]; lia]).
  assert (Z0 : valid32 f_zero /\ ffin f_zero /\ fval f_zero = 0) by (repeat split).
  destruct Z0 as [Vz [Fz Ez]].
  destruct (loop_ok dx dy scan f_zero 0%Z 0 Vz Fz ltac:(lia)) as [s [E [Vs [Fs [B1 [B2 [B3 B4]]]]]]]; rewrite ?Ez.
  { split; [lra | apply IZR_le; discriminate]. } { lra. } { intros; lia. }
  { intros _. rewrite Rminus_0_r, Rabs_R0. lra. }
  rewrite Z.add_0_l in B2, B3, B4. fold n in B2, B3, B4. specialize (B3 N1). rewrite Rplus_0_l in B4.
  assert (R1 : 1 <= IZR n) by (apply IZR_le; lia).
  assert (R2 : IZR n <= IZR (2 ^ 64)) by (apply IZR_le; unfold n; lia).
  assert (T64 : IZR (2 ^ 64) <= IZR (2 ^ 99)) by (apply IZR_le; discriminate).
  destruct (of_Z_ok 24 128 p24 m128 n) as [Fn En].
  { apply rnd32_small. rewrite Rabs_pos_eq; lra. }
  fold (f_of_Z n) in Fn, En. fold (fval (f_of_Z n)) in En. change (frnd 24 128 (IZR n)) with (rnd32 (IZR n)) in En.
  assert (N2 : 1 <= fval (f_of_Z n)).
  { rewrite En. rewrite <- (rnd32_int 1) by lia. apply rnd32_le. lra. }
  assert (N3 : fval s <= fval (f_of_Z n)).
  { rewrite En. destruct (Z_le_gt_dec n (2 ^ 24)) as [Q | Q].
    - rewrite rnd32_int by lia. exact B2.
    - apply Rle_trans with (IZR (2 ^ 24)); [lra|]. rewrite <- (rnd32_int (2 ^ 24)) by lia. apply rnd32_le.
      apply IZR_le. lia. }
  pose proof tiny_u as T.
  assert (N4 : fval (f_of_Z n) <= 2 * IZR (2 ^ 64)).
  { rewrite En. assert (A : Rabs (IZR n) <= IZR (2 ^ 64)) by (rewrite Rabs_pos_eq; lra).
    pose proof (rnd_abs _ _ A) as R. apply Rabs_le_inv in R.
    assert (1 <= IZR (2 ^ 64)) by (apply IZR_le; discriminate). lra. }
  set (d := fval (f_of_Z n)) in *.
  assert (I : 0 < / d) by (apply Rinv_0_lt_compat; lra).
  assert (I2 : / (2 * IZR (2 ^ 64)) <= / d) by (apply Rinv_le; lra).
  set (q := fval s / d).
  assert (Q1 : q <= 1).
  { unfold q, Rdiv. apply Rle_trans with (d * / d); [apply Rmult_le_compat_r; lra | apply Req_le; field; lra]. }
  assert (Q2 : / IZR (2 ^ 70) <= q).
  { unfold q, Rdiv. apply Rle_trans with (9 / 100 * / (2 * IZR (2 ^ 64))).
    - replace (9 / 100) with (/ (100 / 9)) by lra. rewrite <- Rinv_mult. apply Rinv_le.
      + apply Rmult_lt_0_compat; [lra|]. apply Rmult_lt_0_compat; [lra | apply IZR_lt; reflexivity].
      + replace (100 / 9 * (2 * IZR (2 ^ 64))) with (IZR (200 * 2 ^ 64) / 9) by (rewrite mult_IZR; lra).
        assert (IZR (200 * 2 ^ 64) <= IZR (9 * 2 ^ 70)) by (apply IZR_le; discriminate).
        rewrite (mult_IZR 9) in H. lra.
    - apply Rmult_le_compat; try lra; try (apply Rlt_le; apply Rinv_0_lt_compat;
      apply Rmult_lt_0_compat; [lra | apply IZR_lt; reflexivity]). }
  assert (Q0 : 0 < / IZR (2 ^ 70)) by (apply Rinv_0_lt_compat; apply IZR_lt; reflexivity).
  assert (TT : tiny <= / IZR (2 ^ 70) / 1000).
  { unfold tiny, Rdiv. rewrite <- Rinv_mult. apply Rinv_le.
    - apply Rmult_lt_0_compat; [apply IZR_lt; reflexivity | lra].
    - rewrite <- mult_IZR. apply IZR_le. discriminate. }
  assert (Aq : Rabs q <= q) by (rewrite Rabs_pos_eq; lra).
  pose proof (rnd_abs _ _ Aq) as R.
  destruct (fdiv_ok s (f_of_Z n) Vs (f_of_Z_valid n) Fs) as [F2 E2].
  { fold d. lra. } { fold d. fold q. apply rnd32_small. rewrite Rabs_pos_eq by lra.
    apply Rle_trans with 1; [lra | apply IZR_le; discriminate]. }
  fold d in E2. fold q in E2. rewrite <- E2 in R. apply Rabs_le_inv in R.
  assert (V2 : valid32 (fdiv s (f_of_Z n))) by (apply fdiv_valid; [exact Vs | apply f_of_Z_valid]).
  assert (P : 0 < fval (fdiv s (f_of_Z n))) by lra.
  assert (P1 : fval (fdiv s (f_of_Z n)) <= 1).
  { rewrite E2. rewrite <- (rnd32_int 1) by lia. apply rnd32_le. lra. }
  exists (fdiv s (f_of_Z n)). split.
  { unfold prob_score. rewrite E. fold n.
    assert (C : fltb f_zero (fdiv s (f_of_Z n)) = true) by (apply (fltb_ok _ _ Vz V2 Fz F2); rewrite Ez; exact P).
    rewrite C. reflexivity. }
  split; [exact V2|]. split; [exact F2|]. split; [split; assumption|].
  cbv zeta. intros L24. specialize (B4 L24). unfold q in *. unfold d in *. rewrite En, rnd32_int in * by lia.
  apply Rabs_le_inv in B4.
  assert (D : Rabs (fval s / IZR n - prob_sum g dx dy scan / IZR n) <= IZR n * u24).
  { replace (fval s / IZR n - prob_sum g dx dy scan / IZR n) with ((fval s - prob_sum g dx dy scan) * / IZR n) by (field; lra).
    rewrite Rabs_mult, (Rabs_pos_eq (/ IZR n)) by lra.
    apply Rle_trans with (IZR n * IZR n * u24 * / IZR n).
    - apply Rmult_le_compat_r; [lra|]. apply Rabs_le. lra.
    - apply Req_le. field. lra. }
  apply Rabs_le_inv in D. apply Rabs_le. lra.
Qed.
End Scores.

(* the maximum *)
Lemma max_loop_spec (l : list (cand * f32)) : forall best : cand * f32, valid32 (snd best) -> ffin (snd best) ->
  Forall (fun e : cand * f32 => valid32 (snd e) /\ ffin (snd e)) l ->
  exists l1 l2, best :: l = l1 ++ max_loop best l :: l2 /\
    Forall (fun e => fltb (snd e) (snd (max_loop best l)) = true) l1 /\
    Forall (fun e => fleb (snd e) (snd (max_loop best l)) = true) l2.
Proof.
  induction l as [|c l IH]; intros best V F A; cbn [max_loop].
  - exists [], []. split; [reflexivity|]. split; constructor.
  - inversion A as [|? ? [Vc Fc] A']; subst.
    match goal with |- context [if ?b then _ else _] => destruct b eqn:E end.
    + destruct (IH c Vc Fc A') as [l1 [l2 [Q [H1 H2]]]].
      exists (best :: l1), l2. split; [exact (f_equal (cons best) Q)|]. split; [|exact H2].
      constructor; [|exact H1].
      set (m := max_loop c l) in *.
      assert (M : In m (c :: l)) by (rewrite Q; apply in_or_app; right; left; reflexivity).
      assert (Vm : valid32 (snd m) /\ ffin (snd m)).
      { destruct M as [<- | M]; [auto|]. rewrite Forall_forall in A'. now apply A'. }
      destruct Vm as [Vm Fm]. apply (fltb_ok _ _ V Vc F Fc) in E. apply (fltb_ok _ _ V Vm F Fm).
      destruct l1 as [|e l1].
      * cbn [app] in Q. injection Q as <- _. exact E.
      * cbn [app] in Q. injection Q as <- _. inversion H1 as [|? ? G _]; subst.
        apply (fltb_ok _ _ Vc Vm Fc Fm) in G. lra.
    + destruct (IH best V F A') as [l1 [l2 [Q [H1 H2]]]].
      set (m := max_loop best l) in *.
      assert (M : In m (best :: l)) by (rewrite Q; apply in_or_app; right; left; reflexivity).
      assert (Vm : valid32 (snd m) /\ ffin (snd m)).
      { destruct M as [<- | M]; [auto|]. rewrite Forall_forall in A'. now apply A'. }
      destruct Vm as [Vm Fm].
      assert (Cb : (fval (snd c) <= fval (snd best))%R) by now apply ge_of_lt.
      destruct l1 as [|e l1]; cbn [app] in Q.
      * injection Q as Qm Ql. exists [], (c :: l2). cbn [app]. split; [now rewrite <- Qm, <- Ql|]. split; [constructor|].
        constructor; [|exact H2]. apply (fleb_ok _ _ Vc Vm Fc Fm). rewrite <- Qm. exact Cb.
      * injection Q as Qe Ql. exists (best :: c :: l1), l2. cbn [app]. split; [now rewrite Ql|]. split; [|exact H2].
        inversion H1 as [|? ? G G']; subst e. constructor; [exact G|]. constructor; [|exact G'].
        apply (fltb_ok _ _ Vc Vm Fc Fm). apply (fltb_ok _ _ V Vm F Fm) in G. lra.
Qed.
