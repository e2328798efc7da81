(* C92: the rate of pulses.  C93: histograms. *)
From Coq Require Import ZArith Reals List Bool Lra Lia SpecFloat.
From Verif Require Import Float32 MG_Spec HT_Model HT_Spec HT_Proofs HT_Rate.
Import ListNotations.
Open Scope R_scope.

(* The events kept are the last ones: at least two if there are, of at most the duration of the window if more, and
   any more of the pulses would take longer than the window. *)
Theorem C92_window : forall window ps, ordered ps ->
  exists dropped, ps = dropped ++ pulses window ps /\
    (Nat.min 2 (length ps) <= length (pulses window ps))%nat /\
    ((2 < length (pulses window ps))%nat -> (span (pulses window ps) <= window)%Z) /\
    (forall d1 d2, dropped = d1 ++ d2 -> d2 <> [] -> (window < span (d2 ++ pulses window ps))%Z).
Proof. exact window_ok. Qed.
Example C92_window_example : pulses 10 [mk_event 0 0; mk_event 1 2; mk_event 2 9; mk_event 3 12; mk_event 4 30] = [mk_event 3 12; mk_event 4 30] /\
  pulses 10 [mk_event 0 0; mk_event 1 2; mk_event 2 9; mk_event 3 12] = [mk_event 1 2; mk_event 2 9; mk_event 3 12].
Proof. split; reflexivity. Qed.

Lemma quotient_some x y : y <> 0 -> quotient x y = Some (x / y).
Proof. intros H. unfold quotient. destruct (Req_EM_T y 0); [contradiction | reflexivity]. Qed.
Lemma seconds_nonzero d : d <> 0%Z -> seconds d <> 0.
Proof. intros H. unfold seconds. apply not_0_IZR in H. intros E. apply H. unfold Rdiv in E. apply Rmult_integral in E. destruct E as [E|E]; [exact E|]. assert (0 < / 10000000) by (apply Rinv_0_lt_compat; lra). lra. Qed.

(* The rate is the number of intervals by the time they take, the inverse of the mean interval, and the
   ratio is the time by the wall time. *)
Theorem C92_rate : forall l, (2 <= length l)%nat -> time_span l <> 0%Z ->
  exists rate mean sigma, compute_rate l = Some rate /\ rate * seconds (time_span l) = INR (length l) - 1 /\
    delta_statistics l = Some (Some mean, sigma) /\ mean * rate = 1 /\
    (span l <> 0%Z -> compute_ratio l = Some (seconds (time_span l) / seconds (span l))).
Proof.
  intros l L T. pose proof (seconds_nonzero _ T) as TN. destruct l as [|e l]; [cbn in L; lia|]. cbn [length] in L.
  assert (NL : 0 < INR (length l)) by (apply lt_0_INR; lia).
  exists (INR (length l) / seconds (time_span (e :: l))). unfold delta_statistics. replace (Nat.ltb 1 (length (e :: l))) with true by (symmetry; apply Nat.ltb_lt; cbn [length]; lia).
  rewrite deltas_sum, deltas_length. cbn [length]. replace (S (length l) - 1)%nat with (length l) by lia. eexists _, _.
  split; [cbn [compute_rate]; rewrite <- time_span_cons; now rewrite quotient_some|]. split; [rewrite S_INR; field; exact TN|]. split; [reflexivity|].
  split; [field; split; [exact TN | lra]|]. intros S. cbn [compute_ratio]. rewrite <- time_span_cons, <- span_cons. apply quotient_some. now apply seconds_nonzero.
Qed.

Lemma periodic_deltas d l : periodic_pulses d l -> forall x, In x (deltas l) -> x = seconds d.
Proof.
  induction l as [|e [|f l] IH]; intros P x X; [destruct X | destruct X|]. cbn [deltas] in X. destruct X as [<- | X]; [now rewrite (P 0%nat e f eq_refl eq_refl)|].
  apply IH; [|exact X]. intros k a b A B. now apply (P (S k)).
Qed.
(* Pulses at equal distances have the rate of these and no deviation; and a deviation of 0 says that the
   distances are equal. *)
Theorem C92_periodic : forall l d, (2 <= length l)%nat -> d <> 0%Z -> periodic_pulses d l ->
  compute_rate l = Some (10000000 / IZR d) /\
  ((3 <= length l)%nat -> delta_statistics l = Some (Some (seconds d), Some 0)).
Proof.
  intros l d L D P. pose proof (seconds_nonzero _ D) as DN. pose proof (not_0_IZR _ D) as DZ. pose proof (sum_const (seconds d) (deltas l) (periodic_deltas d l P)) as S. pose proof S as S0. rewrite deltas_sum, deltas_length in S.
  assert (NL : 0 < INR (length l - 1)) by (apply lt_0_INR; lia). split.
  - destruct l as [|e l]; [cbn in L; lia|]. cbn [compute_rate]. rewrite <- time_span_cons, S. cbn [length]. cbn [length] in S, NL. replace (Datatypes.S (length l) - 1)%nat with (length l) in * by lia.
    rewrite quotient_some by (apply Rmult_integral_contrapositive; split; [lra | exact DN]). f_equal. unfold seconds in *. field. split; [exact DZ | lra].
  - intros L3. unfold delta_statistics. replace (Nat.ltb 1 (length l)) with true by (symmetry; apply Nat.ltb_lt; lia). cbv zeta. rewrite S0, deltas_length.
    replace (INR (length l - 1) * seconds d / INR (length l - 1)) with (seconds d) by (field; lra).
    rewrite (sum_const 0). 2:{ intros x X. apply in_map_iff in X. destruct X as [y [<- Y]]. rewrite (periodic_deltas d l P y Y). ring. }
    rewrite Rmult_0_r, quotient_some by (apply not_0_INR; lia). cbn [option_map]. unfold Rdiv. rewrite Rmult_0_l, sqrt_0. reflexivity.
Qed.
Theorem C92_deviation : forall l mean, (3 <= length l)%nat -> delta_statistics l = Some (Some mean, Some 0) ->
  forall k e f, nth_error l k = Some e -> nth_error l (S k) = Some f -> seconds (e_time f - e_time e) = mean.
Proof.
  intros l mean L H. unfold delta_statistics in H. replace (Nat.ltb 1 (length l)) with true in H by (symmetry; apply Nat.ltb_lt; lia). cbv zeta in H. injection H as M Q. rewrite M in Q.
  rewrite quotient_some in Q by (apply not_0_INR; rewrite deltas_length; lia). cbn [option_map] in Q. injection Q as Q.
  destruct (squares_zero mean (deltas l)) as [P Z]. assert (N : 0 < INR (length (deltas l) - 1)) by (apply lt_0_INR; rewrite deltas_length; lia).
  apply sqrt_eq_0 in Q; [|apply Rmult_le_pos; [exact P | left; now apply Rinv_0_lt_compat]].
  assert (E : sum_of (map (fun x => (x - mean) * (x - mean)) (deltas l)) = 0). { apply Rmult_integral in Q. destruct Q as [Q | Q]; [exact Q|]. apply Rinv_0_lt_compat in N. lra. }
  specialize (Z E). clear - Z. revert Z. induction l as [|a [|b l] IH]; intros Z k e f A B; [destruct k; discriminate A | destruct k as [|[|k]]; discriminate B |].
  destruct k as [|k]; cbn [nth_error] in A, B; [injection A as <-; injection B as <-; apply Z; now left|]. apply (IH (fun x X => Z x (or_intror X)) k); assumption.
Qed.
(* The mean and the deviation of the distances, the latter from three events on. *)
Theorem C92_statistics : forall l,
  ((length l < 2)%nat -> delta_statistics l = None) /\
  ((3 <= length l)%nat -> exists mean sigma, delta_statistics l = Some (Some mean, Some sigma) /\
    mean * (INR (length l) - 1) = total (fun p => seconds (e_time (snd p) - e_time (fst p))) (combine l (tl l)) /\
    0 <= sigma /\ sigma * sigma * (INR (length l) - 2) = total (fun p => (seconds (e_time (snd p) - e_time (fst p)) - mean) ^ 2) (combine l (tl l))).
Proof.
  intros l. split; intros L; unfold delta_statistics.
  { replace (Nat.ltb 1 (length l)) with false by (symmetry; apply Nat.ltb_ge; lia). reflexivity. }
  replace (Nat.ltb 1 (length l)) with true by (symmetry; apply Nat.ltb_lt; lia). cbv zeta.
  assert (D : forall g, sum_of (map g (deltas l)) = total (fun p => g (seconds (e_time (snd p) - e_time (fst p)))) (combine l (tl l))).
  { intros g. clear. induction l as [|e [|f l] IH]; [reflexivity | reflexivity|]. cbn [deltas map combine tl total fst snd]. rewrite sum_cons. f_equal. exact IH. }
  pose proof (D (fun x => x)) as D1. rewrite map_id in D1. cbn beta in D1. rewrite D1, !deltas_length.
  assert (N1 : INR (length l - 1) = INR (length l) - 1) by (rewrite minus_INR by lia; reflexivity). assert (N2 : INR (length l - 1 - 1) = INR (length l) - 2) by (rewrite !minus_INR by lia; cbn; lra).
  assert (N3 : 3 <= INR (length l)) by (replace 3 with (INR 3) by (cbn; lra); now apply le_INR).
  rewrite N1, N2. set (mean := total _ _ / _). destruct (squares_zero mean (deltas l)) as [P _]. rewrite (D (fun x => (x - mean) * (x - mean))) in P. rewrite (D (fun x => (x - mean) * (x - mean))).
  rewrite quotient_some by lra. cbn [option_map]. exists mean. eexists. split; [reflexivity|]. split; [unfold mean; field; lra|]. split; [apply sqrt_pos|].
  rewrite sqrt_sqrt by (apply Rmult_le_pos; [exact P | left; apply Rinv_0_lt_compat; lra]).
  transitivity (total (fun p => (seconds (e_time (snd p) - e_time (fst p)) - mean) * (seconds (e_time (snd p) - e_time (fst p)) - mean)) (combine l (tl l))); [field; lra|].
  clearbody mean. clear. induction (combine l (tl l)) as [|p q IH]; [reflexivity|]. cbn [total]. rewrite IH. ring.
Qed.
Theorem C92_empty : compute_rate [] = Some 0 /\ compute_ratio [] = Some 0.
Proof. split; reflexivity. Qed.
(* As stated for all timers this is false: with one event the rate is 0 by 0, and with two, for which
   DebugString writes it, the deviation is. *)
Theorem C92_numbers_refuted : (exists e, compute_rate (pulses 10 [e]) = None) /\
  (exists e f, e_time e <> e_time f /\ length (pulses 10 [e; f]) = 2%nat /\ exists mean, delta_statistics (pulses 10 [e; f]) = Some (Some mean, None)).
Proof.
  split.
  - exists (mk_event 0 0). cbn. unfold quotient. destruct (Req_EM_T (seconds 0) 0) as [_|N]; [reflexivity|]. exfalso. apply N. unfold seconds. lra.
  - exists (mk_event 0 0), (mk_event 1 1). split; [discriminate|]. split; [reflexivity|]. eexists. unfold delta_statistics. cbn [pulses fold_left pulse drop_old app length Nat.ltb Nat.leb andb deltas Nat.sub map].
    unfold quotient. cbn [INR]. destruct (Req_EM_T 0 0) as [_|N]; [reflexivity | now contradiction N].
Qed.
(* three pulses at 10 Hz within a window *)
Example C92_example : let l := pulses 100000000 [mk_event 0 0; mk_event 1000000 500000; mk_event 2000000 1000000] in
  compute_rate l = Some 10 /\ delta_statistics l = Some (Some (1 / 10), Some 0) /\ compute_ratio l = Some 2.
Proof.
  cbv zeta. change (pulses 100000000 _) with [mk_event 0 0; mk_event 1000000 500000; mk_event 2000000 1000000].
  destruct (C92_periodic [mk_event 0 0; mk_event 1000000 500000; mk_event 2000000 1000000] 1000000) as [A B]; [cbn; lia | discriminate | |].
  { intros [|[|[|k]]] e f E F; cbn in E, F; try discriminate; injection E as <-; injection F as <-; reflexivity. }
  split; [rewrite A; f_equal; lra|]. split; [rewrite B by (cbn; lia); do 3 f_equal; unfold seconds; lra|].
  destruct (C92_rate [mk_event 0 0; mk_event 1000000 500000; mk_event 2000000 1000000]) as [rate [mean [sigma [_ [_ [_ [_ R]]]]]]]; [cbn; lia | discriminate|].
  rewrite R by discriminate. f_equal. unfold seconds. cbn. lra.
Qed.

(* The rows cut the range of the values into equal parts and count each value once. *)
Theorem C93_histogram : forall buckets values, (1 <= buckets)%nat -> values <> [] ->
  exists mn mx rs, histogramR buckets values = Some (Some (mn, mx), rs) /\ is_min mn values /\ is_max mx values /\
    (mn = mx -> rs = []) /\
    (mn <> mx -> length rs = buckets /\
      (forall i r, nth_error rs i = Some r ->
        r_lower r = bound mn mx buckets i /\ r_upper r = bound mn mx buckets (i + 1) /\
        counts (fun v => bound mn mx buckets i <= v /\ (v < bound mn mx buckets (i + 1) \/ (i + 1 = buckets)%nat)) values (r_count r) /\
        counts (fun v => v < bound mn mx buckets (i + 1) \/ (i + 1 = buckets)%nat) values (r_total r) /\
        (r_bar r <= 20)%nat /\ Rabs (INR (r_bar r) - 20 * (INR (r_count r) / INR (length values))) <= 1 / 2 + 1 / (2 * INR (length values))) /\
      exists r, nth_error rs (buckets - 1) = Some r /\ r_upper r = mx /\ r_total r = length values).
Proof.
  intros B values HB NE. destruct values as [|x l]; [congruence|]. destruct B as [|B']; [lia|]. set (B := S B') in *. set (values := x :: l) in *.
  pose proof (min_ok l x) as Mn. pose proof (max_ok l x) as Mx. fold values in Mn, Mx. set (mn := min_of Rltb x l) in *. set (mx := max_of Rltb x l) in *.
  assert (LE : mn <= mx) by (apply Mx, Mn). exists mn, mx. destruct (Req_EM_T mn mx) as [E|N].
  - exists []. split; [|split; [exact Mn|]; split; [exact Mx|]; split; [reflexivity | congruence]].
    unfold histogramR, histogram, B, values. cbv zeta. fold mn mx. unfold Reqb. destruct (Req_EM_T mn mx); [reflexivity | contradiction].
  - assert (LT : mn < mx) by lra. exists (rows Rleb Rltb upperR B (Z.of_nat B) values mn mx mn 0).
    split. { unfold histogramR, histogram, B at 1, values at 1. cbv zeta. fold mn mx. unfold Reqb. destruct (Req_EM_T mn mx); [contradiction|]. rewrite (proj2 (Rltb_true mn mx) LT). reflexivity. }
    split; [exact Mn|]. split; [exact Mx|]. split; [congruence|]. intros _.
    assert (B0 : bound mn mx B 0 = mn) by (unfold bound; cbn [INR]; unfold Rdiv; ring).
    assert (C0 : counts (fun v => v < bound mn mx B 0) values 0) by (apply counts_none; intros v V; rewrite B0; pose proof (proj2 Mn v V); lra).
    destruct (rows_ok values mn mx B ltac:(unfold B; lia) LT (proj2 Mx) B 0 0 eq_refl ltac:(unfold B; lia) C0) as [L R]. rewrite B0 in L, R. cbv zeta in L, R. cbn [plus] in R.
    set (rs := rows Rleb Rltb upperR B (Z.of_nat B) values mn mx mn 0) in *. split; [exact L|]. split.
    + intros i r I. destruct (R i r I) as [R1 [R2 [R3 [R4 R5]]]]. split; [exact R1|]. split; [exact R2|]. split; [exact R3|]. split; [exact R5|].
      assert (P : (0 < length values)%nat) by (cbn; lia). destruct (bar_ok (r_count r) (length values) P (counts_le _ _ _ R3)) as [Q1 [Q2 Q3]]. rewrite R4. split; [exact Q1|].
      assert (Q3' : (40 * r_count r <= 2 * (bar_of (r_count r) (length values) * length values) + length values + 1)%nat) by lia. clear Q3. rename Q3' into Q3. apply le_INR in Q2. apply le_INR in Q3. repeat rewrite ?plus_INR, ?mult_INR, ?S_INR in Q2. repeat rewrite ?plus_INR, ?mult_INR, ?S_INR in Q3. cbn [INR] in Q2, Q3.
      apply lt_0_INR in P. set (n := INR (length values)) in *. set (b := INR (bar_of (r_count r) (length values))) in *. set (c := INR (r_count r)) in *.
      assert (X : b - 20 * (c / n) = (b * n - 20 * c) / n) by (field; lra). rewrite X. replace (1 / 2 + 1 / (2 * n)) with (((n + 1) / 2) / n) by (field; lra).
      unfold Rdiv at 1. rewrite Rabs_mult, (Rabs_pos_eq (/ n)) by (left; now apply Rinv_0_lt_compat). apply Rmult_le_compat_r; [left; now apply Rinv_0_lt_compat|].
      apply Rabs_le. lra.
    + destruct (nth_error rs (B - 1)) as [r|] eqn:I. 2:{ apply nth_error_None in I. unfold B in *. lia. } exists r. split; [reflexivity|]. destruct (R _ r I) as [_ [R2 [_ [_ R5]]]].
      replace (B - 1 + 1)%nat with B in R2, R5 by (unfold B; lia). split; [rewrite R2; apply bound_last; unfold B; lia|]. apply (counts_fun _ _ _ _ R5). apply counts_all. intros. now right.
Qed.
Theorem C93_other : (forall values, histogramR 0 values = None) /\ (forall buckets, (1 <= buckets)%nat -> histogramR buckets [] = Some (None, [])).
Proof. split; [destruct values; reflexivity | intros [|b] H; [lia | reflexivity]]. Qed.
(* With binary32 the bounds are rounded and need not increase, and then values are counted twice: two
   values near 1.5 in five buckets add up to three. *)
Theorem C93_float_refuted : exists (values : list f32) mn mx r1 r2 r3 r4 r5,
  histogram32 5 values = Some (Some (mn, mx), [r1; r2; r3; r4; r5]) /\ length values = 2%nat /\
  fltb (r_upper r2) (r_lower r2) = true /\ r_total r5 = 3%nat.
Proof.
  exists [S754_finite false 12582912 (-23); S754_finite false 12582914 (-23)].
  do 7 eexists. split; [vm_compute; reflexivity|]. split; [reflexivity|]. split; vm_compute; reflexivity.
Qed.
(* 0, 1, 1, 3 and 4 in two buckets *)
Example C93_example : exists r1 r2, histogramR 2 [1; 0; 4; 1; 3] = Some (Some (0, 4), [r1; r2]) /\
  r_lower r1 = 0 /\ r_upper r1 = 2 /\ r_count r1 = 3%nat /\ r_bar r1 = 12%nat /\ r_count r2 = 2%nat /\ r_bar r2 = 8%nat /\ r_total r2 = 5%nat.
Proof.
  assert (T : forall a b, a < b -> Rltb a b = true) by (intros; now apply Rltb_true).
  assert (F : forall a b, b <= a -> Rltb a b = false) by (intros a b H; unfold Rltb; destruct (Rlt_dec a b); [lra | reflexivity]).
  assert (T' : forall a b, a <= b -> Rleb a b = true) by (intros; now apply Rleb_true).
  assert (F' : forall a b, b < a -> Rleb a b = false) by (intros a b H; unfold Rleb; destruct (Rle_dec a b); [lra | reflexivity]).
  assert (U : upperR 2 0 0 4 = 2) by (unfold upperR; cbn; lra).
  unfold histogramR, histogram, min_of, max_of. cbn [fold_left]. rewrite (T 0 1), (F 4 0), (F 1 0), (F 3 0), (T 1 4), (F 4 1), (F 4 3), (T 0 4) by lra. cbv zeta.
  unfold Reqb. destruct (Req_EM_T 0 4) as [E|_]; [lra|]. cbn [rows]. change (Z.of_nat 2 - Z.of_nat 2)%Z with 0%Z. change (Z.of_nat 2) with 2%Z. rewrite U. cbv zeta.
  assert (C1 : count_in Rleb Rltb false 0 2 [1; 0; 4; 1; 3] = 3%nat). { unfold count_in. cbn [filter]. rewrite (T' 0 1), (T' 0 0), (T' 0 4), (T' 0 3), (T 1 2), (T 0 2), (F 4 2), (F 3 2) by lra. reflexivity. }
  assert (C2 : count_in Rleb Rltb true 2 4 [1; 0; 4; 1; 3] = 2%nat). { unfold count_in. cbn [filter]. rewrite (F' 2 1), (F' 2 0), (T' 2 4), (T' 2 3), (T' 4 4), (T' 3 4) by lra. reflexivity. }
  rewrite C1, C2. do 2 eexists. split; [reflexivity|]. repeat split.
Qed.

Print Assumptions C92_window.
Print Assumptions C92_rate.
Print Assumptions C92_periodic.
Print Assumptions C92_deviation.
Print Assumptions C92_statistics.
Print Assumptions C92_empty.
Print Assumptions C92_numbers_refuted.
Print Assumptions C93_histogram.
Print Assumptions C93_other.
Print Assumptions C93_float_refuted.
