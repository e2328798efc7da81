(* Properties of the real time correlative scan matcher (C63). *)
From Coq Require Import List ZArith QArith Bool Reals Lia Lra SpecFloat Sorted.
From Verif Require Import Vec Float32 FloatR Float32_Proofs PV_Model Properties_PV
  G2_Model G2_Proofs Properties_G2 TSD_Model TSD_Update Properties_TSD
  RT_Model RT_Spec RT_Proofs RT_Match RT_Shift.
Import ListNotations.
Open Scope Z_scope.

(* every candidate of the window, once, ordered by scan, x and y *)
Theorem C63_candidates : forall n N, 0 <= n -> 0 <= N ->
  (2 * N + 1) * ((2 * n + 1) * (2 * n + 1)) < 2 ^ 31 ->
  exists sp cs, new_search n N = Some sp /\ generate sp = Some cs /\
    (forall c, In c cs <-> in_window n N c) /\ StronglySorted before cs /\ NoDup cs.
Proof.
  intros n N Hn HN L. destruct (generate_ok n N Hn HN L) as [sp [cs [E1 [_ [E2 [I [S _]]]]]]].
  exists sp, cs. split; [exact E1|]. split; [exact E2|]. split; [exact I|]. split; [exact S|].
  clear - S. induction S as [|c cs S IH F]; constructor; [|exact IH].
  intros H. rewrite Forall_forall in F. destruct (before_irr _ (F _ H)).
Qed.
Definition ex_window : list cand :=
  match new_search 1 1 with
  | Some sp => match generate sp with Some cs => cs | None => [] end
  | None => []
  end.
Example C63_candidates_example : length ex_window = 27%nat /\
  nth_error ex_window 5 = Some (mk_cand 0 0 1) /\ nth_error ex_window 20 = Some (mk_cand 2 (-1) 1).
Proof. vm_compute. auto. Qed.

(* a negative window is an error: (2n+1)^2 candidates are counted and none is generated *)
Theorem C63_negative_window : forall discount n N g scans, n < 0 \/ N < 0 ->
  rt_match discount n N g scans = None.
Proof.
  intros discount n N g scans H. unfold rt_match.
  destruct (new_search n N) as [sp|] eqn:E; [|reflexivity].
  assert (HN : 0 <= N).
  { unfold new_search in E. destruct (Z.ltb_spec (2 * N + 1) 0); [discriminate | lia]. }
  rewrite (generate_negative n N sp) by (assumption || lia). reflexivity.
Qed.
Example C63_negative_window_example :
  rt_match (fun _ s => s) (-1) 1 (ProbabilityGrid ex_g) [[(0, 0)]; [(0, 0)]; [(0, 0)]] = None.
Proof. vm_compute. reflexivity. Qed.

(* a scan's score on a probability grid is positive and at most 1, and close to the mean
   probability of its cells *)
Theorem C63_probability_score : forall g dx dy scan, reachable g ->
  scan <> [] -> Z.of_nat (length scan) < 2 ^ 64 ->
  exists s, prob_score g dx dy scan = Some s /\ is_binary32 s /\
    fltb f_zero s = true /\ fleb s (f_of_Z 1) = true /\
    let n := Z.of_nat (length scan) in
    (n <= 2 ^ 24 -> (Rabs (fval s - prob_sum g dx dy scan / IZR n) <= (IZR n + 2) / 16777216)%R).
Proof.
  intros g dx dy scan R NE L.
  destruct (prob_score_ok g (reachable_wf g R) dx dy scan NE L) as [s [E [V [F [B A]]]]].
  exists s. split; [exact E|]. split; [exact V|].
  assert (Z0 : valid32 f_zero /\ ffin f_zero /\ fval f_zero = 0%R) by (repeat split).
  assert (O1 : valid32 (f_of_Z 1) /\ ffin (f_of_Z 1) /\ fval (f_of_Z 1) = 1%R).
  { split; [apply f_of_Z_valid|]. apply TSD_Conv.of_Z_fin. lia. }
  destruct Z0 as [Vz [Fz Ez]]. destruct O1 as [Vo [Fo Eo]].
  split; [apply (fltb_ok _ _ Vz V Fz F); rewrite Ez; lra|].
  split; [apply (fleb_ok _ _ V Vo F Fo); rewrite Eo; lra|]. exact A.
Qed.
Example C63_probability_score_example :
  prob_score ex_g 1 0 [(0, 0)] = Some (one_minus (value_to_cost 14336)) /\
  prob_score ex_g 0 0 [(1, 0); (1, 0)] = Some (one_minus (value_to_cost 14336)) /\
  prob_score ex_g 9 0 [(0, 0)] = Some kMinProbability.
Proof. vm_compute. auto. Qed.

(* an empty scan is an error: 0 / 0 is not greater than 0 *)
Theorem C63_empty_scan : forall g dx dy, prob_score g dx dy [] = None.
Proof. intros. vm_compute. reflexivity. Qed.

(* grids on which no scan is an error *)
Definition scorable (g : any_grid) (scans : list dscan) : Prop :=
  match g with
  | ProbabilityGrid g => reachable g /\
      Forall (fun scan => scan <> [] /\ Z.of_nat (length scan) < 2 ^ 64) scans
  | Tsdf t => t_reachable t /\
      fleb (value_to_tsd (t_conv t) 32767) (max_tsd (t_conv t)) = true /\
      fleb (fneg (max_tsd (t_conv t))) (value_to_tsd (t_conv t) 1) = true
  end.
Lemma scorable_raw g scans : scorable g scans -> forall scan dx dy, In scan scans ->
  exists s, raw_score g dx dy scan = Some s /\
    valid32 s /\ fleb f_zero s = true /\ fleb s (f_of_Z 1) = true.
Proof.
  intros H scan dx dy I. destruct g as [g|t]; cbn [scorable raw_score] in *.
  - destruct H as [R F]. rewrite Forall_forall in F. destruct (F scan I) as [NE L].
    destruct (C63_probability_score g dx dy scan R NE L) as [s [E [V [P [O _]]]]]. exists s.
    split; [exact E|]. split; [exact V|]. split; [|exact O]. unfold fltb in P. unfold fleb.
    destruct (SFcompare f_zero s) as [[ | | ]|] eqn:C; try discriminate; unfold SFltb, SFleb in *; rewrite C in *; congruence.
  - destruct H as [R [H1 H2]]. apply score_in; [now apply t_reachable_wf | exact H1 | exact H2].
Qed.

(* the candidate returned has the highest score of the window, and of those that have it
   comes first; the score returned is its own *)
Theorem C63_match : forall discount g scans n N, 0 <= n -> 0 <= N ->
  (2 * N + 1) * ((2 * n + 1) * (2 * n + 1)) < 2 ^ 31 ->
  discounting N discount -> Z.of_nat (length scans) = 2 * N + 1 -> scorable g scans ->
  exists c scan raw, rt_match discount n N g scans = Some (c, discount c raw) /\ in_window n N c /\
    vget scans (c_scan c) = Some scan /\ raw_score g (c_x c) (c_y c) scan = Some raw /\
    fleb f_zero (discount c raw) = true /\ fleb (discount c raw) (f_of_Z 1) = true /\
    forall c', in_window n N c' -> exists scan' raw',
      vget scans (c_scan c') = Some scan' /\ raw_score g (c_x c') (c_y c') scan' = Some raw' /\
      fleb (discount c' raw') (discount c raw) = true /\
      (before c' c -> fltb (discount c' raw') (discount c raw) = true).
Proof.
  intros discount g scans n N Hn HN L D S H. apply match_ok; try assumption. now apply scorable_raw.
Qed.

(* the score returned is not below that of the initial pose *)
Theorem C63_not_worse : forall discount g scans n N, 0 <= n -> 0 <= N ->
  (2 * N + 1) * ((2 * n + 1) * (2 * n + 1)) < 2 ^ 31 ->
  discounting N discount -> Z.of_nat (length scans) = 2 * N + 1 -> scorable g scans ->
  exists c s scan raw, rt_match discount n N g scans = Some (c, s) /\ vget scans N = Some scan /\
    raw_score g 0 0 scan = Some raw /\ fleb raw s = true.
Proof.
  intros discount g scans n N Hn HN L D S H. apply match_center; try assumption. now apply scorable_raw.
Qed.

Definition ex_discount (c : cand) (s : f32) : f32 :=
  if (c_scan c =? 1) && (c_x c =? 0) && (c_y c =? 0) then s
  else if fltb s (f_ratio 1 4) then f_zero else f_ratio 1 4.
Lemma ex_discounting : discounting 1 ex_discount.
Proof.
  split; [|reflexivity]. intros c s V S0 S1. unfold ex_discount.
  assert (Fs : ffin s) by now apply range_fin.
  assert (Q : valid32 (f_ratio 1 4) /\ ffin (f_ratio 1 4)) by (split; vm_compute; reflexivity). destruct Q as [Vq Fq].
  destruct (_ && _).
  - split; [exact V|]. split; [exact S0|]. apply (fleb_ok _ _ V V Fs Fs). lra.
  - destruct (fltb s (f_ratio 1 4)) eqn:E.
    + split; [reflexivity|]. split; [reflexivity | exact S0].
    + split; [exact Vq|]. split; [vm_compute; reflexivity|]. apply (fleb_ok _ _ Vq V Fq Fs).
      destruct (Rle_or_lt (fval (f_ratio 1 4)) (fval s)) as [H | H]; [exact H|].
      apply (fltb_ok _ _ V Vq Fs Fq) in H. congruence.
Qed.
(* the cell (1, 0) is likely occupied: of the three candidates that put the point there
   the first is returned; with a scan already there the initial pose is *)
Example C63_match_example :
  rt_match ex_discount 1 1 (ProbabilityGrid ex_g) [[(0, 0)]; [(0, 1)]; [(2, 1)]] =
    Some (mk_cand 0 1 0, f_ratio 1 4) /\
  rt_match ex_discount 1 1 (ProbabilityGrid ex_g) [[(0, 0)]; [(1, 0)]; [(2, 1)]] =
    Some (mk_cand 1 0 0, one_minus (value_to_cost 14336)) /\
  rt_match ex_discount 1 1 (ProbabilityGrid ex_g) [[(0, 0)]; []; [(2, 1)]] = None.
Proof. vm_compute. auto. Qed.

(* moving the points by the candidate's x and y moves their cells by its offsets, except
   for points on the boundary of a cell *)
Theorem C63_shift : forall l sp step c px py, (0 < l_res l)%Q ->
  ~ on_boundary (l_mx l) (l_res l) px -> ~ on_boundary (l_my l) (l_res l) py ->
  let '(x, y, _) := cand_pose sp (l_res l) step c in
  cell_index l (px + x) (py + y) =
    (fst (cell_index l px py) + c_x c, snd (cell_index l px py) + c_y c).
Proof.
  intros l sp step c px py Hr Hx Hy. cbn [cand_pose]. unfold cell_index. cbn [fst snd].
  now rewrite !axis_shift.
Qed.
Example C63_shift_example :
  cell_index ex_lim (9 # 5) (6 # 5) = (1, 2) /\
  cell_index ex_lim ((9 # 5) + - inject_Z (-1) * (1 # 2)) ((6 # 5) + - inject_Z 1 * (1 # 2)) = (2, 1).
Proof. vm_compute. auto. Qed.

(* on both kinds of grids, moving the candidate is moving the scan *)
Theorem C63_offset : forall g dx dy scan,
  raw_score g dx dy scan = raw_score g 0 0 (map (fun xy => (fst xy + dx, snd xy + dy)) scan).
Proof.
  intros [g|t] dx dy scan; cbn [raw_score]; [|apply C62_score_offset].
  unfold prob_score. rewrite map_length.
  assert (E : forall s, prob_loop g dx dy scan s =
    prob_loop g 0 0 (map (fun xy => (fst xy + dx, snd xy + dy)) scan) s).
  { induction scan as [|[x y] scan IH]; intros s; cbn [map prob_loop fst snd]; [reflexivity|].
    rewrite !Z.add_0_r. destruct (get_probability g (x + dx) (y + dy)) as [p|]; [|reflexivity]. apply IH. }
  now rewrite E.
Qed.

(* the orientation of a candidate is the angle its scan was rotated by *)
Theorem C63_orientation : forall n N sp step res c, new_search n N = Some sp -> in_window n N c ->
  Z.of_nat (length (scan_angles sp step)) = 2 * N + 1 /\
  exists a, vget (scan_angles sp step) (c_scan c) = Some a /\ (snd (cand_pose sp res step c) == a)%Q /\
    (c_scan c = N -> a == 0)%Q.
Proof.
  intros n N sp step res c E W. unfold new_search in E. destruct (Z.ltb_spec (2 * N + 1) 0); [discriminate|].
  assert (A : num_angular sp = N /\ num_scans sp = 2 * N + 1).
  { change sp with (match Some sp with Some q => q | None => sp end). rewrite <- E. split; reflexivity. }
  destruct A as [A1 A2]. unfold scan_angles. rewrite A1, A2, angle_length, Z2Nat.id by lia. split; [reflexivity|].
  destruct W as [B _].
  destruct (angle_nth (Z.to_nat (2 * N + 1)) (- inject_Z N * step)%Q step (Z.to_nat (c_scan c)) ltac:(lia)) as [a [Q1 Q2]].
  exists a. unfold vget. destruct (Z.leb_spec 0 (c_scan c)); [|lia]. split; [exact Q1|].
  rewrite Z2Nat.id in Q2 by lia. cbn [cand_pose snd]. rewrite A1. rewrite Q2. split.
  - unfold Zminus. rewrite inject_Z_plus, inject_Z_opp. ring.
  - intros ->. ring.
Qed.
Example C63_orientation_example :
  match new_search 4 2 with
  | Some sp => map Qred (scan_angles sp (1 # 10)) = [- 1 # 5; - 1 # 10; 0; 1 # 10; 1 # 5]%Q
  | None => False
  end.
Proof. vm_compute. reflexivity. Qed.

(* on the boundary they may not be: halves are rounded away from zero, so the boundary
   belongs to the cell before it outside the map and to the one after it inside *)
Theorem C63_shift_refuted : exists l px py k, (0 < l_res l)%Q /\
  fst (cell_index l px (py + - inject_Z k * l_res l)) <> fst (cell_index l px py) + k.
Proof.
  exists ex_lim, 1%Q, 3%Q, 3. split; [reflexivity|]. vm_compute. discriminate.
Qed.

Print Assumptions C63_candidates.
Print Assumptions C63_negative_window.
Print Assumptions C63_probability_score.
Print Assumptions C63_empty_scan.
Print Assumptions C63_match.
Print Assumptions C63_not_worse.
Print Assumptions C63_shift.
Print Assumptions C63_offset.
Print Assumptions C63_orientation.
Print Assumptions C63_shift_refuted.
