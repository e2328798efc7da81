(* Property theorems for the 2D branch-and-bound scan matcher (C38, C39, C41). *)
From Coq Require Import List ZArith Bool Reals Lia Lra Sorted Permutation.
From Verif Require Import Float32 FloatR Float32_Proofs PV_Model PV_Bounded PV_Proofs FCSM2D_Model FCSM2D_Spec FCSM2D_Window
  FCSM2D_Proofs FCSM_Float.
Import ListNotations.
Open Scope Z_scope.

(* C39, one line: for every line and width the sliding window passes all its
   assertions and yields the window maxima, also left of the line. *)
Theorem C39_line g n w : 1 <= n -> 1 <= w ->
  exists os, sw_line g n w = Some os /\ Z.of_nat (length os) = n + w - 1 /\
    forall x, - w < x < n -> line_max g n w x (znth 0 (x + w - 1) os).
Proof. apply sw_line_ok. Qed.

(* C39: the constructor passes all CHECKs and GetValue is the quantized maximum
   over the width x width window starting at the position (cut to the grid), and
   0 where the window misses the grid. *)
Theorem C39_precomputation_exact quant g nx ny w :
  1 <= nx -> 1 <= ny -> 1 <= w ->
  (forall a b, a <= b -> quant a <= quant b) ->
  (forall x y, 0 <= x < nx -> 0 <= y < ny -> 0 <= quant (g x y) <= 255) ->
  exists pg, precompute quant g nx ny w = Some pg /\
    (forall x y, - w < x < nx -> - w < y < ny ->
       window_max (fun i j => quant (g i j)) nx ny w x y (get_value pg x y)) /\
    (forall x y, ~ (- w < x < nx /\ - w < y < ny) -> get_value pg x y = 0).
Proof. apply precompute_ok. Qed.

(* A grid of width 1 holds exactly the quantized cells *)
Theorem C39_width_one quant g nx ny :
  1 <= nx -> 1 <= ny ->
  (forall a b, a <= b -> quant a <= quant b) ->
  (forall x y, 0 <= x < nx -> 0 <= y < ny -> 0 <= quant (g x y) <= 255) ->
  exists pg, precompute quant g nx ny 1 = Some pg /\
    forall x y, get_value pg x y = cell quant g nx ny x y.
Proof.
  intros H1 H2 M R.
  destruct (precompute_ok quant g nx ny 1 H1 H2 ltac:(lia) M R) as (pg & E & _).
  exists pg. split; auto. intros x y. apply level0; auto. 
Qed.

(* C41: the shrunk window contains the zero offset, and any pose that was cut
   off has all scan points outside the grid and scores like an empty map. *)
Theorem C41_shrink_no_loss quant to_score g nx ny s b :
  min_x b <= 0 <= max_x b -> min_y b <= 0 <= max_y b ->
  let b' := shrink nx ny s b in
  (min_x b' <= 0 <= max_x b' /\ min_y b' <= 0 <= max_y b') /\
  (min_x b <= min_x b' /\ max_x b' <= max_x b /\
   min_y b <= min_y b' /\ max_y b' <= max_y b) /\
  forall x y, min_x b <= x <= max_x b -> min_y b <= y <= max_y b ->
    ~ (min_x b' <= x <= max_x b' /\ min_y b' <= y <= max_y b') ->
    (forall p, In p s -> ~ (0 <= fst p + x < nx /\ 0 <= snd p + y < ny)) /\
    pose_score quant to_score g nx ny s x y = to_score (Z.of_nat (length s)) 0.
Proof.
  intros Bx By b'.
  destruct (shrink_facts nx ny s b (conj Bx By)) as (B0 & B1 & B2 & B3 & B4 & B5).
  split; [exact B0|]. split; [repeat split; assumption|].
  intros x y X Y N. split; [apply B5; auto|].
  unfold pose_score. f_equal. apply scan_sum_out. apply B5; auto.
Qed.

(* C38: for every grid, every non-empty set of scans with 1 to 2^23 - 1 points
   (so that the sum of 8-bit values is an int) and search windows around zero, every depth, every monotone score, and every way of
   sorting equal scores: the matcher does not abort; it answers false only if no
   pose of the (unshrunk) window scores above min_score; otherwise it returns a
   pose of the window, with its score by direct lookup, which no pose of the
   window exceeds. *)
Theorem C38_branch_and_bound quant to_score sort g nx ny depth ss min_score :
  1 <= nx -> 1 <= ny ->
  (forall a b, a <= b -> quant a <= quant b) ->
  (forall x y, 0 <= x < nx -> 0 <= y < ny -> 0 <= quant (g x y) <= 255) ->
  (forall n a b, 1 <= n < 2 ^ 23 -> 0 <= a <= b -> b <= 255 * n -> to_score n a <= to_score n b) ->
  (forall l, Permutation l (sort l)) ->
  (forall l, StronglySorted (fun a b => c_score b <= c_score a) (sort l)) ->
  (1 <= depth)%nat -> ss <> [] ->
  (forall s b, In (s, b) ss -> 1 <= Z.of_nat (length s) < 2 ^ 23 /\
     min_x b <= 0 <= max_x b /\ min_y b <= 0 <= max_y b) ->
  exists r, match_window quant to_score sort g nx ny depth ss min_score = Some r /\
    match r with
    | None => forall i x y s, in_window ss i x y s ->
                pose_score quant to_score g nx ny s x y <= min_score
    | Some c =>
        (exists s, in_window ss (c_scan c) (c_x c) (c_y c) s /\
                   c_score c = pose_score quant to_score g nx ny s (c_x c) (c_y c)) /\
        min_score < c_score c /\
        forall i x y s, in_window ss i x y s ->
          pose_score quant to_score g nx ny s x y <= c_score c
    end.
Proof.
  intros H1 H2 H3 H4 H5 H6 H7 H8 H9 H10.
  apply match_window_ok; auto.
Qed.

(* The answer does not depend on depth or tie-breaking: two runs agree on
   success and on the score. *)
Theorem C38_deterministic quant to_score sort sort' g nx ny depth depth' ss min_score :
  1 <= nx -> 1 <= ny ->
  (forall a b, a <= b -> quant a <= quant b) ->
  (forall x y, 0 <= x < nx -> 0 <= y < ny -> 0 <= quant (g x y) <= 255) ->
  (forall n a b, 1 <= n < 2 ^ 23 -> 0 <= a <= b -> b <= 255 * n -> to_score n a <= to_score n b) ->
  (forall l, Permutation l (sort l)) -> (forall l, Permutation l (sort' l)) ->
  (forall l, StronglySorted (fun a b => c_score b <= c_score a) (sort l)) ->
  (forall l, StronglySorted (fun a b => c_score b <= c_score a) (sort' l)) ->
  (1 <= depth)%nat -> (1 <= depth')%nat -> ss <> [] ->
  (forall s b, In (s, b) ss -> 1 <= Z.of_nat (length s) < 2 ^ 23 /\
     min_x b <= 0 <= max_x b /\ min_y b <= 0 <= max_y b) ->
  option_map (option_map c_score)
    (match_window quant to_score sort g nx ny depth ss min_score) =
  option_map (option_map c_score)
    (match_window quant to_score sort' g nx ny depth' ss min_score).
Proof.
  intros.
  destruct (C38_branch_and_bound quant to_score sort g nx ny depth ss min_score)
    as (r & E & R); auto.
  destruct (C38_branch_and_bound quant to_score sort' g nx ny depth' ss min_score)
    as (r' & E' & R'); auto.
  rewrite E, E'. simpl. f_equal.
  destruct r as [c|], r' as [c'|]; simpl; auto.
  - destruct R as ((s & W & S) & L & M), R' as ((s' & W' & S') & L' & M').
    f_equal. apply Z.le_antisymm; [rewrite S; eauto|rewrite S'; eauto].
  - destruct R as ((s & W & S) & L & M). specialize (R' _ _ _ _ W). lia.
  - destruct R' as ((s & W & S) & L & M). specialize (R _ _ _ _ W). lia.
Qed.

(* ---- the same with the float32 expressions of the code ---- *)

(* the 8-bit value of a cell with probability p x y, and the score of a pose *)
Definition cell_f (lo hi : f32) (p : Z -> Z -> f32) (nx ny x y : Z) : Z :=
  if (0 <=? x) && (x <? nx) && (0 <=? y) && (y <? ny)
  then match quant_f lo hi (p x y) with Some c => c | None => 0 end else 0.
Fixpoint scan_sum_f (lo hi : f32) (p : Z -> Z -> f32) (nx ny : Z) (s : list (Z * Z)) (x y : Z) : Z :=
  match s with
  | [] => 0
  | (px, py) :: r => cell_f lo hi p nx ny (px + x) (py + y) + scan_sum_f lo hi p nx ny r x y
  end.
Definition pose_score_f (lo hi : f32) (p : Z -> Z -> f32) (nx ny : Z) (s : list (Z * Z)) (x y : Z) : f32 :=
  score_f lo hi (Z.of_nat (length s)) (scan_sum_f lo hi p nx ny s x y).

(* The matcher with ComputeCellValue and ToScore in float32: it never aborts, and returns a pose
   with the highest float32 score of the window if and only if that exceeds min_score. *)
Theorem C38_float lo hi (p : Z -> Z -> f32) sort nx ny depth ss min_score :
  score_range lo hi -> 1 <= nx -> 1 <= ny ->
  (forall x y, 0 <= x < nx -> 0 <= y < ny ->
     valid32 (p x y) /\ fleb lo (p x y) = true /\ fleb (p x y) hi = true) ->
  valid32 min_score -> ffin min_score ->
  (forall l, Permutation l (sort l)) ->
  (forall l, StronglySorted (fun a b => c_score b <= c_score a) (sort l)) ->
  (1 <= depth)%nat -> ss <> [] ->
  (forall s b, In (s, b) ss -> 1 <= Z.of_nat (length s) < 2 ^ 23 /\
     min_x b <= 0 <= max_x b /\ min_y b <= 0 <= max_y b) ->
  exists r, match_window (quant_key lo hi) (fun n a => fkey (score_f lo hi n a)) sort
              (fun x y => fkey (p x y)) nx ny depth ss (fkey min_score) = Some r /\
    match r with
    | None => forall i x y s, in_window ss i x y s ->
                fleb (pose_score_f lo hi p nx ny s x y) min_score = true
    | Some c =>
        exists s, in_window ss (c_scan c) (c_x c) (c_y c) s /\
          fltb min_score (pose_score_f lo hi p nx ny s (c_x c) (c_y c)) = true /\
          forall i x y s', in_window ss i x y s' ->
            fleb (pose_score_f lo hi p nx ny s' x y) (pose_score_f lo hi p nx ny s (c_x c) (c_y c)) = true
    end.
Proof.
  intros HR Hx Hy Hp Vm Fm SP SS Hd Hne Hss. pose proof HR as (Vl & Vh & Fl & Fh & _).
  assert (Hin : forall x y, 0 <= x < nx -> 0 <= y < ny ->
    quant_f lo hi (p x y) = Some (quant_key lo hi (fkey (p x y)))).
  { intros x y X Y. destruct (Hp x y X Y) as (V & L & U). pose proof (between_fin _ _ _ Fl Fh L U) as F.
    apply quant_key_eq; auto. split; apply fleb_ok; auto. }
  assert (Hcell : forall x y, cell_f lo hi p nx ny x y = cell (quant_key lo hi) (fun x y => fkey (p x y)) nx ny x y).
  { intros x y. unfold cell_f, cell. destruct (_ && _) eqn:E; [|reflexivity]. rewrite Hin by lia. reflexivity. }
  assert (Hsum : forall s x y, scan_sum_f lo hi p nx ny s x y = scan_sum (quant_key lo hi) (fun x y => fkey (p x y)) nx ny s x y).
  { intros s x y. induction s as [|[px py] s IH]; cbn; [reflexivity|]. now rewrite IH, Hcell. }
  assert (Hsc : forall s x y, pose_score (quant_key lo hi) (fun n a => fkey (score_f lo hi n a)) (fun x y => fkey (p x y)) nx ny s x y
                              = fkey (pose_score_f lo hi p nx ny s x y)).
  { intros s x y. unfold pose_score, pose_score_f. now rewrite Hsum. }
  assert (Hr : forall x y, 0 <= x < nx -> 0 <= y < ny -> 0 <= quant_key lo hi (fkey (p x y)) <= 255)
    by (intros; now apply quant_key_range).
  assert (Hfin : forall i x y s, in_window ss i x y s ->
    valid32 (pose_score_f lo hi p nx ny s x y) /\ ffin (pose_score_f lo hi p nx ny s x y)).
  { intros i x y s (b & I & N & _). destruct (Hss s b (nth_error_In _ _ N)) as [Ls _].
    destruct (score_f_val lo hi HR (Z.of_nat (length s)) (scan_sum_f lo hi p nx ny s x y)) as (V & F & _); [lia | | now split].
    rewrite Hsum. pose proof (scan_sum_nonneg (quant_key lo hi) (fun x y => fkey (p x y)) nx ny Hr s x y).
    pose proof (scan_sum_upper (quant_key lo hi) (fun x y => fkey (p x y)) nx ny Hx Hy (quant_key_mono lo hi HR) Hr s x y). lia. }
  destruct (C38_branch_and_bound (quant_key lo hi) (fun n a => fkey (score_f lo hi n a)) sort
              (fun x y => fkey (p x y)) nx ny depth ss (fkey min_score)) as (r & E & R); auto.
  { apply quant_key_mono. exact HR. }
  { intros n a b Hn Hab Hb. apply score_key_mono; [exact HR | lia | lia | lia]. }
  exists r. split; [exact E|]. destruct r as [c|].
  - destruct R as ((s & W & Es) & L & M). exists s. destruct (Hfin _ _ _ _ W) as [Vs Fs]. split; [exact W|].
    rewrite Hsc in Es. split.
    + apply fltb_ok; auto. apply Rnot_le_lt. intros Q. apply fkey_le in Q; auto. lia.
    + intros i x y s' W'. destruct (Hfin _ _ _ _ W') as [V' F']. rewrite <- fkey_order by assumption. apply Z.leb_le.
      specialize (M _ _ _ _ W'). rewrite Hsc in M. lia.
  - intros i x y s W. destruct (Hfin _ _ _ _ W) as [V F]. rewrite <- fkey_order by assumption. apply Z.leb_le.
    specialize (R _ _ _ _ W). now rewrite Hsc in R.
Qed.

(* Every cell of a ProbabilityGrid is in the range of its matcher: 1.f - abs(GetCorrespondenceCost),
   fast_correlative_scan_matcher_2d.cc:109-131, is between min_score_ and max_score_. *)
Theorem C38_probability_cells v : 0 <= v <= 32767 ->
  score_range cost_lo cost_hi /\ valid32 (one_minus (fabs (value_to_cost v))) /\
  fleb cost_lo (one_minus (fabs (value_to_cost v))) = true /\
  fleb (one_minus (fabs (value_to_cost v))) cost_hi = true.
Proof.
  intros H. split; [exact cost_range|].
  destruct cost_pre as (V1 & V2 & F1 & F2 & E1 & E2).
  assert (B : fleb kMinCost (value_to_cost v) = true /\ fleb (value_to_cost v) kMaxCost = true).
  { destruct (Z.eq_dec v 0) as [-> | N].
    - change (value_to_cost 0) with kMaxCost. split; vm_compute; reflexivity.
    - destruct (in_bounds v ltac:(lia)) as (_ & _ & L & U). auto. }
  destruct B as [L U]. pose proof (between_fin _ _ _ F1 F2 L U) as F. pose proof (value_to_cost_valid v) as V.
  pose proof L as L'. pose proof U as U'. apply fleb_ok in L', U'; auto. rewrite E1 in L'. rewrite E2 in U'.
  assert (P : fabs (value_to_cost v) = value_to_cost v).
  { apply fabs_pos; [exact F|]. lra. }
  rewrite P. split; [now apply one_minus_valid|].
  assert (B4 : forall a : R, (13421776 / 134217728 <= a <= 15099494 / 16777216)%R -> (Rabs a <= 4)%R).
  { intros a Ha. rewrite Rabs_pos_eq; lra. }
  split; apply one_minus_anti; auto; apply B4; rewrite ?E1, ?E2; lra.
Qed.

(* Concrete case: a 3 x 3 grid with one bright cell at (2, 1), two scans, and a
   search of depth 3. *)
Fixpoint ins (c : cand) (l : list cand) : list cand :=
  match l with
  | [] => [c]
  | d :: r => if c_score d <? c_score c then c :: l else d :: ins c r
  end.
Definition isort (l : list cand) : list cand := fold_right ins [] l.

Lemma isort_perm l : Permutation l (isort l).
Proof.
  induction l as [|a l IH]; simpl; auto.
  apply perm_trans with (a :: isort l); auto.
  generalize (isort l). clear. intros l. induction l as [|b l IH]; simpl; auto.
  destruct (_ <? _); auto. eapply perm_trans; [apply perm_swap|]. auto.
Qed.

Lemma isort_sorted l : StronglySorted (fun a b => c_score b <= c_score a) (isort l).
Proof.
  induction l as [|a l IH]; simpl; [constructor|].
  revert IH. generalize (isort l). clear. intros l H.
  induction H as [|b l Hs IH Hf]; simpl; [repeat constructor|].
  destruct (c_score b <? c_score a) eqn:E.
  - constructor; [constructor; auto|]. constructor; [lia|].
    eapply Forall_impl; [|exact Hf]. simpl. intros. lia.
  - constructor; auto. rewrite Forall_forall in *. intros x Hx.
    assert (P : In x (a :: l)).
    { revert Hx. clear. induction l as [|c l IH]; simpl; auto.
      destruct (_ <? _); simpl; [tauto|]. intros [->|H]; auto.
      apply IH in H. destruct H; auto. }
    destruct P as [<-|P]; [lia|auto].
Qed.

Definition ex_grid (x y : Z) : Z := if (x =? 2) && (y =? 1) then 200 else 10 * x + y.
Definition ex_b : bounds := {| min_x := -3; max_x := 3; min_y := -3; max_y := 3 |}.
Definition ex_scans : list (dscan * bounds) :=
  [([(0, 0); (1, 0)], ex_b); ([(0, 0); (0, 1)], ex_b)].

Example C38_example :
  match_window (fun p => p) (fun n a => a * 1000 / n) isort ex_grid 3 3 3 ex_scans 100000
  = Some (Some {| c_scan := 1; c_x := 2; c_y := 1; c_score := 111000 |}).
Proof. vm_compute. reflexivity. Qed.

Example C38_example_none :
  match_window (fun p => p) (fun n a => a * 1000 / n) isort ex_grid 3 3 3 ex_scans 111000
  = Some None.
Proof. vm_compute. reflexivity. Qed.

Example C38_example_hypotheses :
  (forall a b : Z, a <= b -> a <= b) /\
  (forall x y, 0 <= x < 3 -> 0 <= y < 3 -> 0 <= ex_grid x y <= 255) /\
  (forall n a b : Z, 1 <= n < 2 ^ 23 -> 0 <= a <= b -> b <= 255 * n -> a * 1000 / n <= b * 1000 / n).
Proof.
  repeat split; auto.
  - unfold ex_grid. destruct (_ && _); lia.
  - unfold ex_grid. destruct (_ && _); lia.
  - intros. apply Z.div_le_mono; lia.
Qed.

(* a ProbabilityGrid with one occupied cell (cost value 1) at (2, 1), the rest unknown *)
Definition ex_prob (x y : Z) : f32 :=
  one_minus (fabs (value_to_cost (if (x =? 2) && (y =? 1) then 1 else 0))).
Example C38_float_example :
  option_map (option_map (fun c => (c_scan c, c_x c, c_y c)))
    (match_window (quant_key cost_lo cost_hi) (fun n a => fkey (score_f cost_lo cost_hi n a)) isort
       (fun x y => fkey (ex_prob x y)) 3 3 2 [([(0, 0)], {| min_x := 0; max_x := 2; min_y := 0; max_y := 1 |})]
       (fkey kMinProbability))
  = Some (Some (0, 2, 1)).
Proof. vm_compute. reflexivity. Qed.
Example C38_float_example_cell :
  quant_f cost_lo cost_hi (ex_prob 2 1) = Some 255 /\ quant_f cost_lo cost_hi (ex_prob 0 0) = Some 0 /\
  score_range cost_lo cost_hi.
Proof. split; [vm_compute; reflexivity|]. split; [vm_compute; reflexivity | apply cost_range]. Qed.

Example C39_example :
  option_map (fun pg => map (fun x => map (get_value pg x) [-2; -1; 0; 1; 2; 3]) [-1; 0; 2; 3])
    (precompute (fun p => p) ex_grid 3 3 2)
  = Some [[0; 0; 1; 2; 2; 0]; [0; 10; 11; 12; 12; 0]; [0; 20; 200; 200; 22; 0]; [0; 0; 0; 0; 0; 0]].
Proof. vm_compute. reflexivity. Qed.

Example C41_example :
  shrink 3 3 [(0, 0); (1, 0)] {| min_x := -9; max_x := 9; min_y := -9; max_y := 9 |}
  = {| min_x := -1; max_x := 2; min_y := 0; max_y := 2 |}.
Proof. reflexivity. Qed.

Print Assumptions C39_line.
Print Assumptions C39_precomputation_exact.
Print Assumptions C39_width_one.
Print Assumptions C41_shrink_no_loss.
Print Assumptions C38_branch_and_bound.
Print Assumptions C38_deterministic.
Print Assumptions C38_float.
Print Assumptions C38_probability_cells.
