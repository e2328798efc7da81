(* Branch and bound over the stack of precomputation grids. *)
From Coq Require Import List ZArith Bool Lia Sorted Permutation.
From Verif Require Import FCSM2D_Model FCSM2D_Spec FCSM2D_Window.
Import ListNotations.
Open Scope Z_scope.

Lemma sum_values_acc pg s x y : forall a,
  fold_left (fun a p => a + get_value pg (fst p + x) (snd p + y)) s a =
  a + sum_values pg s x y.
Proof.
  unfold sum_values.
  induction s as [|p s IH]; simpl; intros a; [lia|].
  rewrite IH, (IH (get_value pg (fst p + x) (snd p + y))). lia.
Qed.

Lemma sum_values_cons pg p s x y :
  sum_values pg (p :: s) x y = get_value pg (fst p + x) (snd p + y) + sum_values pg s x y.
Proof. unfold sum_values at 1. simpl. apply sum_values_acc. Qed.

Lemma step_list_In lo hi step v : 1 <= step -> In v (step_list lo hi step) ->
  lo <= v <= hi.
Proof.
  intros Hs. unfold step_list. generalize (Z.to_nat (hi - lo + 1)). intros f.
  revert lo. induction f as [|f IH]; simpl; [tauto|]. intros lo.
  destruct (lo <=? hi) eqn:E; simpl; [|tauto].
  intros [<-|H]; [lia|]. apply IH in H. lia.
Qed.

Lemma steps_cover step : 1 <= step -> forall f lo hi x,
  hi - lo + 1 <= Z.of_nat f -> lo <= x <= hi ->
  exists v, In v (steps f lo hi step) /\ v <= x < v + step.
Proof.
  intros Hs. induction f as [|f IH]; simpl; intros lo hi x Hf Hx; [lia|].
  replace (lo <=? hi) with true by lia.
  destruct (Z.lt_ge_cases x (lo + step)).
  - exists lo. simpl. split; auto. lia.
  - destruct (IH (lo + step) hi x) as (v & I & V); try lia.
    exists v. simpl. auto.
Qed.

Lemma step_list_cover lo hi step x : 1 <= step -> lo <= x <= hi ->
  exists v, In v (step_list lo hi step) /\ v <= x < v + step.
Proof. intros. apply steps_cover; auto. lia. Qed.

Lemma steps_length step : 1 <= step -> forall f lo hi, lo <= hi + 1 ->
  hi - lo + 1 <= Z.of_nat f ->
  Z.of_nat (length (steps f lo hi step)) = (hi - lo + step) / step.
Proof.
  intros Hs. induction f as [|f IH]; simpl; intros lo hi Hl Hf.
  - assert (hi = lo - 1) by lia. subst. symmetry. apply Z.div_small. lia.
  - destruct (lo <=? hi) eqn:E.
    + cbn [length]. rewrite Nat2Z.inj_succ.
      destruct (Z.le_gt_cases (lo + step) (hi + 1)).
      * rewrite IH by lia.
        replace (hi - lo + step) with ((hi - (lo + step) + step) + 1 * step) by lia.
        rewrite Z.div_add by lia. lia.
      * assert (N : steps f (lo + step) hi step = []).
        { destruct f; simpl; auto. replace (lo + step <=? hi) with false by lia. auto. }
        rewrite N. simpl. 
        replace (hi - lo + step) with ((hi - lo) + 1 * step) by lia.
        rewrite Z.div_add by lia. rewrite Z.div_small by lia. lia.
    + assert (hi = lo - 1) by lia. subst. simpl. symmetry. apply Z.div_small. lia.
Qed.

Lemma step_list_length lo hi step : 1 <= step -> lo <= hi + 1 ->
  Z.of_nat (length (step_list lo hi step)) = num_steps lo hi step.
Proof.
  intros. unfold step_list, num_steps. rewrite steps_length by lia.
  rewrite Z.quot_div_nonneg; lia.
Qed.

Lemma flat_map_length {A B} (l : list A) (f : A -> list B) n :
  (forall x, length (f x) = n) -> length (flat_map f l) = (length l * n)%nat.
Proof.
  intros H. induction l; simpl; auto. rewrite app_length, H, IHl. lia.
Qed.

Definition bok (b : bounds) : Prop := min_x b <= 0 <= max_x b /\ min_y b <= 0 <= max_y b.

Lemma num_candidates_acc ss step : forall a,
  fold_left (fun a (sb : dscan * bounds) =>
     a + num_steps (min_x (snd sb)) (max_x (snd sb)) step *
         num_steps (min_y (snd sb)) (max_y (snd sb)) step) ss a =
  a + num_candidates ss step.
Proof.
  unfold num_candidates.
  induction ss as [|p ss IH]; simpl; intros a; [lia|].
  rewrite IH, (IH (num_steps (min_x (snd p)) _ _ * _)). lia.
Qed.

Lemma gen_from_length ss step : 1 <= step -> (forall s b, In (s, b) ss -> bok b) ->
  forall i, Z.of_nat (length (gen_from i ss step)) = num_candidates ss step.
Proof.
  intros Hs. induction ss as [|[s b] ss IH]; simpl; intros Hb i; auto.
  destruct (Hb s b (or_introl eq_refl)) as [B1 B2].
  rewrite app_length, Nat2Z.inj_add, IH by eauto.
  rewrite flat_map_length with (n := length (step_list (min_y b) (max_y b) step))
    by (intros; apply map_length).
  rewrite Nat2Z.inj_mul, !step_list_length by lia.
  unfold num_candidates at 2. simpl. rewrite num_candidates_acc. lia.
Qed.

Lemma gen_from_In ss step : forall i j x y, In (j, x, y) (gen_from i ss step) <->
  exists s b, i <= j /\ nth_error ss (Z.to_nat (j - i)) = Some (s, b) /\
    In x (step_list (min_x b) (max_x b) step) /\ In y (step_list (min_y b) (max_y b) step).
Proof.
  induction ss as [|[s b] ss IH]; simpl; intros i j x y.
  - split; [tauto|]. intros (s & b & _ & H & _). destruct (Z.to_nat (j - i)); discriminate.
  - rewrite in_app_iff, in_flat_map, IH. split.
    + intros [(x' & X & H)|(s' & b' & H1 & H2 & H3)].
      * apply in_map_iff in H. destruct H as (y' & E & Y). injection E as <- <- <-.
        exists s, b. rewrite Z.sub_diag. repeat split; auto. lia.
      * exists s', b'. split; [lia|].
        replace (Z.to_nat (j - i)) with (S (Z.to_nat (j - (i + 1)))) by lia. auto.
    + intros (s' & b' & H1 & H2 & H3 & H4).
      destruct (Z.eq_dec i j) as [<-|N].
      * rewrite Z.sub_diag in H2. injection H2 as <- <-. left. exists x. split; auto.
        apply in_map_iff. eauto.
      * right. exists s', b'. split; [lia|].
        replace (Z.to_nat (j - i)) with (S (Z.to_nat (j - (i + 1)))) in H2 by lia. auto.
Qed.

Lemma scan_of_nth ss i sb : 0 <= i -> nth_error ss (Z.to_nat i) = Some sb -> scan_of ss i = sb.
Proof.
  intros H E. unfold scan_of, znth. replace (i <? 0) with false by lia.
  now apply nth_error_nth.
Qed.

Lemma shrink_mn s : forall a, 
  let r := fold_left (fun a (p : Z * Z) => (Z.min (fst a) (- fst p), Z.min (snd a) (- snd p))) s a in
  fst r <= fst a /\ snd r <= snd a /\
  forall p, In p s -> fst r <= - fst p /\ snd r <= - snd p.
Proof.
  induction s as [|p s IH]; simpl; intros a; [repeat split; try lia; tauto|].
  destruct (IH (Z.min (fst a) (- fst p), Z.min (snd a) (- snd p))) as (A & B & C).
  simpl in *. repeat split; try lia; destruct H as [<-|H]; try lia;
  destruct (C _ H); lia.
Qed.

Lemma shrink_mx nx ny s : forall a, 
  let r := fold_left (fun a (p : Z * Z) => (Z.max (fst a) (nx - 1 - fst p), Z.max (snd a) (ny - 1 - snd p))) s a in
  fst a <= fst r /\ snd a <= snd r /\
  forall p, In p s -> nx - 1 - fst p <= fst r /\ ny - 1 - snd p <= snd r.
Proof.
  induction s as [|p s IH]; simpl; intros a; [repeat split; try lia; tauto|].
  destruct (IH (Z.max (fst a) (nx - 1 - fst p), Z.max (snd a) (ny - 1 - snd p))) as (A & B & C).
  simpl in *. repeat split; try lia; destruct H as [<-|H]; try lia;
  destruct (C _ H); lia.
Qed.

(* the shrunk window contains the zero offset, is inside the original one, and
   every scan point of an offset that was cut off is outside the grid *)
Lemma shrink_facts nx ny s b :
  bok b ->
  let b' := shrink nx ny s b in
  bok b' /\ min_x b <= min_x b' /\ max_x b' <= max_x b /\
  min_y b <= min_y b' /\ max_y b' <= max_y b /\
  forall x y, min_x b <= x <= max_x b -> min_y b <= y <= max_y b ->
    ~ (min_x b' <= x <= max_x b' /\ min_y b' <= y <= max_y b') ->
    forall p, In p s ->
      ~ (0 <= fst p + x < nx /\ 0 <= snd p + y < ny).
Proof.
  intros [B1 B2]. unfold shrink, bok. cbn [min_x max_x min_y max_y].
  destruct (shrink_mn s (0, 0)) as (A1 & A2 & A3).
  destruct (shrink_mx nx ny s (0, 0)) as (M1 & M2 & M3).
  cbn [fst snd] in *.
  match goal with |- context [fold_left ?f s (0,0)] =>
    set (mn := fold_left f s (0, 0)) in * end.
  match goal with |- context [fold_left ?f s (0,0)] =>
    set (mx := fold_left f s (0, 0)) in * end.
  repeat split; try lia.
  intros x y Hx Hy Hn p Hp. destruct (A3 _ Hp), (M3 _ Hp). lia.
Qed.

Section P.
Variable quant : Z -> Z.
Variable to_score : Z -> Z -> Z.
Variable sort : list cand -> list cand.
Variable g : Z -> Z -> Z.
Variables nx ny : Z.
Hypothesis Hnx : 1 <= nx.
Hypothesis Hny : 1 <= ny.
Hypothesis quant_mono : forall a b, a <= b -> quant a <= quant b.
Hypothesis quant_range :
  forall x y, 0 <= x < nx -> 0 <= y < ny -> 0 <= quant (g x y) <= 255.
Hypothesis score_mono : forall n a b, 1 <= n < 2 ^ 23 -> 0 <= a <= b -> b <= 255 * n ->
  to_score n a <= to_score n b.
Hypothesis sort_perm : forall l, Permutation l (sort l).
Hypothesis sort_sorted : forall l,
  StronglySorted (fun a b => c_score b <= c_score a) (sort l).

Notation cellv := (cell quant g nx ny).
Notation psc := (pose_score quant to_score g nx ny).

Lemma cell_nonneg x y : 0 <= cellv x y.
Proof.
  unfold cell. destruct (_ && _) eqn:E; [|lia]. apply quant_range; lia.
Qed.

Lemma scan_sum_nonneg s x y : 0 <= scan_sum quant g nx ny s x y.
Proof.
  induction s as [|[px py] s IH]; simpl; [lia|].
  pose proof (cell_nonneg (px + x) (py + y)). lia.
Qed.

Lemma scan_sum_out s x y :
  (forall p, In p s -> ~ (0 <= fst p + x < nx /\ 0 <= snd p + y < ny)) ->
  scan_sum quant g nx ny s x y = 0.
Proof.
  induction s as [|[px py] s IH]; simpl; intros H; auto.
  rewrite IH by auto. specialize (H (px, py) (or_introl eq_refl)). simpl in H.
  unfold cell. replace (_ && _) with false by lia. lia.
Qed.

(* what a grid of the stack at level d is *)
Definition level (d : nat) (pg : pgrid) : Prop :=
  precompute quant g nx ny (2 ^ Z.of_nat d) = Some pg.

Lemma pow_pos d : 1 <= 2 ^ Z.of_nat d.
Proof. pose proof (Z.pow_pos_nonneg 2 (Z.of_nat d)). lia. Qed.

Lemma make_stack_ok depth : forall k,
  exists gs, make_stack quant g nx ny (2 ^ Z.of_nat k) depth = Some gs /\
    length gs = depth /\
    forall d pg, nth_error gs d = Some pg -> level (k + d) pg.
Proof.
  induction depth as [|depth IH]; intros k; cbn [make_stack].
  - exists []. repeat split; auto. intros d pg H. destruct d; discriminate.
  - destruct (precompute_ok quant g nx ny (2 ^ Z.of_nat k)) as (pg & E & _); auto;
      [apply pow_pos|].
    rewrite E. destruct (IH (S k)) as (gs & G & L & N).
    replace (2 ^ Z.of_nat (S k)) with (2 * 2 ^ Z.of_nat k) in G
      by (rewrite Nat2Z.inj_succ, Z.pow_succ_r; lia).
    rewrite G. exists (pg :: gs). repeat split; [simpl; lia|].
    intros [|d] pg' H; simpl in H.
    + injection H as <-. unfold level. now rewrite Nat.add_0_r.
    + replace (k + S d)%nat with (S k + d)%nat by lia. auto.
Qed.

(* the level-d value of a cell bounds every cell of its 2^d window *)
Lemma level_bound d pg x y x' y' : level d pg ->
  x <= x' < x + 2 ^ Z.of_nat d -> y <= y' < y + 2 ^ Z.of_nat d ->
  cellv x' y' <= get_value pg x y.
Proof.
  intros L Hx Hy. unfold level in L.
  destruct (precompute_ok quant g nx ny (2 ^ Z.of_nat d)) as (pg' & E & I & O); auto;
    [apply pow_pos|].
  assert (pg' = pg) by congruence. subst pg'.
  assert (G0 : 0 <= get_value pg x y).
  { destruct (Z_lt_dec (- 2 ^ Z.of_nat d) x), (Z_lt_dec x nx),
      (Z_lt_dec (- 2 ^ Z.of_nat d) y), (Z_lt_dec y ny);
      try (rewrite O by lia; lia).
    destruct (I x y) as [(i & j & A1 & A2 & A3 & A4 & <-) _]; try lia.
    apply quant_range; lia. }
  unfold cell. destruct (_ && _) eqn:C; [|exact G0].
  destruct (I x y) as [_ M]; try lia.
  apply M; lia.
Qed.

Lemma level0 pg x y : level 0 pg -> get_value pg x y = cellv x y.
Proof.
  intros L. apply Z.le_antisymm.
  - unfold level in L. change (2 ^ Z.of_nat 0) with 1 in L.
    destruct (precompute_ok quant g nx ny 1) as (pg' & E & I & O); auto; [lia|].
    assert (pg' = pg) by congruence. subst pg'.
    unfold cell. destruct (_ && _) eqn:C.
    + destruct (I x y) as [(i & j & A1 & A2 & A3 & A4 & <-) _]; try lia.
      replace i with x by lia. replace j with y by lia. lia.
    + rewrite O by lia. lia.
  - apply (level_bound 0 pg); auto; simpl; lia.
Qed.

Lemma sum_bound d pg s x y x' y' : level d pg ->
  x <= x' < x + 2 ^ Z.of_nat d -> y <= y' < y + 2 ^ Z.of_nat d ->
  scan_sum quant g nx ny s x' y' <= sum_values pg s x y.
Proof.
  intros L Hx Hy. induction s as [|[px py] s IH]; [unfold sum_values; simpl; lia|].
  rewrite sum_values_cons. simpl.
  pose proof (level_bound d pg (px + x) (py + y) (px + x') (py + y') L ltac:(lia) ltac:(lia)).
  lia.
Qed.

Lemma sum0 pg s x y : level 0 pg -> sum_values pg s x y = scan_sum quant g nx ny s x y.
Proof.
  intros L. induction s as [|[px py] s IH]; [reflexivity|].
  rewrite sum_values_cons. simpl. rewrite IH, (level0 pg) by auto. reflexivity.
Qed.

Lemma level_upper d pg x y : level d pg -> get_value pg x y <= 255.
Proof.
  intros L. unfold level in L.
  destruct (precompute_ok quant g nx ny (2 ^ Z.of_nat d)) as (pg' & E & I & O); auto;
    [apply pow_pos|].
  assert (pg' = pg) by congruence. subst pg'.
  destruct (Z_lt_dec (- 2 ^ Z.of_nat d) x), (Z_lt_dec x nx),
    (Z_lt_dec (- 2 ^ Z.of_nat d) y), (Z_lt_dec y ny);
    try (rewrite O by lia; lia).
  destruct (I x y) as [(i & j & A1 & A2 & A3 & A4 & <-) _]; try lia.
  apply quant_range; lia.
Qed.

Lemma sum_upper d pg s x y : level d pg -> sum_values pg s x y <= 255 * Z.of_nat (length s).
Proof.
  intros L. induction s as [|p s IH]; [unfold sum_values; simpl; lia|].
  rewrite sum_values_cons. pose proof (level_upper d pg (fst p + x) (snd p + y) L).
  cbn [length]. lia.
Qed.

Lemma scan_sum_upper s x y : scan_sum quant g nx ny s x y <= 255 * Z.of_nat (length s).
Proof.
  destruct (precompute_ok quant g nx ny 1) as (pg & E & _); auto; [lia|].
  assert (L : level 0 pg) by exact E.
  rewrite <- (sum0 pg) by auto. now apply (sum_upper 0).
Qed.

Lemma score_nonempty_bound d pg s x y x' y' : level d pg ->
  1 <= Z.of_nat (length s) < 2 ^ 23 ->
  x <= x' < x + 2 ^ Z.of_nat d -> y <= y' < y + 2 ^ Z.of_nat d ->
  psc s x' y' <= to_score (Z.of_nat (length s)) (sum_values pg s x y).
Proof.
  intros. unfold pose_score. apply score_mono; [assumption | |].
  - split; [apply scan_sum_nonneg|]. eapply sum_bound; eauto.
  - eapply sum_upper; eauto.
Qed.

Section BnB.
Variable ss : list (dscan * bounds).
Variable grids : list pgrid.
Hypothesis scans_nonempty : forall s b, In (s, b) ss -> 1 <= Z.of_nat (length s) < 2 ^ 23.
Hypothesis grids_ok : forall d pg, nth_error grids d = Some pg -> level d pg.

(* a candidate of level d with its score *)
Definition vcand (d : nat) (c : cand) : Prop :=
  exists pg s b, nth_error grids d = Some pg /\ 0 <= c_scan c /\
    nth_error ss (Z.to_nat (c_scan c)) = Some (s, b) /\
    min_x b <= c_x c <= max_x b /\ min_y b <= c_y c <= max_y b /\
    c_score c = to_score (Z.of_nat (length s)) (sum_values pg s (c_x c) (c_y c)).

(* (x, y) is one of the poses that candidate c of level d stands for *)
Definition leaf (d : nat) (c : cand) (s : dscan) (x y : Z) : Prop :=
  exists b, nth_error ss (Z.to_nat (c_scan c)) = Some (s, b) /\ 
    c_x c <= x < c_x c + 2 ^ Z.of_nat d /\ x <= max_x b /\
    c_y c <= y < c_y c + 2 ^ Z.of_nat d /\ y <= max_y b.

Lemma leaf_bound d c s x y : vcand d c -> leaf d c s x y -> psc s x y <= c_score c.
Proof.
  intros (pg & s0 & b & P & I & N & Bx & By & ->) (b' & N' & Lx & _ & Ly & _).
  rewrite N in N'. injection N' as <- <-.
  apply (score_nonempty_bound d); auto; eauto using nth_error_In.
Qed.

Lemma leaf0_score c s x y : vcand 0 c -> leaf 0 c s x y ->
  x = c_x c /\ y = c_y c /\ psc s x y = c_score c.
Proof.
  intros (pg & s0 & b & P & I & N & Bx & By & ->) (b' & N' & Lx & _ & Ly & _).
  rewrite N in N'. injection N' as <- <-. simpl in *.
  replace x with (c_x c) by lia. replace y with (c_y c) by lia.
  repeat split. unfold pose_score. rewrite (sum0 pg) by auto. reflexivity.
Qed.

Lemma vcand0_leaf c : vcand 0 c -> exists s, leaf 0 c s (c_x c) (c_y c).
Proof.
  intros (pg & s & b & P & I & N & Bx & By & E). exists s, b. simpl.
  repeat split; auto; lia.
Qed.

Lemma offsets_In base half hi v : 0 < half ->
  In v (offsets_up_to base half hi) <-> (v = base \/ v = base + half) /\ v <= hi.
Proof.
  intros Hh. unfold offsets_up_to. rewrite Z.add_0_r.
  destruct (hi <? base) eqn:E1; simpl; [lia|].
  destruct (hi <? base + half) eqn:E2; simpl; lia.
Qed.

Lemma children_In c s b half i x y : 0 <= c_scan c -> 0 < half ->
  nth_error ss (Z.to_nat (c_scan c)) = Some (s, b) ->
  In (i, x, y) (children ss half c) <->
  i = c_scan c /\ In x (offsets_up_to (c_x c) half (max_x b)) /\
  In y (offsets_up_to (c_y c) half (max_y b)).
Proof.
  intros H0 Hh N. unfold children. rewrite (scan_of_nth _ _ _ H0 N). simpl.
  rewrite in_flat_map. split.
  - intros (x' & X & H). apply in_map_iff in H. destruct H as (y' & E & Y).
    injection E as <- <- <-. auto.
  - intros (-> & X & Y). exists x. split; auto. apply in_map_iff. eauto.
Qed.

Lemma score_one_fields pg i x y :
  c_scan (score_one to_score pg ss (i, x, y)) = i /\
  c_x (score_one to_score pg ss (i, x, y)) = x /\
  c_y (score_one to_score pg ss (i, x, y)) = y.
Proof. simpl. auto. Qed.

Notation scored := (score_candidates to_score sort).

Lemma scored_In pg cs c : In c (scored pg ss cs) <->
  exists k, In k cs /\ c = score_one to_score pg ss k.
Proof.
  unfold score_candidates. split.
  - intros H. apply Permutation_in with (l' := map (score_one to_score pg ss) cs) in H;
      [|apply Permutation_sym, sort_perm].
    apply in_map_iff in H. destruct H as (k & <- & H). eauto.
  - intros (k & H & ->). eapply Permutation_in; [apply sort_perm|]. now apply in_map.
Qed.

Lemma scored_vcand d pg cs : nth_error grids d = Some pg ->
  (forall i x y, In (i, x, y) cs -> exists s b, 0 <= i /\
     nth_error ss (Z.to_nat i) = Some (s, b) /\
     min_x b <= x <= max_x b /\ min_y b <= y <= max_y b) ->
  forall c, In c (scored pg ss cs) -> vcand d c.
Proof.
  intros P H c Hc. apply scored_In in Hc. destruct Hc as ([[i x] y] & K & ->).
  destruct (H i x y K) as (s & b & I & N & Bx & By).
  exists pg, s, b. simpl. rewrite (scan_of_nth _ _ _ I N). simpl.
  repeat split; auto; lia.
Qed.

Lemma children_ok d pg c : vcand (S d) c -> nth_error grids d = Some pg ->
  let hs := scored pg ss (children ss (2 ^ Z.of_nat d) c) in
  hs <> [] /\ (forall h, In h hs -> vcand d h) /\
  (forall s x y, leaf (S d) c s x y -> exists h, In h hs /\ leaf d h s x y) /\
  (forall h s x y, In h hs -> leaf d h s x y -> leaf (S d) c s x y /\ c_scan h = c_scan c).
Proof.
  intros (pg' & s & b & P' & I & N & Bx & By & E) P hs.
  pose proof (pow_pos d) as Hp.
  assert (Hk : 2 ^ Z.of_nat (S d) = 2 * 2 ^ Z.of_nat d)
    by (rewrite Nat2Z.inj_succ, Z.pow_succ_r; lia).
  assert (CI : forall i x y, In (i, x, y) (children ss (2 ^ Z.of_nat d) c) <->
    i = c_scan c /\ ((x = c_x c \/ x = c_x c + 2 ^ Z.of_nat d) /\ x <= max_x b) /\
    ((y = c_y c \/ y = c_y c + 2 ^ Z.of_nat d) /\ y <= max_y b)).
  { intros i x y. rewrite (children_In c s b) by (auto; lia).
    rewrite !offsets_In by lia. tauto. }
  assert (IN : forall i x y, In (i, x, y) (children ss (2 ^ Z.of_nat d) c) ->
     In (score_one to_score pg ss (i, x, y)) hs).
  { intros. apply scored_In. eauto. }
  repeat split.
  - intros Hn. assert (K : In (c_scan c, c_x c, c_y c) (children ss (2 ^ Z.of_nat d) c)).
    { apply CI. lia. }
    apply IN in K. rewrite Hn in K. destruct K.
  - apply scored_vcand with (d := d) (pg := pg); auto.
    intros i x y K. apply CI in K. destruct K as (-> & X & Y). exists s, b.
    repeat split; auto; lia.
  - intros s' x y (b' & N' & Lx & Mx & Ly & My).
    rewrite N in N'. injection N' as <- <-. rewrite Hk in *.
    set (cx := if x <? c_x c + 2 ^ Z.of_nat d then c_x c else c_x c + 2 ^ Z.of_nat d).
    set (cy := if y <? c_y c + 2 ^ Z.of_nat d then c_y c else c_y c + 2 ^ Z.of_nat d).
    exists (score_one to_score pg ss (c_scan c, cx, cy)). split.
    + apply IN, CI. unfold cx, cy.
      destruct (x <? _) eqn:E1; destruct (y <? _) eqn:E2; lia.
    + exists b. simpl. split; auto. unfold cx, cy.
      destruct (x <? _) eqn:E1; destruct (y <? _) eqn:E2; lia.
  - apply scored_In in H. destruct H as ([[i x'] y'] & K & ->). apply CI in K.
    destruct K as (-> & X & Y). destruct H0 as (b' & N' & Lx & Mx & Ly & My).
    cbn [score_one c_scan c_x c_y] in *. rewrite N in N'. injection N' as <- <-.
    exists b. split; auto. rewrite Hk. lia.
  - apply scored_In in H. destruct H as ([[i x'] y'] & K & ->). apply CI in K. simpl. tauto.
Qed.

(* r is a good answer for candidates cs at level d with threshold m *)
Definition good (d : nat) (cs : list cand) (m : Z) (r : cand) : Prop :=
  (forall c s x y, In c cs -> leaf d c s x y -> psc s x y <= Z.max m (c_score r)) /\
  (m < c_score r -> vcand 0 r /\
     exists c s, In c cs /\ leaf d c s (c_x r) (c_y r) /\ c_scan c = c_scan r).

Definition bnb_loop (d : nat) (pg : pgrid) (m : Z) :=
  fix loop (cs : list cand) (best : cand) : option cand :=
    match cs with
    | [] => Some best
    | c :: r =>
        if c_score c <=? m then Some best
        else
          match bnb to_score sort grids ss d (scored pg ss (children ss (2 ^ Z.of_nat d) c))
                    (c_score best) with
          | None => None
          | Some h => loop r (cand_max best h)
          end
    end.

Lemma bnb_S d cs m : bnb to_score sort grids ss (S d) cs m =
  match nth_error grids d with
  | None => None
  | Some pg => bnb_loop d pg m cs {| c_scan := 0; c_x := 0; c_y := 0; c_score := m |}
  end.
Proof. reflexivity. Qed.

Lemma bnb_good d : forall cs m,
  (d < length grids)%nat -> cs <> [] -> (forall c, In c cs -> vcand d c) ->
  StronglySorted (fun a b => c_score b <= c_score a) cs ->
  exists r, bnb to_score sort grids ss d cs m = Some r /\ good d cs m r.
Proof.
  induction d as [|d IH]; intros cs m Hd Hne Hv Hs.
  - destruct cs as [|c cs]; [congruence|]. exists c. split; auto.
    inversion Hs as [|? ? Hs' Hf]; subst. rewrite Forall_forall in Hf.
    split.
    + intros c' s x y Hc L. destruct (leaf0_score c' s x y (Hv _ Hc) L) as (_ & _ & ->).
      destruct Hc as [<-|Hc]; [lia|]. specialize (Hf _ Hc). lia.
    + intros _. split; [apply Hv; simpl; auto|].
      destruct (vcand0_leaf c (Hv c (or_introl eq_refl))) as (s & L).
      exists c, s. simpl; auto.
  - rewrite bnb_S. destruct (nth_error grids d) as [pg|] eqn:P.
    2:{ apply nth_error_None in P. lia. }
    assert (HL : forall cs2 cs1 best,
      (forall c, In c (cs1 ++ cs2) -> vcand (S d) c) ->
      StronglySorted (fun a b => c_score b <= c_score a) cs2 ->
      m <= c_score best -> good (S d) cs1 m best ->
      exists r, bnb_loop d pg m cs2 best = Some r /\ good (S d) (cs1 ++ cs2) m r).
    { clear cs Hne Hv Hs.
      induction cs2 as [|c cs2 IH2]; intros cs1 best Hv Hs Hm G; simpl.
      - exists best. rewrite app_nil_r. auto.
      - inversion Hs as [|? ? Hs' Hf]; subst. rewrite Forall_forall in Hf.
        destruct (c_score c <=? m) eqn:Ec.
        + exists best. split; auto. destruct G as [G1 G2]. split.
          * intros c' s x y Hc L. apply in_app_or in Hc. destruct Hc as [Hc|Hc]; [eauto|].
            pose proof (leaf_bound _ _ _ _ _ (Hv c' (in_or_app _ _ _ (or_intror Hc))) L).
            destruct Hc as [<-|Hc]; [lia|]. specialize (Hf _ Hc). lia.
          * intros K. destruct (G2 K) as (V & c' & s & I & L & Q). split; auto.
            exists c', s. repeat split; auto. apply in_or_app. auto.
        + destruct (children_ok d pg c) as (C1 & C2 & C3 & C4); auto.
          { apply Hv, in_or_app. simpl; auto. }
          destruct (IH (scored pg ss (children ss (2 ^ Z.of_nat d) c)) (c_score best))
            as (h & Eh & Gh); auto; [lia|apply sort_sorted|].
          rewrite Eh.
          destruct (IH2 (cs1 ++ [c]) (cand_max best h)) as (r & Er & Gr).
          * rewrite <- app_assoc. exact Hv.
          * exact Hs'.
          * unfold cand_max. destruct (_ <? _) eqn:Eq; lia.
          * destruct G as [G1 G2], Gh as [H1 H2].
            assert (MX : c_score (cand_max best h) = Z.max (c_score best) (c_score h)).
            { unfold cand_max. destruct (_ <? _) eqn:Eq; lia. }
            split.
            -- intros c' s x y Hc L. rewrite MX.
               apply in_app_or in Hc. destruct Hc as [Hc|[<-|[]]].
               ++ specialize (G1 _ _ _ _ Hc L). lia.
               ++ destruct (C3 _ _ _ L) as (h' & I' & L'). specialize (H1 _ _ _ _ I' L'). lia.
            -- unfold cand_max. destruct (c_score best <? c_score h) eqn:Eq; intros K.
               ++ destruct (H2 ltac:(lia)) as (V & h' & s & I & L & Q). split; auto.
                  destruct (C4 _ _ _ _ I L) as [L' Q'].
                  exists c, s. repeat split; auto; [apply in_or_app; simpl; auto|congruence].
               ++ destruct (G2 K) as (V & c' & s & I & L & Q). split; auto.
                  exists c', s. repeat split; auto. apply in_or_app. auto.
          * rewrite <- app_assoc in Gr. exists r. auto. }
    destruct (HL cs [] {| c_scan := 0; c_x := 0; c_y := 0; c_score := m |}) as (r & Er & Gr);
      simpl; auto; [lia| |].
    { split; simpl; [tauto|lia]. }
    exists r. auto.
Qed.

End BnB.

(* the whole matcher *)
Theorem match_window_ok depth ss min_score :
  (1 <= depth)%nat -> ss <> [] ->
  (forall s b, In (s, b) ss -> 1 <= Z.of_nat (length s) < 2 ^ 23 /\ bok b) ->
  exists r, match_window quant to_score sort g nx ny depth ss min_score = Some r /\
    match r with
    | None => forall i x y s, in_window ss i x y s -> psc s x y <= min_score
    | Some c =>
        (exists s, in_window ss (c_scan c) (c_x c) (c_y c) s /\
                   c_score c = psc s (c_x c) (c_y c)) /\
        min_score < c_score c /\
        forall i x y s, in_window ss i x y s -> psc s x y <= c_score c
    end.
Proof.
  intros Hd Hne Hok. unfold match_window, stack.
  destruct depth as [|dp]; [lia|].
  destruct (make_stack_ok (S dp) 0) as (grids & G & L & N).
  change (2 ^ Z.of_nat 0) with 1 in G. rewrite G. cbn [Nat.pred].
  set (ss' := shrink_all nx ny ss).
  assert (NS : forall i s b, nth_error ss i = Some (s, b) ->
    nth_error ss' i = Some (s, shrink nx ny s b)).
  { intros i s b H. unfold ss', shrink_all. now rewrite (map_nth_error _ _ _ H). }
  assert (SN : forall i s b', nth_error ss' i = Some (s, b') ->
    exists b, nth_error ss i = Some (s, b) /\ b' = shrink nx ny s b).
  { intros i s b' H. unfold ss', shrink_all in H. rewrite nth_error_map in H.
    match type of H with option_map _ ?t = _ => destruct t as [[s0 b0]|] eqn:E end;
      simpl in H; [|discriminate H].
    injection H as <- <-. exists b0. split; [exact E|reflexivity]. }
  assert (S1 : forall s b, In (s, b) ss' -> 1 <= Z.of_nat (length s) < 2 ^ 23).
  { intros s b H. apply In_nth_error in H. destruct H as [i H].
    apply SN in H. destruct H as (b0 & H & _). apply nth_error_In in H. apply Hok in H. tauto. }
  assert (S2 : forall s b, In (s, b) ss' -> bok b).
  { intros s b H. apply In_nth_error in H. destruct H as [i H].
    apply SN in H. destruct H as (b0 & H & ->). apply nth_error_In in H. apply Hok in H.
    apply (shrink_facts nx ny s b0). tauto. }
  unfold generate. pose proof (pow_pos dp) as Hp.
  rewrite gen_from_length, Z.eqb_refl by auto.
  destruct (nth_error grids dp) as [top|] eqn:P.
  2:{ apply nth_error_None in P. lia. }
  set (step := 2 ^ Z.of_nat dp) in *.
  set (cs := score_candidates to_score sort top ss' (gen_from 0 ss' step)).
  assert (GO : forall d pg, nth_error grids d = Some pg -> level d pg).
  { intros d pg H. exact (N d pg H). }
  assert (V : forall c, In c cs -> vcand ss' grids dp c).
  { apply scored_vcand; auto. intros i x y K. apply gen_from_In in K.
    destruct K as (s & b & I & Nt & X & Y). rewrite Z.sub_0_r in Nt.
    apply step_list_In in X; auto. apply step_list_In in Y; auto.
    exists s, b. auto. }
  assert (COV : forall i x y s b, 0 <= i -> nth_error ss' (Z.to_nat i) = Some (s, b) ->
     min_x b <= x <= max_x b -> min_y b <= y <= max_y b ->
     exists c, In c cs /\ leaf ss' dp c s x y).
  { intros i x y s b I Nt X Y.
    destruct (step_list_cover _ _ step x Hp X) as (vx & VX & BX).
    destruct (step_list_cover _ _ step y Hp Y) as (vy & VY & BY).
    exists (score_one to_score top ss' (i, vx, vy)). split.
    - apply scored_In. exists (i, vx, vy). split; auto. apply gen_from_In.
      rewrite Z.sub_0_r. exists s, b. auto.
    - exists b. simpl. fold step. repeat split; auto; lia. }
  assert (NE : cs <> []).
  { destruct ss as [|[s0 b0] ss0]; [congruence|].
    destruct (COV 0 0 0 s0 (shrink nx ny s0 b0)) as (c & C & _).
    - lia.
    - apply NS. reflexivity.
    - apply (S2 s0). simpl; auto.
    - apply (S2 s0). simpl; auto.
    - intros H. rewrite H in C. destruct C. }
  destruct (bnb_good ss' grids S1 GO dp cs min_score) as (r & Er & G1 & G2); auto;
    [lia|apply sort_sorted|].
  rewrite Er. exists (if min_score <? c_score r then Some r else None). split; [reflexivity|].
  assert (ALL : forall i x y s, in_window ss i x y s ->
     psc s x y <= Z.max min_score (c_score r)).
  { intros i x y s (b & I & Nt & X & Y).
    destruct (Hok s b (nth_error_In _ _ Nt)) as [Hse Hb].
    destruct (shrink_facts nx ny s b Hb) as (B0 & B1 & B2 & B3 & B4 & B5).
    pose proof (NS _ _ _ Nt) as Nt'.
    set (b' := shrink nx ny s b) in *.
    assert (D : (min_x b' <= x <= max_x b' /\ min_y b' <= y <= max_y b') \/
                ~ (min_x b' <= x <= max_x b' /\ min_y b' <= y <= max_y b')) by lia.
    destruct D as [[D1 D2]|D].
    - destruct (COV i x y s b' I Nt' D1 D2) as (c & C & Lf). eauto.
    - specialize (B5 x y X Y D).
      destruct (COV i 0 0 s b' I Nt' (proj1 B0) (proj2 B0)) as (c & C & Lf).
      specialize (G1 _ _ _ _ C Lf).
      assert (psc s x y <= psc s 0 0); [|lia].
      unfold pose_score. apply score_mono; [assumption| |apply scan_sum_upper].
      rewrite (scan_sum_out s x y B5). split; [lia|apply scan_sum_nonneg]. }
  destruct (min_score <? c_score r) eqn:Em.
  - destruct (G2 ltac:(lia)) as (V0 & c & s & C & Lf & Q).
    pose proof V0 as V0'.
    destruct V0 as (pg & s0 & b0 & Pg & I & Nt & Bx & By & Es).
    destruct (vcand0_leaf ss' grids r V0') as (s1 & Lr).
    pose proof Lr as (b1 & Nt1 & _). rewrite Nt in Nt1. injection Nt1 as <- <-.
    split.
    + exists s0. split.
      * destruct (SN _ _ _ Nt) as (b & Nb & ->).
        destruct (shrink_facts nx ny s0 b) as (B0 & B1 & B2 & B3 & B4 & B5).
        { apply (Hok s0). eapply nth_error_In; eauto. }
        exists b. repeat split; auto; lia.
      * symmetry. eapply leaf0_score; eauto.
    + split; [lia|]. intros i x y s' W. specialize (ALL _ _ _ _ W). lia.
  - intros i x y s W. specialize (ALL _ _ _ _ W). lia.
Qed.
End P.
