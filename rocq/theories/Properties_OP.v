(* C59: the problem OptimizationProblem2D hands to the solver, and what it makes of the result. *)
From Coq Require Import List ZArith Bool Lia.
From Verif Require Import ZMap MapById_Model MapById_Proofs PG_Model PG_Maps OP_Model OP_Spec OP_Build OP_Frames OP_Marks OP_Solve OP_Trim.
Import ListNotations.
Open Scope Z_scope.

(* o is the data after the history rs *)
Definition after (G : geometry) (C : solver G) (rs : list (request G)) (o : data G) : Prop :=
  fold_opt (serve G C) rs (empty_data G) = Some o.
Lemma after_inv G C rs o : after G C rs o -> inv o.
Proof. intros H. exact (history_inv C rs _ o empty_inv H). Qed.

Lemma NoDup_both {A} (l1 l2 : list A) : NoDup l1 -> NoDup l2 -> (forall x, In x l1 -> ~ In x l2) -> NoDup (l1 ++ l2).
Proof.
  induction l1 as [|a l1 IH]; intros N1 N2 D; cbn; [exact N2|]. inversion N1; subst. constructor.
  - rewrite in_app_iff. intros [H|H]; [contradiction | exact (D a (or_introl eq_refl) H)].
  - apply IH; try assumption. intros x I. apply D. now right.
Qed.

Section Claims.
Variable G : geometry.
Variable C : solver G.

(* An optimization aborts exactly for a constraint without its submap or node and for a stranded sighting. *)
Theorem C59_aborts : forall rs o frozen cs ls, after G C rs o -> in_order (o_nodes G o) ->
  (solve G C frozen cs ls o = None <->
   (exists x, get x (o_nodes G o) <> None) /\
   ((exists c, In c cs /\ (get (k_sub G c) (o_subs G o) = None \/ get (k_node G c) (o_nodes G o) = None)) \/
    (exists l k s, In (l, k) ls /\ In s (l_seen G k) /\ stranded (o_nodes G o) s))).
Proof.
  intros rs o f cs ls A O. pose proof (after_inv G C rs o A) as V. rewrite <- (build_aborts o f cs ls V O).
  destruct (entries (o_nodes G o)) as [|e es] eqn:E.
  - unfold solve. rewrite E. split; [discriminate|]. intros [[x N] _]. apply (stored_In _ x (iv_nodes o V)) in N. rewrite E in N. destruct N.
  - assert (N : get (fst e) (o_nodes G o) <> None).
    { apply (stored_In _ _ (iv_nodes o V)). rewrite E. now left. }
    destruct (build G o f cs ls) as [q|] eqn:B.
    + destruct (solve_ok C o f cs ls q V ltac:(congruence) B) as (o' & -> & _). split; [discriminate | intros [_ ?]; discriminate].
    + unfold solve. rewrite E, B. split; [intros _; split; [exists (fst e); exact N | reflexivity] | reflexivity].
Qed.

(* The terms: the constraints as given, one term per sighting that has a place, and exactly the wanted others, each once. *)
Theorem C59_terms : forall rs o frozen cs ls q, after G C rs o -> in_order (o_nodes G o) -> zsorted ls ->
  (forall l k s, In (l, k) ls -> In s (l_seen G k) -> ~ lonely (o_nodes G o) s) ->
  build G o frozen cs ls = Some q ->
  exists marks others, q_res G q = map (RConstraint G) cs ++ marks ++ others /\
    placed_all (o_nodes G o) (sightings ls) marks /\
    NoDup others /\ forall r, In r others <-> wanted o frozen r.
Proof.
  intros rs o f cs ls q A O SL NL B. pose proof (after_inv G C rs o A) as V.
  pose proof (build_cases o f cs ls V) as BC. cbv zeta in BC. pose proof (constraints_ok o cs _ (start_covers o f V)) as K.
  destruct (fold_opt (add_constraint G) cs (start_problem G o f)) as [q1|]; [|congruence]. destruct K as [-> _].
  destruct (add_landmarks G (o_nodes G o) ls _) as [q2|] eqn:L; [|congruence].
  destruct BC as (q' & B' & _ & _ & _ & _ & R & _). assert (q' = q) by congruence. subst q'.
  destruct (landmarks_ok o ls (iv_nodes o V) O _ q2 (covers_push o _ (map (RConstraint G) cs) (start_covers o f V))) as (ms & ks & P & (_ & _ & _ & M) & _); try assumption.
  { constructor. } { reflexivity. }
  exists ms, (all_steps o f ++ all_frames o (o_nodes G o)). split; [rewrite R, M; cbn [push start_problem q_res app]; now rewrite <- app_assoc|].
  split; [exact P|]. pose proof (all_steps_wanted o f) as W1. pose proof (all_frames_wanted o f) as W2. split.
  - apply NoDup_both; [apply all_steps_NoDup, V | apply all_frames_NoDup, V|].
    intros r I J. apply W1 in I; [|apply V..]. apply W2 in J; [|apply V..]. destruct I, J. congruence.
  - intros r. rewrite in_app_iff, W1, W2 by apply V. destruct (is_frame r); intuition congruence.
Qed.

(* The blocks and where they start; which are held constant. *)
Theorem C59_blocks : forall rs o frozen cs ls q, after G C rs o -> in_order (o_nodes G o) -> zsorted ls ->
  (forall l k s, In (l, k) ls -> In s (l_seen G k) -> ~ lonely (o_nodes G o) s) ->
  build G o frozen cs ls = Some q ->
  (forall x, find_id x (q_subs G q) = option_map (from_pose G) (get x (o_subs G o))) /\
  (forall x, find_id x (q_nodes G q) = option_map (fun n => from_pose G (n_global G n)) (get x (o_nodes G o))) /\
  (forall t i n p origin, first_frame o t i n p -> zfind t (o_traj G o) = Some origin ->
     zfind t (q_frames G q) = Some (from_pose G (frame_start origin n p))) /\
  (forall t, (forall i n p, ~ first_frame o t i n p) -> zfind t (q_frames G q) = None) /\
  (forall l k s x y a b, In (l, k) ls -> first_placed (o_nodes G o) (l_seen G k) s x y -> get x (o_nodes G o) = Some a -> get y (o_nodes G o) = Some b ->
     zfind l (q_landmarks G q) = Some (to_ceres G (mark_start k s a b))) /\
  (forall l, (forall k s x y, In (l, k) ls -> ~ first_placed (o_nodes G o) (l_seen G k) s x y) -> zfind l (q_landmarks G q) = None) /\
  (forall p, In p (q_const G q) <-> match p with
     | PSub x => first_submap o x \/ (get x (o_subs G o) <> None /\ In (fst x) frozen)
     | PNode x => get x (o_nodes G o) <> None /\ In (fst x) frozen
     | PFrame _ => False
     | PLandmark l => exists k s x y, In (l, k) ls /\ l_frozen G k = true /\ first_placed (o_nodes G o) (l_seen G k) s x y
     end).
Proof.
  intros rs o f cs ls q A O SL NL B. pose proof (after_inv G C rs o A) as V.
  pose proof (build_cases o f cs ls V) as BC. cbv zeta in BC. pose proof (constraints_ok o cs _ (start_covers o f V)) as K.
  destruct (fold_opt (add_constraint G) cs (start_problem G o f)) as [q1|]; [|congruence]. destruct K as [-> _].
  destruct (add_landmarks G (o_nodes G o) ls _) as [q2|] eqn:L; [|congruence].
  destruct BC as (q' & B' & Q1 & Q2 & QL & QC & _ & _ & QF). assert (q' = q) by congruence. subst q'.
  destruct (landmarks_ok o ls (iv_nodes o V) O _ q2 (covers_push o _ (map (RConstraint G) cs) (start_covers o f V))) as (ms & ks & _ & _ & _ & ML & MN & MC & MK); try assumption.
  { constructor. } { reflexivity. }
  assert (ONE : forall l k, In (l, k) ls -> (zfind l (q_landmarks G q2) <> None <-> exists s x y, first_placed (o_nodes G o) (l_seen G k) s x y)).
  { intros l k I. destruct (ML l k I) as [[F ->]|(s & x & y & a & b & P & _ & _ & ->)].
    - split; [congruence|]. intros (s & x & y & p & r & E & _ & P). exfalso. rewrite E in F. apply Forall_elt in F.
      pose proof (place_unique (o_nodes G o) s [] [(x, y)] O F P). discriminate.
    - split; [intros _; eauto | congruence]. }
  split; [intros x; rewrite Q1; apply (start_covers o f V)|]. split; [intros x; rewrite Q2; apply (start_covers o f V)|].
  split; [intros t i n p w F Z0; rewrite QF; now apply (proj1 (frame_of_spec o t (iv_nodes o V) (iv_frames o V)) i n p w)|].
  split; [intros t F; rewrite QF; now apply (proj2 (frame_of_spec o t (iv_nodes o V) (iv_frames o V)))|]. rewrite QL, QC.
  split.
  { intros l k s x y a b I P Ga Gb. destruct (ML l k I) as [[F Z0]|(s' & x' & y' & a' & b' & P' & Ga' & Gb' & ->)].
    - exfalso. apply (proj2 (ONE l k I)); [eauto | exact Z0].
    - destruct (first_placed_unique (o_nodes G o) (l_seen G k) s x y s' x' y' O P P') as (<- & <- & <-).
      replace a' with a by congruence. replace b' with b by congruence. reflexivity. }
  split.
  { intros l N. destruct (zfind l ls) as [k|] eqn:Z0.
    - apply zfind_In in Z0. destruct (zfind l (q_landmarks G q2)) eqn:E; [|reflexivity]. exfalso.
      destruct (proj1 (ONE l k Z0)) as (s & x & y & P); [congruence|]. exact (N k s x y Z0 P).
    - rewrite MN; [reflexivity|]. intros k I. apply In_zfind in I; [congruence | exact SL]. }
  intros p. rewrite MC, in_app_iff, MK. cbn [push q_const].
  destruct p as [x|x|t|l].
  - rewrite (start_const_sub o f x V). split; [intros [H|(? & ? & _ & ? & _)]; [exact H | discriminate] | auto].
  - rewrite (start_const_node o f x V). split; [intros [H|(? & ? & _ & ? & _)]; [exact H | discriminate] | auto].
  - split; [|contradiction]. intros [H|(? & ? & _ & ? & _)]; [exact (start_const_other o f _ H) | discriminate].
  - split.
    + intros [H|(l' & k & I & [= <-] & F & Z0)]; [destruct (start_const_other o f _ H)|]. apply (ONE l k I) in Z0 as (s & x & y & P). exists k, s, x, y. auto.
    + intros (k & s & x & y & I & F & P). right. exists l, k. split; [exact I|]. split; [reflexivity|]. split; [exact F|]. apply (ONE l k I). eauto.
Qed.

Lemma const_spec (q : problem G) p : existsb (param_eqb p) (q_const G q) = true <-> In p (q_const G q).
Proof.
  rewrite existsb_exists. assert (E : forall x y, param_eqb x y = true <-> x = y).
  { intros [x|x|x|x] [y|y|y|y]; cbn [param_eqb]; try (split; discriminate);
      (first [destruct (id_eqb_spec x y) | destruct (Z.eqb_spec x y)]; split; congruence). }
  split; [intros (y & I & H); apply E in H; congruence | intros I; exists p; split; [exact I | now apply E]].
Qed.

(* The result: blocks held constant keep their value, the others get the solver's, and nothing else changes. *)
Theorem C59_result : forall rs o frozen cs ls o', after G C rs o -> solve G C frozen cs ls o = Some o' ->
  (o' = o /\ forall x, get x (o_nodes G o) = None) \/
  exists q, build G o frozen cs ls = Some q /\
    let outcome p old := fun new => (In p (q_const G q) -> new = old) /\ (~ In p (q_const G q) -> new = new_arr G C q p) in
    o_odo G o' = o_odo G o /\ o_frames G o' = o_frames G o /\
    (forall x, match get x (o_subs G o), get x (o_subs G o') with
       | Some p, Some p' => exists v, p' = to_pose G v /\ outcome (PSub x) (from_pose G p) v
       | None, None => True | _, _ => False end) /\
    (forall x, match get x (o_nodes G o), get x (o_nodes G o') with
       | Some n, Some n' => n_time G n' = n_time G n /\ n_local G n' = n_local G n /\ n_grav G n' = n_grav G n /\
           exists v, n_global G n' = to_pose G v /\ outcome (PNode x) (from_pose G (n_global G n)) v
       | None, None => True | _, _ => False end) /\
    (forall t, match zfind t (q_frames G q) with
       | Some w => exists v, zfind t (o_traj G o') = Some (Some (embed G (to_pose G v))) /\ outcome (PFrame t) w v
       | None => zfind t (o_traj G o') = zfind t (o_traj G o) end) /\
    (NoDup (map fst (q_landmarks G q)) ->
     forall l, match zfind l (q_landmarks G q) with
       | Some w => exists v, zfind l (o_landmarks G o') = Some (to_rigid G v) /\
           (In (PLandmark l) (q_const G q) -> v = w) /\ (~ In (PLandmark l) (q_const G q) -> v = new_larr G C q l)
       | None => zfind l (o_landmarks G o') = zfind l (o_landmarks G o) end).
Proof.
  intros rs o f cs ls o' A H. pose proof (after_inv G C rs o A) as V.
  destruct (entries (o_nodes G o)) as [|e es] eqn:E.
  - left. unfold solve in H. rewrite E in H. split; [congruence|]. intros x. destruct (get x (o_nodes G o)) eqn:Gx; [|reflexivity].
    assert (N : get x (o_nodes G o) <> None) by congruence. apply (stored_In _ x (iv_nodes o V)) in N. rewrite E in N. destruct N.
  - right. destruct (build G o f cs ls) as [q|] eqn:B; [|unfold solve in H; rewrite E, B in H; discriminate].
    exists q. split; [reflexivity|]. cbv zeta.
    destruct (solve_ok C o f cs ls q V ltac:(congruence) B) as (o2 & E2 & _ & R1 & R2 & RS & RN & RT & RL).
    assert (o2 = o') by congruence. subst o2. clear E2.
    assert (OUT : forall p old, (In p (q_const G q) -> solved G C q p old = old) /\ (~ In p (q_const G q) -> solved G C q p old = new_arr G C q p)).
    { intros p old. unfold solved. rewrite <- const_spec. destruct (existsb (param_eqb p) (q_const G q)); split; intros; try reflexivity; congruence. }
    split; [exact R1|]. split; [exact R2|]. split.
    { intros x. rewrite RS. destruct (get x (o_subs G o)) as [p|]; [|exact I]. eexists. split; [reflexivity | apply OUT]. }
    split.
    { intros x. rewrite RN. destruct (get x (o_nodes G o)) as [n|]; [|exact I]. do 3 (split; [reflexivity|]). eexists. split; [reflexivity | apply OUT]. }
    split.
    { intros t. rewrite RT. destruct (zfind t (q_frames G q)) as [w|]; [|reflexivity]. eexists. split; [reflexivity | apply OUT]. }
    intros ND l. rewrite (RL ND). destruct (zfind l (q_landmarks G q)) as [w|]; [|reflexivity]. eexists. split; [reflexivity|].
    unfold solved_l. rewrite <- const_spec. destruct (existsb _ (q_const G q)); split; intros; try reflexivity; congruence.
Qed.

(* No optimization moves a frozen trajectory or the first submap, if poses survive the conversion. *)
Theorem C59_frozen : forall rs o frozen cs ls o', after G C rs o -> in_order (o_nodes G o) -> zsorted ls ->
  (forall l k s, In (l, k) ls -> In s (l_seen G k) -> ~ lonely (o_nodes G o) s) ->
  (forall p, to_pose G (from_pose G p) = p) ->
  solve G C frozen cs ls o = Some o' ->
  (forall x, In (fst x) frozen \/ first_submap o x -> get x (o_subs G o') = get x (o_subs G o)) /\
  (forall x, In (fst x) frozen -> get x (o_nodes G o') = get x (o_nodes G o)).
Proof.
  intros rs o f cs ls o' A O SL NL ID H. destruct (C59_result rs o f cs ls o' A H) as [[-> _]|(q & B & _ & _ & RS & RN & _)]; [auto|].
  destruct (C59_blocks rs o f cs ls q A O SL NL B) as (_ & _ & _ & _ & _ & _ & K). split.
  - intros x P. specialize (RS x). destruct (get x (o_subs G o)) as [p|] eqn:Gx, (get x (o_subs G o')) as [p'|]; try contradiction; [|reflexivity].
    destruct RS as (v & -> & [Q _]). rewrite Q; [now rewrite ID|]. apply K. destruct P as [P|P]; [right; split; [congruence | exact P] | now left].
  - intros x P. specialize (RN x). destruct (get x (o_nodes G o)) as [n|] eqn:Gx, (get x (o_nodes G o')) as [n'|]; try contradiction; [|reflexivity].
    destruct RN as (T & L & Gr & v & Gv & [Q _]). rewrite Q, ID in Gv by (apply K; split; [congruence | exact P]).
    destruct n, n'. cbn in *. congruence.
Qed.

(* What each change does to the data. *)
Theorem C59_changes : forall rs o c o', after G C rs o -> apply G c o = Some o' -> changed c o o'.
Proof. intros rs o c o' A E. exact (apply_changed c o o' (after_inv G C rs o A) E). Qed.

(* Trimming a node removes its terms and no others, if interpolation is exact at its end and no fixed frame pose is missing. *)
Theorem C59_trim : forall rs o x o' frozen, after G C rs o -> in_order (o_nodes G o) ->
  (forall a b : Z * P3 G, fst a < fst b -> blend G a b (fst b) = snd b) ->
  (forall a j n, get (a, j) (o_nodes G o) = Some n -> a < int_max /\ time_min < n_time G n < time_max) ->
  (forall t e, In e (series (o_frames G o) t) -> snd e <> None) ->
  apply G (TrimNode G x) o = Some o' ->
  forall r, wanted o' frozen r <-> wanted o frozen r /\ ~ In x (nodes_of r).
Proof. intros rs o x o' f A O S B VAL E r. exact (trim_terms S o x o' f r (after_inv G C rs o A) O B VAL E). Qed.
End Claims.

(* Poses on a line. *)
Definition line : geometry := mk_geometry Z Z Z Z unit Z Z
  (fun p => p) (fun a => a) (fun p => p) (fun a => a) (fun p => p) (fun p => p) Z.add Z.opp
  (fun a b q => snd a + (snd b - snd a) * (q - fst a) / (fst b - fst a))
  (fun _ p p' _ => p' - p) (fun s _ _ a _ => a + snd s).
Definition mover : solver line := mk_solver line (fun _ p => match p with PSub x | PNode x => 1000 + snd x | _ => 2000 end) (fun _ l => 3000 + l).
Definition at_node (t q p : Z) : request line := Change line (AddNode line t (mk_node line q p tt (p + 1))).
(* two trajectories, odometry for the first, fixed frame poses for the second *)
Definition drive : list (request line) :=
  [Change line (AddSubmap line 0 0); Change line (AddSubmap line 1 50);
   Change line (AddOdometry line 0 90 0); Change line (AddOdometry line 0 130 40);
   Change line (AddFixedFrame line 1 100 (Some 7)); Change line (AddFixedFrame line 1 120 None);
   at_node 0 100 0; at_node 0 110 10; at_node 0 120 20; at_node 1 100 50; at_node 1 110 60].
Definition driven : data line := match fold_opt (serve line mover) drive (empty_data line) with Some o => o | None => empty_data line end.
Definition posts : list (Z * landmark line) :=
  [(4, mk_landmark line [mk_sighting line 0 95 1; mk_sighting line 0 115 2; mk_sighting line 1 100 3] None true);
   (5, mk_landmark line [mk_sighting line 1 115 4] None false)].
Definition ties : list (constraint line) := [mk_constraint line (0, 0) (0, 2) 3 false; mk_constraint line (0, 0) (1, 1) 4 true].
Inductive shown := Tie (a b : id) | Mark (l seen : Z) (a b : id) | Odo (p : Z) (a b : id) | Loc (p : Z) (a b : id) | Frame (p t : Z) (a : id).
Definition show (r : residual line) : shown :=
  match r with
  | RConstraint _ c => Tie (k_sub line c) (k_node line c)
  | RLandmark _ l s a b => Mark l (s_seen line s) a b
  | ROdometry _ p a b => Odo p a b
  | RLocal _ p a b => Loc p a b
  | RFrame _ p t a => Frame p t a
  end.
Lemma given {A} (x : option A) d : match x with Some _ => true | None => false end = true -> x = Some (match x with Some y => y | None => d end).
Proof. destruct x; [reflexivity | discriminate]. Qed.

Example drive_after : after line mover drive driven.
Proof. unfold after. apply given. vm_compute. reflexivity. Qed.
Example drive_problem :
  option_map (fun q => (map show (q_res line q), q_const line q, q_frames line q, q_landmarks line q)) (build line driven [1] ties posts) =
  Some ([Tie (0, 0) (0, 2); Tie (0, 0) (1, 1); Mark 4 2 (0, 1) (0, 2); Mark 4 3 (1, 0) (1, 1);
         Odo 10 (0, 0) (0, 1); Loc 10 (0, 0) (0, 1); Odo 10 (0, 1) (0, 2); Loc 10 (0, 1) (0, 2); Frame 7 1 (1, 0)],
        [PSub (0, 0); PSub (1, 0); PNode (1, 0); PNode (1, 1); PLandmark 4], [(1, 44)], [(4, 13)]).
Proof. vm_compute. reflexivity. Qed.
Example drive_result :
  option_map (fun o => (map (fun e => (fst e, n_global line (snd e))) (entries (o_nodes line o)), entries (o_subs line o), o_landmarks line o, o_traj line o))
    (solve line mover [1] ties posts driven) =
  Some ([((0, 0), 1000); ((0, 1), 1001); ((0, 2), 1002); ((1, 0), 51); ((1, 1), 61)], [((0, 0), 0); ((1, 0), 50)], [(4, 13)], [(0, None); (1, Some 2000)]).
Proof. vm_compute. reflexivity. Qed.

(* With a missing fixed frame pose, trimming a node can give another one a term it did not have. *)
Definition gap : list (request line) :=
  [at_node 0 100 0; at_node 0 110 10; Change line (AddFixedFrame line 0 95 (Some 1)); Change line (AddFixedFrame line 0 105 None);
   Change line (AddFixedFrame line 0 110 (Some 7))].
Definition gapped : data line := match fold_opt (serve line mover) gap (empty_data line) with Some o => o | None => empty_data line end.
Theorem C59_trim_refuted : exists rs o x o' r, after line mover rs o /\ in_order (o_nodes line o) /\
  (forall a b : Z * P3 line, fst a < fst b -> blend line a b (fst b) = snd b) /\
  apply line (TrimNode line x) o = Some o' /\ wanted o' [] r /\ ~ wanted o [] r.
Proof.
  assert (A : after line mover gap gapped) by (unfold after; apply given; vm_compute; reflexivity).
  set (o' := match apply line (TrimNode line (0, 0)) gapped with Some o => o | None => empty_data line end).
  exists gap, gapped, (0, 0), o', (RFrame line 7 0 (0, 1)). split; [exact A|].
  assert (N : forall x n, get x (o_nodes line gapped) = Some n -> In (x, n_time line n) [((0, 0), 100); ((0, 1), 110)]).
  { assert (E : map (fun e => (fst e, n_time line (snd e))) (entries (o_nodes line gapped)) = [((0, 0), 100); ((0, 1), 110)]) by (vm_compute; reflexivity).
    intros x n H. rewrite <- E. apply in_map_iff. exists (x, n). split; [reflexivity|].
    apply entries_In; [exact (iv_nodes _ (after_inv line mover gap gapped A)) | exact H]. }
  split.
  { intros t i j a b Ga Gb L. apply N in Ga, Gb. cbn [In] in Ga, Gb.
    repeat (match goal with H : _ \/ _ |- _ => destruct H | H : False |- _ => destruct H end);
      repeat match goal with H : (_, _, _) = (_, _, _) |- _ => injection H as ? ? ? end; lia. }
  split.
  { intros [s p] [s' p'] L. cbn in *. rewrite Z.div_mul by lia. lia. }
  split; [apply given; vm_compute; reflexivity|].
  assert (S1 : series (o_frames line gapped) 0 = [(95, Some 1); (105, None); (110, Some 7)]) by (vm_compute; reflexivity).
  assert (S2 : series (o_frames line o') 0 = [(110, Some 7)]) by (vm_compute; reflexivity).
  split.
  - assert (E : option_map (n_time line) (get (0, 1) (o_nodes line o')) = Some 110) by (vm_compute; reflexivity).
    destruct (get (0, 1) (o_nodes line o')) as [n|] eqn:Gn; [|discriminate]. injection E as E.
    apply (wanted_frame o' [] 0 1 n 7 Gn). rewrite S2, E. apply frame_first. split; [now left|]. intros e [<-|[]]. cbn. lia.
  - intros H. inversion H as [| |t i n p Gn F]; subst. apply N in Gn. rewrite S1 in F.
    assert (T : n_time line n = 110) by (destruct Gn as [[=]|[[=]|[]]]; auto). rewrite T in F.
    clear - F. revert F. generalize 7 at 2. intros w F. destruct F as [s p s' p' (I1 & I2 & L & M)|p [I M]]; cbn in *.
    + specialize (M (105, None) (or_intror (or_introl eq_refl))). cbn in M. destruct I1 as [E1|[E1|[E1|[]]]]; destruct I2 as [E2|[E2|[E2|[]]]]; try discriminate;
        injection E1 as E1 _; injection E2 as E2 _; lia.
    + specialize (M (95, Some 1) (or_introl eq_refl)). cbn in M. lia.
Qed.

(* Deleting a trajectory leaves its sightings behind, and the next optimization aborts. *)
Theorem C59_deleted_refuted : exists rs o ls o', after line mover rs o /\ in_order (o_nodes line o) /\
  solve line mover [] [] ls o <> None /\
  fold_opt (apply line) [TrimNode line (1, 0); TrimNode line (1, 1)] o = Some o' /\ get (0, 0) (o_nodes line o') <> None /\
  solve line mover [] [] ls o' = None.
Proof.
  exists drive, driven, [(5, mk_landmark line [mk_sighting line 1 105 4] None false)]. 
  exists (match fold_opt (apply line) [TrimNode line (1, 0); TrimNode line (1, 1)] driven with Some o => o | None => empty_data line end).
  split; [exact drive_after|]. split.
  - intros t i j a b Ga Gb L.
    assert (E : map (fun e => (fst e, n_time line (snd e))) (entries (o_nodes line driven)) =
      [((0, 0), 100); ((0, 1), 110); ((0, 2), 120); ((1, 0), 100); ((1, 1), 110)]) by (vm_compute; reflexivity).
    assert (W : wf (o_nodes line driven)) by (exact (iv_nodes _ (after_inv line mover drive driven drive_after))).
    assert (K : forall x n, get x (o_nodes line driven) = Some n -> In (x, n_time line n)
      [((0, 0), 100); ((0, 1), 110); ((0, 2), 120); ((1, 0), 100); ((1, 1), 110)]).
    { intros x n H. rewrite <- E. apply in_map_iff. exists (x, n). split; [reflexivity|]. now apply entries_In. }
    apply K in Ga, Gb. cbn [In] in Ga, Gb.
    repeat (match goal with H : _ \/ _ |- _ => destruct H | H : False |- _ => destruct H end);
      repeat match goal with H : (_, _, _) = (_, _, _) |- _ => injection H as ? ? ? end; lia.
  - assert (NN : forall A (x : option A), match x with Some _ => true | None => false end = true -> x <> None) by (intros A [|]; congruence).
    assert (NO : forall A (x : option A), match x with Some _ => true | None => false end = false -> x = None) by (intros A [|]; congruence).
    split; [apply NN; vm_compute; reflexivity|]. split; [apply given; vm_compute; reflexivity|].
    split; [apply NN; vm_compute; reflexivity | apply NO; vm_compute; reflexivity].
Qed.
(* A sighting at the time of the only node of its trajectory is tied to a node of another trajectory. *)
Theorem C59_pairing_refuted : exists rs o ls q l s x y, after line mover rs o /\ build line o [] [] ls = Some q /\
  In (RLandmark line l s x y) (q_res line q) /\ fst x = s_traj line s /\ fst y <> s_traj line s.
Proof.
  set (rs := [at_node 0 100 0; at_node 1 100 50]). set (ls := [(5, mk_landmark line [mk_sighting line 0 100 4] None false)]).
  set (o := match fold_opt (serve line mover) rs (empty_data line) with Some o => o | None => empty_data line end).
  set (q := match build line o [] [] ls with Some q => q | None => start_problem line (empty_data line) [] end).
  assert (F : match find (fun r => match r with RLandmark _ _ s x y => (fst x =? s_traj line s) && negb (fst y =? s_traj line s) | _ => false end) (q_res line q)
    with Some _ => true | None => false end = true) by (vm_compute; reflexivity).
  destruct (find _ (q_res line q)) as [r|] eqn:E; [|discriminate]. apply find_some in E as [I T]. destruct r as [|l s x y| | |]; try discriminate.
  apply andb_prop in T as [T1 T2]. apply Z.eqb_eq in T1. apply negb_true_iff, Z.eqb_neq in T2.
  exists rs, o, ls, q, l, s, x, y. split; [apply given; vm_compute; reflexivity|]. split; [apply given; vm_compute; reflexivity|]. auto.
Qed.

Print Assumptions C59_aborts.
Print Assumptions C59_terms.
Print Assumptions C59_blocks.
Print Assumptions C59_result.
Print Assumptions C59_frozen.
Print Assumptions C59_changes.
Print Assumptions C59_trim.
Print Assumptions C59_trim_refuted.
Print Assumptions C59_deleted_refuted.
Print Assumptions C59_pairing_refuted.
