(* C45: saving and loading a map. *)
From Coq Require Import List ZArith Bool Lia.
From Verif Require Import ZMap MapById_Model MapById_Spec MapById_Proofs PG_Model PG_Maps PG_Spec PG_Proofs PG_Trim PG_Client
  PG_Session PG_Session_Main SL_Model SL_Spec SL_Run SL_Write SL_Load SL_Pay SL_Final SL_Session SL_Order
  Properties_PG Properties_PGS.
Import ListNotations.
Open Scope Z_scope.

(* a file that was written can be loaded exactly if as many trajectories have a submap or node as
   are listed, and nothing else is kept for a trajectory without submap and node *)
Theorem C45_loads : forall fz incl g p n ms, wfg g -> integrity g -> sane g p -> 0 <= n ->
  write incl g p = Some ms -> (load fz n ms <> None <-> loadable fz g p).
Proof.
  intros fz incl g p n ms W I S H E. destruct (load_file fz incl g p n W I S H ms E) as [A B]. split; [exact A|].
  intros L. destruct (B L) as (gp & ro & os & _ & _ & -> & _). discriminate.
Qed.

(* Loading it adds the same map: whatever the order in which the calls of LoadState and the turns
   of the worker happen, nothing aborts, the worker goes on while there are items, and when all
   calls are made and all items are done the map is there. *)
Theorem C45_roundtrip : forall fz incl g p g0 p0 ms,
  wfg g -> integrity g -> sane g p -> intra_once g -> loadable fz g p ->
  wfg g0 -> sane g0 p0 -> receiver g0 p0 ->
  write incl g p = Some ms ->
  exists calls m os, load fz (next p0) ms = Some (calls, m, os) /\
    forall ob every_n es rest, calls = calls_of es ++ rest -> lfair ob every_n es (load_start g0 p0 os) ->
    exists s, lrun ob every_n es (load_start g0 p0 os) = Some s /\
      (lq s <> [] -> md (ls s) = Draining) /\
      (rest = [] -> lq s = [] -> same_map incl fz m g p g0 p0 (gr (ls s)) (lp s) /\ wfg (gr (ls s))).
Proof.
  intros fz incl g p g0 p0 ms W I S O L W0 S0 R E. assert (H : 0 <= next p0) by (unfold next; lia).
  destruct (load_file fz incl g p (next p0) W I S H ms E) as [_ B].
  destruct (B L) as (gp & ro & os & PO & ET & EL & Sr & Nb & Eo & Lo). exists (first_calls fz incl (next p0) (length (gp_trajs gp)) g p ro ++ last_calls fz incl p ro), ro, os.
  split; [exact EL|]. intros ob k es rest Ec Fa.
  eapply (loaded fz incl g p g0 p0 W I S O L W0 S0 R (map tp_id (gp_trajs gp)) ro os); eauto.
  - apply PO.
  - now rewrite map_length.
  - rewrite map_length. exact Ec.
Qed.

(* the options are those of the same trajectories if all listed ones have a submap *)
Theorem C45_options : forall fz incl g p n ms calls m os,
  wfg g -> integrity g -> sane g p -> 0 <= n ->
  (forall t, mentioned g t <-> listed g t) ->
  (forall x, stored x (nodes g) -> exists j, stored (fst x, j) (subs g)) ->
  write incl g p = Some ms -> load fz n ms = Some (calls, m, os) ->
  forall t t', zfind t m = Some t' ->
    n <= t' /\ nth_error os (Z.to_nat (t' - n)) = nth_error (options p) (Z.to_nat t) /\
    nth_error (options p) (Z.to_nat t) <> None.
Proof.
  intros fz incl g p n ms calls m os W I S H Ml Ns E El t t' Zt.
  destruct (load_file fz incl g p n W I S H ms E) as [A B].
  destruct B as (gp & ro & os' & PO & ET & EL & Sr & Nb & Eo & Lo); [apply A; congruence|].
  rewrite EL in El. injection El as _ <- <-.
  destruct (numbered_some _ _ _ _ _ Nb Zt) as (k & Ek & ->). rewrite ET, file_order in Ek; auto; try apply W; try apply S.
  replace (Z.to_nat (n + Z.of_nat k - n)) with k by lia. pose proof (options_nth _ _ _ Eo k t Ek) as En.
  split; [lia|]. split; [exact En|]. rewrite <- En. apply nth_error_Some. rewrite Lo, <- (map_length tp_id), ET, file_order; auto; try apply W; try apply S.
  apply nth_error_Some. congruence.
Qed.

(* A well-behaved mapping session, at any point: if every trajectory that is listed or for which
   data is kept has a submap or node, the state can be saved and loaded, into any map builder that
   has no trajectory numbers beyond its own. *)
Theorem C45_session : forall fz incl every_n es s p g0 p0,
  polite every_n es init new_client -> run every_n es init = Some s -> sane (gr s) p ->
  (forall t, listed (gr s) t -> 0 <= t < next p) ->
  (forall t, listed (gr s) t \/ has_data fz p t -> mentioned (gr s) t) ->
  wfg g0 -> sane g0 p0 -> receiver g0 p0 ->
  exists ms calls m os, write incl (gr s) p = Some ms /\ load fz (next p0) ms = Some (calls, m, os) /\
    forall ob every_n es rest, calls = calls_of es ++ rest -> lfair ob every_n es (load_start g0 p0 os) ->
    exists s1, lrun ob every_n es (load_start g0 p0 os) = Some s1 /\
      (lq s1 <> [] -> md (ls s1) = Draining) /\
      (rest = [] -> lq s1 = [] -> same_map incl fz m (gr s) p g0 p0 (gr (ls s1)) (lp s1) /\ wfg (gr (ls s1))).
Proof.
  intros fz incl k es s p g0 p0 P H S Op M W0 S0 R.
  destruct (both_run k es init new_client s good_init P H both_init) as [B (k' & G)]. destruct s as [g q md0]. cbn [gr] in *.
  destruct (session_wf g q k' md0 G) as [W I]. pose proof (session_listed g q k' md0 G B) as SL.
  destruct (session_write incl g q k' md0 p G S Op) as (ms & E).
  assert (L : loadable fz g p).
  { split; [|intros t D; apply M; now right]. pose proof (valid_enumerates g (s_trajs _ _ S)) as [V1 V2].
    exists (valid_ids g), (valid_ids g). repeat split; auto; try apply V2.
    - intros I1. apply M. left. now apply V2.
    - intros I1. apply V2. now apply SL. }
  destruct (C45_roundtrip fz incl g p g0 p0 ms W I S (proj1 B) L W0 S0 R E) as (c & m & os & A). exists ms, c, m, os. auto.
Qed.

(* the empty map builder *)
Definition no_pay : pay := mk_pay (fun _ => mk_subval false 0 0) (fun _ => mk_nodeval 0 0) [] [] [] [] [] [].
Lemma never {D} x : stored x ([] : mbi D) -> False.
Proof. unfold stored, mbi_at. cbn. congruence. Qed.
Theorem C45_fresh : wfg (gr init) /\ sane (gr init) no_pay /\ receiver (gr init) no_pay.
Proof.
  split; [|split].
  - apply inv_init.
  - repeat split; cbn; try constructor; intros; discriminate.
  - repeat split; cbn; intros; repeat match goal with H : _ \/ _ |- _ => destruct H end; try (exfalso; eapply never; eassumption); try congruence; discriminate.
Qed.

(* ---- an example: two trajectories, the first finished, a constraint between them ---- *)
Definition two : list event :=
  [Call (AddNode 0 [1] false); Call (AddNode 0 [1; 2] true); Call (AddNode 1 [7] false); Work yes; Work yes; Work yes] ++
  [Call (FinishTrajectory 0); Work yes; Deliver all_found; Optimize; Handle none_chosen].
Definition after (es : list event) : graph := match run 0 es init with Some s => gr s | None => gr init end.
(* values for a graph *)
Definition filled (g : graph) (os : list val) lms odo td : pay :=
  mk_pay (fun s => mk_subval (id_eqb s (0, 0)) (10 + snd s) (20 + snd s)) (fun n => mk_nodeval (30 + snd n) (40 + snd n))
         (map (fun c => (c, 50 + snd (c_node c))) (constraints g)) lms odo [] td os.
Definition p_two : pay :=
  filled (after two) [100; 101] [(5, mk_landmark [mk_obs 1 3 60] (Some 61) false)] [(0, [(1, 70); (2, 71)])]
         [(0, Some 80); (1, None)].
Example two_polite : polite 0 two init new_client.
Proof. polite. Qed.
(* only the finished submap is written; the second trajectory keeps its node *)
Example two_saved :
  option_map (fun ms => (length ms, load false 3 ms)) (write false (after two) p_two) =
  Some (12%nat, Some (
    [LLandmarkPose 5 61; LSubmap (3, 0) (mk_subval true 10 20);
     LNode (3, 0) (mk_nodeval 30 40); LNode (3, 1) (mk_nodeval 31 41); LNode (4, 0) (mk_nodeval 30 40);
     LTrajectory 3 80; LOdometry 3 1 70; LOdometry 3 2 71; LLandmark 4 3 5 60;
     LConstraints [(mk_cons (3, 0) (3, 0) false, 50); (mk_cons (3, 0) (3, 1) false, 51);
                   (mk_cons (3, 0) (4, 0) true, 50)]],
    [(0, 3); (1, 4)], [100; 101])).
Proof. vm_compute. reflexivity. Qed.
(* it satisfies the hypotheses *)
Lemma timed_one t l : zsorted l -> l <> [] -> timed [(t, l)].
Proof.
  intros S N. split; [repeat constructor|]. intros u l' Z1. apply zfind_In in Z1. destruct Z1 as [E | []]. injection E as _ <-. auto.
Qed.
Lemma timed_nil : timed [].
Proof. split; [constructor | discriminate]. Qed.
Example two_sane : sane (after two) p_two.
Proof.
  split.
  - vm_compute. reflexivity.
  - vm_compute. repeat constructor.
  - repeat constructor.
  - apply timed_one; [repeat constructor | discriminate].
  - apply timed_nil.
  - repeat constructor.
Qed.
Lemma two_trajs t : listed (after two) t -> t = 0 \/ t = 1.
Proof.
  intros (st & Z1 & _). apply zfind_In in Z1.
  change (In (t, st) [(0, (Finished, Normal)); (1, (Active, Normal))]) in Z1. destruct Z1 as [E | [E | []]]; injection E as <- _; auto.
Qed.
Lemma two_mentioned t : t = 0 \/ t = 1 -> mentioned (after two) t.
Proof. intros [-> | ->]; exists 0; left; vm_compute; discriminate. Qed.
Example two_fits : (forall t, listed (after two) t -> 0 <= t < next p_two) /\
  (forall t, listed (after two) t \/ has_data false p_two t -> mentioned (after two) t).
Proof.
  split; [intros t L; apply two_trajs in L; change (next p_two) with 2; lia|].
  intros t [L | [H | [_ [H | [H | (lm & l & o & Z1 & I & <-)]]]]].
  - apply two_mentioned. now apply two_trajs.
  - apply two_mentioned. change (zfind t [(0, Some 80); (1, @None val)] <> None) in H.
    destruct (zfind t _) as [v|] eqn:Z1 in H; [|congruence]. apply zfind_In in Z1. destruct Z1 as [E | [E | []]]; injection E as <- _; auto.
  - apply two_mentioned. change (zfind t [(0, [(1, 70); (2, 71)])] <> None) in H.
    destruct (zfind t _) as [v|] eqn:Z1 in H; [|congruence]. apply zfind_In in Z1. destruct Z1 as [E | []]; injection E as <- _; auto.
  - now elim H.
  - apply two_mentioned. apply zfind_In in Z1. destruct Z1 as [E | []]. injection E as _ <-. destruct I as [<- | []]. now right.
Qed.
(* the calls with the turns of the worker in between, into the state itself *)
Definition woven (c : list lcall) : list levent := flat_map (fun x => [LCall x; LWork yes]) c.
Example two_again :
  match write true (after two) p_two with
  | Some ms =>
      match load true 2 ms with
      | Some (c, m, os) =>
          match lrun snd 0 (woven c) (load_start (after two) p_two os) with
          | Some s => map fst (entries (subs (gr (ls s)))) = [(0, 0); (0, 1); (1, 0); (2, 0); (2, 1); (3, 0)] /\
                      map fst (entries (nodes (gr (ls s)))) = [(0, 0); (0, 1); (1, 0); (2, 0); (2, 1); (3, 0)] /\
                      map fst (trajs (gr (ls s))) = [0; 1; 2; 3] /\ traj_state 2 (gr (ls s)) = (Frozen, Normal) /\
                      cons_vals (lp s) = cons_vals p_two /\ options (lp s) = [100; 101; 100; 101]
          | None => False
          end
      | None => False
      end
  | None => False
  end.
Proof. vm_compute. repeat split. Qed.

(* ---- files that were written and cannot be loaded ---- *)
Ltac loading := unfold load; cbn; unfold get, mbi_at; cbn; repeat (rewrite Pos.eqb_refl; cbn).
Ltac at_n n := destruct n as [|n|n]; [loading | loading | lia].
(* a trajectory was finished before its first node *)
Theorem C45_finished_empty_refuted : exists es s p ms,
  polite 0 es init new_client /\ run 0 es init = Some s /\ queue s = [] /\ sane (gr s) p /\
  write true (gr s) p = Some ms /\ forall fz n, load fz n ms = None.
Proof.
  set (es := [Call (AddNode 0 [1] false); Call (FinishTrajectory 1); Work yes; Work yes; Deliver all_found; Optimize; Handle none_chosen]).
  set (p := filled (after es) [100; 101] [] [] [(0, None)]).
  eexists es, _, p, _. split; [polite|]. split; [vm_compute; reflexivity|]. split; [reflexivity|]. split.
  { split; try apply timed_nil; repeat constructor. }
  split; [vm_compute; reflexivity|]. intros fz n. reflexivity.
Qed.
(* landmarks were observed by a trajectory that was deleted *)
Theorem C45_deleted_landmark_refuted : exists es s p ms,
  polite 0 es init new_client /\ run 0 es init = Some s /\ queue s = [] /\ sane (gr s) p /\
  (forall t, ~ listed (gr s) t) /\
  write true (gr s) p = Some ms /\ (forall n, load false n ms = None) /\ (forall n, load true n ms <> None).
Proof.
  set (es := life ++ tail ++ [Work yes]).
  set (p := filled (after es) [100] [(5, mk_landmark [mk_obs 0 3 60] (Some 61) false)] [] []).
  eexists es, _, p, _. split; [polite|]. split; [vm_compute; reflexivity|]. split; [reflexivity|]. split.
  { split; try apply timed_nil; repeat constructor. }
  split.
  { intros t (st & Z1 & N). apply zfind_In in Z1. cbn [gr trajs] in Z1. destruct Z1 as [E | []]. injection E as _ <-. now apply N. }
  split; [vm_compute; reflexivity|]. split; intros n; [reflexivity | discriminate].
Qed.
(* odometry came in before the first node *)
Theorem C45_early_data_refuted : exists es s p ms,
  polite 0 es init new_client /\ run 0 es init = Some s /\ queue s = [] /\ sane (gr s) p /\
  write true (gr s) p = Some ms /\ (forall n, 0 <= n -> load false n ms = None) /\ (forall n, 0 <= n -> load true n ms <> None).
Proof.
  set (es := [Call (AddNode 0 [1] false); Call (AddData 1); Work yes; Work yes]).
  set (p := filled (after es) [100; 101] [] [(1, [(1, 70)])] [(0, None)]).
  eexists es, _, p, _. split; [polite|]. split; [vm_compute; reflexivity|]. split; [reflexivity|]. split.
  { split; try apply timed_nil; try (apply timed_one; [repeat constructor | discriminate]); repeat constructor. }
  split; [vm_compute; reflexivity|]. split; intros n Hn; at_n n. all: first [reflexivity | discriminate].
Qed.
(* a node was added between the reads of the pose graph *)
Theorem C45_written_meanwhile_refuted : exists es es2 s s2 p p2 ms,
  polite 0 (es ++ es2) init new_client /\ run 0 es init = Some s /\ run 0 es2 s = Some s2 /\
  sane (gr s) p /\ sane (gr s2) p2 /\ write_two true (gr s) p (gr s2) p2 = Some ms /\
  forall fz n, 0 <= n -> load fz n ms = None.
Proof.
  set (es := [Call (AddNode 0 [1] false); Work yes]). set (es2 := [Call (AddNode 0 [1] false); Work yes]).
  set (p := filled (after es) [100] [] [] [(0, None)]). set (p2 := filled (after (es ++ es2)) [100] [] [] [(0, None)]).
  eexists es, es2, _, _, p, p2, _. split; [polite|]. split; [vm_compute; reflexivity|]. split; [vm_compute; reflexivity|].
  split; [split; try apply timed_nil; repeat constructor|].
  split; [split; try apply timed_nil; repeat constructor|].
  split; [vm_compute; reflexivity|]. intros [|] n Hn; at_n n; reflexivity.
Qed.
(* A session of two trajectories saved without its unfinished submaps, loaded, and saved again:
   loading that gives each trajectory the options of the other one. *)
Theorem C45_swapped_options_refuted : exists es s p ms calls s1 ms1 calls1 m1 os1,
  polite 0 es init new_client /\ run 0 es init = Some s /\ sane (gr s) p /\ options p = [100; 101] /\
  write false (gr s) p = Some ms /\ load false 0 ms = Some (calls, [(0, 0); (1, 1)], [100; 101]) /\
  lfair snd 0 (woven calls) (load_start (gr init) no_pay [100; 101]) /\ calls_of (woven calls) = calls /\
  lrun snd 0 (woven calls) (load_start (gr init) no_pay [100; 101]) = Some s1 /\ lq s1 = [] /\
  options (lp s1) = [100; 101] /\
  write true (gr (ls s1)) (lp s1) = Some ms1 /\ load false 0 ms1 = Some (calls1, m1, os1) /\
  zfind 0 m1 = Some 1 /\ nth_error os1 1 = Some 101 /\ zfind 1 m1 = Some 0 /\ nth_error os1 0 = Some 100.
Proof.
  set (es := [Call (AddNode 0 [1] false); Call (AddNode 1 [7] false); Work no_search; Work no_search]).
  set (p := mk_pay (fun s => mk_subval (id_eqb s (1, 0)) 10 20) (fun _ => mk_nodeval 30 40)
              (map (fun c => (c, 50)) (constraints (after es))) [] [] [] [(0, None); (1, None)] [100; 101]).
  eexists es, _, p, _, _, _, _, _, _, _. split; [polite|]. split; [vm_compute; reflexivity|].
  split; [split; try apply timed_nil; repeat constructor|]. split; [reflexivity|].
  split; [vm_compute; reflexivity|]. split; [vm_compute; reflexivity|]. split; [vm_compute; repeat split|].
  split; [reflexivity|]. split; [vm_compute; reflexivity|]. split; [reflexivity|]. split; [reflexivity|].
  split; [vm_compute; reflexivity|]. split; [vm_compute; reflexivity|]. repeat split.
Qed.

Print Assumptions C45_loads.
Print Assumptions C45_roundtrip.
Print Assumptions C45_options.
Print Assumptions C45_session.
Print Assumptions C45_fresh.
Print Assumptions C45_finished_empty_refuted.
Print Assumptions C45_deleted_landmark_refuted.
Print Assumptions C45_early_data_refuted.
Print Assumptions C45_written_meanwhile_refuted.
Print Assumptions C45_swapped_options_refuted.
