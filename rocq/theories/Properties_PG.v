(* C42, C30, C44: the pose graph. *)
From Coq Require Import List ZArith Bool Lia.
From Verif Require Import ZMap MapById_Model PG_Model PG_Maps PG_Spec PG_Proofs PG_Trim PG_Delete.
Import ListNotations.
Open Scope Z_scope.

(* what the examples let the environment decide *)
Definition yes : id -> id -> verdict := fun _ _ => mk_verdict false false true.
Definition no_search : id -> id -> verdict := fun _ _ => mk_verdict false false false.
Definition all_found : id -> id -> bool := fun _ _ => true.
Definition none_chosen : nat -> list id := fun _ => [].
Definition drain : list event := [Deliver all_found; Optimize; Handle none_chosen].

(* ---- C42 ---- *)
(* every reachable state has referential integrity *)
Theorem C42_integrity : forall every_n es s,
  tidy every_n es init -> run every_n es init = Some s -> integrity (gr s).
Proof.
  intros k es s T H. destruct (inv_run k es init s inv_init I T H) as [V _]. apply V.
Qed.

(* reading the constraints, which looks up the node of each, never throws *)
Theorem C42_read_constraints : forall every_n es s,
  tidy every_n es init -> run every_n es init = Some s ->
  exists s', step every_n (Call GetConstraints) s = Some s'.
Proof.
  intros k es s T H. destruct (inv_run k es init s inv_init I T H) as [[_ [V _] _] _].
  unfold step. cbn [do_call].
  assert (F : forallb (fun c => has (c_node c) (nodes (gr s))) (constraints (gr s)) = true).
  { apply forallb_forall. intros c Ic. apply has_stored. now apply V. }
  rewrite F. cbn. eauto.
Qed.

(* in every reachable state: TrimSubmap removes exactly the submap, the nodes recorded in it
   only, and the constraints of both *)
Theorem C42_trim : forall every_n es s x g',
  tidy every_n es init -> run every_n es init = Some s ->
  trim_submap x (gr s) = Some g' -> trimmed x (gr s) g' /\ integrity g'.
Proof.
  intros k es s x g' T H E. destruct (inv_run k es init s inv_init I T H) as [V _].
  pose proof (trim_submap_ok x (gr s) (i_wf _ V)) as K. rewrite E in K. destruct K as (W' & Tr & _).
  split; [exact Tr|]. pose proof Tr as (A & _ & B & _ & C & _). destruct V as [_ [IC IN] _].
  assert (N : forall n, stored n (nodes (gr s)) -> ~ only_in (gr s) x n -> stored n (nodes g')).
  { intros n Sn Nn. unfold stored. now rewrite (proj2 (B n) Nn). }
  split.
  - intros c Ic. apply (kept_In _ _ _ C) in Ic as (Ic & N1 & N2). destruct (IC c Ic) as [S1 S2].
    split; [auto|]. unfold stored. now rewrite (proj2 (A (c_sub c)) N1).
  - intros y n R. apply (trimmed_recorded _ _ _ y n Tr) in R as [Ny R]. apply N; [eauto|].
    intros [_ U]. apply Ny. now apply U.
Qed.

(* three nodes; the second and third are in submaps 1 and 2; the first submap is finished with
   the third node and found again from nothing *)
Definition three : list event :=
  [Call (AddNode 0 [1] false); Call (AddNode 0 [1; 2] false); Call (AddNode 0 [1; 2] true);
   Call (AddNode 0 [2; 3] false); Work yes; Work yes; Work yes; Work yes].
Example three_runs :
  match run 0 three init with
  | Some s =>
      tidy 0 three init /\
      map (fun c => (c_sub c, c_node c)) (constraints (gr s)) =
        [((0, 0), (0, 0)); ((0, 0), (0, 1)); ((0, 1), (0, 1)); ((0, 0), (0, 2)); ((0, 1), (0, 2));
         ((0, 1), (0, 3)); ((0, 2), (0, 3))] /\
      searches (gr s) = [((0, 0), (0, 3))] /\
      match trim_submap (0, 0) (gr s) with
      | Some g' => map fst (entries (nodes g')) = [(0, 1); (0, 2); (0, 3)] /\
                   map (fun c => (c_sub c, c_node c)) (constraints g') =
                     [((0, 1), (0, 1)); ((0, 1), (0, 2)); ((0, 1), (0, 3)); ((0, 2), (0, 3))]
      | None => False
      end
  | None => False
  end.
Proof. vm_compute. repeat split. Qed.

(* Without the condition that AddNodeToSubmap is only executed for stored nodes it is false:
   the item puts any id into the submap, and trimming the submap then throws. *)
Theorem C42_unchecked_refuted : exists es s,
  run 0 es init = Some s /\ fair 0 es init /\ ~ integrity (gr s) /\
  run 0 (es ++ [Call (FinishTrajectory 0); Work yes; Deliver all_found; Optimize;
                Handle (fun _ => [(0, 0)])]) init = None.
Proof.
  exists [Call (AddSubmapFromProto (0, 0) 1); Call (AddNodeToSubmap (0, 5) (0, 0));
          Call (AddTrimmer Overlapping); Work yes; Work yes; Work yes].
  eexists. split; [vm_compute; reflexivity|]. split; [vm_compute; repeat split|]. split; [|vm_compute; reflexivity].
  intros [_ V]. specialize (V (0, 0) (0, 5)). unfold stored in V. cbn in V.
  apply V; [|reflexivity]. eexists. split; [reflexivity|]. now left.
Qed.

(* ---- C30 ---- *)
Definition proper (g : graph) : Prop :=
  MapById_Proofs.wf (subs g) /\ MapById_Proofs.wf (nodes g) /\ MapById_Proofs.wf (osubs g) /\
  MapById_Proofs.wf (onodes g) /\ MapById_Proofs.wf (gposes g) /\ zsorted (trajs g).
(* every reachable state is proper *)
Theorem C30_proper : forall every_n es s,
  tidy every_n es init -> run every_n es init = Some s -> proper (gr s).
Proof.
  intros k es s T H. destruct (inv_run k es init s inv_init I T H) as [[[] _ _] _].
  pose proof (run_sorted k es init s ltac:(constructor) H) as S. exact (conj w_subs (conj w_nodes
    (conj w_osubs (conj w_onodes (conj w_gposes S))))).
Qed.

(* Trim removes exactly the submaps that are not among the newest to keep, with the nodes in
   no other submap; once the trajectory is finished it removes all of them, the trajectory is
   reported deleted and the trimmer is finished; otherwise the states do not change *)
Theorem C30_trim : forall t keep f g tr g', proper g ->
  trim_one [] (Pure t keep f) g = Some (tr, g') ->
  let k := if is_finished t g then 0 else keep in
  trimmed_set (fun s => fst s = t /\ stored s (osubs g) /\ ~ among_newest k g s) g g' /\
  trimmer_done tr = (k =? 0) /\
  (forall a, fst (traj_state a g') =
             if (k =? 0) && (a =? t) then Deleted else fst (traj_state a g)).
Proof.
  intros t keep f g tr g' (W1 & W2 & W3 & W4 & W5 & S) H k. cbn [trim_one] in H.
  destruct (trim_pure_ok t keep g tr g' ltac:(constructor; assumption) S H) as (_ & T & -> & A).
  split; [exact T|]. split; [reflexivity|]. intros a. rewrite A. fold k. now destruct ((k =? 0) && (a =? t)).
Qed.
(* in particular nothing of a finished trajectory is left in the optimization problem *)
Theorem C30_finished : forall t keep f g tr g' j, proper g -> is_finished t g = true ->
  trim_one [] (Pure t keep f) g = Some (tr, g') ->
  mbi_at t j (osubs g') = None /\ trimmer_done tr = true /\ fst (traj_state t g') = Deleted.
Proof.
  intros t keep f g tr g' j P F H. destruct (C30_trim _ _ _ _ _ _ P H) as ((_ & T & _) & D & A).
  rewrite F in *. cbn in *. split; [|split; [exact D|]].
  - destruct (T (t, j)) as [T1 T2]. cbn in T1, T2. destruct (mbi_at t j (osubs g)) eqn:E.
    + apply T1. split; [reflexivity|]. split; [unfold stored; cbn; congruence|]. intros (l & _ & _ & L). lia.
    + rewrite T2; [reflexivity|]. intros (_ & St & _). unfold stored in St. cbn in St. congruence.
  - rewrite A, Z.eqb_refl. reflexivity.
Qed.

(* four submaps, two to keep *)
Definition four : list event :=
  [Call (AddTrimmer (Pure 0 2 false)); Call (AddNode 0 [1] false); Call (AddNode 0 [1; 2] true);
   Call (AddNode 0 [2; 3] true); Call (AddNode 0 [3; 4] false); Call RunFinalOptimization;
   Work yes; Work yes; Work yes; Work yes; Work yes; Work yes] ++ drain.
Example four_trimmed :
  match run 0 four init with
  | Some s => map fst (entries (osubs (gr s))) = [(0, 2); (0, 3)] /\
              map fst (entries (nodes (gr s))) = [(0, 2); (0, 3)] /\ trimmers (gr s) = [Pure 0 2 false]
  | None => False
  end /\
  match run 0 (four ++ [Call (FinishTrajectory 0); Work yes; Work yes] ++ drain) init with
  | Some s => entries (osubs (gr s)) = [] /\ entries (nodes (gr s)) = [] /\ trimmers (gr s) = [] /\
              traj_state 0 (gr s) = (Deleted, Normal)
  | None => False
  end.
Proof. vm_compute. repeat split. Qed.

(* ---- C44 ---- *)
(* a trajectory reported deleted stays so, unless Finish- or FreezeTrajectory is called for it
   or was called and is still queued *)
Theorem C44_final : forall every_n t es es' s s',
  run every_n es init = Some s -> run every_n (es ++ es') init = Some s' ->
  fst (traj_state t (gr s)) = Deleted ->
  ~ In (IFinish t) (queue s) -> ~ In (IFreeze t) (queue s) ->
  ~ In (Call (FinishTrajectory t)) es' -> ~ In (Call (FreezeTrajectory t)) es' ->
  fst (traj_state t (gr s')) = Deleted.
Proof.
  intros k t es es' s s' H1 H2 D Q1 Q2 N1 N2. rewrite run_app, H1 in H2. cbn [bind] in H2.
  eapply run_deleted; [eapply run_sorted; [|exact H1]; constructor | exact H2 | | | exact D].
  - intros e Ie. split; intros ->; contradiction.
  - intros i Ii [-> | ->]; contradiction.
Qed.
(* and neither nodes nor data are accepted for it any more *)
Theorem C44_refuses : forall every_n t s o q,
  fst (traj_state t (gr s)) = Deleted ->
  (forall objs nw, step every_n (Call (AddNode t objs nw)) s = None) /\
  (queue s = IData t :: q -> md s = Draining -> step every_n (Work o) s = None).
Proof.
  intros k t s o q D. split.
  - intros objs nw. unfold step. cbn [do_call]. destruct (local_to_global_ok _ _ _); [|reflexivity].
    unfold append_node. destruct (rev objs); [reflexivity|]. unfold add_trajectory.
    destruct (traj_state t (gr s)) as [st ds]. cbn in D. subst st. reflexivity.
  - intros Q M. unfold step. rewrite M, Q. cbn [exec]. unfold can_modify, traj_state in *.
    destruct (zfind t (trajs (gr s))) as [[st ds]|]; [|discriminate]. cbn in D. now subst st.
Qed.

(* a trajectory is made, finished and deleted *)
Definition life : list event :=
  [Call (AddNode 0 [1] false); Call (AddNode 0 [1; 2] false); Work yes; Work yes;
   Call (FinishTrajectory 0); Work yes] ++ drain ++ [Call (DeleteTrajectory 0); Work yes].
Example life_ends :
  match run 0 (life ++ [Call RunFinalOptimization; Work yes] ++ drain) init with
  | Some s => traj_state 0 (gr s) = (Deleted, Normal) /\ entries (subs (gr s)) = [] /\
              entries (nodes (gr s)) = [] /\ constraints (gr s) = []
  | None => False
  end.
Proof. vm_compute. repeat split. Qed.

(* The unconditional statement is false: FinishTrajectory and FreezeTrajectory after deletion
   change the state, and nodes are accepted for the trajectory again after the second. *)
Theorem C44_final_refuted : exists es s,
  run 0 es init = Some s /\ fair 0 es init /\ fst (traj_state 0 (gr s)) = Deleted /\
  (exists s', run 0 (es ++ [Call (FinishTrajectory 0); Work yes; Work yes]) init = Some s' /\
              fst (traj_state 0 (gr s')) = Finished) /\
  (exists s', run 0 (es ++ [Call (FreezeTrajectory 0); Work yes; Work yes]) init = Some s' /\
              traj_state 0 (gr s') = (Frozen, Normal)).
Proof.
  exists (life ++ [Call RunFinalOptimization; Work yes] ++ drain).
  eexists. split; [vm_compute; reflexivity|]. split; [vm_compute; repeat split|]. split; [reflexivity|].
  split; (eexists; split; [vm_compute; reflexivity | reflexivity]).
Qed.

(* DeleteTrajectory is carried out only with the next optimization: after it the queue is empty
   and the worker idle, and the trajectory is still there. *)
Theorem C44_delayed_refuted : exists s,
  run 0 (life ++ [Work yes]) init = Some s /\ fair 0 (life ++ [Work yes]) init /\ md s = Idle /\
  traj_state 0 (gr s) = (Finished, Waiting) /\ entries (subs (gr s)) <> [].
Proof.
  eexists. split; [vm_compute; reflexivity|]. split; [vm_compute; repeat split|]. repeat split. discriminate.
Qed.

(* A client that calls FinishTrajectory and then DeleteTrajectory after its last data call can
   make the process die, if the worker has not yet got to the data: DeleteTrajectory marks the
   trajectory at once, and the queued data item checks the mark. *)
Theorem C44_pending_data_refuted : exists before,
  let es := before ++ map Call [AddData 0; FinishTrajectory 0; DeleteTrajectory 0] ++ [Work yes] in
  fair 0 es init /\ run 0 es init = None.
Proof.
  exists [Call (AddNode 0 [1] false); Work yes]. split; [vm_compute; repeat split | vm_compute; reflexivity].
Qed.

Print Assumptions C42_integrity.
Print Assumptions C42_read_constraints.
Print Assumptions C42_trim.
Print Assumptions C42_unchecked_refuted.
Print Assumptions C30_proper.
Print Assumptions C30_trim.
Print Assumptions C30_finished.
Print Assumptions C44_final.
Print Assumptions C44_refuses.
Print Assumptions C44_final_refuted.
Print Assumptions C44_delayed_refuted.
Print Assumptions C44_pending_data_refuted.
