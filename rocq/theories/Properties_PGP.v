(* C55 and C44, continued: when the pose graph optimizes, and what it refuses. *)
From Coq Require Import List ZArith Bool Lia.
From Verif Require Import ZMap MapById_Model PG_Model PG_Proofs PG_Period.
Import ListNotations.
Open Scope Z_scope.

(* a node asks for an optimization exactly when optimizing is on and at least every_n nodes were
   executed before it since the last one *)
Theorem C55_period k es s n objs nw q o s' : run k es init = Some s -> md s = Draining -> queue s = INode n objs nw :: q ->
  step k (Work o) s = Some s' ->
  (md s' = Awaiting <-> 0 < k /\ k <= recent k es init 0) /\ (md s' = Draining <-> ~ (0 < k /\ k <= recent k es init 0)).
Proof.
  intros R M Q H. pose proof (run_since k es init s 0 eq_refl R) as S. unfold step in H. rewrite M, Q in H. ob H. injection H as <-. cbn [md].
  cbn [exec] in E. apply node_item_since in E as [_ E]. rewrite S in E. destruct (snd p).
  - split; split; intros X; try discriminate; try reflexivity; [now apply E | destruct X; now apply E].
  - split; split; intros X; try discriminate; try reflexivity; [apply E in X; discriminate | intros Y; apply E in Y; discriminate].
Qed.
(* three nodes when two in a row are enough: the third asks *)
Definition yes : id -> id -> verdict := fun _ _ => mk_verdict false false true.
Definition nodes_of (m : nat) : list event := repeat (Call (AddNode 0 [1] false)) m ++ repeat (Work yes) m.
Example period_two :
  map (fun m => option_map md (run 2 (nodes_of m) init)) [1%nat; 2%nat; 3%nat] = [Some Draining; Some Draining; Some Awaiting] /\
  recent 2 (nodes_of 2) init 0 = 2.
Proof. vm_compute. split; reflexivity. Qed.

(* neither nodes nor data are accepted for a trajectory that is finished, deleted or to be deleted *)
Theorem C44_closed_refuses : forall every_n t s,
  (fst (traj_state t (gr s)) = Finished \/ fst (traj_state t (gr s)) = Deleted \/ snd (traj_state t (gr s)) <> Normal) ->
  (forall objs nw, step every_n (Call (AddNode t objs nw)) s = None) /\
  (forall i o, step every_n (Call (AddSubmapFromProto (t, i) o)) s = None) /\
  (forall i, step every_n (Call (AddNodeFromProto (t, i))) s = None) /\
  (forall o q, queue s = IData t :: q -> md s = Draining -> step every_n (Work o) s = None) /\
  (forall o q n i, queue s = INodeToSubmap n (t, i) :: q -> md s = Draining -> step every_n (Work o) s = None).
Proof.
  intros k t s D.
  assert (A : add_trajectory t (gr s) = None).
  { unfold add_trajectory. destruct (traj_state t (gr s)) as [st ds]. cbn in D. destruct D as [-> | [-> | D]]; destruct ds; try reflexivity; try congruence; destruct st; congruence. }
  assert (B : can_modify t (gr s) = false).
  { unfold can_modify. unfold traj_state in D. destruct (zfind t (trajs (gr s))) as [[st ds]|]; cbn in D; [|destruct D as [D|[D|D]]; congruence].
    destruct D as [-> | [-> | D]]; destruct ds; try reflexivity; try congruence; destruct st; congruence. }
  split; [|split; [|split; [|split]]].
  - intros objs nw. unfold step. cbn [do_call]. destruct (local_to_global_ok _ _ _); [|reflexivity]. unfold append_node. destruct (rev objs); [reflexivity|]. now rewrite A.
  - intros i o. unfold step. cbn [do_call fst]. now rewrite A.
  - intros i. unfold step. cbn [do_call fst]. now rewrite A.
  - intros o q Q M. unfold step. rewrite M, Q. cbn [exec]. now rewrite B.
  - intros o q n i Q M. unfold step. rewrite M, Q. cbn [exec fst]. now rewrite B.
Qed.
(* a finished trajectory *)
Example closed_refuses :
  match run 0 [Call (AddNode 0 [1] false); Work yes; Call (FinishTrajectory 0); Work yes] init with
  | Some s => traj_state 0 (gr s) = (Finished, Normal) /\ step 0 (Call (AddNode 0 [1] false)) s = None
  | None => False
  end.
Proof. vm_compute. split; reflexivity. Qed.

Print Assumptions C55_period.
Print Assumptions C44_closed_refuses.
