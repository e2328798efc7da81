(* C55, and more of C44: well-behaved mapping sessions. *)
From Coq Require Import List ZArith Bool Lia.
From Verif Require Import ZMap MapById_Model PG_Model PG_Maps PG_Spec PG_Proofs PG_Trim PG_Client PG_Delete
  PG_Session PG_Session_Call PG_Session_Work PG_Session_Handle PG_Session_Main PG_Front Properties_PG.
Import ListNotations.
Open Scope Z_scope.

(* ---- C55 ---- *)
(* however the calls of a well-behaved client and the steps of the worker are interleaved, and
   whatever the constraint builder finds: nothing aborts *)
Theorem C55_session : forall every_n es, polite every_n es init new_client ->
  exists s, run every_n es init = Some s.
Proof.
  intros k es P. destruct (good_run k es init new_client good_init P) as (s & _ & H & _). eauto.
Qed.
(* in the states of such a session no optimized submap and no optimized node is without its
   submap and node, and all constraints are between optimized ones *)
Theorem C55_optimized : forall every_n es s, polite every_n es init new_client -> run every_n es init = Some s ->
  (forall x, stored x (osubs (gr s)) -> stored x (subs (gr s))) /\
  (forall n, stored n (onodes (gr s)) -> stored n (nodes (gr s)) /\ exists x, recorded (gr s) x n) /\
  (forall c, In c (constraints (gr s)) -> stored (c_sub c) (osubs (gr s)) /\ stored (c_node c) (onodes (gr s))).
Proof.
  intros k es s P H. destruct (good_run k es init new_client good_init P) as (s' & c & H' & G).
  rewrite H in H'. injection H' as <-. destruct G as [[] _ _ _ _ _ _ _ _ _ _]. auto 6.
Qed.

(* The front end is well-behaved: whatever the number of range data per submap, the submaps that
   ActiveSubmaps2D returns for the successive range data are the ones a client may pass. *)
Theorem C55_front_end : forall N ds, 1 <= N -> 2 * N < 2 ^ 31 -> NoDup ds ->
  exists l, hand_over N [] ds = Some l /\ length l = length ds /\ accepted P0 l = true.
Proof. intros N ds H1 H2 ND. now apply hand_over_ok. Qed.
Example hand_over_two : hand_over 2 [] [10; 11; 12; 13; 14; 15; 16] =
  Some [([10], false); ([10], false); ([10; 12], false); ([10; 12], true);
        ([12; 14], false); ([12; 14], true); ([14; 16], false)].
Proof. reflexivity. Qed.

(* a test for the examples *)
Fixpoint polite_b (every_n : Z) (es : list event) (s : sys) (k : client) : bool :=
  match es with
  | [] => true
  | e :: r =>
      enabled e s &&
      match (match e with Call c => allowed c k (gr s) | _ => Some k end) with
      | Some k' => match step every_n e s with Some s' => polite_b every_n r s' k' | None => true end
      | None => false
      end
  end.
Lemma polite_b_ok every_n es : forall s k,
  Forall (fun e => match e with Handle chs => forall n, chs n = [] | _ => True end) es ->
  polite_b every_n es s k = true -> polite every_n es s k.
Proof.
  induction es as [|e es IH]; intros s k F H; cbn [polite_b polite] in *; [exact I|].
  inversion F as [|? ? Fe F']; subst. apply andb_true_iff in H as [En H]. split; [exact En|].
  destruct (match e with Call c => allowed c k (gr s) | _ => Some k end) as [k'|] eqn:E; [|discriminate].
  exists k'. split; [|destruct (step every_n e s); auto].
  destruct e; try (injection E as <-); auto. split; [|reflexivity]. intros n x Ix. rewrite Fe in Ix. contradiction.
Qed.
Ltac polite := apply polite_b_ok; [repeat constructor | vm_compute; reflexivity].

(* the sessions of Properties_PG, one with a pure localization trimmer, one with a deletion *)
Definition tail : list event := [Call RunFinalOptimization; Work yes] ++ drain.
Example sessions_polite :
  polite 0 (four ++ [Call (FinishTrajectory 0); Work yes; Work yes] ++ drain) init new_client /\
  polite 0 (life ++ tail) init new_client.
Proof. split; polite. Qed.

(* Each condition on the client is needed. *)
(* The overlapping submaps trimmer removes the last submap of a finished trajectory while one of
   its nodes remains: the next optimization looks the removed submap up. *)
Definition short : list event :=
  [Call (AddTrimmer Overlapping); Call (AddNode 0 [1] false); Call (AddNode 0 [1; 2] false);
   Work yes; Work yes; Work yes; Call (FinishTrajectory 0); Work yes; Deliver all_found; Optimize].
Theorem C55_last_submap_refuted : exists s s',
  polite 0 short init new_client /\ run 0 short init = Some s /\
  step 0 (Handle (fun _ => [(0, 1)])) s = Some s' /\
  fair 0 [Call RunFinalOptimization; Work yes; Deliver all_found; Optimize] s' /\
  run 0 [Call RunFinalOptimization; Work yes; Deliver all_found; Optimize] s' = None.
Proof.
  do 2 eexists. split; [polite|]. split; [vm_compute; reflexivity|]. split; [vm_compute; reflexivity|].
  split; vm_compute; repeat split.
Qed.
(* GetLocalToGlobalTransform for a trajectory that was deleted throws. *)
Theorem C55_lookup_refuted : exists s,
  polite 0 (life ++ tail) init new_client /\ run 0 (life ++ tail) init = Some s /\
  step 0 (Call (GetLocalToGlobalTransform 0)) s = None.
Proof. eexists. split; [polite|]. split; [vm_compute; reflexivity | vm_compute; reflexivity]. Qed.
(* DeleteTrajectory for a finished trajectory with a pure localization trimmer: the trimmer marks
   the trajectory deleted before the item is executed, which then finds the wrong state. *)
Definition localizing : list event :=
  [Call (AddTrimmer (Pure 0 2 false)); Call (AddNode 0 [1] false); Work yes; Work yes;
   Call (FinishTrajectory 0); Work yes].
Theorem C55_pure_delete_refuted : exists s,
  polite 0 localizing init new_client /\ run 0 localizing init = Some s /\ is_finished 0 (gr s) = true /\
  fair 0 ([Call (DeleteTrajectory 0)] ++ drain ++ [Work yes]) s /\
  run 0 ([Call (DeleteTrajectory 0)] ++ drain ++ [Work yes]) s = None.
Proof.
  eexists. split; [polite|]. split; [vm_compute; reflexivity|]. split; [reflexivity|]. split; vm_compute; repeat split.
Qed.
(* DeleteTrajectory twice, or for an active trajectory *)
Definition finished : list event :=
  [Call (AddNode 0 [1] false); Work yes; Call (FinishTrajectory 0); Work yes] ++ drain.
Theorem C55_delete_twice_refuted : exists s,
  polite 0 finished init new_client /\ run 0 finished init = Some s /\
  run 0 [Call (DeleteTrajectory 0); Call (DeleteTrajectory 0); Work yes; Work yes] s = None.
Proof. eexists. split; [polite|]. split; vm_compute; reflexivity. Qed.
Theorem C55_delete_active_refuted : exists s,
  polite 0 [Call (AddNode 0 [1] false); Work yes] init new_client /\
  run 0 [Call (AddNode 0 [1] false); Work yes] init = Some s /\
  run 0 [Call (DeleteTrajectory 0); Work yes] s = None.
Proof. eexists. split; [polite|]. split; vm_compute; reflexivity. Qed.
(* FinishTrajectory twice *)
Theorem C55_finish_twice_refuted : exists s,
  polite 0 finished init new_client /\ run 0 finished init = Some s /\
  run 0 [Call (FinishTrajectory 0); Work yes] s = None.
Proof. eexists. split; [polite|]. split; vm_compute; reflexivity. Qed.

(* ---- C44 ---- *)
(* when a trajectory of such a session is reported deleted, nothing of it is stored, and no
   constraint is to it *)
Theorem C44_deleted_gone : forall every_n es s t,
  polite every_n es init new_client -> run every_n es init = Some s ->
  fst (traj_state t (gr s)) = Deleted ->
  (forall j, mbi_at t j (subs (gr s)) = None /\ mbi_at t j (nodes (gr s)) = None /\
             mbi_at t j (osubs (gr s)) = None /\ mbi_at t j (onodes (gr s)) = None) /\
  (forall c, In c (constraints (gr s)) -> fst (c_sub c) <> t /\ fst (c_node c) <> t).
Proof.
  intros k es s t P H D. destruct (good_run k es init new_client good_init P) as (s' & c & H' & G).
  rewrite H in H'. injection H' as <-. pose proof (s_status _ _ G t) as S. pose proof (s_glob _ _ G) as W.
  assert (E : (forall j, get (t, j) (subs (gr s)) = None) /\ done (gr s) t).
  { inversion S; subst; try (match goal with H : traj_state t (gr s) = _ |- _ => rewrite H in D end; discriminate). auto. }
  destruct E as [Em [D1 D2 D3]].
  assert (E2 : forall j, get (t, j) (osubs (gr s)) = None).
  { intros j. destruct (get (t, j) (osubs (gr s))) eqn:E; [|reflexivity]. apply get_stored, D1 in E. elim E. apply Em. }
  assert (E3 : forall j, get (t, j) (onodes (gr s)) = None).
  { intros j. destruct (get (t, j) (onodes (gr s))) eqn:E; [|reflexivity]. apply get_stored in E. destruct (g_node _ W _ E) as (x & R).
    destruct (g_rec _ W _ _ R) as [_ Fx]. destruct x as [a i]. cbn in Fx. subst a. destruct R as (d & Gd & _).
    pose proof (Em i) as Ei. unfold get in Ei. congruence. }
  assert (E4 : forall j, get (t, j) (nodes (gr s)) = None).
  { intros j. destruct (get (t, j) (nodes (gr s))) eqn:E; [|reflexivity]. apply get_stored, D3 in E. elim E. apply E3. }
  split.
  - intros j. split; [apply Em|]. split; [apply E4|]. split; [apply E2 | apply E3].
  - intros x Ix. destruct (g_con _ W x Ix) as [A B]. split.
    + destruct (c_sub x) as [a i]. cbn. intros ->. apply A, E2.
    + destruct (c_node x) as [a i]. cbn. intros ->. apply B, E3.
Qed.
(* the optimization after the deletion item was executed deletes the trajectory *)
Theorem C44_deletes : forall every_n es s s' t chs,
  run every_n es init = Some s -> enabled (Handle chs) s = true ->
  step every_n (Handle chs) s = Some s' -> snd (traj_state t (gr s)) = Waiting ->
  fst (traj_state t (gr s')) = Deleted.
Proof.
  intros k es s s' t chs H En St Wt. pose proof (run_sorted k es init s ltac:(constructor) H) as So.
  cbn in En. unfold step in St. destruct (md s); try discriminate. ob St. injection St as <-. cbn [gr].
  unfold finish_handling in E. ob E. ob E. ob E. injection E as <-.
  assert (In (t, traj_state t (gr s)) (trajs (gr s))) as I.
  { unfold traj_state in *. destruct (zfind t (trajs (gr s))) eqn:F; [|discriminate]. now apply zfind_In. }
  assert (Dl : forall l g g', zsorted (trajs g) -> delete_trajectories l g = Some g' ->
    (exists st, In (t, (st, Waiting)) l) \/ fst (traj_state t g) = Deleted -> fst (traj_state t g') = Deleted).
  { clear. induction l as [|[a [st ds]] l IH]; intros g g' So H A; cbn [delete_trajectories] in H.
    - injection H as <-. destruct A as [(? & []) | A]. exact A.
    - destruct ds.
      1,2: eapply IH; [exact So | exact H |]; destruct A as [(x & [A|A]) | A]; [discriminate | left; eauto | now right].
      ob H. pose proof (trim_all_trajs _ _ _ E) as Et. match type of H with delete_trajectories _ ?x = _ => set (g2 := x) in * end.
      destruct (state_put g a (Deleted, Normal) So g2) as [S2 T2]; [cbn; now rewrite Et|].
      eapply IH; [exact S2 | exact H |]. rewrite T2. destruct (Z.eqb_spec t a) as [->|N]; [now right|].
      destruct A as [(x & [A|A]) | A]; [congruence | left; eauto | now right]. }
  destruct (traj_state t (gr s)) as [st ds] eqn:T. cbn in Wt. subst ds.
  assert (D1 : fst (traj_state t g0) = Deleted) by (eapply Dl; [exact So | exact E1 | left; eauto]).
  destruct (delete_dies _ _ _ E1 So) as [S1 _].
  destruct (trim_with_dies _ _ _ _ _ E2 S1) as [_ D2]. destruct (D2 t) as [D3|D3]; [rewrite D1 in D3; exact D3 | exact D3].
Qed.
Example life_deleted :
  match run 0 (life ++ tail) init with Some s => traj_state 0 (gr s) = (Deleted, Normal) | None => False end.
Proof. vm_compute. reflexivity. Qed.

Print Assumptions C55_session.
Print Assumptions C55_optimized.
Print Assumptions C55_front_end.
Print Assumptions C55_last_submap_refuted.
Print Assumptions C55_lookup_refuted.
Print Assumptions C55_pure_delete_refuted.
Print Assumptions C55_delete_twice_refuted.
Print Assumptions C55_delete_active_refuted.
Print Assumptions C55_finish_twice_refuted.
Print Assumptions C44_deleted_gone.
Print Assumptions C44_deletes.
