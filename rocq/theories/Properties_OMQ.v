(** Properties C01-C04 (and determinism C51): ordered multi queue, collators. *)
From Coq Require Import List ZArith Bool Sorted Lia.
From Verif Require Import OMQ_Model OMQ_Spec OMQ_Final OMQ_Collator.
Import ListNotations.
Local Open Scope Z_scope.

(** A concrete history used to show that hypotheses are satisfiable: two
    sensors of trajectory 0, three of whose early items are dropped. *)
Definition ex_h : list op :=
  [OAddQueue (0, 0); OAddQueue (0, 1);
   OAdd (0, 0) (mkItem 1 10); OAdd (0, 0) (mkItem 2 11); OAdd (0, 0) (mkItem 3 12);
   OAdd (0, 1) (mkItem 4 20); OAdd (0, 0) (mkItem 5 13); OAdd (7, 7) (mkItem 5 13);
   OAdd (0, 0) (mkItem 6 14); OFlush].
(** The same data arriving in another order. *)
Definition ex_h2 : list op :=
  [OAddQueue (0, 1); OAddQueue (0, 0);
   OAdd (0, 1) (mkItem 4 20);
   OAdd (0, 0) (mkItem 1 10); OAdd (0, 0) (mkItem 2 11); OAdd (0, 0) (mkItem 3 12);
   OAdd (0, 0) (mkItem 5 13); OFinish (0, 1);
   OAdd (0, 0) (mkItem 6 14); OFlush].

Example ex_h_legal : legal_static view0 ex_h.
Proof. vm_compute. intuition congruence. Qed.
Example ex_h2_legal : legal_static view0 ex_h2.
Proof. vm_compute. intuition congruence. Qed.
Example ex_h_run : exists s, run ex_h init =
  ROk (s, [Drop (0, 0) (mkItem 1 10); Drop (0, 0) (mkItem 2 11);
           Deliver (0, 0) (mkItem 3 12); Deliver (0, 1) (mkItem 4 20);
           Ignore (7, 7) (mkItem 5 13);
           Deliver (0, 0) (mkItem 5 13); Deliver (0, 0) (mkItem 6 14)]).
Proof. eexists. vm_compute. reflexivity. Qed.

(** C01: callbacks fire in non-decreasing time order in every history. *)
Theorem C01_time_order : forall h s tr,
  run h init = ROk (s, tr) -> StronglySorted time_le (delivered tr).
Proof. exact omq_time_order_lem. Qed.
Print Assumptions C01_time_order.

(** C01: a client that respects the documented obligations never triggers an
    abort (and the loop always terminates). *)
Theorem C01_legal_no_abort : forall h,
  legal h -> exists s tr, run h init = ROk (s, tr).
Proof. exact legal_no_abort_lem. Qed.
Print Assumptions C01_legal_no_abort.

Theorem C01_static_legal : forall h, legal_static view0 h -> legal h.
Proof. exact static_legal. Qed.
Print Assumptions C01_static_legal.

Theorem C01_terminates : forall h, run h init <> RFuel.
Proof. exact run_no_fuel_lem. Qed.
Print Assumptions C01_terminates.

(** C01: with all queues registered up front, ties are broken by queue key. *)
Theorem C01_time_key_order : forall h s tr,
  legal_static view0 h -> run h init = ROk (s, tr) ->
  StronglySorted lex_le (delivered tr).
Proof. exact lex_order_lem. Qed.
Print Assumptions C01_time_key_order.

(** C01, without the restriction on late registration: a queue registered after
    newer data was delivered aborts the process although every single queue is
    sorted. *)
Theorem C01_late_queue_refuted : exists h,
  run h init = RAbort /\
  (forall k, Sorted (fun a b => it_time a <= it_time b) (added (view_of h) k)) /\
  v_fin (view_of h) = [].
Proof.
  exists [OAddQueue (0, 0); OAdd (0, 0) (mkItem 10 1); OAddQueue (1, 0);
          OAdd (1, 0) (mkItem 5 2); OAdd (0, 0) (mkItem 11 3)].
  split; [vm_compute; reflexivity|]. split; [|reflexivity].
  intros k. unfold added.
  match goal with |- context [v_added ?v] =>
    replace (v_added v) with [((0, 0), mkItem 10 1); ((1, 0), mkItem 5 2); ((0, 0), mkItem 11 3)]
      by (vm_compute; reflexivity) end.
  rewrite !items_of_cons. cbn [fst snd].
  destruct (keq_dec (0, 0) k) as [<-|N1]; destruct (keq_dec (1, 0) _) as [E|N2];
    try discriminate; simpl; repeat constructor; simpl; lia.
Qed.
Print Assumptions C01_late_queue_refuted.

(** C02: per queue, the added data is what was dropped, then what was
    delivered, then what is still waiting. *)
Theorem C02_conservation : forall h s tr,
  legal h -> run h init = ROk (s, tr) ->
  forall k, added (view_of h) k =
            items_of k (dropped tr) ++ items_of k (delivered tr) ++ pending s k.
Proof. exact conservation_lem. Qed.
Print Assumptions C02_conservation.

(** C02: dropped data is older than the first item of some queue of the same
    trajectory. *)
Theorem C02_drop_only_before_start : forall h s tr,
  legal h -> run h init = ROk (s, tr) ->
  forall k d, In (k, d) (dropped tr) ->
  exists k' d' r', In k' (v_reg (view_of h)) /\ fst k' = fst k /\
    added (view_of h) k' = d' :: r' /\ it_time d < it_time d'.
Proof. exact drop_before_start_lem. Qed.
Print Assumptions C02_drop_only_before_start.

(** C02: in a completed run exactly the fast-forwarded data of every queue is
    delivered. *)
Theorem C02_exact_delivery : forall h s tr,
  legal_static view0 (h ++ [OFlush]) -> run (h ++ [OFlush]) init = ROk (s, tr) ->
  forall k c, is_common_start (view_of (h ++ [OFlush])) (fst k) c ->
  items_of k (delivered tr) = fast_forward c (added (view_of (h ++ [OFlush])) k).
Proof. exact flush_kept_lem. Qed.
Print Assumptions C02_exact_delivery.
Example C02_ex_common_start : is_common_start (view_of ex_h) 0 4.
Proof.
  split.
  - exists (0, 1), (mkItem 4 20), []. vm_compute. intuition.
  - intros k d r Hin _ Ha.
    assert (Hk: k = (0, 0) \/ k = (0, 1)) by (vm_compute in Hin; intuition).
    destruct Hk; subst; vm_compute in Ha; inversion Ha; subst; simpl; lia.
Qed.

(** C03: Flush leaves nothing behind. *)
Theorem C03_flush_drains : forall h s tr,
  legal (h ++ [OFlush]) -> run (h ++ [OFlush]) init = ROk (s, tr) ->
  queues s = [] /\ forall k, pending s k = [].
Proof. exact flush_drains_lem. Qed.
Print Assumptions C03_flush_drains.

(** C03: after adding data or finishing a queue, either everything is finished
    and delivered or the reported blocker is an unfinished queue that needs
    data. *)
Theorem C03_blocker : forall h o s tr,
  legal (h ++ [o]) -> run (h ++ [o]) init = ROk (s, tr) ->
  (match o with OFinish _ => True | OAdd k _ => In k (v_reg (view_of h)) | _ => False end) ->
  let v := view_of (h ++ [o]) in
  (forall k, In k (v_reg v) -> In k (v_fin v) /\ pending s k = []) \/
  (exists k, get_blocker s = ROk (Some k) /\ In k (v_reg v) /\ ~ In k (v_fin v) /\
     (pending s k = [] \/
      exists d k' d' r', pending s k = [d] /\ In k' (v_reg v) /\ fst k' = fst k /\
                     added v k' = d' :: r' /\ it_time d < it_time d')).
Proof. exact blocker_lem. Qed.
Print Assumptions C03_blocker.

(** C03: right after registration, GetBlocker returns a key that was never
    assigned although an unfinished queue exists. *)
Theorem C03_blocker_unset_refuted : exists h s tr,
  legal_static view0 h /\ run h init = ROk (s, tr) /\
  (exists k, In k (v_reg (view_of h)) /\ ~ In k (v_fin (view_of h))) /\
  get_blocker s = ROk None.
Proof.
  exists [OAddQueue (0, 0)]. eexists. eexists.
  split; [vm_compute; tauto|]. split; [vm_compute; reflexivity|]. split; [|reflexivity].
  exists (0, 0). vm_compute. tauto.
Qed.
Print Assumptions C03_blocker_unset_refuted.

(** C51: the delivered sequence does not depend on the arrival order. *)
Theorem C51_deterministic : forall h1 h2 s1 s2 tr1 tr2,
  legal_static view0 (h1 ++ [OFlush]) -> legal_static view0 (h2 ++ [OFlush]) ->
  (forall k, In k (v_reg (view_of (h1 ++ [OFlush]))) <->
             In k (v_reg (view_of (h2 ++ [OFlush])))) ->
  (forall k, added (view_of (h1 ++ [OFlush])) k = added (view_of (h2 ++ [OFlush])) k) ->
  run (h1 ++ [OFlush]) init = ROk (s1, tr1) ->
  run (h2 ++ [OFlush]) init = ROk (s2, tr2) ->
  delivered tr1 = delivered tr2.
Proof. exact determinism_lem. Qed.
Print Assumptions C51_deterministic.
Example C51_ex : forall k, In k (v_reg (view_of ex_h)) <-> In k (v_reg (view_of ex_h2)).
Proof. intros k. vm_compute. intuition. Qed.
Example C51_ex_added : added (view_of ex_h) (0, 0) = added (view_of ex_h2) (0, 0).
Proof. vm_compute. reflexivity. Qed.

(** C04: with the trajectory collator, what happens to trajectory [t] is a
    function of the calls that concern [t]. *)
Theorem C04_trajectory_collator_isolation : forall t ops c tr,
  tcollator_run ops [] = ROk (c, tr) ->
  exists p, tcollator_run (filter (concerns t) ops) [] = ROk (p, events_of t tr).
Proof. exact isolation_lem. Qed.
Print Assumptions C04_trajectory_collator_isolation.
Example C04_ex : exists c, tcollator_run
  [CAddTrajectory 0 [0]; CAddTrajectory 1 [0]; CAddData 0 0 (mkItem 5 1)] [] =
  ROk (c, [Deliver (0, 0) (mkItem 5 1)]).
Proof. eexists; vm_compute; reflexivity. Qed.

(** C04 for the plain collator: false, an idle trajectory holds back another. *)
Theorem C04_collator_isolation_refuted : exists t ops c tr c' tr',
  collator_run ops collator_init = ROk (c, tr) /\
  collator_run (filter (concerns t) ops) collator_init = ROk (c', tr') /\
  events_of t tr <> tr'.
Proof.
  exists 0, [CAddTrajectory 0 [0]; CAddTrajectory 1 [0]; CAddData 0 0 (mkItem 5 1)].
  do 4 eexists. split; [vm_compute; reflexivity|]. split; [vm_compute; reflexivity|].
  vm_compute. discriminate.
Qed.
Print Assumptions C04_collator_isolation_refuted.
