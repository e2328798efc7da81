(* Property theorems for trajectory connectivity (C28, C29). *)
From Coq Require Import List ZArith Bool Lia Relations.
From Verif Require Import ZMap Conn_Model Conn_Spec Conn_Proofs.
Import ListNotations.
Open Scope Z_scope.

(* C28: whatever was called before (including queries, which compress paths),
   TransitivelyConnected tells exactly whether a chain of connections exists. *)
Theorem C28_transitively_connected os s a b : cc_run cc_init os = Some s ->
  exists s' r, cc_connected s a b = Some (s', r) /\
    (r = true <-> clos_refl_sym_trans Z (fun x y => In (CConnect x y) os) a b).
Proof.
  intros H. pose proof (run_legal _ _ [] _ inv_init H) as L.
  destruct (run_inv os _ [] inv_init L) as (s1 & E & I). rewrite H in E. injection E as <-.
  destruct (connected_ok s os a b I) as (s' & r & E & _ & R). eauto.
Qed.

(* The components are a partition of the tracked trajectories into chains. *)
Theorem C28_components os s : cc_run cc_init os = Some s ->
  exists s' ls, cc_components s = Some (s', ls) /\
    NoDup (concat ls) /\ (forall l, In l ls -> l <> []) /\
    (forall t, In t (concat ls) <-> tracked os t) /\
    (forall a b, (exists l, In l ls /\ In a l /\ In b l) <->
                 tracked os a /\ tracked os b /\ linked os a b).
Proof.
  intros H. pose proof (run_legal _ _ [] _ inv_init H) as L.
  destruct (run_inv os _ [] inv_init L) as (s1 & E & I). rewrite H in E. injection E as <-.
  destruct (components_ok s os I) as (s' & ls & E & _ & R). eauto.
Qed.

(* GetComponent returns exactly the chain of a tracked trajectory and aborts for
   an untracked one. *)
Theorem C28_component os s t : cc_run cc_init os = Some s ->
  (tracked os t -> exists s' l, cc_component s t = Some (s', l) /\
     forall k, In k l <-> linked os t k) /\
  (~ tracked os t -> cc_component s t = None).
Proof.
  intros H. pose proof (run_legal _ _ [] _ inv_init H) as L.
  destruct (run_inv os _ [] inv_init L) as (s1 & E & I). rewrite H in E. injection E as <-.
  split.
  - intros T. destruct (component_ok s os t I T) as (s' & l & E & _ & R). eauto.
  - intros N. eapply component_untracked; eauto.
Qed.

(* Connection counts. *)
Theorem C28_counts os s a b : cc_run cc_init os = Some s ->
  cc_count s a b = times_connected os a b /\ cc_count s a b = cc_count s b a.
Proof.
  intros H. pose proof (run_legal _ _ [] _ inv_init H) as L.
  destruct (run_inv os _ [] inv_init L) as (s1 & E & I). rewrite H in E. injection E as <-.
  destruct I as [_ C]. split; [apply C|]. unfold cc_count. now rewrite minmax_sym.
Qed.

(* No history aborts unless it asks for the component of an untracked
   trajectory; in particular path compression always terminates. *)
Theorem C28_no_abort os : legal [] os <-> exists s, cc_run cc_init os = Some s.
Proof.
  split.
  - intros L. destruct (run_inv os _ [] inv_init L) as (s & E & _). eauto.
  - intros [s E]. eapply run_legal; eauto using inv_init.
Qed.

(* C29 *)
Theorem C29_symmetric s a b : last_time s a b = last_time s b a.
Proof. rewrite !last_time_at. now rewrite minmax_sym. Qed.

(* Connecting two trajectories that are not connected yet sets the time of every
   pair joined by it, and of no other pair. *)
Theorem C29_join os s a b t s' : tcs_run tcs_init os = Some s ->
  tcs_connect s a b t = Some s' -> ~ linked (map cc_of os) a b ->
  (forall x y, linked (map cc_of os) a x -> linked (map cc_of os) b y ->
     last_time s' x y = t /\ last_time s' y x = t) /\
  (forall x y, ~ (linked (map cc_of os) a x /\ linked (map cc_of os) b y) ->
               ~ (linked (map cc_of os) a y /\ linked (map cc_of os) b x) ->
     last_time s' x y = last_time s x y).
Proof.
  intros H C N. pose proof (trun_legal _ _ [] _ tinv_init H) as L.
  destruct (trun_inv os _ [] tinv_init L) as (s1 & E & I). rewrite H in E. injection E as <-.
  assert (L2 : tlegal os [TConnect a b t]).
  { eapply (trun_legal [TConnect a b t] s); eauto. simpl. rewrite C. reflexivity. }
  destruct L2 as [L2 _].
  destruct (tconnect_ok s os a b t I L2) as (s2 & E & _ & _ & H2).
  rewrite C in E. injection E as <-. destruct (H2 N) as [H3 H4]. split; auto.
  intros x y Lx Ly. split; [auto|]. rewrite C29_symmetric. auto.
Qed.

(* Connecting two trajectories that are connected already raises the time of
   this pair to the new time if that is later, and changes no other pair. *)
Theorem C29_update os s a b t s' : tcs_run tcs_init os = Some s ->
  tcs_connect s a b t = Some s' -> linked (map cc_of os) a b ->
  last_time s' a b = Z.max (last_time s a b) t /\
  (forall x y, ~ (x = a /\ y = b) -> ~ (x = b /\ y = a) -> last_time s' x y = last_time s x y).
Proof.
  intros H C N. pose proof (trun_legal _ _ [] _ tinv_init H) as L.
  destruct (trun_inv os _ [] tinv_init L) as (s1 & E & I). rewrite H in E. injection E as <-.
  assert (L2 : tlegal os [TConnect a b t]).
  { eapply (trun_legal [TConnect a b t] s); eauto. simpl. rewrite C. reflexivity. }
  destruct L2 as [L2 _].
  destruct (tconnect_ok s os a b t I L2) as (s2 & E & _ & H2 & _).
  rewrite C in E. injection E as <-. auto.
Qed.

(* After any history the state answers connectivity queries as in C28. *)
Theorem C29_connected os s a b : tcs_run tcs_init os = Some s ->
  exists s' r, tcs_connected s a b = Some (s', r) /\
    (r = true <-> linked (map cc_of os) a b).
Proof.
  intros H. pose proof (trun_legal _ _ [] _ tinv_init H) as L.
  destruct (trun_inv os _ [] tinv_init L) as (s1 & E & I). rewrite H in E. injection E as <-.
  destruct (connected_ok _ _ a b I) as (c & r & E & _ & R). unfold tcs_connected. rewrite E. eauto.
Qed.

(* Exactly the histories that connect only tracked trajectories run through. *)
Theorem C29_no_abort os : tlegal [] os <-> exists s, tcs_run tcs_init os = Some s.
Proof.
  split.
  - intros L. destruct (trun_inv os _ [] tinv_init L) as (s & E & _). eauto.
  - intros [s E]. eapply trun_legal; eauto using tinv_init.
Qed.

(* The header promises that Connect starts tracking untracked trajectories.
   That is false: it aborts (GetComponent's CHECK) for two different
   trajectories of which one is untracked. *)
Theorem C29_connect_tracks_refuted :
  exists os s a b t, tcs_run tcs_init os = Some s /\ tcs_connect s a b t = None.
Proof. exists [TAdd 0], {| t_cc := {| cc_forest := [(0, 0)]; cc_counts := [] |}; t_times := [] |}, 0, 1, 5. split; reflexivity. Qed.

Definition ex_ops : list tcsop :=
  [TAdd 0; TAdd 1; TAdd 2; TAdd 3; TConnect 0 1 10; TConnected 0 3; TConnect 2 3 20;
   TConnect 1 2 30; TConnect 3 2 25; TConnect 2 3 15].

Example C28_C29_example :
  match tcs_run tcs_init ex_ops with
  | None => False
  | Some s =>
      option_map snd (tcs_components s) = Some [[0; 1; 2; 3]] /\
      last_time s 0 3 = 30 /\ last_time s 3 2 = 25 /\ last_time s 0 1 = 10 /\
      cc_count (t_cc s) 2 3 = 3
  end.
Proof. vm_compute. repeat split. Qed.

Print Assumptions C28_transitively_connected.
Print Assumptions C28_components.
Print Assumptions C28_component.
Print Assumptions C28_counts.
Print Assumptions C28_no_abort.
Print Assumptions C29_symmetric.
Print Assumptions C29_join.
Print Assumptions C29_update.
Print Assumptions C29_connected.
Print Assumptions C29_no_abort.
Print Assumptions C29_connect_tracks_refuted.
