(* C05, C06: tasks run once, after their dependencies, and the pool finishes all of them. *)
From Coq Require Import List ZArith Bool PeanoNat Lia.
From Verif Require Import TP_Model TP_Spec TP_Proofs TP_Steps TP_Live.
Import ListNotations.

(* No CHECK of Task or ThreadPool fails. *)
Theorem C05_no_crash : forall n tr s a, (0 < n)%nat -> run n tr s -> allowed tr s a -> step s a <> Crash.
Proof. intros n tr s a Hn R Al. exact (proj1 (step_inv n tr s a Hn (run_inv _ _ _ Hn R) Al)). Qed.

(* A work item is started at most once, and only if its task was handed to the pool. *)
Theorem C05_once : forall n tr s t, (0 < n)%nat -> run n tr s ->
  (starts t tr <= 1)%nat /\ (starts t tr = 1%nat -> handed tr t).
Proof.
  intros n tr s t Hn R. destruct (run_inv _ _ _ Hn R) as [A _]. rewrite (a_starts _ _ A t).
  split; [destruct (t_state (tasks s t)); lia|]. intros E. apply (a_handed _ _ A). intros N. rewrite N in E. discriminate.
Qed.

Lemma ready_deps n tr s t d : inv n tr s ->
  t_state (tasks s t) <> NEW -> t_state (tasks s t) <> DISPATCHED -> depends tr t d -> t_state (tasks s d) = COMPLETED.
Proof.
  intros [A [B C]] N1 N2 [c [al I]]. destruct al.
  - assert (Ir : In d (regs t tr)).
    { clear - I. induction tr as [|a r IH]; [destruct I|]. destruct I as [-> | I].
      - cbn. rewrite Nat.eqb_refl. now left.
      - specialize (IH I). destruct a; cbn; auto. destruct alive; [|exact IH]. destruct (Nat.eqb t t0); [now right | exact IH]. }
    destruct (waits s t d) eqn:W; [|exact (b_done _ _ B t d Ir W)]. exfalso.
    pose proof (waits_pos _ _ _ _ B Ir W). rewrite (b_zero _ _ B t N1 N2) in *. lia.
  - exact (b_dead _ _ B c t d I).
Qed.

(* At the start of a work item all dependencies of the task, including any added later in
   the execution (there are none), are finished. *)
Theorem C05_order : forall n newer w t older s d, (0 < n)%nat -> run n (newer ++ Start w t :: older) s ->
  depends (newer ++ Start w t :: older) t d -> finished older d.
Proof.
  intros n newer. induction newer as [|a newer IH]; intros w t older s d Hn R D; inversion R as [|tr s0 a0 s1 R0 Al E]; subst.
  - apply depends_cons in D. destruct D as [[c [al Q]] | D]; [discriminate|].
    pose proof (run_inv _ _ _ Hn R0) as V. pose proof V as [A [B C]]. apply (a_fin _ _ A).
    cbn [step] in E. destruct (workers s0 w) as [|u|u|u|u|] eqn:W; try discriminate.
    destruct (Nat.eqb_spec u t) as [-> | N]; [|discriminate].
    pose proof (a_w _ _ A w) as X. rewrite W in X. destruct X as [X _].
    apply (ready_deps n older s0 t); auto; congruence.
  - apply depends_cons in D. destruct D as [[c [al Q]] | D]; [|exact (IH w t older s0 d Hn R0 D)].
    exfalso. rewrite Q in Al. destruct Al as [_ [Nh _]]. apply Nh.
    destruct (C05_once n _ s0 t Hn R0) as [_ K]. apply K. destruct (C05_once n _ s0 t Hn R0) as [L _].
    enough (Hs : (1 <= starts t (newer ++ Start w t :: older))%nat) by lia.
    clear. induction newer as [|b r IH]; cbn; [rewrite Nat.eqb_refl; lia|].
    destruct b; auto. destruct (Nat.eqb t t0); lia.
Qed.

(* While a task that was handed to the pool is not completed, something can happen. *)
Theorem C06_progress : forall n tr s t, (0 < n)%nat -> run n tr s -> handed tr t ->
  ~ finished tr t -> exists a s', internal a /\ step s a = Next s'.
Proof.
  intros n tr s t Hn R H N. pose proof (run_inv _ _ _ Hn R) as V.
  destruct (live_or_quiet n tr s V) as [E | [Q1 [Q2 [Q3 [Q4 Q5]]]]]; [exact E|].
  exfalso. apply N. destruct V as [A _]. apply (a_fin _ _ A). now apply (quiet_completed n tr s t).
Qed.

Lemma wsum_one f k : (forall w, (weight (f w) <= 1)%nat) -> (wsum f k <= k)%nat.
Proof. intros G. induction k as [|k IH]; cbn; [lia|]. specialize (G k). lia. Qed.

(* Without new calls the pool comes to rest: there is a bound on the number of steps, whatever
   the schedule. *)
Theorem C06_terminates : forall n tr s, (0 < n)%nat -> run n tr s ->
  (internals tr <= 2 * additions tr + 6 * schedules tr + n)%nat.
Proof.
  intros n tr s Hn R.
  assert (K : (internals tr + phi n tr s <= 2 * additions tr + 6 * schedules tr + n)%nat); [|lia].
  induction R as [|tr s a s' R IH Al E].
  - cbn [internals additions schedules]. unfold phi, init. cbn [adding scheduling ready not_ready workers tasks rets dsum length].
    assert (W : (wsum (fun w => if Nat.ltb w n then Waiting else Exited) n <= n)%nat); [|lia].
    apply wsum_one. intros w. destruct (Nat.ltb w n); cbn; lia.
  - pose proof (phi_step n tr s a s' Hn R Al E) as P. destruct a; cbn [internals additions schedules]; lia.
Qed.

(* When nothing can happen any more, every task handed to the pool was executed. *)
Theorem C06_all_done : forall n tr s, (0 < n)%nat -> run n tr s -> stuck s ->
  (forall t, handed tr t -> finished tr t /\ starts t tr = 1%nat) /\ not_ready s = [] /\ ready s = [].
Proof.
  intros n tr s Hn R S. pose proof (run_inv _ _ _ Hn R) as V.
  destruct (live_or_quiet n tr s V) as [[a [s' [I E]]] | [Q1 [Q2 [Q3 [Q4 Q5]]]]]; [elim (S a s' I E)|].
  assert (D : forall t, handed tr t -> t_state (tasks s t) = COMPLETED) by (intros t; now apply (quiet_completed n tr s t)).
  destruct V as [A _]. split; [|split; [|exact Q4]].
  - intros t H. specialize (D t H). split; [now apply (a_fin _ _ A)|]. now rewrite (a_starts _ _ A), D.
  - destruct (not_ready s) as [|t r] eqn:E; [reflexivity|]. exfalso.
    assert (I : In t (not_ready s)) by (rewrite E; now left). apply (a_nr _ _ A) in I. destruct I as [I [X | X]];
      apply D in I; congruence.
Qed.

(* If the destructor was called, then also all workers have returned: the joins do not wait
   forever and the CHECKs that both queues are empty hold. *)
Theorem C06_shutdown : forall n tr s, (0 < n)%nat -> run n tr s -> In Destructor tr -> stuck s ->
  forall w, workers s w = Exited.
Proof.
  intros n tr s Hn R Ds S w. pose proof (run_inv _ _ _ Hn R) as V.
  destruct (live_or_quiet n tr s V) as [[a [s' [I E]]] | [Q1 [Q2 [Q3 [Q4 Q5]]]]]; [elim (S a s' I E)|].
  destruct (Q5 w) as [W | W]; [|exact W]. exfalso.
  destruct V as [_ [_ C]]. apply (c_run _ _ _ C) in Ds.
  apply (S (Exit w) (set_worker s w Exited) I). cbn [step]. now rewrite W, Q4, Ds.
Qed.

(* From every reachable state the steps under way lead to such a state. *)
Theorem C06_completes : forall n tr s, (0 < n)%nat -> run n tr s ->
  exists more s', run n (more ++ tr) s' /\ Forall internal more /\ forall t, handed tr t -> finished (more ++ tr) t.
Proof.
  intros n tr s Hn R.
  assert (K : forall k more s1, run n (more ++ tr) s1 -> Forall internal more ->
     (2 * additions tr + 6 * schedules tr + n <= internals (more ++ tr) + k)%nat ->
     exists more s', run n (more ++ tr) s' /\ Forall internal more /\ forall t, handed tr t -> finished (more ++ tr) t).
  { assert (Cn : forall more, Forall internal more -> additions (more ++ tr) = additions tr /\ schedules (more ++ tr) = schedules tr).
    { intros more F. induction F as [|a r I F IH]; [auto|]. destruct a; cbn in *; auto; contradiction. }
    induction k as [|k IH]; intros more s1 R1 F L.
    - destruct (live_or_quiet n _ s1 (run_inv _ _ _ Hn R1)) as [[a [s2 [I E]]] | [Q1 [Q2 [Q3 [Q4 Q5]]]]].
      + exfalso. assert (Al : allowed (more ++ tr) s1 a) by (destruct a; try exact Logic.I; destruct I).
        pose proof (C06_terminates n _ s2 Hn (run_step _ _ _ _ _ R1 Al E)) as T.
        destruct (Cn more F) as [C1 C2]. destruct a; try contradiction; cbn [internals additions schedules] in T; lia.
      + exists more, s1. split; [exact R1|]. split; [exact F|]. intros t H.
        pose proof (run_inv _ _ _ Hn R1) as [A _]. apply (a_fin _ _ A). apply (quiet_completed n (more ++ tr) s1 t); auto.
        destruct H as [c H]. exists c. apply in_or_app. now right.
    - destruct (live_or_quiet n _ s1 (run_inv _ _ _ Hn R1)) as [[a [s2 [I E]]] | [Q1 [Q2 [Q3 [Q4 Q5]]]]].
      + assert (Al : allowed (more ++ tr) s1 a) by (destruct a; try exact Logic.I; destruct I).
        apply (IH (a :: more) s2); [exact (run_step _ _ _ _ _ R1 Al E) | now constructor |].
        destruct a; try contradiction; cbn [internals app]; lia.
      + exists more, s1. split; [exact R1|]. split; [exact F|]. intros t H.
        pose proof (run_inv _ _ _ Hn R1) as [A _]. apply (a_fin _ _ A). apply (quiet_completed n (more ++ tr) s1 t); auto.
        destruct H as [c H]. exists c. apply in_or_app. now right. }
  apply (K (2 * additions tr + 6 * schedules tr + n)%nat [] s R); [constructor | lia].
Qed.

(* Concrete executions: task 1 depends on task 0; one worker.  The dependency is registered
   before task 0 runs, and the pool is destroyed meanwhile. *)
Definition tp_steps (l : list action) (s : state) : option state :=
  fold_left (fun o a => match o with Some s => match step s a with Next s' => Some s' | _ => None end | None => None end) l (Some s).
Definition tp_ex : list action :=
  [Schedule External 0; SetThreadPool External 0;
   AddDependency External 1 0 true; AddDependentTask External 1 0;
   Schedule External 1; SetThreadPool External 1;
   Destructor; Pop 0; Check 0; Start 0 0; Finish 0 0; Notify 0 1; Release 0;
   Pop 0; Check 0; Start 0 1; Finish 0 1; Release 0; Exit 0].
(* every prefix of it is an execution *)
Lemma tp_run_app l : forall tr s s', run 1 tr s -> tp_steps l s = Some s' ->
  (fix ok (tr : list action) (s : state) (l : list action) : Prop :=
     match l with
     | [] => True
     | a :: r => allowed tr s a /\ match step s a with Next s1 => ok (a :: tr) s1 r | _ => False end
     end) tr s l -> run 1 (rev l ++ tr) s'.
Proof.
  induction l as [|a r IH]; intros tr s s' R E Al.
  - cbn in E. injection E as <-. exact R.
  - cbn [rev]. rewrite <- app_assoc. cbn [app]. destruct Al as [Al Ar]. destruct (step s a) as [s1| |] eqn:S; try contradiction.
    apply (IH (a :: tr) s1); [exact (run_step 1 tr s a s1 R Al S) | | exact Ar].
    unfold tp_steps in *. cbn [fold_left] in E. rewrite S in E. exact E.
Qed.
Example C06_example : exists s, run 1 (rev tp_ex ++ []) s /\ In Destructor (rev tp_ex) /\
  starts 0 (rev tp_ex) = 1%nat /\ starts 1 (rev tp_ex) = 1%nat /\ workers s 0 = Exited /\
  (internals (rev tp_ex), additions (rev tp_ex), schedules (rev tp_ex)) = (15, 1, 2)%nat.
Proof.
  assert (N : match tp_steps tp_ex (init 1) with Some s => workers s 0 = Exited | None => False end) by (vm_compute; reflexivity).
  destruct (tp_steps tp_ex (init 1)) as [s|] eqn:E; [|contradiction]. exists s. split.
  - apply (tp_run_app tp_ex [] (init 1) s (run_init 1) E). vm_compute. clear.
    repeat match goal with
    | |- _ /\ _ => split
    | |- True => exact I
    | |- _ -> False => intros [c H]; intuition congruence
    | |- false = true -> _ => discriminate
    | |- true = false -> _ => discriminate
    end.
    all: try reflexivity.
    + exists External. auto.
    + intros [c [al H]]. intuition congruence.
    + intuition congruence.
    + auto.
    + auto.
  - repeat split; auto. cbn. auto 20.
Qed.
(* A crash is a real outcome of the model: handing a task to the pool twice, which the
   contract forbids, fails the CHECK in Schedule. *)
Example C05_crash_reachable : tp_steps [Schedule External 0] (init 1) <> None /\
  (match tp_steps [Schedule External 0] (init 1) with Some s => step s (Schedule External 0) | None => Blocked end) = Crash.
Proof. split; [discriminate | reflexivity]. Qed.

Print Assumptions C05_no_crash.
Print Assumptions C05_once.
Print Assumptions C05_order.
Print Assumptions C06_progress.
Print Assumptions C06_terminates.
Print Assumptions C06_all_done.
Print Assumptions C06_shutdown.
Print Assumptions C06_completes.
