(* C43: the work queue of the pose graph. *)
From Coq Require Import List ZArith Bool Lia.
From Verif Require Import WQ_Model WQ_Spec WQ_Proofs.
Import ListNotations.
Open Scope Z_scope.

(* whatever the schedule, the items are executed in the order in which they were submitted, each
   once, one at a time and by at most one thread; the queue is gone only when all of them ran *)
Theorem C43_order es s : possible es start -> run es start = Some s ->
  submitted s = finished s ++ busy s ++ waiting s /\
  (length (workers s) <= 1)%nat /\
  (work s = None -> workers s = [] /\ finished s = submitted s).
Proof.
  intros P H. pose proof (run_inv es start s inv_start P H) as I. destruct s as [q ws wd wt sub fin]. unfold inv, busy, waiting in *. cbn in *.
  destruct I as [wd fin N | q p wd fin N | q fin]; cbn; rewrite ?app_nil_r; (split; [reflexivity|]); (split; [lia|]);
    intros E; try discriminate; split; reflexivity.
Qed.

(* as long as no one waits for all computations, no CHECK fails and no null queue is used *)
Theorem C43_no_abort es : possible es start -> ~ In Wait es -> exists s, run es start = Some s.
Proof. intros P N. apply run_total; [exact inv_start | split; [reflexivity | now left] | exact P | exact N]. Qed.

(* left alone, the threads stop *)
Theorem C43_terminates es es' s s' : possible es start -> run es start = Some s ->
  possible es' s -> existsb outside es' = false -> run es' s = Some s' ->
  (length es' <= 5 * (length (submitted s) - length (finished s)) + 5 + 3 * length (waits s))%nat.
Proof.
  intros P H P' O H'. pose proof (todo_bound s (run_inv es start s inv_start P H)). pose proof (run_todo es' s s' P' O H'). lia.
Qed.
(* and they stop only when every item has been executed and every call of
   WaitForAllComputations has come to its end *)
Theorem C43_progress es s : possible es start -> run es start = Some s ->
  (forall e, enabled e s = true -> outside e = true) ->
  work s = None /\ finished s = submitted s /\ when_done s = None /\
  Forall (fun w => w = WaitOver) (waits s).
Proof.
  intros P H D. pose proof (run_inv es start s inv_start P H) as I.
  assert (C : called s) by (apply (run_called es start); [intros [|k] K; discriminate | exact H]). unfold called in C. destruct s as [q ws wd wt sub fin]. unfold inv in I. cbn [work workers when_done submitted finished waits] in *.
  destruct I as [wd fin N | q p wd fin N | q fin].
  - assert (E : wd = None) by (destruct wd; [now specialize (D Callback eq_refl) | reflexivity]). subst wd.
    split; [reflexivity|]. split; [reflexivity|]. split; [reflexivity|].
    apply Forall_forall. intros w W. apply In_nth_error in W as (k & W).
      destruct w; auto; [specialize (D (WaitEmpty k)) | specialize (D (WaitAsk k)) | now apply C in W]; cbn in D; rewrite W in D; now specialize (D eq_refl).
  - destruct p; [specialize (D (Take 0) eq_refl) | specialize (D (Execute 0 true) eq_refl) | specialize (D (AskDone 0) eq_refl) | specialize (D (Handled 0) eq_refl)]; discriminate.
  - specialize (D Callback eq_refl). discriminate.
Qed.

(* when nothing is added and no other thread waits while a thread is in WaitForAllComputations,
   it is safe and returns only when every item has been executed; until it is over there is a
   thread or a callback that can go on *)
Theorem C43_wait es : possible es start -> calm es start -> exists s, run es start = Some s /\
  (forall s' k, enabled Callback s = true -> when_done s = Some (Waiter k) -> step Callback s = Some s' ->
     nth_error (waits s) k = Some WaitCallback /\ nth_error (waits s') k = Some WaitOver /\
     work s' = None /\ workers s' = [] /\ finished s' = submitted s') /\
  (Exists (fun w => w <> WaitOver) (waits s) -> exists e, enabled e s = true /\ outside e = false).
Proof.
  intros P C. assert (W0 : waitinv start) by (apply wi_none; [constructor | reflexivity]).
  destruct (run_calm es start inv_start W0 P C) as (s & H & I & W). exists s. split; [exact H|].
  destruct s as [q ws wd wt sub fin]. unfold inv in I. cbn [work workers when_done submitted finished waits] in *. split.
  - intros s' k _ -> S. cbn in S. injection S as <-. cbn [work workers when_done submitted finished waits].
    destruct W as [F E|? F E|? F E1 E2|k' F E1 E2]; cbn in *; try discriminate. injection E1 as ->. subst q wt.
    inversion I; subst. rewrite put_last, !nth_error_app2, !repeat_length, Nat.sub_diag by (rewrite repeat_length; lia). auto.
  - intros X. destruct I as [wd fin N | q p wd fin N | q fin].
    + destruct W as [F E|k F E|k F E1 E2|k F E1 E2]; cbn in *.
      * apply Exists_exists in X as (w & Q & D). rewrite Forall_forall in F. now apply F in Q.
      * exists (WaitEmpty k). subst wt. cbn. rewrite nth_error_app2, repeat_length, Nat.sub_diag by (rewrite repeat_length; lia). auto.
      * exists (WaitAsk k). subst wt. cbn. rewrite nth_error_app2, repeat_length, Nat.sub_diag by (rewrite repeat_length; lia). auto.
      * exists Callback. subst wd. auto.
    + destruct p; [exists (Take 0) | exists (Execute 0 true) | exists (AskDone 0) | exists (Handled 0)]; auto.
    + now exists Callback.
Qed.

(* it is not safe otherwise: work added between its two waits that asks for an optimization
   finds when_done_ taken, and two threads that wait find each other's callback *)
Theorem C43_wait_refuted : exists es, possible es start /\ run es start = None.
Proof.
  exists [Wait; WaitEmpty 0; WaitAsk 0; Add 1; Take 0; Execute 0 true; AskDone 0].
  split; [|reflexivity]. cbn. repeat split.
Qed.
Theorem C43_two_waits_refuted : exists es, possible es start /\ (forall x, ~ In (Add x) es) /\ run es start = None.
Proof.
  exists [Wait; Wait; WaitEmpty 0; WaitEmpty 1; WaitAsk 0; WaitAsk 1].
  split; [cbn; repeat split|]. split; [|reflexivity]. cbn. intros x H. repeat destruct H as [H|H]; try discriminate. exact H.
Qed.

(* three items, the first of which asks for an optimization; the third comes while that runs;
   a thread waits for the end *)
Definition life : list event :=
  [Add 1; Add 2; Take 0; Execute 0 true; AskDone 0; Callback; Add 3; Handled 0; Wait; Take 0;
   Execute 0 false; Take 0; Execute 0 false; Take 0; WaitEmpty 0; WaitAsk 0].
Example life_ok : possible life start /\ calm life start /\
  run life start = Some (mk_state None [] (Some (Waiter 0)) [WaitCallback] [1; 2; 3] [1; 2; 3]).
Proof. split; [cbn; repeat split|]. split; [cbn; repeat split; intros E; try discriminate; constructor | reflexivity]. Qed.
Example life_half : run (firstn 7 life) start = Some (mk_state (Some [2; 3]) [AtHandle] None [] [1; 2; 3] [1]).
Proof. reflexivity. Qed.

Print Assumptions C43_order.
Print Assumptions C43_no_abort.
Print Assumptions C43_terminates.
Print Assumptions C43_progress.
Print Assumptions C43_wait.
Print Assumptions C43_wait_refuted.
Print Assumptions C43_two_waits_refuted.
