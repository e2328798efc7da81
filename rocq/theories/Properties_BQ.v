(* Properties of the blocking queue: C07. *)
From Coq Require Import List ZArith Bool Lia PeanoNat.
From Verif Require Import BQ_Model BQ_Spec.
Import ListNotations.
Open Scope Z_scope.

Section Proofs.
Variable T : Type.
Variable capacity : Z.
Hypothesis Hcap : 0 <= capacity.

Lemma puts_app (a b : list (entry T)) : puts (a ++ b) = puts a ++ puts b.
Proof. apply flat_map_app. Qed.
Lemma takes_app (a b : list (entry T)) : takes (a ++ b) = takes a ++ takes b.
Proof. apply flat_map_app. Qed.
Lemma of_thread_app t (a b : list (entry T)) : of_thread t (a ++ b) = of_thread t a ++ of_thread t b.
Proof. apply filter_app. Qed.

(* the state of a thread in terms of its calls, entries and returns *)
Definition matches (th : thread T) (cs : list (op T)) (l : list (entry T)) (rs : list (res T)) : Prop :=
  let os := map (fun e => snd (fst e)) l in
  match th with
  | Outside => cs = os /\ rs = map snd l
  | Inside o => cs = os ++ [o] /\ rs = map snd l
  | Leaving o r => cs = os /\ rs ++ [r] = map snd l
  end.
Record inv (es : list (event T)) (s : state T) (l : list (entry T)) : Prop := {
  inv_fifo : fifo capacity l;
  inv_items : puts l = takes l ++ queue s;
  inv_size : capacity = 0 \/ Z.of_nat (length (queue s)) <= capacity;
  inv_threads : forall t, matches (threads s t) (calls t es) (of_thread t l) (returns t es)
}.
Lemma stored_queue l q : puts l = takes l ++ q -> @stored T l = q.
Proof.
  intros E. unfold stored. rewrite E. rewrite skipn_app, skipn_all, Nat.sub_diag. reflexivity.
Qed.
Lemma fifo_snoc l e : fifo capacity l -> @correct T capacity l e -> fifo capacity (l ++ [e]).
Proof.
  intros F C b x a E. destruct a as [|y a] using rev_ind.
  - apply app_inj_tail in E. destruct E as [-> ->]. exact C.
  - clear IHa. rewrite app_comm_cons, app_assoc in E. apply app_inj_tail in E. destruct E as [E _]. eapply F, E.
Qed.
Lemma room_iff l q : puts l = takes l ++ q -> (queue_not_full T capacity q = true <-> has_room capacity l).
Proof.
  intros E. unfold has_room. rewrite (stored_queue _ _ E). unfold queue_not_full.
  rewrite orb_true_iff, Z.eqb_eq, Z.ltb_lt. reflexivity.
Qed.

Lemma section_ok t o x (q q' : list T) r l : section capacity o x q = Some (q', r) ->
  puts l = takes l ++ q -> (capacity = 0 \/ Z.of_nat (length q) <= capacity) ->
  correct capacity l (t, o, r) /\ puts (l ++ [(t, o, r)]) = takes (l ++ [(t, o, r)]) ++ q' /\
  (capacity = 0 \/ Z.of_nat (length q') <= capacity).
Proof.
  intros S E B. pose proof (room_iff _ _ E) as R. pose proof (stored_queue _ _ E) as Q.
  rewrite puts_app, takes_app, E. unfold correct. cbn [fst snd]. rewrite Q.
  destruct o; cbn [section] in S;
    try (destruct (queue_not_full T capacity q) eqn:N;
         [assert (S' : (q', r) = (q ++ [t0], r)) by congruence; injection S' as S' |]);
    try (destruct q as [|y q0] eqn:D);
    try (destruct x); try discriminate S; cbn [queue_empty] in S; try discriminate S;
    injection S as <- <-; cbn [puts takes flat_map put taken List.app];
    rewrite ?app_nil_r, ?app_assoc_reverse; cbn [List.app];
    try (destruct R as [R1 R2]);
    try (split; [ | split; [reflexivity|] ]);
    try (now eauto); try (now apply R1);
    try (intros H; apply R2 in H; discriminate H);
    try (cbn [length] in *; rewrite ?app_length; cbn [length];
         match goal with | |- _ \/ _ => destruct B as [B | B]; [now left | right; lia] end).
  all: try (unfold queue_not_full in N; apply orb_true_iff in N; rewrite Z.eqb_eq, Z.ltb_lt in N;
            destruct N as [N | N]; [now left | right; cbn [length] in *; rewrite ?app_length; cbn [length] in *; lia]).
Qed.

Lemma run_inv es s : run capacity es s -> exists l, inv es s l.
Proof.
  intros R. induction R as [|es s e s' R [l [IF II IS IT]] S].
  - exists []. split.
    + intros b x a E. destruct b; discriminate E.
    + reflexivity.
    + cbn. lia.
    + intros t. split; reflexivity.
  - destruct e as [t o | t x | t r].
    + destruct S as [W ->]. exists l. split; auto. intros u. cbn [threads calls returns]. unfold upd.
      specialize (IT u). rewrite (Nat.eqb_sym t u). destruct (Nat.eqb_spec u t) as [-> | N]; [|exact IT].
      rewrite W in IT. destruct IT as [-> ->]. split; reflexivity.
    + destruct S as [o [q [r [W [S ->]]]]]. exists (l ++ [(t, o, r)]).
      destruct (section_ok t o x (queue s) q r l S II IS) as [C [P B]]. split; auto.
      * now apply fifo_snoc.
      * intros u. cbn [threads calls returns]. unfold upd. specialize (IT u). rewrite of_thread_app.
        unfold of_thread at 2. cbn [filter fst]. rewrite (Nat.eqb_sym t u).
        destruct (Nat.eqb_spec u t) as [-> | N]; [|now rewrite app_nil_r].
        rewrite W in IT. destruct IT as [-> ->]. split; rewrite map_app; reflexivity.
    + destruct S as [o [W ->]]. exists l. split; auto. intros u. cbn [threads calls returns]. unfold upd.
      specialize (IT u). rewrite (Nat.eqb_sym t u). destruct (Nat.eqb_spec u t) as [-> | N]; [|exact IT].
      rewrite W in IT. destruct IT as [-> E]. split; [reflexivity | exact E].
Qed.
End Proofs.

(* every execution is explained by one sequential FIFO history, in which each thread's
   methods occur in the order of its calls with the results it got; a method occurs there
   once it has been called and before it returns (the statement holds for every prefix) *)
Theorem C07_fifo : forall T capacity es (s : state T), 0 <= capacity -> run capacity es s ->
  exists l, fifo capacity l /\ puts l = takes l ++ queue s /\
    (capacity = 0 \/ Z.of_nat (length (queue s)) <= capacity) /\
    forall t, exists pending unreturned,
      calls t es = map (fun e => snd (fst e)) (of_thread t l) ++ pending /\
      map snd (of_thread t l) = returns t es ++ unreturned /\
      (length pending + length unreturned <= 1)%nat.
Proof.
  intros T cap es s C R. destruct (run_inv T cap C es s R) as [l [F I B M]]. exists l. do 3 (split; [assumption|]).
  intros t. specialize (M t). destruct (threads s t) as [|o|o r]; destruct M as [E1 E2].
  - exists [], []. rewrite !app_nil_r. split; [exact E1|]. split; [now symmetry | cbn; lia].
  - exists [o], []. rewrite !app_nil_r. split; [exact E1|]. split; [now symmetry | cbn; lia].
  - exists [], [r]. rewrite !app_nil_r. split; [exact E1|]. split; [now symmetry | cbn; lia].
Qed.

(* a call waits only as long as it has to *)
Theorem C07_blocking : forall T capacity es (s : state T) t o expired, run capacity es s ->
  threads s t = Inside o ->
  (exists s', step capacity s (Enter t expired) s') \/
  (match o with
   | Push _ => True | Pop => True | WaitUntilEmpty => True
   | PushWithTimeout _ | PopWithTimeout | PeekWithTimeout => expired = false
   | _ => False
   end /\
   match o with
   | Push _ | PushWithTimeout _ => capacity <> 0 /\ capacity <= Z.of_nat (length (queue s))
   | WaitUntilEmpty => queue s <> []
   | _ => queue s = []
   end).
Proof.
  intros T cap es s t o x R W.
  assert (A : forall q r, section cap o x (queue s) = Some (q, r) -> exists s', step cap s (Enter t x) s').
  { intros q r S. exists (mk_state T q (upd T (threads s) t (Leaving o r))). exists o, q, r. auto. }
  destruct (section cap o x (queue s)) as [[q r]|] eqn:S; [left; eapply A; reflexivity|]. clear A. right.
  assert (F : queue_not_full T cap (queue s) = false -> cap <> 0 /\ cap <= Z.of_nat (length (queue s))).
  { unfold queue_not_full. intros N. apply orb_false_iff in N. destruct N as [N1 N2].
    apply Z.eqb_neq in N1. apply Z.ltb_ge in N2. auto. }
  destruct o; cbn [section] in S;
    try (destruct (queue_not_full T cap (queue s)) eqn:N; [discriminate|]);
    try (destruct (queue s) as [|y q0] eqn:D); try discriminate S;
    try (destruct x; try discriminate S); split; auto; try discriminate.
Qed.

(* two producers and a consumer on a queue of size 1: the second push waits for the pop *)
Example C07_example : exists s : state nat,
  run 1 [Return 1 RVoid; Enter 1 false; Return 2 (RItem 7%nat); Enter 2 false; Call 2 Pop;
         Call 1 (Push 9%nat); Return 0 RVoid; Enter 0 false; Call 0 (Push 7%nat)] s /\ queue s = [9%nat].
Proof.
  eexists. split.
  - repeat (eapply run_step); [apply run_init | cbn; repeat (eexists; try reflexivity) ..].
  - reflexivity.
Qed.

Print Assumptions C07_fifo.
Print Assumptions C07_blocking.
