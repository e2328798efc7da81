From Coq Require Import List ZArith Bool Lia.
From Verif Require Import WQ_Model WQ_Spec.
Import ListNotations.
Open Scope Z_scope.

Definition cur (p : pc) : list Z := match p with Running x => [x] | _ => [] end.
Inductive shape : option (list Z) -> list pc -> option owner -> list Z -> list Z -> Prop :=
| sh_none wd f : wd <> Some Queue -> shape None [] wd f f
| sh_work q p wd f : wd <> Some Queue -> shape (Some q) [p] wd (f ++ cur p ++ q) f
| sh_asked q f : shape (Some q) [] (Some Queue) (f ++ q) f.
Definition inv (s : state) : Prop := shape (work s) (workers s) (when_done s) (submitted s) (finished s).

Lemma inv_start : inv start.
Proof. constructor. discriminate. Qed.
Lemma sh_none' wd sub f : wd <> Some Queue -> sub = f -> shape None [] wd sub f.
Proof. intros N ->. now constructor. Qed.
Lemma sh_work' q p wd sub f : wd <> Some Queue -> sub = f ++ cur p ++ q -> shape (Some q) [p] wd sub f.
Proof. intros N ->. now constructor. Qed.
Lemma sh_asked' q sub f : sub = f ++ q -> shape (Some q) [] (Some Queue) sub f.
Proof. intros ->. now constructor. Qed.
Lemma step_inv e s s' : inv s -> enabled e s = true -> step e s = Some s' -> inv s'.
Proof.
  destruct s as [q ws wd wt sub fin]. unfold inv. cbn [work workers when_done submitted finished].
  intros I En H. destruct I as [wd fin N | q p wd fin N | q fin]; destruct e as [x|[|j]|[|j] b|[|j]| |[|j]| |k|k]; cbn in En, H; try discriminate;
    try (destruct j; discriminate);
    repeat match goal with
       | H : match ?x with _ => _ end = _ |- _ => is_var x; destruct x; try discriminate; try congruence
       end; injection H as <-; cbn;
    first [apply sh_none' | apply sh_work' | apply sh_asked']; try discriminate; try assumption; try congruence;
    cbn; rewrite ?app_nil_r, <- ?app_assoc; cbn; try reflexivity; try congruence.
  now destruct b.
Qed.

Lemma run_app es es' s : run (es ++ es') s = match run es s with Some s' => run es' s' | None => None end.
Proof. revert s. induction es as [|e es IH]; intros s; cbn; [reflexivity|]. destruct (step e s); auto. Qed.
Lemma run_inv es : forall s s', inv s -> possible es s -> run es s = Some s' -> inv s'.
Proof.
  induction es as [|e es IH]; intros s s' I P H; cbn in *; [now injection H as <-|].
  destruct P as [En P]. destruct (step e s) as [s1|] eqn:E; [|discriminate]. eapply IH; [eapply step_inv; eassumption | exact P | exact H].
Qed.

(* no abort without WaitForAllComputations *)
Definition no_wait (s : state) : Prop := waits s = [] /\ (when_done s = None \/ when_done s = Some Queue).
Lemma step_total e s : inv s -> no_wait s -> enabled e s = true -> e <> Wait ->
  exists s', step e s = Some s' /\ inv s' /\ no_wait s'.
Proof.
  intros I [W0 W] En Ne. assert (T : exists s', step e s = Some s' /\ no_wait s').
  { destruct s as [q ws wd wt sub fin]. unfold inv, no_wait in *. cbn in *. subst wt.
    destruct I as [wd fin N | q p wd fin N | q fin]; destruct e as [x|[|j]|[|j] b|[|j]| |[|j]| |[|k]|[|k]]; cbn in En |- *; try discriminate; try congruence;
      try (destruct j; discriminate); destruct W as [-> | W]; try congruence; try (rewrite W in * ); try discriminate;
      repeat match goal with |- context [match ?x with _ => _ end] => is_var x; destruct x; try discriminate end;
      eexists; (split; [reflexivity|]); cbn; auto. }
  destruct T as (s' & H & N). exists s'. split; [exact H|]. split; [eapply step_inv; eassumption | exact N].
Qed.
Lemma run_total es : forall s, inv s -> no_wait s -> possible es s -> ~ In Wait es -> exists s', run es s = Some s'.
Proof.
  induction es as [|e es IH]; intros s I N P W; cbn in *; [eauto|]. destruct P as [En P].
  destruct (step_total e s I N En) as (s' & H & I' & N'); [intros ->; apply W; now left|]. rewrite H in P |- *.
  apply IH; auto.
Qed.

(* one thread at a time in WaitForAllComputations *)
Definition waiter_of (wd : option owner) : option nat := match wd with Some (Waiter k) => Some k | _ => None end.
Inductive waitinv (s : state) : Prop :=
| wi_none : Forall (fun w => w = WaitOver) (waits s) -> waiter_of (when_done s) = None -> waitinv s
| wi_queue k : waits s = repeat WaitOver k ++ [WaitQueue] -> waiter_of (when_done s) = None -> waitinv s
| wi_ask k : waits s = repeat WaitOver k ++ [WaitWhenDone] -> when_done s = None -> work s = None -> waitinv s
| wi_callback k : waits s = repeat WaitOver k ++ [WaitCallback] -> when_done s = Some (Waiter k) -> work s = None -> waitinv s.

Lemma over_repeat l : Forall (fun w => w = WaitOver) l -> l = repeat WaitOver (length l).
Proof. induction 1 as [|w l -> F IH]; cbn; [reflexivity | now rewrite <- IH]. Qed.
Lemma repeat_over k : Forall (fun w => w = WaitOver) (repeat WaitOver k).
Proof. induction k; cbn; constructor; auto. Qed.
Lemma nth_last k j (w x : wait) : nth_error (repeat WaitOver k ++ [w]) j = Some x -> x = WaitOver \/ (j = k /\ x = w).
Proof.
  intros H. destruct (Nat.lt_ge_cases j k) as [L|L].
  - rewrite nth_error_app1 in H by (now rewrite repeat_length). apply nth_error_In, repeat_spec in H. now left.
  - rewrite nth_error_app2 in H by (now rewrite repeat_length). rewrite repeat_length in H.
    destruct (j - k)%nat as [|n] eqn:E; cbn in H; [|destruct n; discriminate]. injection H as <-. right. split; [lia | reflexivity].
Qed.
Lemma put_last k (v w : wait) : put k v (repeat WaitOver k ++ [w]) = repeat WaitOver k ++ [v].
Proof. induction k; cbn; [reflexivity | now rewrite IHk]. Qed.

Lemma step_calm e s : inv s -> waitinv s -> enabled e s = true ->
  (outside e = true -> Forall (fun w => w = WaitOver) (waits s)) ->
  exists s', step e s = Some s' /\ inv s' /\ waitinv s'.
Proof.
  intros I W En C. assert (T : exists s', step e s = Some s' /\ waitinv s').
  { destruct s as [q ws wd wt sub fin]. unfold inv in I. cbn [work workers when_done submitted finished waits] in *.
    assert (Out : forall k w, outside e = true -> wt = repeat WaitOver k ++ [w] -> w = WaitOver).
    { intros k w O ->. specialize (C O). rewrite Forall_app in C. destruct C as [_ C]. now inversion C. }
    destruct e as [x|j|j b|j| |j| |k'|k']; cbn [enabled step workers when_done waits work outside] in *.
    - (* Add *)
      specialize (C eq_refl). destruct q as [l|]; eexists; (split; [reflexivity|]); apply wi_none; cbn; auto;
        destruct W as [F E|? E|? E|? E]; cbn in *; auto; apply Out in E; auto; discriminate.
    - (* Take *)
      destruct I as [wd fin N | q p wd fin N | q fin].
      + destruct j; discriminate.
      + destruct q as [|y q]; eexists; (split; [reflexivity|]);
          (destruct W as [F E|? F E|? F E1 E2|? F E1 E2]; cbn in *; [apply wi_none | eapply wi_queue | discriminate | discriminate]; cbn; eauto).
      + destruct j; discriminate.
    - (* Execute *)
      destruct (nth_error ws j) as [[]|] eqn:E; try discriminate. eexists. split; [reflexivity|].
      destruct W as [F E'|? F E'|? F E1 E2|? F E1 E2]; cbn in *; [apply wi_none | eapply wi_queue | eapply wi_ask | eapply wi_callback]; cbn; eauto.
    - (* AskDone *)
      destruct I as [wd fin N | q p wd fin N | q fin]; [destruct j; discriminate | | destruct j; discriminate].
      destruct W as [F E'|? F E'|? F E1 E2|? F E1 E2]; cbn in *; try discriminate;
        (destruct wd as [[|]|]; [congruence | discriminate |]); eexists; (split; [reflexivity|]); [apply wi_none | eapply wi_queue]; cbn; eauto.
    - (* Callback *)
      destruct wd as [[|k]|]; [| |discriminate]; eexists; (split; [reflexivity|]);
        destruct W as [F E'|? F E'|? F E1 E2|? F E1 E2]; cbn in *; try discriminate;
        [apply wi_none | eapply wi_queue | ]; cbn; eauto.
      injection E1 as ->. apply wi_none; cbn; [|reflexivity]. rewrite F, put_last. apply Forall_app. split; [apply repeat_over | auto].
    - (* Handled *)
      eexists. split; [reflexivity|]. destruct W as [F E'|? F E'|? F E1 E2|? F E1 E2]; cbn in *; [apply wi_none | eapply wi_queue | eapply wi_ask | eapply wi_callback]; cbn; eauto.
    - (* Wait *)
      specialize (C eq_refl). eexists. split; [reflexivity|].
      destruct W as [F E'|? F E'|? F E1 E2|? F E1 E2]; cbn in *; try (apply Out in F; [discriminate | reflexivity]).
      apply (wi_queue _ (length wt)); cbn; [|exact E']. now rewrite <- over_repeat.
    - (* WaitEmpty *)
      destruct (nth_error wt k') as [[]|] eqn:E; try discriminate. destruct q; [discriminate|]. eexists. split; [reflexivity|].
      destruct W as [F E'|k F E'|? F E1 E2|? F E1 E2]; cbn in *.
      + apply nth_error_In in E. rewrite Forall_forall in F. now apply F in E.
      + rewrite F in E. apply nth_last in E as [E|[-> _]]; [discriminate|].
        apply (wi_ask _ k); cbn; auto; [rewrite F; apply put_last|].
        inversion I; subst; destruct wd as [[|]|]; cbn in *; congruence.
      + rewrite F in E. apply nth_last in E as [E|[-> E]]; discriminate.
      + rewrite F in E. apply nth_last in E as [E|[-> E]]; discriminate.
    - (* WaitAsk *)
      destruct (nth_error wt k') as [[]|] eqn:E; try discriminate.
      destruct W as [F E'|k F E'|k F E1 E2|k F E1 E2]; cbn in *.
      + apply nth_error_In in E. rewrite Forall_forall in F. now apply F in E.
      + rewrite F in E. apply nth_last in E as [E|[-> E]]; discriminate.
      + subst wd q. rewrite F in E. apply nth_last in E as [E|[-> _]]; [discriminate|]. eexists. split; [reflexivity|].
        apply (wi_callback _ k); cbn; auto. rewrite F. apply put_last.
      + rewrite F in E. apply nth_last in E as [E|[-> E]]; discriminate. }
  destruct T as (s' & H & N). exists s'. split; [exact H|]. split; [eapply step_inv; eassumption | exact N].
Qed.
Lemma run_calm es : forall s, inv s -> waitinv s -> possible es s -> calm es s -> exists s', run es s = Some s' /\ inv s' /\ waitinv s'.
Proof.
  induction es as [|e es IH]; intros s I W P C; cbn in *; [eauto|]. destruct P as [En P], C as [C1 C].
  destruct (step_calm e s I W En C1) as (s' & H & I' & N'). rewrite H in P, C |- *. apply IH; auto.
Qed.

(* how much there is to do *)
Definition cost (p : pc) : nat := match p with AtLoop => 1 | Running _ => 5 | AtWhenDone => 4 | AtHandle => 2 end.
Definition wcost (w : wait) : nat := match w with WaitQueue => 3 | WaitWhenDone => 2 | _ => 0 end.
Definition todo (s : state) : nat :=
  5 * length (waiting s) + list_sum (map cost (workers s)) +
  match when_done s with Some Queue => 3 | Some (Waiter _) => 1 | None => 0 end +
  list_sum (map wcost (waits s)).
Lemma sum_put {A} (f : A -> nat) l : forall j v w, nth_error l j = Some w ->
  (list_sum (map f (put j v l)) + f w = list_sum (map f l) + f v)%nat.
Proof.
  induction l as [|a l IH]; intros [|j] v w H; cbn in *; try discriminate; [injection H as ->; lia|].
  specialize (IH j v w H). unfold list_sum in *. lia.
Qed.
Lemma sum_drop {A} (f : A -> nat) l : forall j w, nth_error l j = Some w ->
  (list_sum (map f (drop j l)) + f w = list_sum (map f l))%nat.
Proof.
  induction l as [|a l IH]; intros [|j] w H; cbn in *; try discriminate; [injection H as ->; unfold list_sum; lia|].
  specialize (IH j w H). unfold list_sum in *. lia.
Qed.
Lemma list_sum_snoc l n : (list_sum (l ++ [n]) = list_sum l + n)%nat.
Proof. rewrite list_sum_app. cbn. lia. Qed.
Lemma sum_put_le {A} (f : A -> nat) l : forall j v, (f v = 0)%nat -> (list_sum (map f (put j v l)) <= list_sum (map f l))%nat.
Proof.
  induction l as [|a l IH]; intros [|j] v H; cbn; [lia | lia | lia |]. apply Nat.add_le_mono_l. exact (IH j v H).
Qed.
Lemma step_todo e s s' : enabled e s = true -> outside e = false -> step e s = Some s' -> (todo s' < todo s)%nat.
Proof.
  destruct s as [q ws wd wt sub fin]. destruct e as [x|j|j b|j| |j| |k|k]; cbn [enabled outside step work workers when_done waits]; intros En O H; try discriminate; unfold todo, waiting; cbn [work workers when_done waits].
  - destruct (nth_error ws j) as [[]|] eqn:E; try discriminate. destruct q as [[|x r]|]; [| |discriminate]; injection H as <-; cbn [work workers when_done waits waiting length].
    + pose proof (sum_drop cost ws j _ E). cbn [cost] in *. lia.
    + pose proof (sum_put cost ws j (Running x) _ E). cbn [cost] in *. lia.
  - destruct (nth_error ws j) as [[]|] eqn:E; try discriminate. injection H as <-; cbn [work workers when_done waits waiting].
    pose proof (sum_put cost ws j (if b then AtWhenDone else AtLoop) _ E). destruct b; cbn [cost] in *; lia.
  - destruct (nth_error ws j) as [[]|] eqn:E; try discriminate. destruct wd; [discriminate|]. injection H as <-; cbn [work workers when_done waits waiting].
    pose proof (sum_drop cost ws j _ E). cbn [cost] in *. lia.
  - destruct wd as [[|k]|]; [| |discriminate]; injection H as <-; cbn [work workers when_done waits waiting].
    + rewrite map_app. cbn [map]. rewrite list_sum_snoc. cbn [cost]. lia.
    + pose proof (sum_put_le wcost wt k WaitOver eq_refl). lia.
  - destruct (nth_error ws j) as [[]|] eqn:E; try discriminate. injection H as <-; cbn [work workers when_done waits waiting].
    pose proof (sum_put cost ws j AtLoop _ E). cbn [cost] in *. lia.
  - destruct (nth_error wt k) as [[]|] eqn:E; try discriminate. destruct q; [discriminate|]. injection H as <-; cbn [work workers when_done waits waiting].
    pose proof (sum_put wcost wt k WaitWhenDone _ E). cbn [wcost] in *. lia.
  - destruct (nth_error wt k) as [[]|] eqn:E; try discriminate. destruct wd; [discriminate|]. injection H as <-; cbn [work workers when_done waits waiting].
    pose proof (sum_put wcost wt k WaitCallback _ E). cbn [wcost] in *. lia.
Qed.
Lemma run_todo es : forall s s', possible es s -> existsb outside es = false -> run es s = Some s' -> (length es + todo s' <= todo s)%nat.
Proof.
  induction es as [|e es IH]; intros s s' P O H; cbn [run possible existsb length Nat.add] in *; [injection H as <-; lia|]. apply orb_false_iff in O as [O1 O2].
  destruct P as [En P]. destruct (step e s) as [s1|] eqn:E; [|discriminate]. pose proof (step_todo _ _ _ En O1 E). specialize (IH s1 s' P O2 H). lia.
Qed.
Lemma wcost_le l : (list_sum (map wcost l) <= 3 * length l)%nat.
Proof. induction l as [|[] l IH]; cbn in *; unfold list_sum in *; lia. Qed.
Lemma todo_bound s : inv s -> (todo s <= 5 * (length (submitted s) - length (finished s)) + 5 + 3 * length (waits s))%nat.
Proof.
  destruct s as [q ws wd wt sub fin]. unfold inv, todo, waiting. cbn [work workers when_done waits waiting submitted finished]. intros I. pose proof (wcost_le wt) as L. set (W := list_sum (map wcost wt)) in *. clearbody W.
  destruct I as [wd fin N | q p wd fin N | q fin]; cbn [length map list_sum fold_right].
  - destruct wd as [[|]|]; try congruence; lia.
  - rewrite !app_length. destruct wd as [[|]|]; try congruence; destruct p; cbn [cur cost length]; lia.
  - rewrite !app_length. lia.
Qed.

(* a thread that waits for its callback has it stored *)
Definition called (s : state) : Prop := forall k, nth_error (waits s) k = Some WaitCallback -> when_done s = Some (Waiter k).
Lemma nth_put {A} (l : list A) : forall j k v w, nth_error (put j v l) k = Some w -> (j = k /\ w = v) \/ (j <> k /\ nth_error l k = Some w).
Proof.
  induction l as [|a l IH]; intros [|j] [|k] v w H; cbn in *; try discriminate; try (injection H as <-); auto.
  apply IH in H as [[-> ->]|[N H]]; auto.
Qed.
Lemma step_called e s s' : called s -> step e s = Some s' -> called s'.
Proof.
  destruct s as [q ws wd wt sub fin]. unfold called. cbn [waits when_done]. intros C H. destruct e as [x|j|j b|j| |j| |k|k]; cbn [step] in H.
  - destruct q; injection H as <-; exact C.
  - destruct q as [[|]|]; [| |discriminate]; injection H as <-; exact C.
  - destruct (nth_error ws j) as [[]|]; injection H as <-; exact C.
  - destruct wd; [discriminate|]. injection H as <-. cbn. intros k K. now apply C in K.
  - destruct wd as [[|k]|]; injection H as <-; cbn; intros k' K; auto.
    + now apply C in K.
    + apply nth_put in K as [[-> K]|[N K]]; [discriminate|]. apply C in K. congruence.
  - injection H as <-. exact C.
  - injection H as <-. cbn. intros k K. destruct (Nat.lt_ge_cases k (length wt)) as [L|L]; [rewrite nth_error_app1 in K by exact L; now apply C|].
    rewrite nth_error_app2 in K by exact L. destruct (k - length wt)%nat as [|n]; cbn in K; [discriminate | destruct n; discriminate].
  - injection H as <-. cbn. intros k' K. apply nth_put in K as [[-> K]|[N K]]; [discriminate | now apply C].
  - destruct wd; [discriminate|]. injection H as <-. cbn. intros k' K. apply nth_put in K as [[-> K]|[N K]]; [reflexivity | now apply C in K].
Qed.
Lemma run_called es : forall s s', called s -> run es s = Some s' -> called s'.
Proof.
  induction es as [|e es IH]; intros s s' C H; cbn in H; [now injection H as <-|].
  destruct (step e s) as [s1|] eqn:E; [|discriminate]. eapply IH; [eapply step_called; eassumption | exact H].
Qed.
