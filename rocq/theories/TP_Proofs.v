(* Invariants of the thread pool. *)
From Coq Require Import List ZArith Bool PeanoNat Lia.
From Verif Require Import TP_Model TP_Spec.
Import ListNotations.
Open Scope Z_scope.

Lemma upd_same {A} (f : nat -> A) k v : upd f k v k = v.
Proof. unfold upd. now rewrite Nat.eqb_refl. Qed.
Lemma upd_other {A} (f : nat -> A) k v i : i <> k -> upd f k v i = f i.
Proof. unfold upd. intros H. now apply Nat.eqb_neq in H as ->. Qed.
Lemma upd_spec {A} (f : nat -> A) k v i : (i = k /\ upd f k v i = v) \/ (i <> k /\ upd f k v i = f i).
Proof. unfold upd. destruct (Nat.eqb_spec i k); auto. Qed.
Lemma mem_In t l : mem t l = true <-> In t l.
Proof.
  unfold mem. rewrite existsb_exists. split.
  - intros [x [I E]]. apply Nat.eqb_eq in E. now subst.
  - intros I. exists t. split; [exact I | apply Nat.eqb_refl].
Qed.
Lemma mem_nIn t l : mem t l = false <-> ~ In t l.
Proof. rewrite <- mem_In. destruct (mem t l); split; congruence. Qed.
Lemma remove1_In t u l : In u (remove1 t l) <-> In u l /\ u <> t.
Proof.
  unfold remove1. rewrite filter_In, negb_true_iff, Nat.eqb_neq. split; intros [A B]; auto.
Qed.
Lemma tstate_eqb_eq a b : tstate_eqb a b = true <-> a = b.
Proof. destruct a, b; cbn; split; congruence. Qed.
Lemma tstate_dec (a b : tstate) : {a = b} + {a <> b}.
Proof. decide equality. Qed.

Notation st s t := (t_state (tasks s t)).
Definition holds (w : worker) (t : nat) : Prop :=
  match w with Popped u | Checked u | Running u | Notifying u => u = t | _ => False end.

(* where tasks are *)
Record invA (tr : list action) (s : state) : Prop := {
  a_nr : forall t, In t (not_ready s) <-> handed tr t /\ (st s t = NEW \/ st s t = DISPATCHED);
  a_q : forall t, In t (ready s) -> st s t = DEPENDENCIES_COMPLETED;
  a_q_nodup : NoDup (ready s);
  a_w : forall w, match workers s w with
                  | Waiting | Exited => True
                  | Popped t | Checked t => st s t = DEPENDENCIES_COMPLETED /\ ~ In t (ready s)
                  | Running t => st s t = RUNNING
                  | Notifying t => st s t = COMPLETED /\ t_held (tasks s t) = true
                  end;
  a_uniq : forall w w' t, holds (workers s w) t -> holds (workers s w') t -> w = w';
  a_dep : forall t, st s t = DEPENDENCIES_COMPLETED ->
          In t (ready s) \/ exists w, workers s w = Popped t \/ workers s w = Checked t;
  a_run : forall t, st s t = RUNNING -> exists w, workers s w = Running t;
  a_held : forall t, t_held (tasks s t) = true -> exists w, workers s w = Notifying t;
  a_sch : forall t, In t (map snd (scheduling s)) <-> handed tr t /\ st s t = NEW;
  a_handed : forall t, st s t <> NEW -> handed tr t;
  a_pool : forall t, st s t <> NEW -> t_pool (tasks s t) = true;
  a_ret : forall t, returned tr t <-> st s t <> NEW;
  a_starts : forall t, starts t tr = match st s t with RUNNING | COMPLETED => 1%nat | _ => 0%nat end;
  a_fin : forall t, finished tr t <-> st s t = COMPLETED
}.

Lemma handed_cons a tr t : handed (a :: tr) t <-> (exists c, a = Schedule c t) \/ handed tr t.
Proof.
  unfold handed. split.
  - intros [c [-> | I]]; eauto.
  - intros [[c ->] | [c I]]; [exists c; now left | exists c; now right].
Qed.
Lemma returned_cons a tr t : returned (a :: tr) t <-> (exists c, a = SetThreadPool c t) \/ returned tr t.
Proof.
  unfold returned. split.
  - intros [c [-> | I]]; eauto.
  - intros [[c ->] | [c I]]; [exists c; now left | exists c; now right].
Qed.
Lemma finished_cons a tr t : finished (a :: tr) t <-> (exists w, a = Finish w t) \/ finished tr t.
Proof.
  unfold finished. split.
  - intros [c [-> | I]]; eauto.
  - intros [[c ->] | [c I]]; [exists c; now left | exists c; now right].
Qed.
Lemma depends_cons a tr t d : depends (a :: tr) t d <-> (exists c al, a = AddDependency c t d al) \/ depends tr t d.
Proof.
  unfold depends. split.
  - intros [c [al [-> | I]]]; eauto 6.
  - intros [[c [al ->]] | [c [al I]]]; [exists c, al; now left | exists c, al; now right].
Qed.

(* actions that do not matter for invA *)
Definition skip (a : action) : Prop :=
  match a with
  | Schedule _ _ | SetThreadPool _ _ | Start _ _ | Finish _ _ => False
  | _ => True
  end.
Lemma handed_skip a tr t : skip a -> handed (a :: tr) t <-> handed tr t.
Proof. intros S. rewrite handed_cons. split; [intros [[c ->] | H]; [destruct S | exact H] | auto]. Qed.
Lemma returned_skip a tr t : skip a -> returned (a :: tr) t <-> returned tr t.
Proof. intros S. rewrite returned_cons. split; [intros [[c ->] | H]; [destruct S | exact H] | auto]. Qed.
Lemma finished_skip a tr t : skip a -> finished (a :: tr) t <-> finished tr t.
Proof. intros S. rewrite finished_cons. split; [intros [[c ->] | H]; [destruct S | exact H] | auto]. Qed.
Lemma starts_skip a tr t : skip a -> starts t (a :: tr) = starts t tr.
Proof. destruct a; intros S; try reflexivity; destruct S. Qed.

Lemma invA_skip a tr s : skip a -> invA tr s -> invA (a :: tr) s.
Proof.
  intros S [H1 H2 H3 H4 H5 H6 H7 H8 H9 H10 H11 H12 H13 H14]. split; auto; intros t;
    rewrite ?(handed_skip a tr t S), ?(returned_skip a tr t S), ?(finished_skip a tr t S), ?(starts_skip a tr t S); auto.
Qed.

(* changes that do not matter for invA *)
Lemma invA_ext tr s s' :
  (forall t, st s' t = st s t /\ t_held (tasks s' t) = t_held (tasks s t) /\ t_pool (tasks s' t) = t_pool (tasks s t)) ->
  not_ready s' = not_ready s -> ready s' = ready s -> workers s' = workers s -> scheduling s' = scheduling s ->
  invA tr s -> invA tr s'.
Proof.
  intros T N R W Sc [H1 H2 H3 H4 H5 H6 H7 H8 H9 H10 H11 H12 H13 H14].
  assert (E1 : forall t, st s' t = st s t) by (intros t; apply T).
  assert (E2 : forall t, t_held (tasks s' t) = t_held (tasks s t)) by (intros t; apply T).
  assert (E3 : forall t, t_pool (tasks s' t) = t_pool (tasks s t)) by (intros t; apply T).
  split; rewrite ?N, ?R, ?W, ?Sc; auto.
  - intros t. rewrite E1. apply H1.
  - intros t. rewrite E1. apply H2.
  - intros w. specialize (H4 w). destruct (workers s w); rewrite ?E1, ?E2; auto.
  - intros t. rewrite E1. apply H6.
  - intros t. rewrite E1. apply H7.
  - intros t. rewrite E2. apply H8.
  - intros t. rewrite E1. apply H9.
  - intros t. rewrite E1. apply H10.
  - intros t. rewrite E1, E3. apply H11.
  - intros t. rewrite E1. apply H12.
  - intros t. rewrite E1. apply H13.
  - intros t. rewrite E1. apply H14.
Qed.

(* a task becomes ready *)
Lemma nodup_snoc (l : list nat) t : NoDup l -> ~ In t l -> NoDup (l ++ [t]).
Proof.
  intros N H. induction N as [|x l X N IH]; cbn.
  - repeat constructor. intros [].
  - constructor.
    + rewrite in_app_iff. cbn. intros [I | [-> | []]]; [contradiction | apply H; now left].
    + apply IH. intros I. apply H. now right.
Qed.
Lemma in_snoc (l : list nat) t u : In u (l ++ [t]) <-> In u l \/ u = t.
Proof. rewrite in_app_iff. cbn. intuition. Qed.

Definition odc_state (s : state) (t : nat) : state :=
  let x := tasks s t in
  let u := (t_uncompleted x - 1) mod 2 ^ 32 in
  let up := (u =? 0) && tstate_eqb (t_state x) DISPATCHED in
  mk_state (upd (tasks s) t (mk_task (if up then DEPENDENCIES_COMPLETED else t_state x) u (t_dependents x) (t_pool x) false))
    (if up then remove1 t (not_ready s) else not_ready s) (if up then ready s ++ [t] else ready s)
    (workers s) (adding s) (scheduling s) (running s).
Lemma odc_next s t s' : on_dependency_completed s t = Next s' -> s' = odc_state s t.
Proof.
  unfold on_dependency_completed, odc_state. destruct (t_held (tasks s t)); [discriminate|].
  destruct (t_state (tasks s t)) eqn:E; try discriminate; cbn [tstate_eqb]; rewrite ?andb_false_r, ?andb_true_r.
  - intros H. injection H as <-. reflexivity.
  - destruct (((t_uncompleted (tasks s t) - 1) mod 2 ^ 32 =? 0)) eqn:U.
    + destruct (t_pool (tasks s t)) eqn:Pl; [|discriminate]. unfold notify_pool. cbn [not_ready set_task].
      destruct (mem t (not_ready s)); [|discriminate]. intros H. injection H as <-. reflexivity.
    + intros H. injection H as <-. reflexivity.
Qed.
(* when OnDependenyCompleted runs through *)
Lemma odc_runs tr s t : invA tr s -> st s t = NEW \/ st s t = DISPATCHED ->
  on_dependency_completed s t = Next (odc_state s t).
Proof.
  intros A H. unfold on_dependency_completed, odc_state.
  assert (Hh : t_held (tasks s t) = false).
  { destruct (t_held (tasks s t)) eqn:E; [|reflexivity]. destruct (a_held _ _ A t E) as [w W].
    pose proof (a_w _ _ A w) as X. rewrite W in X. destruct H, X; congruence. }
  rewrite Hh. destruct H as [E | E]; rewrite E; cbn [tstate_eqb]; rewrite ?andb_false_r, ?andb_true_r; [reflexivity|].
  destruct (((t_uncompleted (tasks s t) - 1) mod 2 ^ 32 =? 0)) eqn:U; [|reflexivity].
  rewrite (a_pool _ _ A t) by congruence. unfold notify_pool. cbn [not_ready set_task].
  assert (M : mem t (not_ready s) = true) by (apply mem_In, (a_nr _ _ A); split; [apply (a_handed _ _ A); congruence | auto]).
  rewrite M. reflexivity.
Qed.

(* t moves from not_ready to ready: common to OnDependenyCompleted and SetThreadPool *)
Lemma ready_A tr tr' s t x sch : invA tr s ->
  (st s t = NEW \/ st s t = DISPATCHED) -> handed tr t ->
  t_state x = DEPENDENCIES_COMPLETED -> t_held x = false -> t_pool x = true ->
  (forall u, handed tr' u <-> handed tr u) -> (forall u, returned tr' u <-> returned tr u \/ u = t) ->
  (forall u, finished tr' u <-> finished tr u) -> (forall u, starts u tr' = starts u tr) ->
  (forall u, In u (map snd sch) <-> In u (map snd (scheduling s)) /\ u <> t) ->
  invA tr' (mk_state (upd (tasks s) t x) (remove1 t (not_ready s)) (ready s ++ [t]) (workers s) (adding s) sch (running s)).
Proof.
  intros [H1 H2 H3 H4 H5 H6 H7 H8 H9 H10 H11 H12 H13 H14] S0 Hd X1 X2 X3 T1 T2 T3 T4 Sc.
  assert (Nw : forall w, ~ holds (workers s w) t).
  { intros w Q. specialize (H4 w). destruct (workers s w); cbn in Q; try contradiction; subst; intuition congruence. }
  assert (Nq : ~ In t (ready s)) by (intros I; apply H2 in I; destruct S0; congruence).
  split; cbn [tasks not_ready ready workers scheduling].
  - intros u. rewrite remove1_In, H1, T1. destruct (upd_spec (tasks s) t x u) as [[-> ->] | [N ->]].
    + rewrite X1. split; [intros [_ Q]; congruence | intros [_ [Q | Q]]; congruence].
    + intuition.
  - intros u. rewrite in_snoc. destruct (upd_spec (tasks s) t x u) as [[-> ->] | [N ->]]; [auto|].
    intros [I | I]; [auto | contradiction].
  - now apply nodup_snoc.
  - intros w. specialize (H4 w). specialize (Nw w).
    destruct (workers s w) as [|u|u|u|u|]; auto; cbn in Nw;
      destruct (upd_spec (tasks s) t x u) as [[-> ->] | [N ->]]; try congruence; auto;
      rewrite in_snoc; intuition.
  - exact H5.
  - intros u. destruct (upd_spec (tasks s) t x u) as [[-> ->] | [N ->]].
    + intros _. left. rewrite in_snoc. auto.
    + intros E. rewrite in_snoc. destruct (H6 u E); auto.
  - intros u. destruct (upd_spec (tasks s) t x u) as [[-> ->] | [N ->]]; [congruence | auto].
  - intros u. destruct (upd_spec (tasks s) t x u) as [[-> ->] | [N ->]]; [congruence | auto].
  - intros u. rewrite Sc, H9, T1. destruct (upd_spec (tasks s) t x u) as [[-> ->] | [N ->]]; intuition congruence.
  - intros u. rewrite T1. destruct (upd_spec (tasks s) t x u) as [[-> ->] | [N ->]]; auto.
  - intros u. destruct (upd_spec (tasks s) t x u) as [[-> ->] | [N ->]]; auto.
  - intros u. rewrite T2, H12. destruct (upd_spec (tasks s) t x u) as [[-> ->] | [N ->]]; [|intuition].
    rewrite X1. split; [discriminate | auto].
  - intros u. rewrite T4, H13. destruct (upd_spec (tasks s) t x u) as [[-> ->] | [N ->]]; [|reflexivity].
    rewrite X1. destruct S0 as [-> | ->]; reflexivity.
  - intros u. rewrite T3, H14. destruct (upd_spec (tasks s) t x u) as [[-> ->] | [N ->]]; [|reflexivity].
    rewrite X1. destruct S0 as [-> | ->]; split; discriminate.
Qed.

Lemma odc_A tr s t : invA tr s -> st s t = NEW \/ st s t = DISPATCHED -> invA tr (odc_state s t).
Proof.
  intros A S0. unfold odc_state. cbv zeta.
  assert (Hh : t_held (tasks s t) = false).
  { destruct (t_held (tasks s t)) eqn:E; [|reflexivity]. destruct (a_held _ _ A t E) as [w W].
    pose proof (a_w _ _ A w) as X. rewrite W in X. destruct S0, X; congruence. }
  destruct (((t_uncompleted (tasks s t) - 1) mod 2 ^ 32 =? 0) && tstate_eqb (st s t) DISPATCHED) eqn:U.
  - apply andb_true_iff in U. destruct U as [_ U]. apply tstate_eqb_eq in U.
    assert (Hn : handed tr t) by (apply (a_handed _ _ A); congruence).
    apply (ready_A tr); auto; try reflexivity; cbn [t_state t_held t_pool].
    + apply (a_pool _ _ A). congruence.
    + intros u. split; [auto|]. intros [Q | ->]; [exact Q|]. apply (a_ret _ _ A). congruence.
    + intros u. split; [|now intros [Q _]]. intros I. split; [exact I|]. intros ->.
      apply (a_sch _ _ A) in I. destruct I. congruence.
  - apply invA_ext with (s := s); auto. intros u. cbn [tasks].
    destruct (upd_spec (tasks s) t (mk_task (st s t) ((t_uncompleted (tasks s t) - 1) mod 2 ^ 32)
       (t_dependents (tasks s t)) (t_pool (tasks s t)) false) u) as [[-> ->] | [N ->]]; cbn; auto.
Qed.

(* dependencies registered for a task that was alive *)
Fixpoint regs (t : nat) (tr : list action) : list nat :=
  match tr with
  | [] => []
  | AddDependency _ u d true :: r => if Nat.eqb t u then d :: regs t r else regs t r
  | _ :: r => regs t r
  end.
(* t still waits for the notification of d *)
Definition waits (s : state) (t d : nat) : bool :=
  existsb (same_add t d) (adding s) || mem t (t_dependents (tasks s d)).

Lemma same_add_iff t d a : same_add t d a = true <-> (snd (fst a), snd a) = (t, d).
Proof.
  destruct a as [[c u] v]. unfold same_add. cbn. rewrite andb_true_iff, !Nat.eqb_eq. split.
  - intros [-> ->]. reflexivity.
  - intros E. injection E as -> ->. auto.
Qed.
Lemma adding_ex t d l : existsb (same_add t d) l = true <-> exists c, In (c, t, d) l.
Proof.
  rewrite existsb_exists. split.
  - intros [[[c u] v] [I E]]. apply same_add_iff in E. cbn in E. injection E as -> ->. eauto.
  - intros [c I]. exists (c, t, d). split; [exact I|]. now apply same_add_iff.
Qed.

Record invB (tr : list action) (s : state) : Prop := {
  b_adds : forall c t d, In (c, t, d) (adding s) -> In d (regs t tr) /\ ~ In t (t_dependents (tasks s d));
  b_deps : forall t d, In t (t_dependents (tasks s d)) -> In d (regs t tr);
  b_nodup : forall t, NoDup (regs t tr);
  b_len : forall t, Z.of_nat (num_deps t tr) < 2 ^ 32;
  b_unc : forall t, t_uncompleted (tasks s t) = Z.of_nat (length (filter (waits s t) (regs t tr)));
  b_done : forall t d, In d (regs t tr) -> waits s t d = false -> st s d = COMPLETED;
  b_dead : forall c t d, In (AddDependency c t d false) tr -> st s d = COMPLETED;
  b_zero : forall t, st s t <> NEW -> st s t <> DISPATCHED -> t_uncompleted (tasks s t) = 0;
  b_pos : forall t, st s t = DISPATCHED -> 0 < t_uncompleted (tasks s t);
  b_reg : forall t d, In d (regs t tr) -> st s d <> NEW;
  b_compl : forall d, st s d = COMPLETED -> t_held (tasks s d) = false -> t_dependents (tasks s d) = []
}.

Lemma regs_dep t d tr : In d (regs t tr) -> depends tr t d.
Proof.
  induction tr as [|a r IH]; cbn; [intros []|]. intros I. rewrite depends_cons.
  destruct a; auto. destruct alive; auto. destruct (Nat.eqb_spec t t0) as [<- | N]; auto.
  destruct I as [<- | I]; eauto.
Qed.
Lemma regs_len t tr : (length (regs t tr) <= num_deps t tr)%nat.
Proof.
  induction tr as [|a r IH]; cbn; [lia|]. destruct a; auto. destruct alive; destruct (Nat.eqb t t0); cbn; lia.
Qed.
Lemma filter_len_le {A} (f : A -> bool) l : (length (filter f l) <= length l)%nat.
Proof. induction l as [|x l IH]; cbn; [lia|]. destruct (f x); cbn; lia. Qed.
Lemma unc_range tr s t : invB tr s -> 0 <= t_uncompleted (tasks s t) < 2 ^ 32.
Proof.
  intros B. rewrite (b_unc _ _ B). pose proof (filter_len_le (waits s t) (regs t tr)). pose proof (regs_len t tr).
  pose proof (b_len _ _ B t). lia.
Qed.
(* a task that waits is not ready *)
Lemma waits_pos tr s t d : invB tr s -> In d (regs t tr) -> waits s t d = true -> 0 < t_uncompleted (tasks s t).
Proof.
  intros B I W. rewrite (b_unc _ _ B).
  assert (In d (filter (waits s t) (regs t tr))) by (apply filter_In; auto).
  destruct (filter (waits s t) (regs t tr)); [destruct H | cbn; lia].
Qed.
Lemma waits_early tr s t d : invB tr s -> In d (regs t tr) -> waits s t d = true -> st s t = NEW \/ st s t = DISPATCHED.
Proof.
  intros B I W. pose proof (waits_pos _ _ _ _ B I W) as P.
  destruct (tstate_dec (st s t) NEW) as [E | E]; [now left|].
  destruct (tstate_dec (st s t) DISPATCHED) as [F | F]; [now right|].
  pose proof (b_zero _ _ B t E F). lia.
Qed.
Lemma waits_adding s c t d : In (c, t, d) (adding s) -> waits s t d = true.
Proof. intros I. unfold waits. apply orb_true_iff. left. apply adding_ex. eauto. Qed.
Lemma waits_dep s t d : In t (t_dependents (tasks s d)) -> waits s t d = true.
Proof. intros I. unfold waits. apply orb_true_iff. right. now apply mem_In. Qed.

(* counting *)
Lemma filter_ext_len {A} (f g : A -> bool) l : (forall x, In x l -> f x = g x) ->
  length (filter f l) = length (filter g l).
Proof.
  induction l as [|x l IH]; intros H; cbn; [reflexivity|]. rewrite (H x) by now left.
  destruct (g x); cbn; rewrite IH; auto; intros y Y; apply H; now right.
Qed.
Lemma filter_drop (f g : nat -> bool) d l : NoDup l -> In d l -> f d = true -> g d = false ->
  (forall x, x <> d -> f x = g x) -> length (filter f l) = S (length (filter g l)).
Proof.
  intros N. induction N as [|x l X N IH]; intros I F G H; [destruct I|]. cbn.
  destruct (Nat.eq_dec x d) as [-> | Nx].
  - rewrite F, G. cbn. f_equal. apply filter_ext_len. intros y Y. apply H. intros ->. contradiction.
  - destruct I as [-> | I]; [contradiction|]. rewrite (H x Nx). specialize (IH I F G H).
    destruct (g x); cbn; lia.
Qed.

Definition skipB (a : action) : Prop := match a with AddDependency _ _ _ _ => False | _ => True end.
Lemma regs_skip a t tr : skipB a -> regs t (a :: tr) = regs t tr.
Proof. destruct a; intros S; try reflexivity; destruct S. Qed.
Lemma num_skip a t tr : skipB a -> num_deps t (a :: tr) = num_deps t tr.
Proof. destruct a; intros S; try reflexivity; destruct S. Qed.
Lemma invB_skip a tr s : skipB a -> invB tr s -> invB (a :: tr) s.
Proof.
  intros S [H1 H2 H3 H4 H5 H6 H7 H8 H9 H10 H11]. split; auto.
  - intros c t d. rewrite regs_skip by exact S. apply H1.
  - intros t d. rewrite regs_skip by exact S. apply H2.
  - intros t. rewrite regs_skip by exact S. apply H3.
  - intros t. rewrite num_skip by exact S. apply H4.
  - intros t. rewrite regs_skip by exact S. apply H5.
  - intros t d. rewrite regs_skip by exact S. apply H6.
  - intros c t d [-> | I]; [destruct S | eauto].
  - intros t d. rewrite regs_skip by exact S. apply H10.
Qed.
(* state changes that keep the dependency bookkeeping: st may only move forward in such a
   way that the conditions on st stay true *)
Lemma invB_ext tr s s' :
  (forall t, t_uncompleted (tasks s' t) = t_uncompleted (tasks s t) /\ t_dependents (tasks s' t) = t_dependents (tasks s t)) ->
  adding s' = adding s ->
  (forall t, st s t = COMPLETED -> st s' t = COMPLETED) ->
  (forall t, st s t <> NEW -> st s' t <> NEW) ->
  (forall t, st s' t <> NEW -> st s' t <> DISPATCHED -> t_uncompleted (tasks s t) = 0) ->
  (forall t, st s' t = DISPATCHED -> 0 < t_uncompleted (tasks s t)) ->
  (forall d, st s' d = COMPLETED -> t_held (tasks s' d) = false -> t_dependents (tasks s d) = []) ->
  invB tr s -> invB tr s'.
Proof.
  intros T Ad M1 M2 M3 M4 M5 [H1 H2 H3 H4 H5 H6 H7 H8 H9 H10 H11].
  assert (E1 : forall t, t_uncompleted (tasks s' t) = t_uncompleted (tasks s t)) by (intros t; apply T).
  assert (E2 : forall t, t_dependents (tasks s' t) = t_dependents (tasks s t)) by (intros t; apply T).
  assert (E3 : forall t d, waits s' t d = waits s t d) by (intros t d; unfold waits; now rewrite Ad, E2).
  split; auto.
  - intros c t d. rewrite Ad, E2. apply H1.
  - intros t d. rewrite E2. apply H2.
  - intros t. rewrite E1, H5. f_equal. apply filter_ext_len. intros; now rewrite E3.
  - intros t d I. rewrite E3. eauto.
  - eauto.
  - intros t A B. rewrite E1. auto.
  - intros t A. rewrite E1. auto.
  - eauto.
  - intros d A B. rewrite E2. auto.
Qed.

(* the notification of t about d: s0 is s with d no longer waited for *)
Lemma odc_B tr s s0 t d : invB tr s -> In d (regs t tr) -> waits s t d = true ->
  st s t = NEW \/ st s t = DISPATCHED -> st s d = COMPLETED ->
  (* s0 is s without the waiting pair (t, d) *)
  (forall u, t_state (tasks s0 u) = st s u /\ t_held (tasks s0 u) = t_held (tasks s u) /\
             t_uncompleted (tasks s0 u) = t_uncompleted (tasks s u) /\
             (forall v, In v (t_dependents (tasks s0 u)) -> In v (t_dependents (tasks s u)))) ->
  (forall a, In a (adding s0) -> In a (adding s)) ->
  waits s0 t d = false -> (forall u v, (u, v) <> (t, d) -> waits s0 u v = waits s u v) ->
  (forall c u v, In (c, u, v) (adding s0) -> ~ In u (t_dependents (tasks s0 v))) ->
  t_held (tasks s t) = false ->
  invB tr (odc_state s0 t).
Proof.
  intros B Id Wd S0 Cd T Ad W1 W2 Ex Hh. pose proof (unc_range _ _ t B) as Ur. pose proof (waits_pos _ _ _ _ B Id Wd) as Up.
  assert (Rl : length (filter (waits s t) (regs t tr)) = S (length (filter (waits s0 t) (regs t tr)))).
  { apply filter_drop with (d := d); auto; [apply (b_nodup _ _ B)|]. intros x N. symmetry. apply W2. congruence. }
  assert (Et : t_state (tasks s0 t) = st s t) by apply T.
  assert (Eu : t_uncompleted (tasks s0 t) = t_uncompleted (tasks s t)) by apply T.
  set (u := (t_uncompleted (tasks s0 t) - 1) mod 2 ^ 32).
  assert (Uu : u = t_uncompleted (tasks s t) - 1) by (unfold u; rewrite Eu; apply Z.mod_small; lia).
  set (up := (u =? 0) && tstate_eqb (t_state (tasks s0 t)) DISPATCHED).
  set (x := mk_task (if up then DEPENDENCIES_COMPLETED else t_state (tasks s0 t)) u (t_dependents (tasks s0 t))
              (t_pool (tasks s0 t)) false).
  assert (Tk : tasks (odc_state s0 t) = upd (tasks s0) t x) by reflexivity.
  assert (Aa : adding (odc_state s0 t) = adding s0) by reflexivity.
  assert (Dd : forall v, t_dependents (tasks (odc_state s0 t) v) = t_dependents (tasks s0 v)).
  { intros v. rewrite Tk. destruct (upd_spec (tasks s0) t x v) as [[-> ->] | [N ->]]; reflexivity. }
  assert (Ww : forall a b, waits (odc_state s0 t) a b = waits s0 a b).
  { intros a b. unfold waits. rewrite Aa, Dd. reflexivity. }
  clearbody u.
  assert (Sx : t_state x = DEPENDENCIES_COMPLETED /\ u = 0 /\ st s t = DISPATCHED \/ t_state x = st s t /\ (st s t = DISPATCHED -> u <> 0)).
  { unfold x, up. cbn [t_state]. rewrite Et. destruct (Z.eqb_spec u 0) as [E | E]; cbn [andb].
    - destruct (tstate_eqb (st s t) DISPATCHED) eqn:D.
      + left. apply tstate_eqb_eq in D. auto.
      + right. split; [reflexivity|]. intros Q. apply tstate_eqb_eq in Q. congruence.
    - right. auto. }
  assert (Ux : t_uncompleted x = u) by reflexivity. assert (Hx : t_held x = false) by reflexivity.
  assert (Dx : t_dependents x = t_dependents (tasks s0 t)) by reflexivity.
  clearbody x. clear up.
  destruct B as [H1 H2 H3 H4 H5 H6 H7 H8 H9 H10 H11].
  split.
  - intros c a b. rewrite Aa, Dd. intros I. split; [|now apply (Ex c)]. apply (H1 c a b). now apply Ad.
  - intros a b. rewrite Dd. intros I. apply T in I. now apply H2.
  - exact H3.
  - exact H4.
  - intros v. rewrite (filter_ext_len _ (waits s0 v)) by (intros; apply Ww).
    rewrite Tk. destruct (upd_spec (tasks s0) t x v) as [[-> ->] | [N ->]].
    + rewrite Ux, Uu. specialize (H5 t). lia.
    + assert (E : t_uncompleted (tasks s0 v) = t_uncompleted (tasks s v)) by apply T. rewrite E, H5. f_equal.
      apply filter_ext_len. intros y _. symmetry. apply W2. congruence.
  - intros a b I. rewrite Ww. intros Q. assert (Cb : st s b = COMPLETED).
    { destruct (Nat.eq_dec a t) as [-> | Na]; [destruct (Nat.eq_dec b d) as [-> | Nb]; [exact Cd|] |];
        apply (H6 _ _ I); rewrite <- Q; symmetry; apply W2; congruence. }
    rewrite Tk. destruct (upd_spec (tasks s0) t x b) as [[-> ->] | [N ->]]; [destruct S0; congruence|].
    transitivity (st s b); [apply T | exact Cb].
  - intros c a b I. apply H7 in I. rewrite Tk. destruct (upd_spec (tasks s0) t x b) as [[-> ->] | [N ->]]; [destruct S0; congruence|].
    transitivity (st s b); [apply T | exact I].
  - intros v. rewrite Tk. destruct (upd_spec (tasks s0) t x v) as [[-> ->] | [N ->]].
    + intros A1 A2. rewrite Ux. destruct Sx as [[_ [Q _]] | [Q _]]; [exact Q|]. rewrite Q in *. destruct S0; congruence.
    + destruct (T v) as [E1 [_ [E2 _]]]. rewrite E1, E2. apply H8.
  - intros v. rewrite Tk. destruct (upd_spec (tasks s0) t x v) as [[-> ->] | [N ->]].
    + rewrite Ux. intros A1. destruct Sx as [[Q _] | [Q R]]; [congruence|]. rewrite Q in A1. specialize (R A1). lia.
    + destruct (T v) as [E1 [_ [E2 _]]]. rewrite E1, E2. apply H9.
  - intros a b I. apply H10 in I. rewrite Tk. destruct (upd_spec (tasks s0) t x b) as [[-> ->] | [N ->]].
    + destruct Sx as [[Q _] | [Q _]]; congruence.
    + destruct (T b) as [E1 _]. now rewrite E1.
  - intros v. rewrite Tk. destruct (upd_spec (tasks s0) t x v) as [[-> ->] | [N ->]].
    + intros A1. destruct Sx as [[Q _] | [Q _]]; [congruence|]. rewrite Q in A1. destruct S0; congruence.
    + destruct (T v) as [E1 [E2 [_ E3]]]. rewrite E1, E2. intros A1 A2. pose proof (H11 v A1 A2) as Q.
      destruct (t_dependents (tasks s0 v)) as [|y l]; [reflexivity|]. exfalso. specialize (E3 y (or_introl eq_refl)).
      rewrite Q in E3. destruct E3.
Qed.
