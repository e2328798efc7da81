(* Every allowed step keeps the invariants and does not crash. *)
From Coq Require Import List ZArith Bool PeanoNat Lia.
From Verif Require Import TP_Model TP_Spec TP_Proofs.
Import ListNotations.
Open Scope Z_scope.

(* calls in progress and the end of the pool *)
Record invC (n : nat) (tr : list action) (s : state) : Prop := {
  c_add : forall c t d, In (c, t, d) (adding s) -> may_call s c;
  c_sch : forall c t, In (c, t) (scheduling s) -> may_call s c;
  c_run : In Destructor tr <-> running s = false;
  c_exit : forall w, (w < n)%nat -> workers s w = Exited -> running s = false;
  c_far : forall w, (n <= w)%nat -> workers s w = Exited;
  c_none : (forall w, workers s w = Exited) -> ready s = []
}.
Definition inv (n : nat) (tr : list action) (s : state) : Prop := invA tr s /\ invB tr s /\ invC n tr s.

Lemma inv_init n : inv n [] (init n).
Proof.
  split; [|split].
  - split; cbn [init tasks not_ready ready workers scheduling task_new t_state t_held t_pool map]; try discriminate.
    + intros t. split; [intros [] | intros [[c []] _]].
    + intros t [].
    + constructor.
    + intros w. destruct (Nat.ltb w n); auto.
    + intros w w' t. destruct (Nat.ltb w n); intros [].
    + intros t. split; [intros [] | intros [[c []] _]].
    + congruence.
    + congruence.
    + intros t. split; [intros [c []] | congruence].
    + reflexivity.
    + intros t. split; [intros [c []] | congruence].
  - split; cbn [init tasks adding task_new t_state t_held t_dependents t_uncompleted regs num_deps In filter length]; auto;
      try congruence; try contradiction; try (intros; constructor); try (intros; lia).
  - split; cbn [init running ready workers adding scheduling In]; auto; try contradiction.
    + split; [intros [] | discriminate].
    + intros w H. apply Nat.ltb_lt in H. rewrite H. discriminate.
    + intros w H. apply Nat.ltb_ge in H. now rewrite H.
Qed.

Lemma not_held tr s t : invA tr s -> st s t <> COMPLETED -> t_held (tasks s t) = false.
Proof.
  intros A N. destruct (t_held (tasks s t)) eqn:E; [|reflexivity]. destruct (a_held _ _ A t E) as [w W].
  pose proof (a_w _ _ A w) as X. rewrite W in X. destruct X. contradiction.
Qed.

Lemma destructor_skip a tr : a <> Destructor -> In Destructor (a :: tr) <-> In Destructor tr.
Proof. intros N. cbn. split; [intros [E | I]; [congruence | exact I] | auto]. Qed.
Ltac ext_task := match goal with
  | |- context [upd ?f ?k ?v ?i] => destruct (upd_spec f k v i) as [[-> ->] | [? ->]]
  end.

(* AddDependency *)
Lemma step_add n tr s c t d al : inv n tr s -> allowed tr s (AddDependency c t d al) ->
  exists s', step s (AddDependency c t d al) = Next s' /\ inv n (AddDependency c t d al :: tr) s'.
Proof.
  intros [A [B C]] [Mc [Nh [Rd [Nd [Nl Al]]]]].
  assert (Sn : st s t = NEW).
  { destruct (tstate_dec (st s t) NEW) as [E | E]; [exact E|]. elim Nh. now apply (a_handed _ _ A). }
  assert (Hh : t_held (tasks s t) = false) by (apply (not_held tr); auto; congruence).
  assert (Sd : st s d <> NEW) by (apply (a_ret _ _ A), Rd).
  cbn [step]. rewrite Hh, Sn. destruct al.
  - set (x := mk_task NEW ((t_uncompleted (tasks s t) + 1) mod 2 ^ 32) (t_dependents (tasks s t)) (t_pool (tasks s t)) false).
    set (s' := set_adding (set_task s t x) ((c, t, d) :: adding s)).
    exists s'. split; [reflexivity|]. split; [|split].
    + apply invA_skip; [exact I|]. apply invA_ext with (s := s); auto. intros u. unfold s'.
      cbn [set_adding set_task tasks]. ext_task; [|auto]. unfold x. cbn. auto.
    + assert (Nr : ~ In d (regs t tr)) by (intros Q; apply Nd; now apply regs_dep).
      assert (Rg : forall u, regs u (AddDependency c t d true :: tr) = if Nat.eqb u t then d :: regs u tr else regs u tr)
        by reflexivity.
      assert (Dd : forall v, t_dependents (tasks s' v) = t_dependents (tasks s v)).
      { intros v. unfold s'. cbn [set_adding set_task tasks]. ext_task; reflexivity. }
      assert (Ss : forall v, st s' v = st s v).
      { intros v. unfold s'. cbn [set_adding set_task tasks]. ext_task; [now rewrite Sn | reflexivity]. }
      assert (Hs : forall v, t_held (tasks s' v) = t_held (tasks s v)).
      { intros v. unfold s'. cbn [set_adding set_task tasks]. ext_task; [now rewrite Hh | reflexivity]. }
      assert (Ww : forall a b, waits s' a b = (Nat.eqb a t && Nat.eqb b d) || waits s a b).
      { intros a b. unfold waits. rewrite Dd. unfold s'. cbn [set_adding adding existsb]. unfold same_add at 1. cbn [fst snd].
        rewrite orb_assoc. reflexivity. }
      destruct B as [H1 H2 H3 H4 H5 H6 H7 H8 H9 H10 H11].
      assert (Wt : waits s t d = false).
      { destruct (waits s t d) eqn:W; [|reflexivity]. exfalso. apply orb_true_iff in W. destruct W as [W | W].
        - apply adding_ex in W. destruct W as [c' I]. apply H1 in I. now destruct I.
        - apply mem_In in W. apply H2 in W. contradiction. }
      split.
      * intros c' a b I. rewrite Dd, Rg. unfold s' in I. cbn [set_adding adding] in I.
        destruct I as [E | I].
        -- injection E as <- <- <-. rewrite Nat.eqb_refl. split; [now left|]. intros Q. apply H2 in Q. contradiction.
        -- apply H1 in I. destruct I as [I1 I2]. split; [|exact I2]. destruct (Nat.eqb a t); [now right | exact I1].
      * intros a b. rewrite Dd, Rg. intros I. apply H2 in I. destruct (Nat.eqb a t); [now right | exact I].
      * intros a. rewrite Rg. destruct (Nat.eqb_spec a t) as [-> | N]; [|apply H3]. constructor; [exact Nr | apply H3].
      * intros a. cbn [num_deps]. destruct (Nat.eqb_spec a t) as [-> | N]; [lia | apply H4].
      * intros a. rewrite Rg. destruct (Nat.eqb_spec a t) as [-> | N].
        -- cbn [filter]. rewrite Ww, !Nat.eqb_refl. cbn [andb orb length].
           rewrite (filter_ext_len _ (waits s t)).
           ++ assert (E : t_uncompleted (tasks s' t) = (t_uncompleted (tasks s t) + 1) mod 2 ^ 32).
              { unfold s'. cbn [set_adding set_task tasks]. rewrite upd_same. reflexivity. }
              rewrite E, H5. pose proof (filter_len_le (waits s t) (regs t tr)). pose proof (regs_len t tr).
              rewrite Z.mod_small; lia.
           ++ intros y Y. rewrite Ww. destruct (Nat.eqb_spec y d) as [-> | Ny]; [contradiction|].
              now rewrite andb_false_r.
        -- assert (E : t_uncompleted (tasks s' a) = t_uncompleted (tasks s a)).
           { unfold s'. cbn [set_adding set_task tasks]. rewrite upd_other by exact N. reflexivity. }
           rewrite E, H5. f_equal. apply filter_ext_len. intros y _. rewrite Ww.
           destruct (Nat.eqb_spec a t); [contradiction | reflexivity].
      * intros a b. rewrite Rg, Ww, Ss. destruct (Nat.eqb_spec a t) as [-> | N]; cbn [andb orb]; [|apply H6].
        intros [<- | I]; [rewrite Nat.eqb_refl; discriminate|]. destruct (Nat.eqb b d); [discriminate | now apply H6].
      * intros c' a b [E | I]; [discriminate E|]. rewrite Ss. eauto.
      * intros v A1 A2. rewrite Ss in A1, A2. unfold s'. cbn [set_adding set_task tasks]. ext_task; [contradiction | auto].
      * intros v A1. rewrite Ss in A1. unfold s'. cbn [set_adding set_task tasks]. ext_task; [congruence | auto].
      * intros a b. rewrite Rg, Ss. destruct (Nat.eqb_spec a t) as [-> | N]; [|apply H10].
        intros [<- | I]; [exact Sd | eauto].
      * intros v. rewrite Ss, Hs, Dd. apply H11.
    + destruct C as [K1 K2 K3 K4 K5 K6]. split; auto.
      * intros c' a b [E | I]; [injection E as <- _ _; exact Mc | exact (K1 c' a b I)].
      * now rewrite destructor_skip.
  - exists s. split; [reflexivity|]. destruct (Al eq_refl) as [Cd _]. split; [|split].
    + now apply invA_skip.
    + destruct B as [H1 H2 H3 H4 H5 H6 H7 H8 H9 H10 H11]. split; auto.
      * intros a. cbn [num_deps]. destruct (Nat.eqb_spec a t) as [-> | N]; [lia | apply H4].
      * intros c' a b [E | I]; [injection E as _ _ <-; exact Cd | eauto].
    + destruct C as [K1 K2 K3 K4 K5 K6]. split; auto.
      now rewrite destructor_skip.
Qed.

Lemma existsb_add c t d l : existsb (fun a => same_add t d a && same_who c (fst (fst a))) l = true -> In (c, t, d) l.
Proof.
  intros E. apply existsb_exists in E. destruct E as [[[c' u] v] [I E]]. apply andb_true_iff in E. destruct E as [E1 E2].
  apply same_add_iff in E1. cbn in E1, E2. injection E1 as -> ->.
  assert (c = c') as -> by (destruct c, c'; cbn in E2; try discriminate; auto; apply Nat.eqb_eq in E2; congruence).
  exact I.
Qed.
Lemma existsb_sch c t l : existsb (fun a => Nat.eqb t (snd a) && same_who c (fst a)) l = true -> In (c, t) l.
Proof.
  intros E. apply existsb_exists in E. destruct E as [[c' u] [I E]]. apply andb_true_iff in E. destruct E as [E1 E2].
  apply Nat.eqb_eq in E1. cbn in E1, E2. subst u.
  assert (c = c') as -> by (destruct c, c'; cbn in E2; try discriminate; auto; apply Nat.eqb_eq in E2; congruence).
  exact I.
Qed.

Lemma odc_C n tr s t : invC n tr s -> st s t = NEW \/ st s t = DISPATCHED ->
  (exists w, workers s w <> Exited) -> invC n tr (odc_state s t).
Proof.
  intros [K1 K2 K3 K4 K5 K6] S0 [w W]. split; unfold odc_state; cbv zeta; cbn [adding scheduling running workers ready]; auto.
  intros Q. specialize (Q w). contradiction.
Qed.

(* the second half of AddDependency *)
Lemma step_addtask n tr s c t d : (0 < n)%nat -> inv n tr s ->
  step s (AddDependentTask c t d) <> Crash /\
  forall s', step s (AddDependentTask c t d) = Next s' -> inv n (AddDependentTask c t d :: tr) s'.
Proof.
  intros Hn [A [B C]]. cbn [step].
  destruct (existsb (fun a => same_add t d a && same_who c (fst (fst a))) (adding s)) eqn:Ex; [|split; congruence].
  apply existsb_add in Ex. destruct (t_held (tasks s d)) eqn:Hd; [split; congruence|].
  destruct (b_adds _ _ B c t d Ex) as [Ir Nd].
  pose proof (waits_adding s c t d Ex) as W. pose proof (waits_early _ _ _ _ B Ir W) as Se.
  set (s1 := set_adding s (filter (fun a => negb (same_add t d a)) (adding s))).
  assert (A1 : invA tr s1) by (apply invA_ext with (s := s); auto).
  assert (Af : forall a, In a (adding s1) <-> In a (adding s) /\ same_add t d a = false).
  { intros a. unfold s1. cbn [set_adding adding]. rewrite filter_In, negb_true_iff. reflexivity. }
  assert (Nt : existsb (same_add t d) (adding s1) = false).
  { destruct (existsb (same_add t d) (adding s1)) eqn:E; [|reflexivity]. apply existsb_exists in E. destruct E as [a [I E]].
    apply Af in I. destruct I. congruence. }
  assert (Ot : forall u v, (u, v) <> (t, d) -> existsb (same_add u v) (adding s1) = existsb (same_add u v) (adding s)).
  { intros u v N. destruct (existsb (same_add u v) (adding s)) eqn:E.
    - apply adding_ex in E. destruct E as [c' I]. apply adding_ex. exists c'. apply Af. split; [exact I|].
      destruct (same_add t d (c', u, v)) eqn:Q; [|reflexivity]. apply same_add_iff in Q. cbn in Q. congruence.
    - destruct (existsb (same_add u v) (adding s1)) eqn:E1; [|reflexivity]. apply adding_ex in E1. destruct E1 as [c' I].
      apply Af in I. destruct I as [I _]. rewrite <- E. symmetry. apply adding_ex. eauto. }
  assert (C1 : invC n tr s1).
  { destruct C as [K1 K2 K3 K4 K5 K6]. split; auto. intros c' a b I. apply Af in I. destruct I as [I _]. exact (K1 c' a b I). }
  destruct (tstate_dec (st s d) COMPLETED) as [Cd | Cd].
  - rewrite Cd. rewrite (odc_runs tr s1 t A1 Se). split; [discriminate|]. intros s' E.
    assert (s' = odc_state s1 t) as -> by congruence. split; [|split].
    + apply invA_skip; [exact I|]. now apply odc_A.
    + apply invB_skip; [exact I|]. apply (odc_B tr s s1 t d); auto.
      * intros a I. now apply Af in I.
      * unfold waits. rewrite Nt. cbn [orb]. apply mem_nIn. exact Nd.
      * intros u v N. unfold waits. rewrite Ot by exact N. reflexivity.
      * intros c' u v I. apply Af in I. destruct I as [I _]. apply (b_adds _ _ B c' u v I).
      * apply (not_held tr); auto. destruct Se; congruence.
    + assert (C2 : invC n tr (odc_state s1 t)).
      { apply odc_C; auto.
        assert (Mc : may_call s c) by (apply (c_add _ _ _ C c t d Ex)).
        destruct c as [|w]; [|destruct Mc as [x X]; exists w; cbn; congruence].
        exists 0%nat. cbn. intros Q. pose proof (c_exit _ _ _ C 0%nat Hn Q). cbn in Mc. congruence. }
      destruct C2 as [K1 K2 K3 K4 K5 K6]. split; auto. now rewrite destructor_skip.
  - assert (Hm : mem t (t_dependents (tasks s d)) = false) by (now apply mem_nIn).
    set (x := mk_task (st s d) (t_uncompleted (tasks s d)) (t :: t_dependents (tasks s d)) (t_pool (tasks s d)) false).
    assert (Es : match st s d with
                 | COMPLETED => on_dependency_completed s1 t
                 | _ => if mem t (t_dependents (tasks s d)) then Crash else Next (set_task s1 d x)
                 end = Next (set_task s1 d x)).
    { rewrite Hm. destruct (st s d); try reflexivity. contradiction. }
    rewrite Es. split; [discriminate|]. intros s' E. assert (s' = set_task s1 d x) as -> by congruence.
    split; [|split].
    + apply invA_skip; [exact I|]. apply invA_ext with (s := s1); auto. intros u. cbn [set_task tasks].
      ext_task; [|auto]. unfold x. cbn. auto.
    + apply invB_skip; [exact I|].
      assert (Dd : forall v, t_dependents (tasks (set_task s1 d x) v) = if Nat.eqb v d then t :: t_dependents (tasks s v) else t_dependents (tasks s v)).
      { intros v. cbn [set_task tasks]. unfold upd. destruct (Nat.eqb_spec v d) as [-> | N]; reflexivity. }
      assert (Ss : forall v, st (set_task s1 d x) v = st s v /\ t_held (tasks (set_task s1 d x) v) = t_held (tasks s v) /\
                   t_uncompleted (tasks (set_task s1 d x) v) = t_uncompleted (tasks s v)).
      { intros v. cbn [set_task tasks]. ext_task; cbn; auto. }
      assert (Ww : forall a b, waits (set_task s1 d x) a b = waits s a b).
      { intros a b. unfold waits. rewrite Dd. change (adding (set_task s1 d x)) with (adding s1).
        destruct (Nat.eqb_spec b d) as [-> | Nb].
        - destruct (Nat.eq_dec a t) as [-> | Na].
          + rewrite Nt. cbn [mem existsb]. rewrite Nat.eqb_refl. cbn. symmetry. exact W.
          + rewrite Ot by congruence. f_equal. unfold mem. cbn [existsb]. apply Nat.eqb_neq in Na. now rewrite Na.
        - rewrite Ot by congruence. reflexivity. }
      destruct B as [H1 H2 H3 H4 H5 H6 H7 H8 H9 H10 H11].
      split; auto.
      * intros c' a b I. change (adding (set_task s1 d x)) with (adding s1) in I. apply Af in I. destruct I as [I Na].
        destruct (H1 c' a b I) as [R N]. split; [exact R|]. rewrite Dd. destruct (Nat.eqb_spec b d) as [-> | Nb]; [|exact N].
        intros [<- | Q]; [|contradiction]. assert (same_add t d (c', t, d) = true) by (now apply same_add_iff). congruence.
      * intros a b. rewrite Dd. destruct (Nat.eqb_spec b d) as [-> | Nb]; [|apply H2]. intros [<- | Q]; auto.
      * intros a. destruct (Ss a) as [_ [_ E1]]. rewrite E1, H5. f_equal. apply filter_ext_len. intros. now rewrite Ww.
      * intros a b I. rewrite Ww. destruct (Ss b) as [E1 _]. rewrite E1. eauto.
      * intros c' a b I. destruct (Ss b) as [E1 _]. rewrite E1. eauto.
      * intros a. destruct (Ss a) as [E1 [_ E2]]. rewrite E1, E2. apply H8.
      * intros a. destruct (Ss a) as [E1 [_ E2]]. rewrite E1, E2. apply H9.
      * intros a b I. destruct (Ss b) as [E1 _]. rewrite E1. eauto.
      * intros v. destruct (Ss v) as [E1 [E2 _]]. rewrite E1, E2, Dd. destruct (Nat.eqb_spec v d) as [-> | N]; [|apply H11].
        intros Q. contradiction.
    + destruct C1 as [K1 K2 K3 K4 K5 K6]. split; auto. now rewrite destructor_skip.
Qed.

Lemma may_call_ext s s' c : running s' = running s -> (forall w t, workers s w = Running t -> exists u, workers s' w = Running u) ->
  may_call s c -> may_call s' c.
Proof.
  intros R W. destruct c as [|w]; cbn; [now rewrite R|]. intros [t X]. eauto.
Qed.

(* Schedule *)
Lemma step_schedule n tr s c t : (0 < n)%nat -> inv n tr s -> allowed tr s (Schedule c t) ->
  exists s', step s (Schedule c t) = Next s' /\ inv n (Schedule c t :: tr) s'.
Proof.
  intros Hn [A [B C]] [Mc Nh]. cbn [step].
  assert (Sn : st s t = NEW).
  { destruct (tstate_dec (st s t) NEW) as [E | E]; [exact E|]. elim Nh. now apply (a_handed _ _ A). }
  assert (M : mem t (not_ready s) = false).
  { apply mem_nIn. intros I. apply (a_nr _ _ A) in I. now destruct I. }
  rewrite M. eexists. split; [reflexivity|]. split; [|split].
  - destruct A as [H1 H2 H3 H4 H5 H6 H7 H8 H9 H10 H11 H12 H13 H14].
    assert (Hd : forall u, handed (Schedule c t :: tr) u <-> handed tr u \/ u = t).
    { intros u. rewrite handed_cons. split.
      - intros [[c' E] | H]; [injection E as _ <-; auto | auto].
      - intros [H | ->]; [auto | left; eauto]. }
    split; cbn [tasks not_ready ready workers scheduling]; auto.
    + intros u. cbn [In]. rewrite Hd, H1. intuition; subst; auto.
    + intros u. cbn [In map snd]. rewrite Hd, H9. intuition; subst; auto.
    + intros u N. rewrite Hd. left. auto.
    + intros u. rewrite returned_cons, H12. split; [intros [[c' E] | H]; [discriminate | exact H] | auto].
    + intros u. rewrite finished_cons, H14. split; [intros [[c' E] | H]; [discriminate | exact H] | auto].
  - apply invB_skip; [exact I|]. destruct B. split; auto.
  - destruct C as [K1 K2 K3 K4 K5 K6]. split; cbn [adding scheduling running workers ready]; auto.
    + intros c' u [E | I]; [injection E as <- _; exact Mc | exact (K2 c' u I)].
    + now rewrite destructor_skip.
Qed.

(* SetThreadPool *)
Lemma step_setpool n tr s c t : (0 < n)%nat -> inv n tr s ->
  step s (SetThreadPool c t) <> Crash /\
  forall s', step s (SetThreadPool c t) = Next s' -> inv n (SetThreadPool c t :: tr) s'.
Proof.
  intros Hn [A [B C]]. cbn [step].
  destruct (existsb (fun a => Nat.eqb t (snd a) && same_who c (fst a)) (scheduling s)) eqn:Ex; [|split; congruence].
  apply existsb_sch in Ex.
  assert (Mc : may_call s c) by exact (c_sch _ _ _ C c t Ex).
  assert (Aw : exists w, workers s w <> Exited).
  { destruct c as [|w]; [|destruct Mc as [x X]; exists w; cbn; congruence].
    exists 0%nat. intros Q. pose proof (c_exit _ _ _ C 0%nat Hn Q). cbn in Mc. congruence. }
  assert (Hs : handed tr t /\ st s t = NEW).
  { apply (a_sch _ _ A). apply in_map_iff. exists (c, t). auto. }
  destruct Hs as [Hd Sn].
  assert (Hh : t_held (tasks s t) = false) by (apply (not_held tr); auto; congruence).
  rewrite Hh, Sn.
  set (sch := filter (fun a => negb (Nat.eqb t (snd a))) (scheduling s)).
  assert (Sc : forall u, In u (map snd sch) <-> In u (map snd (scheduling s)) /\ u <> t).
  { intros u. unfold sch. rewrite !in_map_iff. split.
    - intros [a [E I]]. apply filter_In in I. destruct I as [I N]. apply negb_true_iff, Nat.eqb_neq in N.
      split; [eauto | congruence].
    - intros [[a [E I]] N]. exists a. split; [exact E|]. apply filter_In. split; [exact I|].
      apply negb_true_iff, Nat.eqb_neq. congruence. }
  assert (Tr : forall u, handed (SetThreadPool c t :: tr) u <-> handed tr u).
  { intros u. rewrite handed_cons. split; [intros [[c' E] | H]; [discriminate | exact H] | auto]. }
  assert (Tf : forall u, finished (SetThreadPool c t :: tr) u <-> finished tr u).
  { intros u. rewrite finished_cons. split; [intros [[c' E] | H]; [discriminate | exact H] | auto]. }
  assert (Tt : forall u, returned (SetThreadPool c t :: tr) u <-> returned tr u \/ u = t).
  { intros u. rewrite returned_cons. split.
    - intros [[c' E] | H]; [injection E as _ <-; auto | auto].
    - intros [H | ->]; [auto | left; eauto]. }
  destruct (t_uncompleted (tasks s t) =? 0) eqn:U.
  - apply Z.eqb_eq in U. unfold notify_pool. cbn [set_task set_scheduling not_ready].
    assert (M : mem t (not_ready s) = true) by (apply mem_In, (a_nr _ _ A); auto).
    rewrite M. split; [discriminate|]. intros s' E.
    cbn [tasks ready workers adding scheduling running] in E.
    match type of E with Next ?x = _ => assert (s' = x) as -> by congruence end. clear E. split; [|split].
    + cbn [set_task set_scheduling tasks not_ready ready workers adding scheduling running].
      apply (ready_A tr _ s); auto.
    + apply invB_skip; [exact I|].
      apply invB_ext with (s := s); cbn [set_task set_scheduling tasks adding]; auto; intros u; ext_task; cbn; auto; try congruence.
      * intros E1 E2. now apply (b_zero _ _ B).
      * apply (b_pos _ _ B).
      * apply (b_compl _ _ B).
    + destruct C as [K1 K2 K3 K4 K5 K6]. split; cbn [adding scheduling running workers ready]; auto.
      * intros c' u I. unfold sch in I. apply filter_In in I. exact (K2 c' u (proj1 I)).
      * now rewrite destructor_skip.
      * intros Q. destruct Aw as [w W]. specialize (Q w). contradiction.
  - apply Z.eqb_neq in U. split; [discriminate|]. intros s' E.
    match type of E with Next ?x = _ => assert (s' = x) as -> by congruence end. clear E. split; [|split].
    + destruct A as [H1 H2 H3 H4 H5 H6 H7 H8 H9 H10 H11 H12 H13 H14].
      split; cbn [set_task set_scheduling tasks not_ready ready workers scheduling]; auto.
      * intros u. rewrite H1, Tr. ext_task; [|reflexivity]. cbn. rewrite Sn. intuition.
      * intros u I. apply H2 in I. ext_task; [congruence | exact I].
      * intros w. specialize (H4 w). destruct (workers s w) as [|u|u|u|u|]; auto; ext_task; auto;
          try (destruct H4; congruence); congruence.
      * intros u. ext_task; [discriminate | apply H6].
      * intros u. ext_task; [discriminate | apply H7].
      * intros u. ext_task; [cbn; congruence | apply H8].
      * intros u. rewrite Sc, H9, Tr. ext_task; [|intuition]. cbn. split; [intros [_ Q]; congruence | intros [_ Q]; discriminate].
      * intros u. rewrite Tr. ext_task; auto.
      * intros u. ext_task; auto.
      * intros u. rewrite Tt, H12. ext_task; [cbn; split; [discriminate | auto] | intuition].
      * intros u. cbn [starts]. rewrite H13. ext_task; [cbn; now rewrite Sn | reflexivity].
      * intros u. rewrite Tf, H14. ext_task; [cbn; rewrite Sn; split; discriminate | reflexivity].
    + apply invB_skip; [exact I|]. pose proof (unc_range _ _ t B) as Ur.
      apply invB_ext with (s := s); cbn [set_task set_scheduling tasks adding]; auto; intros u; ext_task; cbn; auto; try congruence.
      * apply (b_zero _ _ B).
      * intros _. lia.
      * apply (b_pos _ _ B).
      * apply (b_compl _ _ B).
    + destruct C as [K1 K2 K3 K4 K5 K6]. split; cbn [set_task set_scheduling adding scheduling running workers ready]; auto.
      * intros c' u I. unfold sch in I. apply filter_In in I. exact (K2 c' u (proj1 I)).
      * now rewrite destructor_skip.
Qed.

(* Destructor *)
Lemma step_destructor n tr s : inv n tr s -> allowed tr s Destructor ->
  exists s', step s Destructor = Next s' /\ inv n (Destructor :: tr) s'.
Proof.
  intros [A [B C]] [Nd [Na Ns]]. cbn [step].
  assert (R : running s = true).
  { destruct (running s) eqn:E; [reflexivity|]. apply (c_run _ _ _ C) in E. contradiction. }
  rewrite R. eexists. split; [reflexivity|]. split; [|split].
  - apply invA_skip; [exact I|]. destruct A. split; auto.
  - apply invB_skip; [exact I|]. destruct B. split; auto.
  - destruct C as [K1 K2 K3 K4 K5 K6]. split; cbn [adding scheduling running workers ready]; auto.
    + intros [|w] t d I; [elim (Na _ _ I) | exact (K1 _ t d I)].
    + intros [|w] t I; [elim (Ns _ I) | exact (K2 _ t I)].
    + cbn. intuition.
Qed.

(* the worker w moves from x0 to x1, the task t it works on becomes y *)
Lemma invC_worker n tr s w x0 x1 tk nr q : invC n tr s -> (forall a b, workers s a = Running b -> a <> w) ->
  workers s w = x0 -> x0 <> Exited -> (x1 = Exited -> q = [] /\ running s = false) ->
  (length q <= length (ready s))%nat ->
  invC n tr (mk_state tk nr q (upd (workers s) w x1) (adding s) (scheduling s) (running s)).
Proof.
  intros [K1 K2 K3 K4 K5 K6] Nr W0 N0 X1 L.
  assert (Wn : (w < n)%nat).
  { destruct (Nat.lt_ge_cases w n) as [H | H]; [exact H|]. apply K5 in H. congruence. }
  assert (M : forall c, may_call s c ->
     may_call (mk_state tk nr q (upd (workers s) w x1) (adding s) (scheduling s) (running s)) c).
  { intros [|v] M; [exact M|]. destruct M as [b M]. exists b. cbn [workers]. rewrite upd_other; [exact M|].
    exact (Nr v b M). }
  split; cbn [adding scheduling running workers ready]; eauto.
  - intros v H. ext_task; [intros E; now apply X1 | eauto].
  - intros v H. ext_task; [lia | eauto].
  - intros Q. specialize (Q w). rewrite upd_same in Q. now apply X1.
Qed.

(* Pop *)
Lemma step_pop n tr s w : inv n tr s ->
  step s (Pop w) <> Crash /\ forall s', step s (Pop w) = Next s' -> inv n (Pop w :: tr) s'.
Proof.
  intros [A [B C]]. cbn [step]. destruct (workers s w) eqn:W; try (split; congruence).
  destruct (ready s) as [|t r] eqn:Q; [split; congruence|]. split; [discriminate|]. intros s' E.
  match type of E with Next ?x = _ => assert (s' = x) as -> by congruence end. clear E. split; [|split].
  - apply invA_skip; [exact I|]. destruct A as [H1 H2 H3 H4 H5 H6 H7 H8 H9 H10 H11 H12 H13 H14].
    assert (Sd : st s t = DEPENDENCIES_COMPLETED) by (apply H2; rewrite Q; now left).
    rewrite Q in H3. inversion H3 as [|? ? N3 D3]; subst.
    assert (Nh : forall v, ~ holds (workers s v) t).
    { intros v Hv. specialize (H4 v). destruct (workers s v); cbn in Hv; try contradiction; subst;
        try (destruct H4 as [_ H4]; apply H4; rewrite Q; now left); try congruence. destruct H4; congruence. }
    split; cbn [tasks not_ready ready workers scheduling]; auto.
    + intros u I. apply H2. rewrite Q. now right.
    + intros v. ext_task; [auto|]. specialize (H4 v). destruct (workers s v); auto;
        destruct H4 as [S4 N4]; (split; [exact S4|]); intros I; apply N4; rewrite Q; now right.
    + intros v v' u. ext_task; ext_task; cbn [holds]; auto.
      * intros <- Hv. elim (Nh _ Hv).
      * intros Hv <-. elim (Nh _ Hv).
      * apply H5.
    + intros u Su. destruct (Nat.eq_dec u t) as [-> | N].
      * right. exists w. rewrite upd_same. auto.
      * destruct (H6 u Su) as [I | [v V]]; [rewrite Q in I; destruct I as [<- | I]; [congruence | auto]|].
        right. exists v. rewrite upd_other; [exact V|]. intros ->. rewrite W in V. destruct V; discriminate.
    + intros u Su. destruct (H7 u Su) as [v V]. exists v. rewrite upd_other; [exact V | congruence].
    + intros u Su. destruct (H8 u Su) as [v V]. exists v. rewrite upd_other; [exact V | congruence].
  - apply invB_skip; [exact I|]. destruct B. split; auto.
  - apply (invC_worker n tr s w Waiting (Popped t)) with (tk := tasks s) (nr := not_ready s) (q := r) in C; auto.
    + destruct C as [K1 K2 K3 K4 K5 K6]. split; auto. now rewrite destructor_skip.
    + congruence.
    + discriminate.
    + discriminate.
    + rewrite Q. cbn. lia.
Qed.

(* Check *)
Lemma step_check n tr s w : inv n tr s ->
  step s (Check w) <> Crash /\ forall s', step s (Check w) = Next s' -> inv n (Check w :: tr) s'.
Proof.
  intros [A [B C]]. cbn [step]. destruct (workers s w) as [|t|t|t|t|] eqn:W; try (split; congruence).
  pose proof (a_w _ _ A w) as X. rewrite W in X. destruct X as [Sd Nq].
  rewrite (not_held tr s t A) by congruence. rewrite Sd. cbn [tstate_eqb]. split; [discriminate|]. intros s' E.
  match type of E with Next ?x = _ => assert (s' = x) as -> by congruence end. clear E. split; [|split].
  - apply invA_skip; [exact I|]. destruct A as [H1 H2 H3 H4 H5 H6 H7 H8 H9 H10 H11 H12 H13 H14].
    split; cbn [set_worker tasks not_ready ready workers scheduling]; auto.
    + intros v. ext_task; [auto | apply H4].
    + intros v v' u. ext_task; ext_task; cbn [holds]; auto.
      * intros <- Hv. apply (H5 w v' t); [now rewrite W | exact Hv].
      * intros Hv <-. apply (H5 v w t); [exact Hv | now rewrite W].
      * apply H5.
    + intros u Su. destruct (H6 u Su) as [I | [v V]]; [auto|]. right. exists v.
      ext_task; [|exact V]. rewrite W in V. destruct V as [V | V]; [injection V as <-; auto | discriminate].
    + intros u Su. destruct (H7 u Su) as [v V]. exists v. rewrite upd_other; [exact V | congruence].
    + intros u Su. destruct (H8 u Su) as [v V]. exists v. rewrite upd_other; [exact V | congruence].
  - apply invB_skip; [exact I|]. destruct B. split; auto.
  - apply (invC_worker n tr s w (Popped t) (Checked t)) with (tk := tasks s) (nr := not_ready s) (q := ready s) in C; auto.
    + destruct C as [K1 K2 K3 K4 K5 K6]. split; auto. now rewrite destructor_skip.
    + congruence.
    + discriminate.
    + discriminate.
Qed.

(* Start *)
Lemma step_start n tr s w t : inv n tr s ->
  step s (Start w t) <> Crash /\ forall s', step s (Start w t) = Next s' -> inv n (Start w t :: tr) s'.
Proof.
  intros [A [B C]]. cbn [step]. destruct (workers s w) as [|u|u|u|u|] eqn:W; try (split; congruence).
  destruct (Nat.eqb_spec u t) as [-> | Nu]; [|split; congruence].
  pose proof (a_w _ _ A w) as X. rewrite W in X. destruct X as [Sd Nq].
  rewrite (not_held tr s t A) by congruence. rewrite Sd. cbn [tstate_eqb]. split; [discriminate|]. intros s' E.
  match type of E with Next ?x = _ => assert (s' = x) as -> by congruence end. clear E. split; [|split].
  - destruct A as [H1 H2 H3 H4 H5 H6 H7 H8 H9 H10 H11 H12 H13 H14].
    assert (Tr : forall v, handed (Start w t :: tr) v <-> handed tr v).
    { intros v. rewrite handed_cons. split; [intros [[c' E] | H]; [discriminate | exact H] | auto]. }
    assert (Tf : forall v, finished (Start w t :: tr) v <-> finished tr v).
    { intros v. rewrite finished_cons. split; [intros [[c' E] | H]; [discriminate | exact H] | auto]. }
    assert (Tt : forall v, returned (Start w t :: tr) v <-> returned tr v).
    { intros v. rewrite returned_cons. split; [intros [[c' E] | H]; [discriminate | exact H] | auto]. }
    assert (No : forall v, v <> w -> ~ holds (workers s v) t).
    { intros v N Hv. apply N. apply (H5 v w t); [exact Hv | now rewrite W]. }
    split; cbn [set_worker set_task tasks not_ready ready workers scheduling]; auto.
    + intros v. rewrite H1, Tr. ext_task; [|reflexivity]. cbn. rewrite Sd. intuition discriminate.
    + intros v I. ext_task; [contradiction | auto].
    + intros v. destruct (upd_spec (workers s) w (Running t) v) as [[-> ->] | [N ->]].
      * rewrite upd_same. reflexivity.
      * specialize (H4 v). specialize (No v N). destruct (workers s v) as [|u|u|u|u|]; auto; cbn in No;
          ext_task; auto; congruence.
    + intros v v' u. ext_task; ext_task; cbn [holds]; auto.
      * intros <- Hv. elim (No _ H Hv).
      * intros Hv <-. elim (No _ H Hv).
      * apply H5.
    + intros u. destruct (upd_spec (tasks s) t (mk_task RUNNING (t_uncompleted (tasks s t)) (t_dependents (tasks s t)) (t_pool (tasks s t)) false) u) as [[-> ->] | [N ->]]; [discriminate|].
      intros Su. destruct (H6 u Su) as [I | [v V]]; [auto|]. right. exists v.
      rewrite upd_other; [exact V|]. intros ->. rewrite W in V. destruct V as [V | V]; congruence.
    + intros u. destruct (upd_spec (tasks s) t (mk_task RUNNING (t_uncompleted (tasks s t)) (t_dependents (tasks s t)) (t_pool (tasks s t)) false) u) as [[-> ->] | [N ->]].
      * intros _. exists w. now rewrite upd_same.
      * intros Su. destruct (H7 u Su) as [v V]. exists v. rewrite upd_other; [exact V | congruence].
    + intros u. ext_task; [discriminate|]. intros Su. destruct (H8 u Su) as [v V]. exists v. rewrite upd_other; [exact V | congruence].
    + intros u. rewrite H9, Tr. ext_task; [|reflexivity]. cbn. rewrite Sd. intuition discriminate.
    + intros u. rewrite Tr. ext_task; [intros _; apply H10; congruence | apply H10].
    + intros u. ext_task; [intros _; apply H11; congruence | apply H11].
    + intros u. rewrite Tt, H12. ext_task; [|reflexivity]. cbn. rewrite Sd. split; discriminate.
    + intros u. cbn [starts]. rewrite H13. destruct (Nat.eqb_spec u t) as [-> | N].
      * rewrite upd_same. cbn. now rewrite Sd.
      * rewrite upd_other by exact N. reflexivity.
    + intros u. rewrite Tf, H14. ext_task; [|reflexivity]. cbn. rewrite Sd. split; discriminate.
  - apply invB_skip; [exact I|]. 
    apply invB_ext with (s := s); cbn [set_worker set_task tasks adding]; auto; intros u; ext_task; cbn; auto; try congruence.
    + intros _ _. apply (b_zero _ _ B); congruence.
    + apply (b_zero _ _ B).
    + apply (b_pos _ _ B).
    + apply (b_compl _ _ B).
  - apply (invC_worker n tr s w (Checked t) (Running t)) with
      (tk := upd (tasks s) t (mk_task RUNNING (t_uncompleted (tasks s t)) (t_dependents (tasks s t)) (t_pool (tasks s t)) false))
      (nr := not_ready s) (q := ready s) in C; auto.
    + destruct C as [K1 K2 K3 K4 K5 K6]. split; auto. now rewrite destructor_skip.
    + congruence.
    + discriminate.
    + discriminate.
Qed.

Lemma same_who_iff a b : same_who a b = true <-> a = b.
Proof.
  destruct a as [|v], b as [|w]; cbn; split; try discriminate; auto.
  - intros E. apply Nat.eqb_eq in E. congruence.
  - intros E. injection E as <-. apply Nat.eqb_refl.
Qed.

(* Finish *)
Lemma step_finish n tr s w t : inv n tr s ->
  step s (Finish w t) <> Crash /\ forall s', step s (Finish w t) = Next s' -> inv n (Finish w t :: tr) s'.
Proof.
  intros [A [B C]]. cbn [step]. destruct (workers s w) as [|u|u|u|u|] eqn:W; try (split; congruence).
  match goal with |- context [if ?b then _ else _] => destruct b eqn:Cd end; [|split; congruence].
  rewrite !andb_true_iff, !negb_true_iff in Cd. destruct Cd as [[[Eu Hh] Xa] Xs]. apply Nat.eqb_eq in Eu. subst u.
  split; [discriminate|]. intros s' E.
  match type of E with Next ?x = _ => assert (s' = x) as -> by congruence end. clear E.
  pose proof (a_w _ _ A w) as Sd. rewrite W in Sd.
  set (y := mk_task COMPLETED (t_uncompleted (tasks s t)) (t_dependents (tasks s t)) (t_pool (tasks s t)) true).
  split; [|split].
  - destruct A as [H1 H2 H3 H4 H5 H6 H7 H8 H9 H10 H11 H12 H13 H14].
    assert (Tr : forall v, handed (Finish w t :: tr) v <-> handed tr v).
    { intros v. rewrite handed_cons. split; [intros [[c' E] | H]; [discriminate | exact H] | auto]. }
    assert (Tf : forall v, finished (Finish w t :: tr) v <-> finished tr v \/ v = t).
    { intros v. rewrite finished_cons. split.
      - intros [[c' E] | H]; [injection E as _ <-; auto | auto].
      - intros [H | ->]; [auto | left; eauto]. }
    assert (Tt : forall v, returned (Finish w t :: tr) v <-> returned tr v).
    { intros v. rewrite returned_cons. split; [intros [[c' E] | H]; [discriminate | exact H] | auto]. }
    assert (No : forall v, v <> w -> ~ holds (workers s v) t).
    { intros v N Hv. apply N. apply (H5 v w t); [exact Hv | now rewrite W]. }
    split; cbn [set_worker set_task tasks not_ready ready workers scheduling]; auto.
    + intros v. rewrite H1, Tr. ext_task; [|reflexivity]. cbn. rewrite Sd. intuition discriminate.
    + intros v I. ext_task; [apply H2 in I; congruence | auto].
    + intros v. destruct (upd_spec (workers s) w (Notifying t) v) as [[-> ->] | [N ->]].
      * rewrite upd_same. unfold y. auto.
      * specialize (H4 v). specialize (No v N). destruct (workers s v) as [|u|u|u|u|]; auto; cbn in No;
          ext_task; auto; congruence.
    + intros v v' u. ext_task; ext_task; cbn [holds]; auto.
      * intros <- Hv. elim (No _ H Hv).
      * intros Hv <-. elim (No _ H Hv).
      * apply H5.
    + intros u. destruct (upd_spec (tasks s) t y u) as [[-> ->] | [N ->]]; [discriminate|].
      intros Su. destruct (H6 u Su) as [I | [v V]]; [auto|]. right. exists v.
      rewrite upd_other; [exact V|]. intros ->. rewrite W in V. destruct V as [V | V]; congruence.
    + intros u. destruct (upd_spec (tasks s) t y u) as [[-> ->] | [N ->]]; [discriminate|].
      intros Su. destruct (H7 u Su) as [v V]. exists v. rewrite upd_other; [exact V | congruence].
    + intros u. destruct (upd_spec (tasks s) t y u) as [[-> ->] | [N ->]].
      * intros _. exists w. now rewrite upd_same.
      * intros Su. destruct (H8 u Su) as [v V]. exists v. rewrite upd_other; [exact V | congruence].
    + intros u. rewrite H9, Tr. ext_task; [|reflexivity]. cbn. rewrite Sd. intuition discriminate.
    + intros u. rewrite Tr. ext_task; [intros _; apply H10; congruence | apply H10].
    + intros u. ext_task; [intros _; apply H11; congruence | apply H11].
    + intros u. rewrite Tt, H12. ext_task; [|reflexivity]. cbn. rewrite Sd. split; discriminate.
    + intros u. cbn [starts]. rewrite H13. ext_task; [|reflexivity]. cbn. now rewrite Sd.
    + intros u. rewrite Tf, H14. ext_task; [cbn; intuition|]. intuition.
  - apply invB_skip; [exact I|].
    apply invB_ext with (s := s); cbn [set_worker set_task tasks adding]; auto; intros u; ext_task; cbn; auto; try congruence.
    + intros _ _. apply (b_zero _ _ B); congruence.
    + apply (b_zero _ _ B).
    + apply (b_pos _ _ B).
    + apply (b_compl _ _ B).
  - destruct C as [K1 K2 K3 K4 K5 K6].
    assert (Wn : (w < n)%nat).
    { destruct (Nat.lt_ge_cases w n) as [H | H]; [exact H|]. apply K5 in H. congruence. }
    assert (Mv : forall c, c <> Inside w -> may_call s c -> may_call (set_worker (set_task s t y) w (Notifying t)) c).
    { intros [|v] N M; [exact M|]. destruct M as [b M]. exists b. cbn [set_worker set_task workers].
      rewrite upd_other; [exact M | congruence]. }
    split; cbn [set_worker set_task adding scheduling running workers ready]; auto.
    + intros c a b I. apply Mv; [|exact (K1 c a b I)]. intros ->.
      assert (T : existsb (fun a => same_who (Inside w) (fst (fst a))) (adding s) = true)
        by (apply existsb_exists; exists (Inside w, a, b); split; [exact I | apply same_who_iff; reflexivity]).
      congruence.
    + intros c a I. apply Mv; [|exact (K2 c a I)]. intros ->.
      assert (T : existsb (fun a => same_who (Inside w) (fst a)) (scheduling s) = true)
        by (apply existsb_exists; exists (Inside w, a); split; [exact I | apply same_who_iff; reflexivity]).
      congruence.
    + now rewrite destructor_skip.
    + intros v H. ext_task; [discriminate | eauto].
    + intros v H. ext_task; [lia | eauto].
    + intros Q. specialize (Q w). rewrite upd_same in Q. discriminate.
Qed.

(* one turn of the loop at the end of Execute *)
Lemma step_notify n tr s w d : inv n tr s ->
  step s (Notify w d) <> Crash /\ forall s', step s (Notify w d) = Next s' -> inv n (Notify w d :: tr) s'.
Proof.
  intros [A [B C]]. cbn [step]. destruct (workers s w) as [|t|t|t|t|] eqn:W; try (split; congruence).
  destruct (mem d (t_dependents (tasks s t))) eqn:M; [|split; congruence]. apply mem_In in M.
  pose proof (a_w _ _ A w) as X. rewrite W in X. destruct X as [Sc Hh].
  pose proof (b_deps _ _ B _ _ M) as Ir.
  assert (Wd : waits s d t = true) by (unfold waits; apply orb_true_iff; right; now apply mem_In).
  pose proof (waits_early _ _ _ _ B Ir Wd) as Se.
  set (y := mk_task (st s t) (t_uncompleted (tasks s t)) (remove1 d (t_dependents (tasks s t))) (t_pool (tasks s t)) (t_held (tasks s t))).
  set (s1 := set_task s t y).
  assert (A1 : invA tr s1).
  { apply invA_ext with (s := s); auto. intros u. unfold s1. cbn [set_task tasks]. ext_task; cbn; auto. }
  assert (Tk : forall u, t_state (tasks s1 u) = st s u /\ t_held (tasks s1 u) = t_held (tasks s u) /\
             t_uncompleted (tasks s1 u) = t_uncompleted (tasks s u) /\
             (forall v, In v (t_dependents (tasks s1 u)) <-> In v (t_dependents (tasks s u)) /\ (v, u) <> (d, t))).
  { intros u. unfold s1. cbn [set_task tasks]. ext_task; cbn.
    - split; [reflexivity|]. split; [reflexivity|]. split; [reflexivity|].
      intros v. rewrite remove1_In. split; intros [I1 I2]; (split; [exact I1 | congruence]).
    - split; [reflexivity|]. split; [reflexivity|]. split; [reflexivity|]. intros v. split; [|tauto]. intros I. split; [exact I | congruence]. }
  assert (Se1 : st s1 d = NEW \/ st s1 d = DISPATCHED).
  { destruct (Tk d) as [-> _]. exact Se. }
  assert (Nad : forall c, ~ In (c, d, t) (adding s)).
  { intros c I. apply (b_adds _ _ B) in I. destruct I. contradiction. }
  rewrite (odc_runs tr s1 d A1 Se1). split; [discriminate|]. intros s' E.
  assert (s' = odc_state s1 d) as -> by congruence. clear E.
  assert (Wm : forall u v, waits s1 u v = existsb (same_add u v) (adding s) || mem u (t_dependents (tasks s1 v))) by reflexivity.
  split; [|split].
  - apply invA_skip; [exact I|]. now apply odc_A.
  - apply invB_skip; [exact I|]. apply (odc_B tr s s1 d t); auto.
    + intros u. destruct (Tk u) as [E1 [E2 [E3 E4]]]. split; [exact E1|]. split; [exact E2|]. split; [exact E3|].
      intros v I. now apply E4 in I.
    + rewrite Wm. apply orb_false_iff. split.
      * destruct (existsb (same_add d t) (adding s)) eqn:E; [|reflexivity]. apply adding_ex in E. destruct E as [c I].
        elim (Nad c I).
      * apply mem_nIn. intros I. destruct (Tk t) as [_ [_ [_ E4]]]. apply E4 in I. now destruct I.
    + intros u v N. rewrite Wm. unfold waits. f_equal. destruct (Tk v) as [_ [_ [_ E4]]].
      destruct (mem u (t_dependents (tasks s v))) eqn:E.
      * apply mem_In. apply E4. apply mem_In in E. split; [exact E | congruence].
      * apply mem_nIn. intros I. apply E4 in I. destruct I as [I _]. apply mem_In in I. congruence.
    + intros c u v I I2. destruct (Tk v) as [_ [_ [_ E4]]]. apply E4 in I2. destruct I2 as [I2 _].
      apply (b_adds _ _ B) in I. destruct I. contradiction.
    + apply (not_held tr); auto. destruct Se; congruence.
  - assert (C2 : invC n tr (odc_state s1 d)).
    { apply odc_C; auto.
      - destruct C as [K1 K2 K3 K4 K5 K6]. split; auto.
      - exists w. unfold s1. cbn. congruence. }
    destruct C2 as [K1 K2 K3 K4 K5 K6]. split; auto. now rewrite destructor_skip.
Qed.

(* the end of Execute *)
Lemma step_release n tr s w : inv n tr s ->
  step s (Release w) <> Crash /\ forall s', step s (Release w) = Next s' -> inv n (Release w :: tr) s'.
Proof.
  intros [A [B C]]. cbn [step]. destruct (workers s w) as [|t|t|t|t|] eqn:W; try (split; congruence).
  destruct (t_dependents (tasks s t)) eqn:Dp; [|split; congruence]. split; [discriminate|]. intros s' E.
  match type of E with Next ?x = _ => assert (s' = x) as -> by congruence end. clear E.
  pose proof (a_w _ _ A w) as X. rewrite W in X. destruct X as [Sc Hh].
  set (y := mk_task (st s t) (t_uncompleted (tasks s t)) [] (t_pool (tasks s t)) false).
  split; [|split].
  - apply invA_skip; [exact I|]. destruct A as [H1 H2 H3 H4 H5 H6 H7 H8 H9 H10 H11 H12 H13 H14].
    assert (No : forall v, v <> w -> ~ holds (workers s v) t).
    { intros v N Hv. apply N. apply (H5 v w t); [exact Hv | now rewrite W]. }
    assert (Sy : forall u, st (set_worker (set_task s t y) w Waiting) u = st s u).
    { intros u. cbn [set_worker set_task tasks]. ext_task; reflexivity. }
    split; auto; try (intros u; rewrite Sy; auto).
    + cbn [set_worker set_task tasks not_ready ready workers scheduling].
      intros v. destruct (upd_spec (workers s) w Waiting v) as [[-> ->] | [N ->]]; [auto|].
      specialize (H4 v). specialize (No v N). destruct (workers s v) as [|u|u|u|u|]; auto; cbn in No;
        ext_task; auto; congruence.
    + cbn [set_worker set_task tasks not_ready ready workers scheduling].
      intros v v' u. ext_task; ext_task; cbn [holds]; auto; try contradiction. apply H5.
    + cbn [set_worker workers ready set_task]. intros Su. destruct (H6 u Su) as [I | [v V]]; [auto|]. right. exists v.
      rewrite upd_other; [exact V|]. intros ->. rewrite W in V. destruct V as [V | V]; congruence.
    + cbn [set_worker workers ready set_task]. intros Su. destruct (H7 u Su) as [v V]. exists v.
      rewrite upd_other; [exact V | congruence].
    + intros u. cbn [set_worker set_task tasks workers]. ext_task; [discriminate|].
      intros Su. destruct (H8 u Su) as [v V]. exists v. rewrite upd_other; [exact V | congruence].
    + intros Su. cbn [set_worker set_task tasks]. ext_task; [unfold y; cbn; apply H11; congruence | auto].
  - apply invB_skip; [exact I|].
    apply invB_ext with (s := s); cbn [set_worker set_task tasks adding]; auto; intros u; ext_task; cbn; auto; try congruence;
      first [apply (b_zero _ _ B) | apply (b_pos _ _ B) | apply (b_compl _ _ B) | idtac].
  - apply (invC_worker n tr s w (Notifying t) Waiting) with
      (tk := upd (tasks s) t y) (nr := not_ready s) (q := ready s) in C; auto.
    + destruct C as [K1 K2 K3 K4 K5 K6]. split; auto. now rewrite destructor_skip.
    + congruence.
    + discriminate.
    + discriminate.
Qed.

(* the return of DoWork *)
Lemma step_exit n tr s w : inv n tr s ->
  step s (Exit w) <> Crash /\ forall s', step s (Exit w) = Next s' -> inv n (Exit w :: tr) s'.
Proof.
  intros [A [B C]]. cbn [step]. destruct (workers s w) eqn:W; try (split; congruence).
  destruct (ready s) as [|t r] eqn:Q; [|split; congruence]. destruct (running s) eqn:R; [split; congruence|].
  split; [discriminate|]. intros s' E.
  match type of E with Next ?x = _ => assert (s' = x) as -> by congruence end. clear E. split; [|split].
  - apply invA_skip; [exact I|]. destruct A as [H1 H2 H3 H4 H5 H6 H7 H8 H9 H10 H11 H12 H13 H14].
    split; cbn [set_worker tasks not_ready ready workers scheduling]; auto.
    + intros v. ext_task; [auto | apply H4].
    + intros v v' u. ext_task; ext_task; cbn [holds]; auto; try contradiction. apply H5.
    + intros u Su. destruct (H6 u Su) as [I | [v V]]; [auto|]. right. exists v.
      rewrite upd_other; [exact V|]. intros ->. rewrite W in V. destruct V as [V | V]; congruence.
    + intros u Su. destruct (H7 u Su) as [v V]. exists v. rewrite upd_other; [exact V | congruence].
    + intros u Su. destruct (H8 u Su) as [v V]. exists v. rewrite upd_other; [exact V | congruence].
  - apply invB_skip; [exact I|]. destruct B. split; auto.
  - apply (invC_worker n tr s w Waiting Exited) with (tk := tasks s) (nr := not_ready s) (q := ready s) in C; auto.
    + destruct C as [K1 K2 K3 K4 K5 K6]. split; auto. now rewrite destructor_skip.
    + congruence.
    + discriminate.
Qed.

(* all of them *)
Theorem step_inv n tr s a : (0 < n)%nat -> inv n tr s -> allowed tr s a ->
  step s a <> Crash /\ forall s', step s a = Next s' -> inv n (a :: tr) s'.
Proof.
  intros Hn H Al.
  assert (F : (exists s', step s a = Next s' /\ inv n (a :: tr) s') ->
              step s a <> Crash /\ forall s', step s a = Next s' -> inv n (a :: tr) s').
  { intros [s1 [E V]]. rewrite E. split; [discriminate|]. intros s' E'. now assert (s' = s1) as -> by congruence. }
  destruct a.
  - apply F. now apply step_add.
  - now apply step_addtask.
  - apply F. now apply step_schedule.
  - now apply step_setpool.
  - apply F. now apply step_destructor.
  - now apply step_pop.
  - now apply step_check.
  - now apply step_start.
  - now apply step_finish.
  - now apply step_notify.
  - now apply step_release.
  - now apply step_exit.
Qed.
Theorem run_inv n tr s : (0 < n)%nat -> run n tr s -> inv n tr s.
Proof.
  intros Hn R. induction R as [|tr s a s' R IH Al E]; [apply inv_init|]. now apply (step_inv n tr s a Hn IH Al).
Qed.
