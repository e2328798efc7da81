(* Progress and termination. *)
From Coq Require Import List ZArith Bool PeanoNat Lia.
From Verif Require Import TP_Model TP_Spec TP_Proofs TP_Steps.
Import ListNotations.
Open Scope Z_scope.

Definition enabled (s : state) : Prop := exists a s', internal a /\ step s a = Next s'.

Section Live.
Variables (n : nat) (tr : list action) (s : state).
Hypothesis Hn : (0 < n)%nat.
Hypothesis V : inv n tr s.

Lemma live_notifying w t : workers s w = Notifying t -> enabled s.
Proof.
  destruct V as [A [B C]]. intros W.
  destruct (t_dependents (tasks s t)) as [|d r] eqn:D.
  - eexists (Release w), _. split; [exact I|]. cbn [step]. rewrite W, D. reflexivity.
  - assert (M : mem d (t_dependents (tasks s t)) = true) by (apply mem_In; rewrite D; now left).
    exists (Notify w d). cbn [step]. rewrite W, M.
    pose proof (proj1 (mem_In _ _) M) as Im. pose proof (b_deps _ _ B _ _ Im) as Ir.
    assert (Wd : waits s d t = true) by (unfold waits; apply orb_true_iff; now right).
    pose proof (waits_early _ _ _ _ B Ir Wd) as Se.
    match goal with |- exists s', _ /\ on_dependency_completed ?x d = _ => set (s1 := x) end.
    assert (A1 : invA tr s1).
    { apply invA_ext with (s := s); auto. intros u. unfold s1. cbn [set_task tasks]. ext_task; cbn; auto. }
    exists (odc_state s1 d). split; [exact I|]. apply (odc_runs tr); [exact A1|].
    unfold s1. cbn [set_task tasks]. ext_task; exact Se.
Qed.

Lemma live_adding c t d : (forall u, t_held (tasks s u) = false) -> In (c, t, d) (adding s) -> enabled s.
Proof.
  destruct V as [A [B C]]. intros Nh Ia.
  destruct (b_adds _ _ B c t d Ia) as [Ir Nd].
  pose proof (waits_adding s c t d Ia) as W. pose proof (waits_early _ _ _ _ B Ir W) as Se.
  exists (AddDependentTask c t d). cbn [step].
  assert (E : existsb (fun a => same_add t d a && same_who c (fst (fst a))) (adding s) = true).
  { apply existsb_exists. exists (c, t, d). split; [exact Ia|]. apply andb_true_iff. split; [now apply same_add_iff | now apply same_who_iff]. }
  rewrite E, Nh.
  assert (Hm : mem t (t_dependents (tasks s d)) = false) by (now apply mem_nIn). rewrite Hm.
  set (s1 := set_adding s _).
  assert (A1 : invA tr s1) by (apply invA_ext with (s := s); auto).
  pose proof (odc_runs tr s1 t A1 Se) as Ro.
  destruct (t_state (tasks s d)); eexists; (split; [exact I|]); try reflexivity. exact Ro.
Qed.

Lemma live_scheduling c t : In (c, t) (scheduling s) -> enabled s.
Proof.
  destruct V as [A [B C]]. intros Is.
  assert (Hs : handed tr t /\ st s t = NEW).
  { apply (a_sch _ _ A). apply in_map_iff. exists (c, t). auto. }
  destruct Hs as [Hd Sn].
  exists (SetThreadPool c t). cbn [step].
  assert (E : existsb (fun a => Nat.eqb t (snd a) && same_who c (fst a)) (scheduling s) = true).
  { apply existsb_exists. exists (c, t). split; [exact Is|]. cbn [fst snd]. rewrite Nat.eqb_refl. now apply same_who_iff. }
  rewrite E, Sn, (not_held tr s t A) by congruence.
  destruct (t_uncompleted (tasks s t) =? 0); [|eexists; split; [exact I | reflexivity]].
  unfold notify_pool. cbn [set_task set_scheduling not_ready].
  assert (M : mem t (not_ready s) = true) by (apply mem_In, (a_nr _ _ A); auto).
  rewrite M. eexists. split; [exact I | reflexivity].
Qed.

Lemma live_worker w : (forall u, t_held (tasks s u) = false) -> adding s = [] -> scheduling s = [] ->
  match workers s w with
  | Popped _ | Checked _ | Running _ | Notifying _ => enabled s
  | Waiting => ready s <> [] -> enabled s
  | Exited => True
  end.
Proof.
  destruct V as [A [B C]]. intros Nh Ea Es. pose proof (a_w _ _ A w) as X.
  destruct (workers s w) as [|t|t|t|t|] eqn:W; auto.
  - intros Q. destruct (ready s) as [|t r] eqn:R; [contradiction|]. eexists (Pop w), _. split; [exact I|].
    cbn [step]. rewrite W, R. reflexivity.
  - destruct X as [X _]. eexists (Check w), _. split; [exact I|]. cbn [step]. rewrite W, Nh, X. reflexivity.
  - destruct X as [X _]. eexists (Start w t), _. split; [exact I|]. cbn [step]. rewrite W, Nat.eqb_refl, Nh, X. reflexivity.
  - eexists (Finish w t), _. split; [exact I|]. cbn [step]. rewrite W, Nat.eqb_refl, Nh, Ea, Es. reflexivity.
  - now apply (live_notifying w t).
Qed.

(* either something can happen or nothing is under way *)
Lemma live_or_quiet : enabled s \/
  (forall u, t_held (tasks s u) = false) /\ adding s = [] /\ scheduling s = [] /\ ready s = [] /\
  (forall w, workers s w = Waiting \/ workers s w = Exited).
Proof.
  destruct V as [A [B C]].
  (* is some worker at work? *)
  assert (Dw : forall (P : worker -> bool), (exists w, P (workers s w) = true) \/ (forall w, (w < n)%nat -> P (workers s w) = false)).
  { intros P. clear - P. induction n as [|m IH]; [right; intros; lia|].
    destruct IH as [E | N]; [auto|]. destruct (P (workers s m)) eqn:E; [left; eauto|].
    right. intros w Hw. destruct (Nat.eq_dec w m) as [-> | Nw]; [exact E | apply N; lia]. }
  destruct (Dw (fun x => match x with Notifying _ => true | _ => false end)) as [[w W] | Nn].
  { left. destruct (workers s w) eqn:E; try discriminate. now apply (live_notifying w t). }
  assert (Nh : forall u, t_held (tasks s u) = false).
  { intros u. destruct (t_held (tasks s u)) eqn:E; [|reflexivity]. destruct (a_held _ _ A u E) as [w W].
    assert (Hw : (w < n)%nat).
    { destruct (Nat.lt_ge_cases w n) as [H | H]; [exact H|]. apply (c_far _ _ _ C) in H. congruence. }
    specialize (Nn w Hw). rewrite W in Nn. discriminate. }
  destruct (adding s) as [|[[c t] d] r] eqn:Ea.
  2: { left. apply (live_adding c t d); [exact Nh|]. rewrite Ea. now left. }
  destruct (scheduling s) as [|[c t] r] eqn:Es.
  2: { left. apply (live_scheduling c t). rewrite Es. now left. }
  destruct (Dw (fun x => match x with Waiting | Exited => false | _ => true end)) as [[w W] | Nw].
  { left. pose proof (live_worker w Nh Ea Es) as L. destruct (workers s w); try discriminate; auto. }
  assert (Ww : forall w, workers s w = Waiting \/ workers s w = Exited).
  { intros w. destruct (Nat.lt_ge_cases w n) as [H | H].
    - specialize (Nw w H). destruct (workers s w); try discriminate; auto.
    - right. now apply (c_far _ _ _ C). }
  destruct (Dw (fun x => match x with Waiting => true | _ => false end)) as [[w W] | Nz].
  - pose proof (live_worker w Nh Ea Es) as L. destruct (workers s w); try discriminate.
    destruct (ready s) eqn:R; [right | left; apply L; discriminate]. auto.
  - right. repeat (split; [auto; fail|]). split; [|exact Ww].
    apply (c_none _ _ _ C). intros w. destruct (Ww w) as [E | E]; [|exact E]. exfalso.
    destruct (Nat.lt_ge_cases w n) as [H | H].
    + specialize (Nz w H). rewrite E in Nz. discriminate.
    + apply (c_far _ _ _ C) in H. congruence.
Qed.
End Live.

(* a dependency was handed to the pool before *)
Record invF (tr : list action) : Prop := {
  f_ret : forall t d, depends tr t d -> returned tr d;
  f_before : forall newer c t older d, tr = newer ++ SetThreadPool c t :: older -> depends tr t d -> returned older d
}.
Lemma run_F n tr s : (0 < n)%nat -> run n tr s -> invF tr.
Proof.
  intros Hn R. induction R as [|tr s a s' R IH Al E].
  - split; [intros t d [c [al []]] | intros newer c t older d Q; destruct newer; discriminate].
  - destruct IH as [F1 F2]. pose proof (run_inv _ _ _ Hn R) as [A [B C]]. split.
    + intros t d D. apply depends_cons in D. apply returned_cons. right. destruct D as [[c [al ->]] | D]; [|eauto].
      now destruct Al as [_ [_ [Rd _]]].
    + intros newer c t older d Q D. apply depends_cons in D. destruct newer as [|b newer]; cbn in Q; injection Q as Ea Et.
      * subst older. destruct D as [[c' [al Q]] | D]; [congruence | eauto].
      * destruct D as [[c' [al Q]] | D]; [|exact (F2 _ _ _ _ _ Et D)]. exfalso. rewrite Q in Al.
        destruct Al as [_ [Nh _]]. apply Nh. apply (a_handed _ _ A). apply (a_ret _ _ A). exists c. rewrite Et.
        apply in_or_app. right. now left.
Qed.

(* with nothing under way all tasks are completed *)
Lemma quiet_completed n tr s t : (0 < n)%nat -> run n tr s ->
  (forall u, t_held (tasks s u) = false) -> adding s = [] -> scheduling s = [] -> ready s = [] ->
  (forall w, workers s w = Waiting \/ workers s w = Exited) -> handed tr t -> st s t = COMPLETED.
Proof.
  intros Hn R Nh Ea Es Er Ww. pose proof (run_inv _ _ _ Hn R) as [A [B C]]. pose proof (run_F _ _ _ Hn R) as [F1 F2].
  (* by the order in which Schedule returned *)
  assert (K : forall older newer u, tr = newer ++ older -> returned older u -> st s u = COMPLETED).
  { induction older as [|a older IH]; intros newer u Q Ru; [destruct Ru as [c []]|].
    apply returned_cons in Ru. destruct Ru as [[c ->] | Ru].
    2: { apply (IH (newer ++ [a])); [now rewrite <- app_assoc | exact Ru]. }
    destruct (tstate_dec (st s u) COMPLETED) as [E | N]; [exact E|]. exfalso.
    assert (Ru : returned tr u) by (exists c; rewrite Q; apply in_or_app; right; now left).
    apply (a_ret _ _ A) in Ru.
    assert (Sd : st s u = DISPATCHED).
    { destruct (st s u) eqn:E; try congruence.
      - destruct (a_dep _ _ A u E) as [I | [w [W | W]]]; [rewrite Er in I; destruct I | |]; destruct (Ww w); congruence.
      - destruct (a_run _ _ A u E) as [w W]. destruct (Ww w); congruence. }
    pose proof (b_pos _ _ B u Sd) as P. rewrite (b_unc _ _ B u) in P.
    destruct (filter (waits s u) (regs u tr)) as [|d r] eqn:Fl; [cbn in P; lia|].
    assert (I : In d (filter (waits s u) (regs u tr))) by (rewrite Fl; now left).
    apply filter_In in I. destruct I as [Ir Wd].
    assert (Cd : st s d = COMPLETED).
    { apply (IH (newer ++ [SetThreadPool c u])); [now rewrite <- app_assoc|].
      apply (F2 newer c u older d Q). now apply regs_dep. }
    unfold waits in Wd. rewrite Ea in Wd. cbn [existsb orb] in Wd. apply mem_In in Wd.
    rewrite (b_compl _ _ B d Cd (Nh d)) in Wd. destruct Wd. }
  intros H. destruct (tstate_dec (st s t) NEW) as [E | N].
  - exfalso. assert (I : In t (map snd (scheduling s))) by (apply (a_sch _ _ A); auto). rewrite Es in I. destruct I.
  - apply (K tr []); [reflexivity|]. now apply (a_ret _ _ A).
Qed.

(* termination: what internal steps consume *)
Definition weight (x : worker) : nat :=
  match x with Waiting => 1 | Popped _ => 5 | Checked _ => 4 | Running _ => 3 | Notifying _ => 2 | Exited => 0 end.
Fixpoint wsum (f : nat -> worker) (k : nat) : nat := match k with O => 0 | S k => weight (f k) + wsum f k end.
Fixpoint dsum (f : nat -> task) (l : list nat) : nat :=
  match l with [] => 0 | d :: r => length (t_dependents (f d)) + dsum f r end.
Fixpoint rets (tr : list action) : list nat :=
  match tr with [] => [] | SetThreadPool _ t :: r => t :: rets r | _ :: r => rets r end.
Definition phi (n : nat) (tr : list action) (s : state) : nat :=
  2 * length (adding s) + length (scheduling s) + 5 * (length (ready s) + length (not_ready s)) +
  wsum (workers s) n + dsum (tasks s) (rets tr).

Lemma rets_In tr t : In t (rets tr) <-> returned tr t.
Proof.
  induction tr as [|a r IH]; [split; [intros [] | intros [c []]]|]. rewrite returned_cons, <- IH.
  destruct a; cbn [rets]; try (split; [auto | intros [[c' Q] | Q]; [discriminate | exact Q]]).
  split; [intros [<- | Q]; eauto | intros [[c' Q] | Q]; [injection Q as _ <-; now left | now right]].
Qed.

Lemma wsum_upd f k w x : (w < k)%nat -> (wsum (upd f w x) k + weight (f w) = wsum f k + weight x)%nat.
Proof.
  intros H. assert (O : forall j, (j <= w)%nat -> wsum (upd f w x) j = wsum f j).
  { induction j as [|j IH]; intros L; [reflexivity|]. cbn. rewrite upd_other by lia. rewrite IH by lia. reflexivity. }
  induction k as [|k IH]; [lia|]. cbn [wsum]. destruct (Nat.eq_dec w k) as [-> | N].
  - rewrite upd_same, O by lia. lia.
  - rewrite upd_other by lia. specialize (IH ltac:(lia)). lia.
Qed.
Lemma wsum_le f g k : (forall w, (w < k)%nat -> f w = g w) -> wsum f k = wsum g k.
Proof. induction k as [|k IH]; intros H; [reflexivity|]. cbn. rewrite H by lia. rewrite IH; [reflexivity | intros; apply H; lia]. Qed.
Lemma dsum_ext f g l : (forall d, In d l -> length (t_dependents (f d)) = length (t_dependents (g d))) -> dsum f l = dsum g l.
Proof. induction l as [|d r IH]; intros H; [reflexivity|]. cbn. rewrite H by (now left). rewrite IH; [reflexivity | intros; apply H; now right]. Qed.
Lemma dsum_upd f d x l : NoDup l -> In d l ->
  (dsum (upd f d x) l + length (t_dependents (f d)) = dsum f l + length (t_dependents x))%nat.
Proof.
  induction l as [|e r IH]; intros N I; [destruct I|]. inversion N as [|? ? N1 N2]; subst. cbn [dsum].
  destruct I as [-> | I].
  - rewrite upd_same. rewrite (dsum_ext (upd f d x) f r); [lia|]. intros y Y. rewrite upd_other; [reflexivity|]. intros ->. contradiction.
  - rewrite upd_other by (intros ->; contradiction). specialize (IH N2 I). lia.
Qed.
Lemma dsum_same f d x l : t_dependents x = t_dependents (f d) -> dsum (upd f d x) l = dsum f l.
Proof. intros E. apply dsum_ext. intros y _. destruct (upd_spec f d x y) as [[-> ->] | [N ->]]; [now rewrite E | reflexivity]. Qed.

Lemma remove1_len t l : In t l -> (length (remove1 t l) < length l)%nat.
Proof.
  induction l as [|u r IH]; intros I; [destruct I|]. cbn [remove1 filter]. destruct (Nat.eqb_spec t u) as [-> | N]; cbn [negb length].
  - fold (remove1 u r). pose proof (filter_len_le (fun v => negb (Nat.eqb u v)) r). unfold remove1. lia.
  - destruct I as [-> | I]; [contradiction|]. specialize (IH I). unfold remove1 in IH. lia.
Qed.
Lemma filter_len_lt {A} (p : A -> bool) l a : In a l -> p a = false -> (length (filter p l) < length l)%nat.
Proof.
  induction l as [|u r IH]; intros I P; [destruct I|]. cbn. destruct I as [-> | I].
  - rewrite P. pose proof (filter_len_le p r). lia.
  - specialize (IH I P). destruct (p u); cbn; lia.
Qed.

Lemma rets_nodup n tr s : (0 < n)%nat -> run n tr s -> NoDup (rets tr).
Proof.
  intros Hn R. induction R as [|tr s a s' R IH Al E]; [constructor|].
  destruct a; try exact IH. cbn [rets]. constructor; [|exact IH]. intros I. apply rets_In in I.
  pose proof (run_inv _ _ _ Hn R) as [A [B C]]. apply (a_ret _ _ A) in I. cbn [step] in E.
  match type of E with (if ?b then _ else _) = _ => destruct b eqn:Ex end; [|discriminate].
  apply existsb_sch in Ex.
  assert (Q : In t (map snd (scheduling s))) by (apply in_map_iff; exists (c, t); auto).
  apply (a_sch _ _ A) in Q. now destruct Q.
Qed.

Lemma odc_phi n tr s t : invA tr s -> st s t = NEW \/ st s t = DISPATCHED -> (phi n tr (odc_state s t) <= phi n tr s)%nat.
Proof.
  intros A Se. unfold odc_state, phi. cbv zeta. cbn [adding scheduling ready not_ready workers tasks].
  rewrite dsum_same by reflexivity.
  destruct (((t_uncompleted (tasks s t) - 1) mod 2 ^ 32 =? 0) && tstate_eqb (st s t) DISPATCHED) eqn:U; [|lia].
  apply andb_true_iff in U. destruct U as [_ U]. apply tstate_eqb_eq in U.
  assert (I : In t (not_ready s)).
  { apply (a_nr _ _ A). split; [apply (a_handed _ _ A); congruence | auto]. }
  apply remove1_len in I. rewrite app_length. cbn [length]. lia.
Qed.

(* client calls add, internal steps consume *)
Lemma phi_step n tr s a s' : (0 < n)%nat -> run n tr s -> allowed tr s a -> step s a = Next s' ->
  (match a with
   | AddDependency _ _ _ _ => phi n (a :: tr) s' <= phi n tr s + 2
   | Schedule _ _ => phi n (a :: tr) s' <= phi n tr s + 6
   | Destructor => phi n (a :: tr) s' <= phi n tr s
   | _ => phi n (a :: tr) s' + 1 <= phi n tr s
   end)%nat.
Proof.
  intros Hn R Al E. pose proof (run_inv _ _ _ Hn R) as [A [B C]].
  pose proof (rets_nodup _ _ _ Hn (run_step _ _ _ _ _ R Al E)) as Nr.
  assert (Far : forall w, workers s w <> Exited -> (w < n)%nat).
  { intros w W. destruct (Nat.lt_ge_cases w n) as [H | H]; [exact H|]. apply (c_far _ _ _ C) in H. contradiction. }
  destruct a; cbn [step] in E.
  - destruct (t_held (tasks s t)); [discriminate|]. destruct (st s t) eqn:Sn; try discriminate.
    destruct alive.
    + match type of E with Next ?x = _ => assert (s' = x) as -> by congruence end. unfold phi.
      cbn [set_adding set_task adding scheduling ready not_ready workers tasks rets length].
      rewrite dsum_same by reflexivity. lia.
    + assert (s' = s) as -> by congruence. unfold phi. cbn [rets]. lia.
  - match type of E with (if ?b then _ else _) = _ => destruct b eqn:Ex end; [|discriminate].
    apply existsb_add in Ex. destruct (t_held (tasks s d)) eqn:Hd; [discriminate|].
    destruct (b_adds _ _ B c t d Ex) as [Ir Nd].
    pose proof (waits_adding s c t d Ex) as W. pose proof (waits_early _ _ _ _ B Ir W) as Se.
    set (s1 := set_adding s (filter (fun a => negb (same_add t d a)) (adding s))) in E.
    assert (A1 : invA tr s1) by (apply invA_ext with (s := s); auto).
    assert (L : (length (adding s1) < length (adding s))%nat).
    { apply filter_len_lt with (a := (c, t, d)); [exact Ex|]. apply negb_false_iff. now apply same_add_iff. }
    assert (P1 : (phi n tr s1 + 2 <= phi n tr s)%nat).
    { unfold phi. change (scheduling s1) with (scheduling s). change (ready s1) with (ready s).
      change (not_ready s1) with (not_ready s). change (workers s1) with (workers s). change (tasks s1) with (tasks s). lia. }
    change (phi n (AddDependentTask c t d :: tr) s') with (phi n tr s').
    change (rets (AddDependentTask c t d :: tr)) with (rets tr) in Nr.
    pose proof (odc_phi n tr s1 t A1 Se) as P2. pose proof (odc_runs tr s1 t A1 Se) as Ro.
    assert (Fin : s' = odc_state s1 t \/
              s' = set_task s1 d (mk_task (st s d) (t_uncompleted (tasks s d)) (t :: t_dependents (tasks s d)) (t_pool (tasks s d)) false)).
    { destruct (st s d); destruct (mem t (t_dependents (tasks s d))); try discriminate;
        first [left; congruence | right; congruence]. }
    destruct Fin as [-> | ->]; [lia|].
    unfold phi in *. cbn [set_task adding scheduling ready not_ready workers tasks].
    change (scheduling s1) with (scheduling s) in *. change (ready s1) with (ready s) in *.
    change (not_ready s1) with (not_ready s) in *. change (workers s1) with (workers s) in *. change (tasks s1) with (tasks s) in *.
    assert (Id : In d (rets tr)) by (apply rets_In, (a_ret _ _ A), (b_reg _ _ B t d Ir)).
    pose proof (dsum_upd (tasks s) d (mk_task (st s d) (t_uncompleted (tasks s d)) (t :: t_dependents (tasks s d)) (t_pool (tasks s d)) false) _ Nr Id) as Du.
    cbn [t_dependents length] in Du. lia.
  - destruct (mem t (not_ready s)); [discriminate|].
    match type of E with Next ?x = _ => assert (s' = x) as -> by congruence end. unfold phi.
    cbn [adding scheduling ready not_ready workers tasks rets length]. lia.
  - match type of E with (if ?b then _ else _) = _ => destruct b eqn:Ex end; [|discriminate].
    apply existsb_sch in Ex.
    assert (Hs : handed tr t /\ st s t = NEW).
    { apply (a_sch _ _ A). apply in_map_iff. exists (c, t). auto. }
    destruct Hs as [Hd Sn]. rewrite Sn, (not_held tr s t A) in E by congruence.
    assert (L : (length (filter (fun a => negb (Nat.eqb t (snd a))) (scheduling s)) < length (scheduling s))%nat).
    { apply filter_len_lt with (a := (c, t)); [exact Ex|]. cbn. now rewrite Nat.eqb_refl. }
    assert (Em : t_dependents (tasks s t) = []).
    { destruct (t_dependents (tasks s t)) as [|u r] eqn:D; [reflexivity|]. exfalso.
      assert (I : In u (t_dependents (tasks s t))) by (rewrite D; now left).
      apply (b_deps _ _ B) in I. apply (b_reg _ _ B) in I. contradiction. }
    destruct (t_uncompleted (tasks s t) =? 0).
    + unfold notify_pool in E. cbn [set_task set_scheduling not_ready] in E.
      assert (I : In t (not_ready s)) by (apply (a_nr _ _ A); auto).
      rewrite (proj2 (mem_In _ _) I) in E.
      match type of E with Next ?x = _ => assert (s' = x) as -> by congruence end. unfold phi.
      cbn [set_task set_scheduling adding scheduling ready not_ready workers tasks rets dsum].
      rewrite dsum_same by reflexivity. rewrite upd_same. cbn [t_dependents]. rewrite Em.
      apply remove1_len in I. rewrite app_length. cbn [length]. lia.
    + match type of E with Next ?x = _ => assert (s' = x) as -> by congruence end. unfold phi.
      cbn [set_task set_scheduling adding scheduling ready not_ready workers tasks rets dsum].
      rewrite dsum_same by reflexivity. rewrite upd_same. cbn [t_dependents]. rewrite Em. cbn [length]. lia.
  - destruct (running s); [|discriminate].
    match type of E with Next ?x = _ => assert (s' = x) as -> by congruence end. unfold phi.
    cbn [adding scheduling ready not_ready workers tasks rets length]. lia.
  - destruct (workers s w) eqn:W; try discriminate. destruct (ready s) as [|t r] eqn:Q; [discriminate|].
    match type of E with Next ?x = _ => assert (s' = x) as -> by congruence end. unfold phi.
    cbn [adding scheduling ready not_ready workers tasks rets]. rewrite Q. cbn [length].
    pose proof (wsum_upd (workers s) n w (Popped t) (Far w ltac:(congruence))) as Wu. rewrite W in Wu. cbn [weight] in Wu. lia.
  - destruct (workers s w) as [|t|t|t|t|] eqn:W; try discriminate. destruct (t_held (tasks s t)); [discriminate|].
    destruct (tstate_eqb (st s t) DEPENDENCIES_COMPLETED); [|discriminate].
    match type of E with Next ?x = _ => assert (s' = x) as -> by congruence end. unfold phi.
    cbn [set_worker adding scheduling ready not_ready workers tasks rets].
    pose proof (wsum_upd (workers s) n w (Checked t) (Far w ltac:(congruence))) as Wu. rewrite W in Wu. cbn [weight] in Wu. lia.
  - destruct (workers s w) as [|u|u|u|u|] eqn:W; try discriminate. destruct (Nat.eqb u t); [|discriminate].
    destruct (t_held (tasks s t)); [discriminate|]. destruct (tstate_eqb (st s t) DEPENDENCIES_COMPLETED); [|discriminate].
    match type of E with Next ?x = _ => assert (s' = x) as -> by congruence end. unfold phi.
    cbn [set_worker set_task adding scheduling ready not_ready workers tasks rets]. rewrite dsum_same by reflexivity.
    pose proof (wsum_upd (workers s) n w (Running t) (Far w ltac:(congruence))) as Wu. rewrite W in Wu. cbn [weight] in Wu. lia.
  - destruct (workers s w) as [|u|u|u|u|] eqn:W; try discriminate.
    match type of E with (if ?b then _ else _) = _ => destruct b end; [|discriminate].
    match type of E with Next ?x = _ => assert (s' = x) as -> by congruence end. unfold phi.
    cbn [set_worker set_task adding scheduling ready not_ready workers tasks rets]. rewrite dsum_same by reflexivity.
    pose proof (wsum_upd (workers s) n w (Notifying t) (Far w ltac:(congruence))) as Wu. rewrite W in Wu. cbn [weight] in Wu. lia.
  - destruct (workers s w) as [|t|t|t|t|] eqn:W; try discriminate.
    destruct (mem d (t_dependents (tasks s t))) eqn:M; [|discriminate]. apply mem_In in M.
    pose proof (a_w _ _ A w) as X. rewrite W in X. destruct X as [Sc Hh].
    pose proof (b_deps _ _ B _ _ M) as Ir.
    assert (Wd : waits s d t = true) by (unfold waits; apply orb_true_iff; right; now apply mem_In).
    pose proof (waits_early _ _ _ _ B Ir Wd) as Se.
    set (y := mk_task (st s t) (t_uncompleted (tasks s t)) (remove1 d (t_dependents (tasks s t))) (t_pool (tasks s t)) (t_held (tasks s t))) in E.
    set (s1 := set_task s t y) in E.
    assert (A1 : invA tr s1).
    { apply invA_ext with (s := s); auto. intros u. unfold s1. cbn [set_task tasks]. ext_task; cbn; auto. }
    apply odc_next in E. subst s'.
    assert (Se1 : st s1 d = NEW \/ st s1 d = DISPATCHED) by (unfold s1; cbn [set_task tasks]; ext_task; exact Se).
    pose proof (odc_phi n tr s1 d A1 Se1) as P.
    change (phi n (Notify w d :: tr) (odc_state s1 d)) with (phi n tr (odc_state s1 d)).
    change (rets (Notify w d :: tr)) with (rets tr) in Nr.
    assert (It : In t (rets tr)) by (apply rets_In, (a_ret _ _ A); congruence).
    pose proof (dsum_upd (tasks s) t y _ Nr It) as Du. apply remove1_len in M.
    assert (P1 : (phi n tr s1 + 1 <= phi n tr s)%nat).
    { unfold phi, s1. cbn [set_task adding scheduling ready not_ready workers tasks]. unfold y at 2 in Du. cbn [t_dependents] in Du. lia. }
    lia.
  - destruct (workers s w) as [|t|t|t|t|] eqn:W; try discriminate.
    destruct (t_dependents (tasks s t)) eqn:D; [|discriminate].
    match type of E with Next ?x = _ => assert (s' = x) as -> by congruence end. unfold phi.
    cbn [set_worker set_task adding scheduling ready not_ready workers tasks rets]. rewrite dsum_same by (symmetry; exact D).
    pose proof (wsum_upd (workers s) n w Waiting (Far w ltac:(congruence))) as Wu. rewrite W in Wu. cbn [weight] in Wu. lia.
  - destruct (workers s w) eqn:W; try discriminate. destruct (ready s) eqn:Q; [|discriminate].
    destruct (running s); [discriminate|].
    match type of E with Next ?x = _ => assert (s' = x) as -> by congruence end. unfold phi.
    cbn [set_worker adding scheduling ready not_ready workers tasks rets]. rewrite Q.
    pose proof (wsum_upd (workers s) n w Exited (Far w ltac:(congruence))) as Wu. rewrite W in Wu. cbn [weight] in Wu. lia.
Qed.
