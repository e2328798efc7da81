From Coq Require Import List ZArith Bool Lia.
From Verif Require Import ZMap MapById_Model MapById_Spec MapById_Proofs PG_Model PG_Maps PG_Spec PG_Proofs.
Import ListNotations.
Open Scope Z_scope.

Lemma mem_cons x y l : mem x (y :: l) = id_eqb x y || mem x l.
Proof. reflexivity. Qed.

Lemma remove_nodes_ok l : forall g g', wfg g -> remove_nodes l g = Some g' ->
  wfg g' /\ g' = set_onodes (onodes g') (set_nodes (nodes g') g) /\
  (forall y, get y (nodes g') = if mem y l then None else get y (nodes g)) /\
  (forall y, get y (onodes g') = if mem y l then None else get y (onodes g)) /\
  (forall y, In y l -> get y (nodes g) <> None /\ get y (onodes g) <> None) /\ NoDup l.
Proof.
  induction l as [|n l IH]; intros g g' W H; cbn [remove_nodes] in H.
  - injection H as <-. split; [exact W|]. split; [now destruct g|]. repeat split; auto; try contradiction.
    constructor.
  - ob H. ob H.
    pose proof (trim_get (nodes g) n (w_nodes _ W)) as A. rewrite E in A. destruct A as (Wm & Nm & Gm & _).
    pose proof (trim_get (onodes g) n (w_onodes _ W)) as B. rewrite E0 in B. destruct B as (Wp & Np & Gp & _).
    assert (W1 : wfg (set_onodes m0 (set_nodes m g))) by (destruct W; constructor; cbn; auto).
    destruct (IH _ _ W1 H) as (W' & Eq & Gn & Go & Hin & ND). split; [exact W'|]. cbn in Gn, Go.
    split; [rewrite Eq; now cbn|]. split; [|split; [|split]].
    + intros y. rewrite Gn, Gm, mem_cons. destruct (mem y l), (id_eqb y n); reflexivity.
    + intros y. rewrite Go, Gp, mem_cons. destruct (mem y l), (id_eqb y n); reflexivity.
    + intros y [<- | J]; [auto|]. destruct (Hin y J) as [J1 J2]. cbn in J1, J2. rewrite Gm in J1.
      rewrite Gp in J2. destruct (id_eqb y n); [congruence | auto].
    + constructor; [|exact ND]. intros J. destruct (Hin n J) as [J1 _]. cbn in J1. rewrite Gm in J1.
      rewrite id_eqb_refl in J1. congruence.
Qed.

(* the nodes trim_submap removes *)
Definition exclusive (s : id) (g : graph) (d : sub) : list id :=
  filter (fun n => negb (mem n (flat_map (fun e => nids (snd e))
            (filter (fun e => negb (id_eqb (fst e) s)) (entries (subs g)))))) (nids d).

Lemma exclusive_In g s d n : wf (subs g) -> get s (subs g) = Some d ->
  In n (exclusive s g d) <-> only_in g s n.
Proof.
  intros W G. unfold exclusive. rewrite filter_In, negb_true_iff, mem_false, in_flat_map. unfold only_in.
  split.
  - intros [I N]. split; [exists d; auto|]. intros s' (d' & G' & I').
    destruct (id_dec s' s) as [|Ne]; [assumption|]. exfalso. apply N. exists (s', d'). split; [|exact I'].
    apply filter_In. split; [now apply entries_In|]. cbn. destruct (id_eqb_spec s' s); [contradiction | reflexivity].
  - intros [(d0 & G0 & I) U]. fold (get s (subs g)) in G0. rewrite G in G0. injection G0 as <-.
    split; [exact I|]. intros ([s' d'] & J & I'). apply filter_In in J as [J Ne]. cbn in *.
    apply entries_In in J; [|exact W]. rewrite (U s') in Ne; [|exists d'; auto].
    rewrite id_eqb_refl in Ne. discriminate.
Qed.

Lemma kept_filter {A} (f : A -> bool) (P : A -> Prop) l : (forall a, f a = true <-> P a) ->
  kept P l (filter f l).
Proof.
  intros H. induction l as [|a l IH]; cbn; [constructor|]. destruct (f a) eqn:E.
  - constructor; [now apply H | exact IH].
  - constructor; [rewrite <- H; congruence | exact IH].
Qed.
Lemma kept_In {A} (P : A -> Prop) l l' : kept P l l' -> forall a, In a l' <-> In a l /\ P a.
Proof.
  induction 1 as [|a l l' Pa K IH|a l l' Na K IH]; intros b; cbn; rewrite ?IH; intuition (subst; auto; contradiction).
Qed.
Lemma filter_filter {A} (f g : A -> bool) l : filter f (filter g l) = filter (fun a => g a && f a) l.
Proof.
  induction l as [|a l IH]; [reflexivity|]. cbn. destruct (g a); cbn; [destruct (f a); now rewrite IH | exact IH].
Qed.

(* when TrimSubmap goes through, and what it does *)
Lemma trim_submap_ok s g : wfg g ->
  match trim_submap s g with
  | Some g' => wfg g' /\ trimmed s g g' /\ stored s (osubs g) /\
               (exists d, get s (subs g) = Some d /\ fin d = true) /\
               (forall n, only_in g s n -> stored n (nodes g) /\ stored n (onodes g)) /\
               num_nodes g' = num_nodes g /\ num_finished g' = num_finished g
  | None => True
  end.
Proof.
  intros W. destruct (trim_submap s g) as [g'|] eqn:H; [|exact I]. unfold trim_submap in H.
  ob H. ob H. cbv zeta in H. fold (exclusive s g s0) in H. ob H. ob H.
  pose proof (trim_get (subs g) s (w_subs _ W)) as A. rewrite E1 in A. destruct A as (Wm & Nm & Gm & _).
  pose proof (trim_get (osubs g) s (w_osubs _ W)) as B. rewrite E2 in B. destruct B as (Wp & Np & Gp & _).
  match type of H with remove_nodes _ ?x = _ => set (g1 := x) in * end.
  assert (W1 : wfg g1) by (destruct W; constructor; cbn; auto).
  destruct (remove_nodes_ok _ _ _ W1 H) as (W' & Eq & Gn & Go & Hin & _).
  assert (X : forall n, mem n (exclusive s g s0) = true <-> only_in g s n).
  { intros n. rewrite mem_spec. apply exclusive_In; [apply W | exact E]. }
  assert (Xf : forall n, mem n (exclusive s g s0) = false <-> ~ only_in g s n).
  { intros n. rewrite <- X. destruct (mem n (exclusive s g s0)); split; congruence. }
  assert (F : subs g' = m /\ osubs g' = m0 /\ constraints g' = constraints g1 /\ gposes g' = gposes g /\
              trajs g' = trajs g /\ trimmers g' = trimmers g /\ searches g' = searches g /\
              added g' = added g /\ initial g' = initial g /\
              num_nodes g' = num_nodes g /\ num_finished g' = num_finished g).
  { rewrite Eq. cbn. repeat split. }
  destruct F as (F1 & F2 & F3 & F4 & F5 & F6 & F7 & F8 & F9 & F10 & F11). split; [exact W'|]. split.
  - split; [|split; [|split; [|split; [|split; [|now repeat split]]]]].
    + intros x. fold (get x (subs g')) (get x (subs g)). rewrite F1, Gm. destruct (id_eqb_spec x s); split; congruence.
    + intros x. fold (get x (osubs g')) (get x (osubs g)). rewrite F2, Gp. destruct (id_eqb_spec x s); split; congruence.
    + intros x. fold (get x (nodes g')) (get x (nodes g)). rewrite Gn. cbn [nodes set_osubs set_subs set_constraints g1].
      split; intros P.
      * apply X in P. now rewrite P.
      * apply Xf in P. now rewrite P.
    + intros x. fold (get x (onodes g')) (get x (onodes g)). rewrite Go. split; intros P.
      * apply X in P. now rewrite P.
      * apply Xf in P. now rewrite P.
    + rewrite F3. cbn. rewrite filter_filter. apply kept_filter. intros c.
      rewrite andb_true_iff, !negb_true_iff, Xf. destruct (id_eqb_spec (c_sub c) s); intuition congruence.
  - split; [exact Np|]. split; [eauto|]. split; [|auto]. intros n P. apply X in P. apply mem_spec in P.
    exact (Hin n P).
Qed.

(* ... and that it does go through *)
Lemma remove_nodes_total l : forall g, wfg g -> NoDup l ->
  (forall y, In y l -> get y (nodes g) <> None /\ get y (onodes g) <> None) ->
  exists g', remove_nodes l g = Some g'.
Proof.
  induction l as [|n l IH]; intros g W ND Hin; cbn [remove_nodes]; [eauto|].
  inversion ND as [|? ? Nn ND']; subst. destruct (Hin n (or_introl eq_refl)) as [A B].
  pose proof (trim_get (nodes g) n (w_nodes _ W)) as T1.
  pose proof (trim_get (onodes g) n (w_onodes _ W)) as T2.
  destruct (mbi_trim (fst n) (snd n) (nodes g)) as [m|]; [|contradiction].
  destruct (mbi_trim (fst n) (snd n) (onodes g)) as [p|]; [|contradiction]. cbn [bind].
  destruct T1 as (Wm & _ & Gm & _), T2 as (Wp & _ & Gp & _). apply IH; [|exact ND'|].
  - destruct W; constructor; cbn; auto.
  - intros y J. destruct (Hin y (or_intror J)). cbn. rewrite Gm, Gp.
    destruct (id_eqb_spec y n) as [->|]; [contradiction | auto].
Qed.
Lemma trim_submap_total s g d : wfg g -> get s (subs g) = Some d -> fin d = true -> NoDup (nids d) ->
  stored s (osubs g) -> (forall n, only_in g s n -> stored n (nodes g) /\ stored n (onodes g)) ->
  exists g', trim_submap s g = Some g'.
Proof.
  intros W G F ND So Hx. unfold trim_submap. rewrite G. cbn [bind]. rewrite F. cbv zeta.
  fold (exclusive s g d).
  pose proof (trim_get (subs g) s (w_subs _ W)) as A. destruct (mbi_trim (fst s) (snd s) (subs g)) as [m|];
    [|congruence]. cbn [bind].
  pose proof (trim_get (osubs g) s (w_osubs _ W)) as B. destruct (mbi_trim (fst s) (snd s) (osubs g)) as [p|];
    [|contradiction]. cbn [bind]. destruct A as (Wm & _), B as (Wp & _).
  apply remove_nodes_total.
  - destruct W; constructor; cbn; auto.
  - now apply NoDup_filter.
  - intros y J. apply exclusive_In in J; [|apply W | exact G]. exact (Hx y J).
Qed.

Lemma trimmed_recorded s g g' x n : trimmed s g g' -> recorded g' x n <-> x <> s /\ recorded g x n.
Proof.
  intros (A & _). destruct (A x) as [A1 A2]. unfold recorded. split.
  - intros (d & G & I). destruct (id_dec x s) as [->|N]; [rewrite A1 in G by reflexivity; discriminate|].
    rewrite A2 in G by exact N. eauto.
  - intros [N (d & G & I)]. exists d. now rewrite A2.
Qed.

Lemma inv_trim s g g' : inv g -> searches g = [] -> trim_submap s g = Some g' ->
  inv g' /\ searches g' = [].
Proof.
  intros [W [IC IN] IS] S H. pose proof (trim_submap_ok s g W) as K. rewrite H in K.
  destruct K as (W' & T & _). pose proof T as (A & _ & B & _ & C & _ & _ & _ & Q & _).
  assert (N : forall n, stored n (nodes g) -> ~ only_in g s n -> stored n (nodes g')).
  { intros n Sn Nn. unfold stored. now rewrite (proj2 (B n) Nn). }
  split; [|congruence]. split; [exact W' | split |].
  - intros c J. apply (kept_In _ _ _ C) in J as [J [Ns Nx]]. destruct (IC c J) as [Sn Ss].
    split; [now apply N|]. unfold stored. now rewrite (proj2 (A (c_sub c)) Ns).
  - intros x n R. apply (trimmed_recorded _ _ _ _ _ T) in R as [Ne R]. apply N; [eauto|].
    intros [_ U]. elim Ne. now apply U.
  - rewrite Q, S. contradiction.
Qed.
Lemma inv_trim_all l : forall g g', inv g -> searches g = [] -> trim_all l g = Some g' ->
  inv g' /\ searches g' = [].
Proof.
  induction l as [|s l IH]; intros g g' I S H; cbn [trim_all] in H; [injection H as <-; auto|].
  ob H. destruct (inv_trim _ _ _ I S E) as [I1 S1]. eauto.
Qed.
Lemma inv_delete l : forall g g', inv g -> searches g = [] -> delete_trajectories l g = Some g' ->
  inv g' /\ searches g' = [].
Proof.
  induction l as [|[t [st ds]] l IH]; intros g g' I S H; cbn [delete_trajectories] in H; [injection H as <-; auto|].
  destruct ds; try (eapply IH; eassumption). ob H. destruct (inv_trim_all _ _ _ I S E) as [I1 S1].
  eapply IH; [| | exact H]; [now apply inv_trajs | exact S1].
Qed.
Lemma inv_trim_one ch tr g a : inv g -> searches g = [] -> trim_one ch tr g = Some a ->
  inv (snd a) /\ searches (snd a) = [].
Proof.
  intros I S H. destruct tr; cbn [trim_one] in H.
  - unfold trim_pure in H. cbv zeta in H. ob H. destruct (inv_trim_all _ _ _ I S E) as [I1 S1].
    injection H as <-. destruct ((if is_finished t g then 0 else keep) =? 0); cbn; auto using inv_trajs.
  - ob H. injection H as <-. cbn. eapply inv_trim_all; eassumption.
Qed.
Lemma inv_trim_with chs l : forall k g a, inv g -> searches g = [] -> trim_with chs k l g = Some a ->
  inv (snd a) /\ searches (snd a) = [].
Proof.
  induction l as [|tr l IH]; intros k g a I S H; cbn [trim_with] in H; [injection H as <-; auto|].
  ob H. ob H. injection H as <-. cbn. destruct (inv_trim_one _ _ _ _ I S E) as [I1 S1]. eauto.
Qed.
Lemma inv_handling res chs g g' : inv g -> searches g = [] -> finish_handling res chs g = Some g' ->
  inv g' /\ searches g' = [].
Proof.
  intros I S H. unfold finish_handling in H. ob H. ob H. ob H. injection H as <-.
  destruct (inv_delete _ _ _ I S E0) as [I1 S1]. destruct (inv_trim_with _ _ _ _ _ I1 S1 E1) as [I2 S2].
  split; [|exact S2].
  match goal with |- inv (set_since 0 ?x) =>
    change (inv (set_since 0 (set_num_finished (num_finished x) (set_num_nodes (num_nodes x) x)))) end.
  now apply inv_counts, inv_trimmers.
Qed.

(* searches are running only while items are executed *)
Definition quiet (s : sys) : Prop :=
  match md s with Optimizing _ | Handling _ => searches (gr s) = [] | _ => True end.
Lemma call_searches c g r : do_call c g = Some r -> searches (fst r) = searches g.
Proof.
  intros H. destruct c; cbn [do_call] in H;
    repeat match type of H with
           | bind ?e _ = Some _ => let E := fresh "E" in destruct e eqn:E; [cbn [bind] in H | discriminate H]
           | (if ?b then _ else None) = Some _ => destruct b; [|discriminate H]
           end;
    try (injection H as <-; cbn; try reflexivity).
  - unfold append_node in E. destruct (rev objs); [discriminate|]. ob E. ob E. ob E. cbv zeta in E.
    assert (S : searches g0 = searches g).
    { unfold add_trajectory in E0. destruct (traj_state t g) as [[] []]; try discriminate; now injection E0 as <-. }
    match type of E with (if ?b then _ else _) = _ => destruct b end.
    + ob E. injection E as <-. exact S.
    + injection E as <-. exact S.
  - destruct (zfind t (trajs g)) as [[s ds]|]; now injection H as <-.
  - unfold add_trajectory in E. destruct (traj_state (fst s) g) as [[] []]; try discriminate; now injection E as <-.
  - unfold add_trajectory in E. destruct (traj_state (fst n) g) as [[] []]; try discriminate; now injection E as <-.
  - destruct tr; [ob H|]; now injection H as <-.
Qed.

Lemma results_ok found g c : inv g -> In c (results found g) ->
  stored (c_node c) (nodes g) /\ stored (c_sub c) (subs g) /\ c_inter c = true.
Proof.
  intros I J. unfold results in J. apply in_map_iff in J as ([s n] & <- & J). cbn.
  apply filter_In in J as [J _]. destruct (i_search _ I s n J). auto.
Qed.

Lemma inv_step every_n e s s' : inv (gr s) -> quiet s ->
  (match e, md s, queue s with
   | Work _, Draining, INodeToSubmap n _ :: _ => stored n (nodes (gr s))
   | _, _, _ => True
   end) ->
  step every_n e s = Some s' -> inv (gr s') /\ quiet s'.
Proof.
  intros I Q T H. destruct s as [g q md]. unfold quiet in *. cbn [gr queue PG_Model.md] in *. destruct e; cbn [step PG_Model.md gr queue] in H.
  - ob H. destruct p as [g1 its]. cbn [fst snd] in H. injection H as <-. cbn [gr queue PG_Model.md].
    split; [now apply (inv_call _ _ _ _ I E)|].
    pose proof (call_searches _ _ _ E) as S. cbn in S.
    destruct md; try exact Logic.I; [destruct its; exact Logic.I | | ]; congruence.
  - destruct md; try (injection H as <-; now split).
    destruct q as [|i q]; [injection H as <-; now split|]. ob H. destruct p as [g1 b]. cbn [fst snd] in H.
    injection H as <-. cbn [gr]. split.
    + eapply inv_exec; [exact I | | exact E]. destruct i; try exact Logic.I. exact T.
    + cbn. now destruct b.
  - destruct md; try (injection H as <-; now split). injection H as <-. cbn [gr PG_Model.md]. split; [|reflexivity].
    apply inv_no_searches, inv_constraints; [exact I|]. intros c J. destruct (results_ok _ _ _ I J) as (? & ? & _). auto.
  - destruct md; try (injection H as <-; now split). ob H. injection H as <-. cbn.
    split; [eapply inv_optimize; eassumption|]. unfold run_optimization in E.
    destruct (entries (osubs g)); [injection E as <-; exact Q|]. ob E. ob E. ob E. now injection E as <-.
  - destruct md; try (injection H as <-; now split). ob H. injection H as <-. cbn. split; [|exact Logic.I].
    eapply inv_handling; eassumption.
  - destruct md; try (injection H as <-; now split). ob H. injection H as <-. cbn. split; [|exact Logic.I].
    apply inv_no_searches, inv_constraints; [exact I|]. intros c J. destruct (results_ok _ _ _ I J) as (? & ? & _). auto.
Qed.

Lemma inv_init : inv (gr init).
Proof.
  split; [constructor; apply wf_nil | split | contradiction].
  - contradiction.
  - intros s n (d & E & _). discriminate.
Qed.
Lemma inv_run every_n es : forall s s', inv (gr s) -> quiet s -> tidy every_n es s ->
  run every_n es s = Some s' -> inv (gr s') /\ quiet s'.
Proof.
  induction es as [|e es IH]; intros s s' I Q T H; cbn [run] in H; [injection H as <-; auto|].
  cbn [tidy] in T. destruct T as [T1 T2]. ob H. destruct (inv_step _ _ _ _ I Q T1 E) as [I1 Q1].
  eauto.
Qed.
