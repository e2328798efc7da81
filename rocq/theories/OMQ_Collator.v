From Coq Require Import List ZArith Bool Lia.
From Verif Require Import OMQ_Model OMQ_Spec OMQ_Proofs.
Import ListNotations.
Local Open Scope Z_scope.

(** * Queues of one trajectory only produce events of that trajectory *)
Definition only (t : Z) (s : state) : Prop := forall k, In k (keys (queues s)) -> fst k = t.
Definition only_ev (t : Z) (tr : list event) : Prop := forall e, In e tr -> ev_traj e = t.

Lemma scan_keys last : forall qs best,
  match scan last best qs with
  | SAbort => True
  | SBlocked _ qs' | SDone qs' _ => forall k, In k (keys qs') -> In k (keys qs)
  end.
Proof.
  induction qs as [|[k0 q0] rest IH]; simpl; intros best; auto.
  destruct (q_data q0) as [|d0 r0].
  - destruct (q_fin q0); auto. specialize (IH best). destruct (scan last best rest); auto.
  - match goal with |- context [scan last (Some ?X) rest] => set (nb := X) in * end.
    destruct (last <=? it_time (snd nb)); auto.
    specialize (IH (Some nb)). destruct (scan last (Some nb) rest); auto; simpl; intuition.
Qed.

Lemma iter_only t s : only t s ->
  match iter s with
  | IAbort => True
  | IStop s' => only t s'
  | ICont s' e => only t s' /\ ev_traj e = t
  end.
Proof.
  intros O. unfold iter. pose proof (scan_keys (last_time s) (queues s) None) as H.
  destruct (scan (last_time s) None (queues s)) as [|k qs|qs [[k d]|]] eqn:Esc; auto.
  - intros k' Hk'. apply O, H; auto.
  - assert (Oq: forall k, In k (keys qs) -> fst k = t) by (intros; apply O, H; auto).
    destruct (get_common_start (fst k) (common_start s) qs) as [c cs].
    destruct (lookup k qs) as [q|] eqn:El; auto.
    assert (Hk: fst k = t) by (eapply Oq, in_keys, lookup_in; eauto).
    assert (Ou: forall q' l b, only t (mkState l cs (update k q' qs) b))
      by (intros q' l b k' Hk'; simpl in Hk'; rewrite update_keys in Hk'; auto).
    destruct (c <=? it_time d); auto.
    destruct (tl (q_data q)).
    + destruct (q_fin q); auto.
    + destruct (c <? it_time i); auto.
  - destruct qs; auto. intros k' [].
Qed.

Definition onlyr (t : Z) (r : result (state * list event)) : Prop :=
  match r with ROk (s, e) => only t s /\ only_ev t e | _ => True end.

Lemma dispatch_only t : forall n s, only t s -> onlyr t (dispatch_fuel n s).
Proof.
  induction n as [|n IH]; simpl; intros s O; auto.
  pose proof (iter_only t s O) as H. destruct (iter s) as [s1|s1 e|]; simpl; auto.
  - split; auto. intros e [].
  - destruct H as [O1 He]. specialize (IH s1 O1).
    destruct (dispatch_fuel n s1) as [[s2 e2]| |]; simpl in *; auto.
    destruct IH as [O2 E2]. split; auto. intros x [<-|Hx]; auto.
Qed.

Lemma mark_only t s k : only t s -> onlyr t (mark_finished k s).
Proof.
  intros O. unfold mark_finished. destruct (lookup k (queues s)); simpl; auto.
  destruct (q_fin q); simpl; auto. apply dispatch_only.
  intros k' Hk'. simpl in Hk'. rewrite update_keys in Hk'; auto.
Qed.

Lemma mark_all_only t : forall ks s, only t s -> onlyr t (mark_all ks s).
Proof.
  induction ks as [|k ks IH]; simpl; intros s O.
  - split; auto. intros e [].
  - pose proof (mark_only t s k O) as H. destruct (mark_finished k s) as [[s1 e1]| |]; simpl in *; auto.
    destruct H as [O1 E1]. specialize (IH s1 O1).
    destruct (mark_all ks s1) as [[s2 e2]| |]; simpl in *; auto.
    destruct IH as [O2 E2]. split; auto. intros x Hx. apply in_app_iff in Hx as [|]; auto.
Qed.

Lemma add_only t s k d : only t s -> fst k = t -> onlyr t (add k d s).
Proof.
  intros O Hk. unfold add. destruct (lookup k (queues s)).
  - apply dispatch_only. intros k' Hk'. simpl in Hk'. rewrite update_keys in Hk'; auto.
  - simpl. split; auto. intros e [<-|[]]; auto.
Qed.

Lemma add_queues_only t : forall ks s, only t s -> (forall k, In k ks -> fst k = t) ->
  match add_queues ks s with ROk s' => only t s' | _ => True end.
Proof.
  induction ks as [|k ks IH]; simpl; intros s O Hk; auto.
  unfold add_queue. destruct (lookup k (queues s)); simpl; auto.
  apply IH; auto. intros k' Hk'. simpl in Hk'. apply insert_keys in Hk' as [->|]; auto.
Qed.

(** * The trajectory collator *)
Definition tkeys (c : tcollator) : list Z := map fst c.

Record wf (c : tcollator) : Prop := mkWf {
  wf_nodup : NoDup (tkeys c);
  wf_only : forall t s ks, In (t, (s, ks)) c -> only t s }.

Lemma tlookup_in t v c : tlookup t c = Some v -> In (t, v) c.
Proof.
  induction c as [|[t' v'] r IH]; simpl; [discriminate|].
  destruct (t =? t') eqn:E.
  - apply Z.eqb_eq in E; subst. intros H; inversion H; auto.
  - auto.
Qed.

Lemma tlookup_none t c : tlookup t c = None <-> ~ In t (tkeys c).
Proof.
  induction c as [|[t' v'] r IH]; simpl; [tauto|].
  destruct (t =? t') eqn:E.
  - apply Z.eqb_eq in E; subst. split; [discriminate|tauto].
  - apply Z.eqb_neq in E. rewrite IH. intuition.
Qed.

Lemma tupdate_keys t v c : tkeys (tupdate t v c) = tkeys c.
Proof.
  induction c as [|[t' v'] r IH]; simpl; auto. destruct (t =? t'); simpl; auto.
  unfold tkeys in *; rewrite IH; auto.
Qed.

Lemma tupdate_in t v c x : In x (tupdate t v c) -> x = (t, v) \/ In x c.
Proof.
  induction c as [|[t' v'] r IH]; simpl; auto. destruct (t =? t') eqn:E; simpl.
  - apply Z.eqb_eq in E; subst. intuition.
  - intuition.
Qed.

Lemma tlookup_update t t2 v c : In t (tkeys c) ->
  tlookup t2 (tupdate t v c) = if t2 =? t then Some v else tlookup t2 c.
Proof.
  induction c as [|[t' v'] r IH]; simpl; [tauto|]. intros H.
  destruct (t =? t') eqn:E; simpl.
  - apply Z.eqb_eq in E; subst. destruct (t2 =? t'); auto.
  - destruct (t2 =? t') eqn:E2.
    + apply Z.eqb_eq in E2; subst. destruct (t' =? t) eqn:E3; auto.
      apply Z.eqb_eq in E3; subst. rewrite Z.eqb_refl in E; discriminate.
    + apply IH. destruct H as [<-|]; auto. rewrite Z.eqb_refl in E; discriminate.
Qed.

Lemma tlookup_app t c1 c2 : tlookup t (c1 ++ c2) =
  match tlookup t c1 with Some v => Some v | None => tlookup t c2 end.
Proof.
  induction c1 as [|[t' v'] r IH]; simpl; auto. destruct (t =? t'); auto.
Qed.

Lemma events_of_app t a b : events_of t (a ++ b) = events_of t a ++ events_of t b.
Proof. apply filter_app. Qed.

Lemma events_of_only t tr : only_ev t tr -> events_of t tr = tr.
Proof.
  induction tr as [|e tr IH]; simpl; intros H; auto.
  rewrite (H e); simpl; auto. rewrite Z.eqb_refl, IH; auto. intros x Hx; apply H; simpl; auto.
Qed.

Lemma events_of_other t t' tr : t' <> t -> only_ev t' tr -> events_of t tr = [].
Proof.
  intros N. induction tr as [|e tr IH]; simpl; intros H; auto.
  rewrite (H e); simpl; auto. replace (t' =? t) with false by (symmetry; apply Z.eqb_neq; auto).
  apply IH. intros x Hx; apply H; simpl; auto.
Qed.

Lemma flush_only t s : only t s -> onlyr t (flush s).
Proof. apply mark_all_only. Qed.

Lemma tflush_ok : forall c c' tr, wf c -> tflush c = ROk (c', tr) ->
  wf c' /\ tkeys c' = tkeys c /\
  (forall t, match tlookup t c with
             | None => tlookup t c' = None /\ events_of t tr = []
             | Some (s, ks) => exists s' e, flush s = ROk (s', e) /\
                 tlookup t c' = Some (s', ks) /\ events_of t tr = e /\ only_ev t e
             end).
Proof.
  induction c as [|[t0 [s0 ks0]] r IH]; simpl; intros c' tr W H.
  - inversion H; subst. split; [exact W|]. split; [reflexivity|]. intros t; simpl; split; reflexivity.
  - destruct (flush s0) as [[s1 e1]| |] eqn:Ef; simpl in H; try discriminate.
    destruct (tflush r) as [[c2 e2]| |] eqn:Et; simpl in H; try discriminate.
    inversion H; subst. clear H. destruct W as [W1 W2]. simpl in W1. inversion W1; subst.
    assert (O0: only t0 s0) by (apply (W2 t0 s0 ks0); simpl; auto).
    pose proof (flush_only t0 s0 O0) as O1. rewrite Ef in O1; simpl in O1. destruct O1 as [O1 O2].
    destruct (IH c2 e2) as [W' [K' L']]; auto.
    { constructor; auto. intros t s ks Hin. apply (W2 t s ks); simpl; auto. }
    split; [|split].
    + destruct W' as [W3 W4]. constructor.
      * simpl. constructor; [rewrite K'|]; auto.
      * intros t s ks [E|Hin]; [inversion E; subst; auto|eauto].
    + simpl. rewrite K'; auto.
    + intros t. simpl. destruct (t =? t0) eqn:E.
      * apply Z.eqb_eq in E; subst. exists s1, e1. split; auto. split; auto. split; auto.
        rewrite events_of_app, events_of_only; auto.
        specialize (L' t0). assert (Hn: tlookup t0 r = None) by (apply tlookup_none; auto).
        rewrite Hn in L'. destruct L' as [_ ->]. apply app_nil_r.
      * apply Z.eqb_neq in E. specialize (L' t).
        rewrite events_of_app, (events_of_other t t0); auto.
Qed.

Lemma texec_wf o c c' tr : wf c -> tcollator_exec o c = ROk (c', tr) -> wf c'.
Proof.
  intros W H. destruct o as [t ss|t x d|t|]; simpl in H.
  - destruct (tlookup t c) eqn:El; [discriminate|]. destruct ss as [|x ss]; [inversion H; subst; auto|].
    destruct (add_queues (map (fun x => (t, x)) (x :: ss)) init) as [s| |] eqn:Ea; simpl in H, Ea;
      unfold rbind in *; try (rewrite Ea in H); try discriminate.
    simpl in H. inversion H; subst. destruct W as [W1 W2]. constructor.
    + unfold tkeys. rewrite map_app; simpl. apply tlookup_none in El. unfold tkeys in *.
      clear -W1 El. induction (map fst c) as [|a l IH]; simpl; [repeat constructor; auto|].
      inversion W1; subst. constructor.
      * rewrite in_app_iff; simpl. intros [|[|[]]]; auto. subst; simpl in El; tauto.
      * apply IH; auto. simpl in El; tauto.
    + intros t' s' ks' Hin. apply in_app_iff in Hin as [Hin|[E|[]]]; [eauto|].
      inversion E; subst. pose proof (add_queues_only t' (map (fun x => (t', x)) (x :: ss)) init) as G.
      simpl in G. unfold rbind in G. rewrite Ea in G. apply G.
      * intros k [].
      * intros k [<-|Hk]; auto. apply in_map_iff in Hk as [y [<- _]]; auto.
  - destruct (tlookup t c) as [[s ks]|] eqn:El; [|discriminate].
    destruct W as [W1 W2]. pose proof (add_only t s (t, x) d (W2 _ _ _ (tlookup_in _ _ _ El)) eq_refl) as G.
    destruct (add (t, x) d s) as [[s1 e1]| |]; simpl in *; try discriminate.
    inversion H; subst. constructor; [rewrite tupdate_keys; auto|].
    intros t' s' ks' Hin. apply tupdate_in in Hin as [E|]; [inversion E; subst; tauto|eauto].
  - destruct (tlookup t c) as [[s ks]|] eqn:El; [|inversion H; subst; auto].
    destruct W as [W1 W2]. pose proof (mark_all_only t ks s (W2 _ _ _ (tlookup_in _ _ _ El))) as G.
    destruct (mark_all ks s) as [[s1 e1]| |]; simpl in *; try discriminate.
    inversion H; subst. constructor; [rewrite tupdate_keys; auto|].
    intros t' s' ks' Hin. apply tupdate_in in Hin as [E|]; [inversion E; subst; tauto|eauto].
  - apply tflush_ok in H; tauto.
Qed.

(** A call for another trajectory leaves [t] alone. *)
Lemma texec_other t o c c' tr : wf c -> concerns t o = false ->
  tcollator_exec o c = ROk (c', tr) -> tlookup t c' = tlookup t c /\ events_of t tr = [].
Proof.
  intros W Hc H. destruct o as [t' ss|t' x d|t'|]; simpl in *; try discriminate;
    apply Z.eqb_neq in Hc.
  - destruct (tlookup t' c) eqn:El; [discriminate|]. destruct ss as [|x ss]; [inversion H; subst; auto|].
    match type of H with context [rbind ?X _] => destruct X as [s| |] end; simpl in H; try discriminate.
    inversion H; subst. split; auto. rewrite tlookup_app.
    destruct (tlookup t c); auto. simpl. replace (t =? t') with false; auto.
    symmetry; apply Z.eqb_neq; auto.
  - destruct (tlookup t' c) as [[s ks]|] eqn:El; [|discriminate].
    destruct W as [W1 W2]. pose proof (add_only t' s (t', x) d (W2 _ _ _ (tlookup_in _ _ _ El)) eq_refl) as G.
    destruct (add (t', x) d s) as [[s1 e1]| |]; simpl in *; try discriminate.
    inversion H; subst. split.
    + rewrite tlookup_update; [|apply in_map_iff; eexists; split; [|eapply tlookup_in; eauto]; auto].
      replace (t =? t') with false; auto. symmetry; apply Z.eqb_neq; auto.
    + apply events_of_other with t'; tauto.
  - destruct (tlookup t' c) as [[s ks]|] eqn:El; [|inversion H; subst; auto].
    destruct W as [W1 W2]. pose proof (mark_all_only t' ks s (W2 _ _ _ (tlookup_in _ _ _ El))) as G.
    destruct (mark_all ks s) as [[s1 e1]| |]; simpl in *; try discriminate.
    inversion H; subst. split.
    + rewrite tlookup_update; [|apply in_map_iff; eexists; split; [|eapply tlookup_in; eauto]; auto].
      replace (t =? t') with false; auto. symmetry; apply Z.eqb_neq; auto.
    + apply events_of_other with t'; tauto.
Qed.

(** A call for [t] depends only on the entry of [t]. *)
Lemma texec_same t o c c' tr p : wf c -> wf p -> (forall t', t' <> t -> tlookup t' p = None) ->
  tlookup t p = tlookup t c -> concerns t o = true ->
  tcollator_exec o c = ROk (c', tr) ->
  exists p', tcollator_exec o p = ROk (p', events_of t tr) /\
    tlookup t p' = tlookup t c' /\ (forall t', t' <> t -> tlookup t' p' = None).
Proof.
  intros W Wp Hp Hlk Hc H. destruct o as [t' ss|t' x d|t'|]; simpl in *;
    try apply Z.eqb_eq in Hc; subst.
  - rewrite Hlk. destruct (tlookup t c) eqn:El; [discriminate|].
    destruct ss as [|x ss].
    + inversion H; subst. exists p. rewrite Hlk, El; auto.
    + simpl in H. match type of H with context [rbind ?X _] => destruct X as [s| |] eqn:EX end;
        simpl in H; try discriminate. inversion H; subst.
      simpl in EX. simpl. unfold rbind in *. rewrite EX.
      eexists; split; [reflexivity|]. rewrite !tlookup_app, Hlk, El. split; auto.
      intros t' N. rewrite tlookup_app, Hp; auto. simpl.
      replace (t' =? t) with false; auto. symmetry; apply Z.eqb_neq; auto.
  - rewrite Hlk. destruct (tlookup t c) as [[s ks]|] eqn:El; [|discriminate].
    pose proof (add_only t s (t, x) d (wf_only _ W _ _ _ (tlookup_in _ _ _ El)) eq_refl) as G.
    destruct (add (t, x) d s) as [[s1 e1]| |]; simpl in *; try discriminate.
    inversion H; subst. rewrite events_of_only; [|tauto].
    eexists; split; [reflexivity|].
    assert (In t (tkeys p)) by (apply in_map_iff; eexists; split; [|eapply tlookup_in; eauto]; auto).
    assert (In t (tkeys c)) by (apply in_map_iff; eexists; split; [|eapply tlookup_in; eauto]; auto).
    split.
    + rewrite !tlookup_update; auto. rewrite Z.eqb_refl; auto.
    + intros t' N. rewrite tlookup_update; auto. apply Z.eqb_neq in N as N'. rewrite N'; auto.
  - rewrite Hlk. destruct (tlookup t c) as [[s ks]|] eqn:El.
    + pose proof (mark_all_only t ks s (wf_only _ W _ _ _ (tlookup_in _ _ _ El))) as G.
      destruct (mark_all ks s) as [[s1 e1]| |]; simpl in *; try discriminate.
      inversion H; subst. rewrite events_of_only; [|tauto].
      eexists; split; [reflexivity|].
      assert (In t (tkeys p)) by (apply in_map_iff; eexists; split; [|eapply tlookup_in; eauto]; auto).
      assert (In t (tkeys c)) by (apply in_map_iff; eexists; split; [|eapply tlookup_in; eauto]; auto).
      split.
      * rewrite !tlookup_update; auto. rewrite Z.eqb_refl; auto.
      * intros t' N. rewrite tlookup_update; auto. apply Z.eqb_neq in N as N'. rewrite N'; auto.
    + inversion H; subst. exists p. rewrite El; auto.
  - destruct (tflush_ok c c' tr W H) as [W' [K' L']]. specialize (L' t).
    (* p has at most the entry of t *)
    destruct p as [|[t0 [s0 ks0]] p].
    + simpl in Hlk. rewrite <- Hlk in L'. destruct L' as [L1 L2]. exists []. simpl.
      rewrite L1, L2; auto.
    + assert (t0 = t).
      { destruct (Z.eq_dec t0 t); auto. specialize (Hp t0 n). simpl in Hp.
        rewrite Z.eqb_refl in Hp; discriminate. }
      subst t0.
      assert (p = []).
      { destruct p as [|[t1 v1] p]; auto. exfalso.
        pose proof (wf_nodup _ Wp) as Nd. simpl in Nd. inversion Nd; subst.
        destruct (Z.eq_dec t1 t) as [->|n]; [simpl in *; tauto|].
        specialize (Hp t1 n). simpl in Hp. apply Z.eqb_neq in n as n'. rewrite n', Z.eqb_refl in Hp.
        discriminate. }
      subst p. simpl in Hlk. rewrite Z.eqb_refl in Hlk. rewrite <- Hlk in L'.
      destruct L' as [s' [e [F [L1 [L2 L3]]]]]. simpl. rewrite F; simpl.
      eexists; split; [rewrite L2, app_nil_r; reflexivity|]. simpl. rewrite Z.eqb_refl, L1. split; auto.
      intros t' N. apply Z.eqb_neq in N as N'. rewrite N'; auto.
Qed.

Lemma trun_isolation t : forall ops c p c' tr, wf c -> wf p ->
  (forall t', t' <> t -> tlookup t' p = None) -> tlookup t p = tlookup t c ->
  tcollator_run ops c = ROk (c', tr) ->
  exists p', tcollator_run (filter (concerns t) ops) p = ROk (p', events_of t tr) /\
             tlookup t p' = tlookup t c'.
Proof.
  induction ops as [|o ops IH]; simpl; intros c p c' tr W Wp Hp Hlk H.
  - inversion H; subst. exists p; auto.
  - destruct (tcollator_exec o c) as [[c1 e1]| |] eqn:E1; simpl in H; try discriminate.
    destruct (tcollator_run ops c1) as [[c2 e2]| |] eqn:E2; simpl in H; try discriminate.
    inversion H; subst. pose proof (texec_wf _ _ _ _ W E1) as W1.
    destruct (concerns t o) eqn:Ec.
    + destruct (texec_same t o c c1 e1 p W Wp Hp Hlk Ec E1) as [p1 [F1 [F2 F3]]].
      pose proof (texec_wf _ _ _ _ Wp F1) as Wp1.
      destruct (IH c1 p1 c' e2 W1 Wp1 F3 F2 E2) as [p2 [G1 G2]].
      exists p2. simpl. rewrite F1; simpl. rewrite G1; simpl. rewrite events_of_app; auto.
    + destruct (texec_other t o c c1 e1 W Ec E1) as [F1 F2].
      destruct (IH c1 p c' e2 W1 Wp Hp) as [p2 [G1 G2]]; auto.
      * congruence.
      * exists p2. rewrite events_of_app, F2; auto.
Qed.

Lemma isolation_lem t ops c tr : tcollator_run ops [] = ROk (c, tr) ->
  exists p, tcollator_run (filter (concerns t) ops) [] = ROk (p, events_of t tr).
Proof.
  intros H. assert (W: wf []) by (constructor; [constructor|intros; contradiction]).
  destruct (trun_isolation t ops [] [] c tr W W) as [p [G _]]; eauto.
Qed.
