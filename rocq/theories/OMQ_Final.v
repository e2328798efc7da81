From Coq Require Import List ZArith Bool Lia Sorted.
From Verif Require Import OMQ_Model OMQ_Spec OMQ_Proofs OMQ_Inv OMQ_Run.
Import ListNotations.
Local Open Scope Z_scope.

(** * Unconditional time order *)
Lemma scan_last last : forall qs best qs' k d,
  (forall b, best = Some b -> last <= it_time (snd b)) ->
  scan last best qs = SDone qs' (Some (k, d)) -> last <= it_time d.
Proof.
  induction qs as [|[k0 q0] rest IH]; simpl; intros best qs' k d Hb H.
  - inversion H; subst. apply (Hb (k, d)); auto.
  - destruct (q_data q0) as [|d0 r0].
    + destruct (q_fin q0); [|discriminate]. eauto.
    + match type of H with context [scan last (Some ?X) rest] => set (nb := X) in * end.
      destruct (last <=? it_time (snd nb)) eqn:El; [|discriminate].
      destruct (scan last (Some nb) rest) as [|kk qq|qq bb] eqn:Esc; try discriminate.
      inversion H; subst. eapply IH; [|apply Esc].
      intros b E; inversion E; subst. apply Z.leb_le; auto.
Qed.

Definition tinv (tr : list event) (s : state) : Prop :=
  StronglySorted time_le (delivered tr) /\
  (forall e, In e (delivered tr) -> it_time (snd e) <= last_time s).

Lemma tinv_iter tr s s' e : tinv tr s -> iter s = ICont s' e -> tinv (tr ++ [e]) s'.
Proof.
  intros [T1 T2]. unfold iter.
  destruct (scan (last_time s) None (queues s)) as [|k qs|qs [[k d]|]] eqn:Esc; try discriminate.
  2:{ destruct qs; discriminate. }
  apply scan_last in Esc; [|intros; discriminate].
  destruct (get_common_start (fst k) (common_start s) qs) as [c cs].
  destruct (lookup k qs) as [q|]; [|discriminate].
  assert (Hdel: forall x, tinv (tr ++ [Deliver k d])
     (mkState (it_time d) cs x (blocker s))).
  { intros x. split; rewrite delivered_app; simpl.
    - apply SS_snoc; auto. intros y Hy. apply T2 in Hy. unfold time_le; simpl; lia.
    - intros y Hy. apply in_app_iff in Hy as [Hy|[<-|[]]]; simpl; [|lia].
      apply T2 in Hy; lia. }
  assert (Hdrop: forall x, tinv (tr ++ [Drop k d])
     (mkState (last_time s) cs x (blocker s))).
  { intros x. split; rewrite delivered_app; simpl; rewrite app_nil_r; auto. }
  destruct (c <=? it_time d).
  - intros H; inversion H; subst; auto.
  - destruct (tl (q_data q)).
    + destruct (q_fin q); intros H; inversion H; subst; auto.
    + destruct (c <? it_time i); intros H; inversion H; subst; auto.
Qed.

Lemma tinv_stop tr s s' : tinv tr s -> iter s = IStop s' -> tinv tr s'.
Proof.
  intros T. unfold iter.
  assert (H: forall cs x b, tinv tr (mkState (last_time s) cs x b)) by (intros; exact T).
  destruct (scan (last_time s) None (queues s)) as [|k qs|qs [[k d]|]] eqn:Esc; try discriminate.
  - intros E; inversion E; subst; auto.
  - destruct (get_common_start (fst k) (common_start s) qs) as [c cs].
    destruct (lookup k qs) as [q|]; [|discriminate].
    destruct (c <=? it_time d); [discriminate|].
    destruct (tl (q_data q)).
    + destruct (q_fin q); intros E; inversion E; subst; auto.
    + destruct (c <? it_time i); discriminate.
  - destruct qs; intros E; inversion E; subst; auto.
Qed.

Lemma tinv_dispatch : forall n tr s s' evs, tinv tr s ->
  dispatch_fuel n s = ROk (s', evs) -> tinv (tr ++ evs) s'.
Proof.
  induction n as [|n IH]; simpl; intros tr s s' evs T H; [discriminate|].
  destruct (iter s) as [s1|s1 e|] eqn:Ei; try discriminate.
  - inversion H; subst. rewrite app_nil_r. eapply tinv_stop; eauto.
  - destruct (dispatch_fuel n s1) as [[s2 e2]| |] eqn:Ed; simpl in H; try discriminate.
    inversion H; subst. simpl. change (e :: e2) with ([e] ++ e2). rewrite app_assoc.
    eapply IH; eauto. eapply tinv_iter; eauto.
Qed.

Lemma tinv_mark tr s k s' evs : tinv tr s -> mark_finished k s = ROk (s', evs) -> tinv (tr ++ evs) s'.
Proof.
  unfold mark_finished. intros T H. destruct (lookup k (queues s)) as [q|]; [|discriminate].
  destruct (q_fin q); [discriminate|]. eapply tinv_dispatch; [|exact H]. exact T.
Qed.

Lemma tinv_mark_all : forall ks tr s s' evs, tinv tr s ->
  mark_all ks s = ROk (s', evs) -> tinv (tr ++ evs) s'.
Proof.
  induction ks as [|k ks IH]; simpl; intros tr s s' evs T H.
  - inversion H; subst. rewrite app_nil_r; auto.
  - destruct (mark_finished k s) as [[s1 e1]| |] eqn:E1; simpl in H; try discriminate.
    destruct (mark_all ks s1) as [[s2 e2]| |] eqn:E2; simpl in H; try discriminate.
    inversion H; subst. rewrite app_assoc. eapply IH; eauto. eapply tinv_mark; eauto.
Qed.

Lemma tinv_exec tr s o s' evs : tinv tr s -> exec o s = ROk (s', evs) -> tinv (tr ++ evs) s'.
Proof.
  intros T. destruct o as [k|k d|k|]; simpl.
  - unfold add_queue. destruct (lookup k (queues s)); simpl; intros H; inversion H; subst.
    rewrite app_nil_r. exact T.
  - unfold add. destruct (lookup k (queues s)).
    + intros H. eapply tinv_dispatch; [|exact H]. exact T.
    + intros H; inversion H; subst. destruct T as [T1 T2].
      split; rewrite delivered_app; simpl; rewrite app_nil_r; auto.
  - apply tinv_mark; auto.
  - apply tinv_mark_all; auto.
Qed.

Lemma tinv_run : forall h tr s s' evs, tinv tr s -> run h s = ROk (s', evs) -> tinv (tr ++ evs) s'.
Proof.
  induction h as [|o h IH]; simpl; intros tr s s' evs T H.
  - inversion H; subst. rewrite app_nil_r; auto.
  - destruct (exec o s) as [[s1 e1]| |] eqn:E1; simpl in H; try discriminate.
    destruct (run h s1) as [[s2 e2]| |] eqn:E2; simpl in H; try discriminate.
    inversion H; subst. rewrite app_assoc. eapply IH; eauto. eapply tinv_exec; eauto.
Qed.

Lemma omq_time_order_lem h s tr : run h init = ROk (s, tr) -> StronglySorted time_le (delivered tr).
Proof.
  intros H. apply (tinv_run h [] init) in H; [apply H|].
  split; simpl; [constructor|tauto].
Qed.

(** * Fuel always suffices *)
Lemma iter_total s s' e : ksorted (queues s) -> iter s = ICont s' e ->
  S (total_items (queues s')) = total_items (queues s) /\ ksorted (queues s').
Proof.
  intros Hs. unfold iter.
  destruct (scan (last_time s) None (queues s)) as [|k qs|qs [[k d]|]] eqn:Esc; try discriminate.
  2:{ destruct qs; discriminate. }
  apply scan_done in Esc; auto; [|intros; discriminate].
  destruct Esc as [H1 [_ [H3 _]]].
  destruct H3 as [|[q0 [r0 [H5 [H6 _]]]]]; [discriminate|].
  assert (Hs': ksorted qs) by (rewrite H1; apply filter_keys_sorted; auto).
  assert (Hl: lookup k qs = Some q0).
  { apply in_lookup; auto. rewrite H1. apply filter_In; split; auto.
    unfold nonempty; simpl; rewrite H6; auto. }
  destruct (get_common_start (fst k) (common_start s) qs) as [c cs].
  rewrite Hl, H6; simpl.
  assert (Ht: S (total_items (update k (mkQueue r0 (q_fin q0)) qs)) = total_items (queues s)).
  { pose proof (total_items_update k q0 (mkQueue r0 (q_fin q0)) qs Hl) as Ht.
    rewrite H6 in Ht; simpl in Ht. rewrite <- (total_items_filter (queues s)), <- H1. lia. }
  assert (Hs2: ksorted (update k (mkQueue r0 (q_fin q0)) qs)) by (apply update_sorted; auto).
  destruct (c <=? it_time d); [intros H; inversion H; subst; auto|].
  destruct r0 as [|d2 r2].
  - destruct (q_fin q0) eqn:E; intros H; inversion H; subst; auto.
  - destruct (c <? it_time d2); intros H; inversion H; subst; auto.
Qed.

Lemma dispatch_no_fuel : forall n s, ksorted (queues s) -> (total_items (queues s) < n)%nat ->
  dispatch_fuel n s <> RFuel.
Proof.
  induction n as [|n IH]; simpl; intros s Hs Hn; [lia|].
  destruct (iter s) as [s1|s1 e|] eqn:Ei; try discriminate.
  destruct (iter_total _ _ _ Hs Ei) as [Ht Hs1].
  specialize (IH s1 Hs1 ltac:(lia)). destruct (dispatch_fuel n s1); simpl; congruence.
Qed.

(** * Static legality *)
Lemma static_late : forall h v, legal_static v h -> v_late v = false ->
  v_late (fold_left view_step h v) = false.
Proof.
  induction h as [|o h IH]; simpl; auto. intros v [H1 H2] Hl. apply IH; auto.
  destruct o as [k|k d|k|]; simpl; auto.
  - destruct H1 as [_ ->]; auto.
  - destruct (in_dec keq_dec k (v_reg v)); auto.
Qed.

Lemma static_legal_from : forall h v tr s, legal_static v h -> v_late v = false ->
  legal_from v tr s h.
Proof.
  induction h as [|o h IH]; simpl; auto. intros v tr s [H1 H2] Hl. split.
  - destruct o as [k|k d|k|]; simpl; try tauto.
    destruct H1 as [H3 H4]. split; auto. intros Hr. destruct (H4 Hr) as [H5 H6]. split; auto.
    destruct (lastopt (added v k)); auto. congruence.
  - intros s' evs _. apply IH; auto.
    destruct o as [k|k d|k|]; simpl; auto.
    + destruct H1 as [_ ->]; auto.
    + destruct (in_dec keq_dec k (v_reg v)); auto.
Qed.

Lemma run_legal h : legal h ->
  exists s tr, run h init = ROk (s, tr) /\ Inv (view_of h) tr s /\ rest_inv s.
Proof.
  intros H. destruct (run_ok h view0 [] init inv_init) as [s [tr [A [B C]]]]; auto.
  - intros _; auto.
  - exists s, tr. auto.
Qed.

Lemma legal_no_abort_lem h : legal h -> exists s tr, run h init = ROk (s, tr).
Proof. intros H. destruct (run_legal h H) as [s [tr [A _]]]. eauto. Qed.

Lemma legal_inv h s tr : legal h -> run h init = ROk (s, tr) -> Inv (view_of h) tr s.
Proof.
  intros H E. destruct (run_legal h H) as [s' [tr' [A [B _]]]]. congruence.
Qed.

Lemma conservation_lem h s tr : legal h -> run h init = ROk (s, tr) ->
  forall k, added (view_of h) k =
            items_of k (dropped tr) ++ items_of k (delivered tr) ++ pending s k.
Proof. intros H E k. apply (i_cons _ _ _ (legal_inv _ _ _ H E)). Qed.

Lemma dpre_in c : forall dr rest x, dpre c dr rest -> In x dr -> it_time x < c.
Proof.
  induction dr as [|d dr IH]; simpl; intros rest x H Hin; [tauto|].
  destruct H as [H1 [_ H2]]. destruct Hin as [<-|]; eauto.
Qed.

Lemma drop_before_start_lem h s tr : legal h -> run h init = ROk (s, tr) ->
  forall k d, In (k, d) (dropped tr) ->
  exists k' d' r', In k' (v_reg (view_of h)) /\ fst k' = fst k /\
    added (view_of h) k' = d' :: r' /\ it_time d < it_time d'.
Proof.
  intros H E k d Hin. pose proof (legal_inv _ _ _ H E) as I.
  apply items_of_in in Hin.
  destruct (zlookup (fst k) (common_start s)) as [c|] eqn:Ez.
  - destruct (i_keep _ _ _ I _ _ Ez) as [Hd _].
    destruct (i_cs_some _ _ _ I _ _ Ez) as [k' [d' [r' [A [B [C D]]]]]].
    exists k', d', r'. repeat split; auto. rewrite D. eapply dpre_in; eauto.
  - destruct (i_cs_none _ _ _ I _ Ez k eq_refl) as [_ F]. rewrite F in Hin; destruct Hin.
Qed.

Lemma static_legal h : legal_static view0 h -> legal h.
Proof. intros H. apply static_legal_from; auto. Qed.

Lemma lex_order_lem h s tr : legal_static view0 h -> run h init = ROk (s, tr) ->
  StronglySorted lex_le (delivered tr).
Proof.
  intros H E. apply (i_lex _ _ _ (legal_inv _ _ _ (static_legal _ H) E)).
  apply static_late; auto.
Qed.

Lemma run_app : forall h1 h2 s s1 e1 s2 e2,
  run h1 s = ROk (s1, e1) -> run h2 s1 = ROk (s2, e2) -> run (h1 ++ h2) s = ROk (s2, e1 ++ e2).
Proof.
  induction h1 as [|o h1 IH]; simpl; intros h2 s s1 e1 s2 e2 H1 H2.
  - inversion H1; subst; auto.
  - destruct (exec o s) as [[s3 e3]| |]; simpl in *; try discriminate.
    destruct (run h1 s3) as [[s4 e4]| |] eqn:E; simpl in *; try discriminate.
    inversion H1; subst. rewrite (IH _ _ _ _ _ _ E H2). simpl. rewrite app_assoc; auto.
Qed.

Lemma run_app_inv : forall h1 h2 s s2 e,
  run (h1 ++ h2) s = ROk (s2, e) ->
  exists s1 e1 e2, run h1 s = ROk (s1, e1) /\ run h2 s1 = ROk (s2, e2) /\ e = e1 ++ e2.
Proof.
  induction h1 as [|o h1 IH]; simpl; intros h2 s s2 e H.
  - exists s, [], e; auto.
  - destruct (exec o s) as [[s3 e3]| |]; simpl in *; try discriminate.
    destruct (run (h1 ++ h2) s3) as [[s4 e4]| |] eqn:E; simpl in *; try discriminate.
    apply IH in E as [s1 [e1 [e2 [A [B C]]]]]. inversion H; subst.
    rewrite A; simpl. exists s1, (e3 ++ e1), e2. rewrite app_assoc; auto.
Qed.

Lemma legal_from_app : forall h1 h2 v tr s, legal_from v tr s (h1 ++ h2) -> legal_from v tr s h1.
Proof.
  induction h1 as [|o h1 IH]; simpl; auto. intros h2 v tr s [H1 H2]. split; eauto.
Qed.

Lemma flush_drains_lem h s tr : legal (h ++ [OFlush]) -> run (h ++ [OFlush]) init = ROk (s, tr) ->
  queues s = [] /\ forall k, pending s k = [].
Proof.
  intros H E. pose proof (legal_from_app _ _ _ _ _ H) as H1.
  destruct (run_legal h H1) as [s1 [tr1 [A [B C]]]].
  destruct (flush_ok _ _ _ B C) as [s2 [e2 [F [G K]]]].
  assert (run [OFlush] s1 = ROk (s2, e2 ++ [])) by (simpl; rewrite F; simpl; auto).
  rewrite (run_app _ _ _ _ _ _ _ A H0) in E. inversion E; subst.
  split; auto. intros k; unfold pending; rewrite K; auto.
Qed.

Lemma is_common_start_unique v t c1 c2 : is_common_start v t c1 -> is_common_start v t c2 -> c1 = c2.
Proof.
  intros [[k1 [d1 [r1 [A1 [B1 [C1 D1]]]]]] U1] [[k2 [d2 [r2 [A2 [B2 [C2 D2]]]]]] U2].
  specialize (U1 _ _ _ A2 B2 C2). specialize (U2 _ _ _ A1 B1 C1). lia.
Qed.

Lemma flush_kept_lem h s tr : legal_static view0 (h ++ [OFlush]) ->
  run (h ++ [OFlush]) init = ROk (s, tr) ->
  forall k c, is_common_start (view_of (h ++ [OFlush])) (fst k) c ->
  items_of k (delivered tr) = fast_forward c (added (view_of (h ++ [OFlush])) k).
Proof.
  intros H E k c Hc.
  pose proof (static_legal _ H) as Hleg.
  pose proof (legal_inv _ _ _ Hleg E) as I.
  destruct (flush_drains_lem _ _ _ Hleg E) as [_ Hp].
  set (v := view_of (h ++ [OFlush])) in *.
  assert (Hlate: v_late v = false) by (apply static_late; auto).
  pose proof (i_cons _ _ _ I k) as Hcons. rewrite Hp, app_nil_r in Hcons.
  destruct (zlookup (fst k) (common_start s)) as [c0|] eqn:Ez.
  - assert (c0 = c).
    { apply (is_common_start_unique v (fst k)); auto. split.
      - apply (i_cs_some _ _ _ I _ _ Ez).
      - intros k2 d2 r2 X Y Z. destruct (i_cs_max _ _ _ I _ _ Ez Hlate k2 X Y) as [W _]. eauto. }
    subst c0. destruct (i_keep _ _ _ I _ _ Ez) as [K1 K2]. rewrite Hp, app_nil_r in K1.
    rewrite Hcons, dpre_ff; auto.
    destruct (items_of k (delivered tr)) as [|d r] eqn:Edl; auto.
    specialize (K2 _ _ eq_refl). rewrite Hp, app_nil_r in K2.
    destruct r as [|d2 r2]; auto. simpl.
    replace ((it_time d <? c) && (it_time d2 <=? c)) with false; auto.
    symmetry. apply andb_false_iff. destruct K2 as [K|[[x [y [K1' K2']]]|[_ K]]].
    + left; apply Z.ltb_ge; auto.
    + inversion K1'; subst. right; apply Z.leb_gt; auto.
    + discriminate.
  - destruct (i_cs_none _ _ _ I _ Ez k eq_refl) as [-> F]. rewrite F in Hcons.
    assert (added v k = []) by (rewrite Hcons; destruct (i_cs_none _ _ _ I _ Ez k eq_refl) as [-> _]; auto).
    rewrite H0; auto.
Qed.

(** * Determinism *)
Lemma items_of_cons k e l :
  items_of k (e :: l) = (if keq_dec (fst e) k then [snd e] else []) ++ items_of k l.
Proof. unfold items_of; simpl. destruct (keq_dec (fst e) k); auto. Qed.

Lemma sorted_unique : forall L1 L2,
  StronglySorted lex_le L1 -> StronglySorted lex_le L2 ->
  (forall k, items_of k L1 = items_of k L2) -> L1 = L2.
Proof.
  induction L1 as [|[k1 d1] L1 IH]; intros [|[k2 d2] L2] S1 S2 H; auto.
  - specialize (H k2). rewrite items_of_cons in H; simpl in H.
    destruct (keq_dec k2 k2); [discriminate|congruence].
  - specialize (H k1). rewrite items_of_cons in H; simpl in H.
    destruct (keq_dec k1 k1); [discriminate|congruence].
  - apply StronglySorted_inv in S1 as [S1 F1]. apply StronglySorted_inv in S2 as [S2 F2].
    rewrite Forall_forall in F1, F2.
    assert (In1: In (k1, d1) ((k2, d2) :: L2)).
    { apply items_of_in. rewrite <- H. apply items_of_in; simpl; auto. }
    assert (In2: In (k2, d2) ((k1, d1) :: L1)).
    { apply items_of_in. rewrite H. apply items_of_in; simpl; auto. }
    assert (k1 = k2).
    { destruct In1 as [E|In1]; [inversion E; auto|].
      destruct In2 as [E|In2]; [inversion E; auto|].
      apply F2 in In1. apply F1 in In2. unfold lex_le in *; simpl in *.
      destruct k1, k2; simpl in *. f_equal; lia. }
    subst k2. pose proof (H k1) as H1. rewrite !items_of_cons in H1; simpl in H1.
    destruct (keq_dec k1 k1); [|congruence]. simpl in H1. inversion H1; subst.
    f_equal. apply IH; auto. intros k. specialize (H k).
    rewrite !items_of_cons in H; simpl in H. destruct (keq_dec k1 k); auto.
    simpl in H. inversion H; auto.
Qed.

Lemma common_start_exists v t :
  (exists k d r, In k (v_reg v) /\ fst k = t /\ added v k = d :: r) ->
  exists c, is_common_start v t c.
Proof.
  intros [k0 [d0 [r0 [A0 [B0 C0]]]]].
  assert (G: forall ks, exists m, 
            (m = it_time d0 \/ exists k d r, In k ks /\ fst k = t /\ added v k = d :: r /\ it_time d = m) /\
            it_time d0 <= m /\
            forall k d r, In k ks -> fst k = t -> added v k = d :: r -> it_time d <= m).
  { induction ks as [|k ks [m [M1 [M2 M3]]]].
    - exists (it_time d0). simpl. split; auto. split; [lia|tauto].
    - destruct (Z.eq_dec (fst k) t) as [E|N].
      + destruct (added v k) as [|d r] eqn:Ea.
        * exists m. split; [|split; auto].
          -- destruct M1 as [|[k1 [d1 [r1 [P Q]]]]]; auto. right; exists k1, d1, r1; simpl; auto.
          -- intros k1 d1 r1 [<-|Hin] X Y; [congruence|eauto].
        * destruct (Z_le_gt_dec (it_time d) m).
          -- exists m. split; [|split; auto].
             ++ destruct M1 as [|[k1 [d1 [r1 [P Q]]]]]; auto. right; exists k1, d1, r1; simpl; auto.
             ++ intros k1 d1 r1 [<-|Hin] X Y; [|eauto]. rewrite Ea in Y; inversion Y; subst; auto.
          -- exists (it_time d). split; [|split; [lia|]].
             ++ right; exists k, d, r; simpl; auto.
             ++ intros k1 d1 r1 [<-|Hin] X Y.
                ** rewrite Ea in Y; inversion Y; subst; lia.
                ** specialize (M3 _ _ _ Hin X Y). lia.
      + exists m. split; [|split; auto].
        * destruct M1 as [|[k1 [d1 [r1 [P Q]]]]]; auto. right; exists k1, d1, r1; simpl; auto.
        * intros k1 d1 r1 [<-|Hin] X Y; [congruence|eauto]. }
  destruct (G (v_reg v)) as [m [M1 [M2 M3]]]. exists m. split; auto.
  destruct M1 as [->|M1].
  - exists k0, d0, r0; repeat split; auto.
  - destruct M1 as [k [d [r [X [Y [Z W]]]]]]. exists k, d, r; auto.
Qed.

Lemma is_common_start_ext v1 v2 t c :
  (forall k, In k (v_reg v1) <-> In k (v_reg v2)) ->
  (forall k, added v1 k = added v2 k) ->
  is_common_start v1 t c -> is_common_start v2 t c.
Proof.
  intros Hr Ha [[k [d [r [A [B [C D]]]]]] U]. split.
  - exists k, d, r. rewrite <- Hr, <- Ha; auto.
  - intros k2 d2 r2. rewrite <- Hr, <- Ha. apply U.
Qed.

Lemma determinism_lem h1 h2 s1 s2 tr1 tr2 :
  legal_static view0 (h1 ++ [OFlush]) -> legal_static view0 (h2 ++ [OFlush]) ->
  (forall k, In k (v_reg (view_of (h1 ++ [OFlush]))) <-> In k (v_reg (view_of (h2 ++ [OFlush])))) ->
  (forall k, added (view_of (h1 ++ [OFlush])) k = added (view_of (h2 ++ [OFlush])) k) ->
  run (h1 ++ [OFlush]) init = ROk (s1, tr1) -> run (h2 ++ [OFlush]) init = ROk (s2, tr2) ->
  delivered tr1 = delivered tr2.
Proof.
  intros L1 L2 Hr Ha R1 R2. apply sorted_unique.
  - apply (lex_order_lem _ _ _ L1 R1).
  - apply (lex_order_lem _ _ _ L2 R2).
  - intros k. set (v1 := view_of (h1 ++ [OFlush])) in *. set (v2 := view_of (h2 ++ [OFlush])) in *.
    pose proof (legal_inv _ _ _ (static_legal _ L1) R1) as I1. fold v1 in I1.
    pose proof (legal_inv _ _ _ (static_legal _ L2) R2) as I2. fold v2 in I2.
    destruct (added v1 k) as [|d r] eqn:Ea.
    + assert (Ea2: added v2 k = []) by (rewrite <- Ha; auto).
      pose proof (i_cons _ _ _ I1 k) as C1. rewrite Ea in C1. symmetry in C1.
      apply app_eq_nil in C1 as [_ C1]. apply app_eq_nil in C1 as [-> _].
      pose proof (i_cons _ _ _ I2 k) as C2. rewrite Ea2 in C2. symmetry in C2.
      apply app_eq_nil in C2 as [_ C2]. apply app_eq_nil in C2 as [-> _]. auto.
    + assert (Hreg: In k (v_reg v1)).
      { destruct (in_dec keq_dec k (v_reg v1)) as [|n]; auto.
        rewrite (i_unreg _ _ _ I1 k n) in Ea; discriminate. }
      destruct (common_start_exists v1 (fst k)) as [c Hc]; [eauto 7|].
      pose proof (is_common_start_ext _ _ _ _ Hr Ha Hc) as Hc2.
      rewrite (flush_kept_lem _ _ _ L1 R1 k c Hc), (flush_kept_lem _ _ _ L2 R2 k c Hc2).
      rewrite Ha; auto.
Qed.

(** * Blocking *)
Lemma blocker_lem h o s tr : legal (h ++ [o]) ->
  run (h ++ [o]) init = ROk (s, tr) ->
  (match o with OFinish _ => True | OAdd k _ => In k (v_reg (view_of h)) | _ => False end) ->
  let v := view_of (h ++ [o]) in
  (forall k, In k (v_reg v) -> In k (v_fin v) /\ pending s k = []) \/
  (exists k, get_blocker s = ROk (Some k) /\ In k (v_reg v) /\ ~ In k (v_fin v) /\
     (pending s k = [] \/
      exists d k' d' r', pending s k = [d] /\ In k' (v_reg v) /\ fst k' = fst k /\
                     added v k' = d' :: r' /\ it_time d < it_time d')).
Proof.
  intros H E Ho v.
  pose proof (legal_inv _ _ _ H E) as I. fold v in I.
  assert (Hrest: at_rest s).
  { pose proof (legal_from_app _ _ _ _ _ H) as H1.
    destruct (run_legal h H1) as [s1 [tr1 [A [B C]]]].
    assert (Hleg: legal_op (view_of h) tr1 o).
    { clear -H A. unfold legal, view_of in *.
      assert (G: forall h v tr s s1 tr1, legal_from v tr s (h ++ [o]) -> run h s = ROk (s1, tr1) ->
                 legal_op (fold_left view_step h v) (tr ++ tr1) o).
      { clear. induction h as [|x h IH]; simpl; intros v tr s s1 tr1 H A.
        - inversion A; subst. rewrite app_nil_r. tauto.
        - destruct (exec x s) as [[s3 e3]| |] eqn:Ex; simpl in *; try discriminate.
          destruct (run h s3) as [[s4 e4]| |] eqn:Er; simpl in *; try discriminate.
          inversion A; subst. rewrite app_assoc. eapply IH; [|exact Er].
          apply H; auto. }
      apply (G _ _ _ _ _ _ H A). }
    apply run_app_inv in E as [s2 [e1 [e2 [P [Q R]]]]].
    assert (s2 = s1 /\ e1 = tr1) by (split; congruence). destruct H0; subst s2 e1.
    simpl in Q. destruct o as [k|k d|k|]; simpl in Ho; try tauto.
    - destruct (add_ok _ _ _ k d B Hleg) as [s3 [e3 [X [Y [Z _]]]]]. simpl in Q; rewrite X in Q.
      simpl in Q. inversion Q; subst; auto.
    - destruct (mark_ok _ _ _ k B Hleg) as [s3 [e3 [X [Y Z]]]]. simpl in Q; rewrite X in Q.
      simpl in Q. inversion Q; subst; auto. }
  destruct Hrest as [Hq|[k [q [Hb [Hl [Hf Hd]]]]]].
  - left. intros k Hk. split.
    + destruct (in_dec keq_dec k (v_fin v)) as [|n]; auto.
      destruct (i_open _ _ _ I k Hk n) as [q Hl]. rewrite Hq in Hl; discriminate.
    + unfold pending; rewrite Hq; auto.
  - right. exists k. split.
    + unfold get_blocker. rewrite Hb. destruct (queues s); [discriminate|auto].
    + split; [eapply i_reg; eauto|]. split.
      * intros Hfin. apply (i_fin _ _ _ I _ _ Hl) in Hfin. congruence.
      * unfold pending; rewrite Hl. destruct Hd as [Hd|[d [c [Hd [Hc Hlt]]]]]; auto.
        right. destruct (i_cs_some _ _ _ I _ _ Hc) as [k' [d' [r' [P [Q [R S]]]]]].
        exists d, k', d', r'. repeat split; auto. lia.
Qed.

Lemma stop_sorted s s' : ksorted (queues s) -> iter s = IStop s' -> ksorted (queues s').
Proof.
  intros Hs. unfold iter.
  destruct (scan (last_time s) None (queues s)) as [|k qs|qs [[k d]|]] eqn:Esc; try discriminate.
  - apply scan_blocked in Esc as [l1 [q [l2 [H1 [H2 [H3 [H4 H5]]]]]]].
    intros E; inversion E; subst; simpl. rewrite H1 in Hs. apply sorted_app_filter; auto.
  - apply scan_done in Esc; auto; [|intros; discriminate]. destruct Esc as [H1 _].
    assert (Hs': ksorted qs) by (rewrite H1; apply filter_keys_sorted; auto).
    destruct (get_common_start (fst k) (common_start s) qs) as [c cs].
    destruct (lookup k qs) as [q|]; [|discriminate].
    destruct (c <=? it_time d); [discriminate|].
    destruct (tl (q_data q)).
    + destruct (q_fin q); intros E; inversion E; subst; auto.
    + destruct (c <? it_time i); discriminate.
  - destruct qs; intros E; inversion E; subst; simpl. constructor.
Qed.

Lemma dispatch_sorted : forall n s s' evs, ksorted (queues s) ->
  dispatch_fuel n s = ROk (s', evs) -> ksorted (queues s').
Proof.
  induction n as [|n IH]; simpl; intros s s' evs Hs H; [discriminate|].
  destruct (iter s) as [s1|s1 e|] eqn:Ei; try discriminate.
  - inversion H; subst. eapply stop_sorted; eauto.
  - destruct (iter_total _ _ _ Hs Ei) as [_ Hs1].
    destruct (dispatch_fuel n s1) as [[s2 e2]| |] eqn:Ed; simpl in H; try discriminate.
    inversion H; subst. eapply IH; eauto.
Qed.

Definition fine (r : result (state * list event)) : Prop :=
  match r with ROk (s, _) => ksorted (queues s) | RAbort => True | RFuel => False end.

Lemma dispatch_fine s : ksorted (queues s) -> fine (dispatch s).
Proof.
  intros Hs. unfold dispatch.
  pose proof (dispatch_no_fuel (S (total_items (queues s))) s Hs ltac:(lia)) as H.
  pose proof (dispatch_sorted (S (total_items (queues s))) s) as H2.
  destruct (dispatch_fuel (S (total_items (queues s))) s) as [[s' e]| |]; simpl; eauto.
Qed.

Lemma mark_fine s k : ksorted (queues s) -> fine (mark_finished k s).
Proof.
  intros Hs. unfold mark_finished. destruct (lookup k (queues s)) as [q|]; simpl; auto.
  destruct (q_fin q); simpl; auto. apply dispatch_fine. simpl. apply update_sorted; auto.
Qed.

Lemma mark_all_fine : forall ks s, ksorted (queues s) -> fine (mark_all ks s).
Proof.
  induction ks as [|k ks IH]; simpl; intros s Hs; auto.
  pose proof (mark_fine s k Hs) as H. destruct (mark_finished k s) as [[s1 e1]| |]; simpl in *; auto.
  specialize (IH s1 H). destruct (mark_all ks s1) as [[s2 e2]| |]; simpl in *; auto.
Qed.

Lemma exec_fine s o : ksorted (queues s) -> fine (exec o s).
Proof.
  intros Hs. destruct o as [k|k d|k|]; simpl.
  - unfold add_queue. destruct (lookup k (queues s)) eqn:E; simpl; auto.
    apply insert_sorted; auto. apply lookup_none; auto.
  - unfold add. destruct (lookup k (queues s)); simpl; auto.
    apply dispatch_fine. simpl. apply update_sorted; auto.
  - apply mark_fine; auto.
  - apply mark_all_fine; auto.
Qed.

Lemma run_fine : forall h s, ksorted (queues s) -> fine (run h s).
Proof.
  induction h as [|o h IH]; simpl; intros s Hs; auto.
  pose proof (exec_fine s o Hs) as H. destruct (exec o s) as [[s1 e1]| |]; simpl in *; auto.
  specialize (IH s1 H). destruct (run h s1) as [[s2 e2]| |]; simpl in *; auto.
Qed.

Lemma run_no_fuel_lem h : run h init <> RFuel.
Proof.
  pose proof (run_fine h init ltac:(constructor)) as H. intros E; rewrite E in H; auto.
Qed.
