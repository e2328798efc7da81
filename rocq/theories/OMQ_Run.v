From Coq Require Import List ZArith Bool Lia Sorted.
From Verif Require Import OMQ_Model OMQ_Spec OMQ_Proofs OMQ_Inv.
Import ListNotations.
Local Open Scope Z_scope.

Definition at_rest (s : state) : Prop :=
  queues s = [] \/
  exists k q, blocker s = Some k /\ lookup k (queues s) = Some q /\ q_fin q = false /\
    (q_data q = [] \/
     exists d c, q_data q = [d] /\ zlookup (fst k) (common_start s) = Some c /\ it_time d < c).

Lemma total_items_filter qs : total_items (filter nonempty qs) = total_items qs.
Proof.
  induction qs as [|[k q] r IH]; simpl; auto. unfold nonempty at 1; simpl.
  destruct (q_data q) eqn:E; simpl; rewrite ?E; simpl; auto.
Qed.

Lemma iter_inv v tr s : Inv v tr s ->
  match iter s with
  | IAbort => False
  | IStop s' => Inv v tr s' /\ at_rest s'
  | ICont s' e => Inv v (tr ++ [e]) s' /\
                  S (total_items (queues s')) = total_items (queues s)
  end.
Proof.
  intros I. unfold iter.
  destruct (scan (last_time s) None (queues s)) as [|k qs|qs [[k d]|]] eqn:Esc.
  - eapply scan_no_abort in Esc; auto; [intros; discriminate|].
    intros k q d r Hin Hq. apply in_lookup in Hin; [|apply I].
    destruct (i_ge _ _ _ I _ _ Hin) as [H _]. apply H. rewrite Hq; simpl; auto.
  - apply scan_blocked in Esc as [l1 [q [l2 [H1 [H2 [H3 [H4 H5]]]]]]].
    pose proof (i_sorted _ _ _ I) as Hs.
    assert (He: erased (queues s) qs).
    { rewrite H4, H1 in *. apply erased_app; auto. }
    split.
    + apply (inv_blocker v tr (set_queues s qs)). apply inv_erase; auto.
    + right. exists k, q. simpl. split; auto. split; auto.
      apply in_lookup; [apply He|]. rewrite H4, in_app_iff; simpl; auto.
  - pose proof (i_sorted _ _ _ I) as Hs.
    apply scan_done in Esc; auto; [|intros; discriminate].
    destruct Esc as [H1 [H2 [H3 [H4 _]]]].
    assert (He: erased (queues s) qs) by (rewrite H1; apply erased_filter; auto).
    pose proof (inv_erase _ _ _ _ I He) as I1.
    destruct H3 as [|[q [r [H5 [H6 H7]]]]]; [discriminate|].
    assert (Hs': ksorted qs) by apply He.
    assert (Hl: lookup k qs = Some q).
    { apply in_lookup; auto. rewrite H1. apply filter_In; split; auto.
      unfold nonempty; simpl; rewrite H6; auto. }
    destruct (get_common_start (fst k) (common_start s) qs) as [c cs] eqn:Ecs.
    apply (inv_common_start v tr (set_queues s qs)) in Ecs; auto.
    2:{ simpl. intros k2 q2 Hl2. apply lookup_in in Hl2. rewrite H1 in Hl2.
        apply in_filter_nonempty in Hl2 as [_ [x [y E]]]. congruence. }
    2:{ simpl; eauto. }
    destruct Ecs as [I2 Hc]. simpl in I2, Hc.
    set (s2 := mkState (last_time s) cs qs (blocker s)) in *.
    assert (Hne: forall k q, lookup k (queues s2) = Some q -> q_data q <> []).
    { simpl. intros k2 q2 Hl2. apply lookup_in in Hl2. rewrite H1 in Hl2.
      apply in_filter_nonempty in Hl2 as [_ [x [y E]]]. congruence. }
    assert (Hmin: forall k' q' d' r', lookup k' (queues s2) = Some q' ->
       q_data q' = d' :: r' -> lexk (it_time d, k) (it_time d', k')).
    { simpl. intros k2 q2 d2 r2 Hl2 Hq2. eapply H4; eauto.
      apply lookup_in in Hl2. rewrite H1 in Hl2. apply filter_In in Hl2; tauto. }
    rewrite Hl.
    assert (Htot: forall q', q_data q' = r ->
              S (total_items (update k q' qs)) = total_items (queues s)).
    { intros q' Eq'. pose proof (total_items_update k q q' qs Hl) as Ht.
      rewrite H6, Eq' in Ht. simpl in Ht. rewrite <- (total_items_filter (queues s)), <- H1. lia. }
    rewrite H6; simpl tl.
    assert (Hdel: c <= it_time d \/ (exists d2 r2, r = d2 :: r2 /\ c < it_time d2) \/
                  (q_fin q = true /\ r = []) ->
            Inv v (tr ++ [Deliver k d])
               (mkState (it_time d) cs (update k (mkQueue r (q_fin q)) qs) (blocker s))).
    { intros Hcase. apply (inv_deliver v tr s2 k q d r c); auto. }
    destruct (c <=? it_time d) eqn:Ecd.
    + apply Z.leb_le in Ecd. split; auto. apply Htot; auto.
    + apply Z.leb_gt in Ecd. destruct r as [|d2 r2] eqn:Er.
      * destruct (q_fin q) eqn:Ef.
        -- rewrite <- Ef in *. split; auto. apply Htot; auto.
        -- split.
           ++ apply (inv_blocker v tr s2); auto.
           ++ right. exists k, q. simpl. repeat split; auto. right. exists d, c; auto.
      * destruct (c <? it_time d2) eqn:Ecd2.
        -- apply Z.ltb_lt in Ecd2. split; [apply Hdel; eauto 6|]. apply Htot; auto.
        -- apply Z.ltb_ge in Ecd2. split; [|apply Htot; auto].
           apply (inv_drop v tr s2 k q d (d2 :: r2) c) with (d2 := d2) (r2 := r2); auto.
  - pose proof (i_sorted _ _ _ I) as Hs.
    apply scan_done in Esc; auto; [|intros; discriminate].
    destruct Esc as [H1 [H2 [_ H3]]]. subst qs. rewrite H3.
    assert (He: erased (queues s) []) by (rewrite <- H3; apply erased_filter; auto).
    split; [|left; auto]. apply (inv_erase _ _ _ _ I He).
Qed.

Lemma dispatch_inv v : forall n tr s, Inv v tr s -> (total_items (queues s) < n)%nat ->
  exists s' evs, dispatch_fuel n s = ROk (s', evs) /\ Inv v (tr ++ evs) s' /\ at_rest s'.
Proof.
  induction n as [|n IH]; intros tr s I Hn; [lia|]. simpl.
  pose proof (iter_inv v tr s I) as Hi. destruct (iter s) as [s'|s' e|].
  - exists s', []. rewrite app_nil_r. tauto.
  - destruct Hi as [I' Ht]. destruct (IH (tr ++ [e]) s' I') as [s2 [evs [H1 [H2 H3]]]]; [lia|].
    rewrite H1; simpl. exists s2, (e :: evs). rewrite <- app_assoc in H2; auto.
  - tauto.
Qed.

(** * Operations *)
Lemma lookup_update_iff k q qs : In k (keys qs) -> forall k2 q2,
  lookup k2 (update k q qs) = Some q2 ->
  (k2 = k /\ q2 = q) \/ (k2 <> k /\ lookup k2 qs = Some q2).
Proof.
  intros Hin k2 q2 H. destruct (keq_dec k k2) as [<-|N].
  - rewrite lookup_update_same in H; auto. inversion H; auto.
  - rewrite lookup_update_other in H; auto.
Qed.

Lemma inv_mark v tr s k q : Inv v tr s -> In k (v_reg v) -> lookup k (queues s) = Some q ->
  Inv (view_step v (OFinish k)) tr
      (set_queues s (update k (mkQueue (q_data q) true) (queues s))).
Proof.
  intros I Hreg Hl.
  assert (Hkin: In k (keys (queues s))) by (eapply in_keys, lookup_in; eauto).
  pose proof (lookup_update_iff k (mkQueue (q_data q) true) _ Hkin) as Hlk.
  assert (Hp: forall k2, pending (set_queues s (update k (mkQueue (q_data q) true) (queues s))) k2
                  = pending s k2).
  { intros k2. unfold pending; simpl. destruct (keq_dec k k2) as [<-|N].
    - rewrite lookup_update_same; auto. rewrite Hl; auto.
    - rewrite lookup_update_other; auto. }
  assert (Hlk2: forall k2 q2, lookup k2 (update k (mkQueue (q_data q) true) (queues s)) = Some q2 ->
            exists q3, lookup k2 (queues s) = Some q3 /\ q_data q2 = q_data q3).
  { intros k2 q2 H. apply Hlk in H as [[-> ->]|[_ H]]; eauto. }
  dinv I. constructor; simpl; auto.
  - apply update_sorted; auto.
  - intros k2 q2 H. destruct (Hlk2 _ _ H) as [q3 [A _]]; eauto.
  - intros k2 H1 H2. destruct (keq_dec k k2) as [<-|N].
    + rewrite lookup_update_same; eauto.
    + rewrite lookup_update_other; auto.
  - intros k2 q2 H. apply Hlk in H as [[-> ->]|[N H]].
    + simpl; tauto.
    + rewrite (i_fin0 _ _ H). split; auto. intros [|]; auto; congruence.
  - intros k2 [<-|H]; auto.
  - intros k2. rewrite Hp; apply i_cons0.
  - intros k2 q2 H. destruct (Hlk2 _ _ H) as [q3 [A ->]]; auto.
    apply (i_ge0 _ _ A).
  - intros t c H1 H2 k2 H3 H4. destruct (i_cs_max0 t c H1 H2 k2 H3 H4) as [A B]. split; auto.
  - intros k2 c H. rewrite !Hp. destruct (i_keep0 _ _ H) as [A B]. split; auto.
    intros d r E. destruct (B d r E) as [|[|[]]]; auto.
  - intros H1 e He k2 q2 H. destruct (Hlk2 _ _ H) as [q3 [A ->]].
    destruct (i_lexq0 H1 e He _ _ A) as [B [C D]]. split; auto.
Qed.

Lemma mark_ok v tr s k : Inv v tr s -> legal_op v tr (OFinish k) ->
  exists s' evs, mark_finished k s = ROk (s', evs) /\
    Inv (view_step v (OFinish k)) (tr ++ evs) s' /\ at_rest s'.
Proof.
  intros I [Hreg Hnf]. unfold mark_finished.
  destruct (i_open _ _ _ I k Hreg Hnf) as [q Hl]. rewrite Hl.
  destruct (q_fin q) eqn:Ef.
  - apply (i_fin _ _ _ I _ _ Hl) in Ef; contradiction.
  - apply dispatch_inv; [|lia]. apply inv_mark; auto.
Qed.

Lemma added_snoc v k d k2 : In k (v_reg v) ->
  added (view_step v (OAdd k d)) k2 = added v k2 ++ (if keq_dec k k2 then [d] else []).
Proof.
  intros H. simpl. destruct (in_dec keq_dec k (v_reg v)); [|contradiction].
  unfold added; simpl. rewrite items_of_app. f_equal.
  destruct (keq_dec k k2) as [<-|N]; [apply items_of_one_same|apply items_of_one_other; auto].
Qed.

Lemma inv_add v tr s k d q : Inv v tr s -> In k (v_reg v) -> legal_op v tr (OAdd k d) ->
  lookup k (queues s) = Some q ->
  Inv (view_step v (OAdd k d)) tr
      (set_queues s (update k (mkQueue (q_data q ++ [d]) (q_fin q)) (queues s))).
Proof.
  intros I Hreg [Hmin Hleg] Hl. specialize (Hleg Hreg) as [Hnf Hord].
  assert (Hkin: In k (keys (queues s))) by (eapply in_keys, lookup_in; eauto).
  set (q' := mkQueue (q_data q ++ [d]) (q_fin q)) in *.
  pose proof (lookup_update_iff k q' _ Hkin) as Hlk.
  assert (Hp: forall k2, pending (set_queues s (update k q' (queues s))) k2
                  = pending s k2 ++ (if keq_dec k k2 then [d] else [])).
  { intros k2. unfold pending; simpl. destruct (keq_dec k k2) as [<-|N].
    - rewrite lookup_update_same; auto. rewrite Hl; auto.
    - rewrite lookup_update_other; auto. rewrite app_nil_r; auto. }
  pose proof (added_snoc v k d) as Ha.
  assert (Hv: view_step v (OAdd k d) =
              mkView (v_reg v) (v_fin v) (v_added v ++ [(k, d)]) (v_late v)).
  { simpl. destruct (in_dec keq_dec k (v_reg v)); [auto|contradiction]. }
  assert (Ha': forall k2, added (mkView (v_reg v) (v_fin v) (v_added v ++ [(k, d)]) (v_late v)) k2 =
     added v k2 ++ (if keq_dec k k2 then [d] else [])) by (intros; rewrite <- Hv; auto).
  rewrite Hv. clear Ha Hv.
  (* the new item is not older than anything relevant *)
  assert (Hge: last_time s <= it_time d).
  { destruct (lastopt (added v k)) as [d0|] eqn:El.
    - destruct (i_ge _ _ _ I _ _ Hl) as [_ H]. specialize (H _ El). lia.
    - destruct (v_late v) eqn:Elate.
      + destruct (delivered tr) as [|e0 l0] eqn:Edl.
        * rewrite (i_lastnil _ _ _ I); auto.
        * destruct (exists_last (l:=delivered tr)) as [l [e E]]; [congruence|].
          rewrite (i_lastsnoc _ _ _ I _ _ E). apply Hord; auto. rewrite <- Edl, E, in_app_iff; simpl; auto.
      + destruct (delivered tr) as [|e0 l0] eqn:Edl.
        * rewrite (i_lastnil _ _ _ I); auto.
        * exfalso. apply lastopt_none in El.
          destruct (i_lexq _ _ _ I Elate e0 ltac:(rewrite Edl; simpl; auto) _ _ Hl) as [_ [_ H]].
          auto. }
  assert (Hsort: forall y, In y (added v k) -> item_le y d).
  { intros y Hy. destruct (lastopt (added v k)) as [d0|] eqn:El.
    - pose proof (SS_last _ _ _ (i_mono _ _ _ I k) El Hy). unfold item_le in *; lia.
    - apply lastopt_none in El. rewrite El in Hy; destruct Hy. }
  assert (Hlex: v_late v = false -> forall e, In e (delivered tr) -> lex_le e (k, d)).
  { intros Hlate e He. destruct (i_lexq _ _ _ I Hlate e He _ _ Hl) as [_ [H1 H2]].
    destruct (lastopt (added v k)) as [d0|] eqn:El.
    - specialize (H1 _ eq_refl). unfold lex_le in *; simpl in *. lia.
    - apply lastopt_none in El. specialize (H2 El). contradiction. }
  pose proof I as I0. dinv I0. constructor; simpl; auto.
  - apply update_sorted; auto.
  - intros k2 q2 H. apply Hlk in H as [[-> ->]|[_ H]]; eauto.
  - intros k2 H1 H2. destruct (keq_dec k k2) as [<-|N].
    + rewrite lookup_update_same; eauto.
    + rewrite lookup_update_other; auto.
  - intros k2 q2 H. apply Hlk in H as [[-> ->]|[_ H]]; auto. unfold q'; simpl; auto.
  - intros k2. rewrite Ha', Hp, i_cons0. rewrite <- !app_assoc; auto.
  - intros k2 H. rewrite Ha', i_unreg0; auto.
    destruct (keq_dec k k2); [subst; contradiction|auto].
  - intros k2. rewrite Ha'. destruct (keq_dec k k2) as [<-|N].
    + apply SS_snoc; auto.
    + rewrite app_nil_r; auto.
  - intros k2 d2. rewrite Ha', in_app_iff. intros [H|H]; eauto.
    destruct (keq_dec k k2); [destruct H as [<-|[]]; auto|destruct H].
  - intros k2 q2 H. rewrite Ha'. apply Hlk in H as [[-> ->]|[N H]].
    + destruct (keq_dec k k); [|congruence]. split.
      * intros x Hx. unfold q' in Hx; simpl in Hx. apply in_app_iff in Hx as [Hx|[<-|[]]]; auto.
        destruct (i_ge0 _ _ Hl) as [G _]; auto.
      * intros x Hx. rewrite lastopt_snoc in Hx. inversion Hx; subst; auto.
    + destruct (keq_dec k k2); [congruence|]. rewrite app_nil_r. auto.
  - intros t c H. destruct (i_cs_some0 _ _ H) as [k2 [d2 [r2 [A [B [C D]]]]]].
    exists k2, d2, (r2 ++ if keq_dec k k2 then [d] else []). rewrite Ha', C; auto.
  - intros t c H1 H2 k2 H3 H4. rewrite Ha'. destruct (i_cs_max0 _ _ H1 H2 _ H3 H4) as [A B].
    destruct (keq_dec k k2) as [<-|N].
    + split.
      * intros d2 r2 E. destruct (added v k) as [|x y] eqn:Eadd.
        -- exfalso; auto.
        -- simpl in E; inversion E; subst. eauto.
      * intros E. destruct (added v k); discriminate.
    + rewrite app_nil_r; auto.
  - intros k2 c H. rewrite Hp. destruct (i_keep0 _ _ H) as [A B]. split.
    + rewrite app_assoc. apply dpre_extend; auto.
    + intros d2 r2 E. destruct (B d2 r2 E) as [|[[x [y [F G]]]|[F G]]]; auto.
      * right; left. exists x, (y ++ if keq_dec k k2 then [d] else []).
        rewrite app_assoc, F; auto.
      * destruct (keq_dec k k2) as [<-|N]; [contradiction|].
        right; right. rewrite app_nil_r; auto.
  - intros Hlate e He k2 q2 H. rewrite Ha'. apply Hlk in H as [[-> ->]|[N H]].
    + destruct (keq_dec k k); [|congruence].
      destruct (i_lexq0 Hlate e He _ _ Hl) as [A [B C]]. split; [|split].
      * intros x Hx. unfold q' in Hx; simpl in Hx. apply in_app_iff in Hx as [Hx|[<-|[]]]; auto.
      * intros x Hx. rewrite lastopt_snoc in Hx. inversion Hx; subst; auto.
      * intros E. destruct (added v k); discriminate.
    + destruct (keq_dec k k2); [congruence|]. rewrite app_nil_r. auto.
  - intros e He. apply in_app_iff in He as [He|[<-|[]]]; auto.
Qed.

Lemma add_ok v tr s k d : Inv v tr s -> legal_op v tr (OAdd k d) ->
  exists s' evs, add k d s = ROk (s', evs) /\
    Inv (view_step v (OAdd k d)) (tr ++ evs) s' /\
    (In k (v_reg v) -> at_rest s') /\
    (~ In k (v_reg v) -> s' = s /\ evs = [Ignore k d]).
Proof.
  intros I Hleg. destruct (in_dec keq_dec k (v_reg v)) as [Hreg|Hreg].
  - assert (Hnf: ~ In k (v_fin v)) by (apply Hleg; auto).
    destruct (i_open _ _ _ I k Hreg Hnf) as [q Hl].
    unfold add; rewrite Hl.
    destruct (dispatch_inv (view_step v (OAdd k d))
       (S (total_items (queues (set_queues s (update k (mkQueue (q_data q ++ [d]) (q_fin q))
                                        (queues s)))))) tr
       (set_queues s (update k (mkQueue (q_data q ++ [d]) (q_fin q)) (queues s))))
      as [s' [evs [H1 [H2 H3]]]]; [apply inv_add; auto|lia|].
    exists s', evs. split; [exact H1|]. split; auto. split; auto. intros; contradiction.
  - unfold add. destruct (lookup k (queues s)) as [q|] eqn:E.
    + exfalso; apply Hreg. eapply i_reg; eauto.
    + exists s, [Ignore k d]. split; auto. split.
      * simpl. destruct (in_dec keq_dec k (v_reg v)); [contradiction|].
        assert (E1: delivered (tr ++ [Ignore k d]) = delivered tr)
          by (rewrite delivered_app; simpl; apply app_nil_r).
        assert (E2: dropped (tr ++ [Ignore k d]) = dropped tr)
          by (rewrite dropped_app; simpl; apply app_nil_r).
        dinv I; constructor; rewrite ?E1, ?E2; auto; intros; rewrite ?E1, ?E2; auto;
          try (rewrite E1 in *; eauto).
      * split; [intros; contradiction|auto].
Qed.

Lemma added_addqueue v k k2 : added (view_step v (OAddQueue k)) k2 = added v k2.
Proof. reflexivity. Qed.

Lemma inv_addqueue v tr s k : Inv v tr s -> ~ In k (v_reg v) ->
  (v_added v = [] -> delivered tr = [] /\ forall t, zlookup t (common_start s) = None) ->
  Inv (view_step v (OAddQueue k)) tr
      (set_queues s (insert k (mkQueue [] false) (queues s))).
Proof.
  intros I Hn Hempty.
  assert (Hkn: ~ In k (keys (queues s))).
  { intros H. apply keys_in in H as [q H]. apply in_lookup in H; [|apply I].
    apply Hn. eapply i_reg; eauto. }
  assert (Hnf: ~ In k (v_fin v)) by (intros H; apply Hn; eapply i_finreg; eauto).
  assert (Hlk: forall k2 q2, lookup k2 (insert k (mkQueue [] false) (queues s)) = Some q2 ->
            (k2 = k /\ q2 = mkQueue [] false) \/ (k2 <> k /\ lookup k2 (queues s) = Some q2)).
  { intros k2 q2 H. destruct (keq_dec k k2) as [<-|N].
    - rewrite lookup_insert_same in H; auto. inversion H; auto.
    - rewrite lookup_insert_other in H; auto. }
  assert (Hp: forall k2, pending (set_queues s (insert k (mkQueue [] false) (queues s))) k2
                  = pending s k2).
  { intros k2. unfold pending; simpl. destruct (keq_dec k k2) as [<-|N].
    - rewrite lookup_insert_same; auto. apply lookup_none in Hkn; rewrite Hkn; auto.
    - rewrite lookup_insert_other; auto. }
  assert (Hlate: v_late (view_step v (OAddQueue k)) = false -> v_late v = false /\ v_added v = []).
  { simpl. destruct (v_added v); [auto|discriminate]. }
  pose proof I as I0. dinv I0. constructor; simpl; auto; try setoid_rewrite added_addqueue; auto.
  - apply insert_sorted; auto.
  - intros k2 q2 H. rewrite in_app_iff. apply Hlk in H as [[-> ->]|[_ H]]; simpl; eauto.
  - intros k2 H1 H2. destruct (keq_dec k k2) as [<-|N].
    + rewrite lookup_insert_same; eauto.
    + rewrite lookup_insert_other; auto. apply in_app_iff in H1 as [H1|[|[]]]; auto; congruence.
  - intros k2 q2 H. apply Hlk in H as [[-> ->]|[_ H]]; auto. simpl. split; [discriminate|tauto].
  - intros k2 H. rewrite in_app_iff; auto.
  - intros k2. rewrite Hp; auto.
  - intros k2 H. apply i_unreg0. intros H2; apply H. rewrite in_app_iff; auto.
  - intros k2 q2 H. apply Hlk in H as [[-> ->]|[_ H]]; auto. simpl. split; [tauto|].
    intros d Hd. rewrite i_unreg0 in Hd; auto. discriminate.
  - intros t c H. destruct (i_cs_some0 _ _ H) as [k2 [d2 [r2 [A B]]]].
    exists k2, d2, r2. rewrite in_app_iff; auto.
  - intros t c H1 H2. destruct (Hlate H2) as [_ E]. destruct (Hempty E) as [_ F].
    rewrite F in H1; discriminate.
  - intros k2 c H. rewrite !Hp. auto.
  - intros H. apply i_lex0. apply Hlate; auto.
  - intros H e He. destruct (Hlate H) as [_ E]. destruct (Hempty E) as [F _].
    rewrite F in He; destruct He.
  - intros e He. rewrite in_app_iff; auto.
Qed.

(** Nothing has happened as long as no data was added. *)
Lemma inv_quiet v tr s : Inv v tr s -> v_added v = [] ->
  delivered tr = [] /\ forall t, zlookup t (common_start s) = None.
Proof.
  intros I E.
  assert (Ea: forall k, added v k = []) by (intros; unfold added; rewrite E; auto).
  split.
  - destruct (delivered tr) as [|[k d] l] eqn:Ed; auto.
    assert (H: In d (items_of k (delivered tr))) by (apply items_of_in; rewrite Ed; simpl; auto).
    pose proof (i_cons _ _ _ I k) as Hc. rewrite Ea in Hc. symmetry in Hc.
    apply app_eq_nil in Hc as [_ Hc]. apply app_eq_nil in Hc as [Hc _]. rewrite Hc in H; destruct H.
  - intros t. destruct (zlookup t (common_start s)) as [c|] eqn:Ez; auto.
    destruct (i_cs_some _ _ _ I _ _ Ez) as [k [d [r [_ [_ [H _]]]]]]. rewrite Ea in H; discriminate.
Qed.

(** Flush. *)
Lemma view_finish_reg v k : v_reg (view_step v (OFinish k)) = v_reg v.
Proof. reflexivity. Qed.

Lemma mark_all_ok : forall ks v tr s, Inv v tr s -> NoDup ks ->
  (forall k, In k ks -> In k (v_reg v) /\ ~ In k (v_fin v)) ->
  exists s' evs v', mark_all ks s = ROk (s', evs) /\ Inv v' (tr ++ evs) s' /\
    v_reg v' = v_reg v /\ v_added v' = v_added v /\ v_late v' = v_late v /\
    (forall k, In k (v_fin v') <-> In k ks \/ In k (v_fin v)) /\
    (ks <> [] -> at_rest s').
Proof.
  induction ks as [|k ks IH]; intros v tr s I Hnd Hks.
  - exists s, [], v. simpl. rewrite app_nil_r. intuition; congruence.
  - inversion Hnd; subst.
    destruct (mark_ok v tr s k I) as [s1 [e1 [H3 [I1 R1]]]]; [apply Hks; simpl; auto|].
    destruct (IH (view_step v (OFinish k)) (tr ++ e1) s1 I1) as [s2 [e2 [v2 [A [B [C [D [E [F G]]]]]]]]]; auto.
    { intros k2 Hk2. destruct (Hks k2) as [X Y]; [simpl; auto|]. split; auto.
      simpl. intros [<-|Z]; contradiction. }
    exists s2, (e1 ++ e2), v2. simpl. rewrite H3; simpl. rewrite A; simpl.
    split; auto. split; [rewrite app_assoc; auto|].
    split; [rewrite C; auto|]. split; [rewrite D; auto|]. split; [rewrite E; auto|]. split.
    + intros k2. rewrite F. simpl. tauto.
    + intros _. destruct ks as [|k3 ks]; [|apply G; discriminate].
      simpl in A. inversion A; subst; auto.
Qed.

(** Changing the view to one with the same finished set. *)
Lemma inv_view v v' tr s : Inv v tr s -> v_reg v' = v_reg v -> v_added v' = v_added v ->
  v_late v' = v_late v -> (forall k, In k (v_fin v') <-> In k (v_fin v)) -> Inv v' tr s.
Proof.
  intros I E1 E2 E3 E4.
  assert (Ea: forall k, added v' k = added v k) by (intros; unfold added; rewrite E2; auto).
  dinv I; constructor; rewrite ?E1, ?E2, ?E3; auto;
    try setoid_rewrite Ea; try setoid_rewrite E4; auto.
Qed.

Definition rest_inv (s : state) : Prop :=
  (forall k q, lookup k (queues s) = Some q -> q_fin q = true) -> queues s = [].

Lemma at_rest_rest s : at_rest s -> rest_inv s.
Proof.
  intros [H|[k [q [_ [H [H2 _]]]]]] Hall; auto.
  rewrite (Hall _ _ H) in H2; discriminate.
Qed.

Lemma nodup_unfinished qs : ksorted qs ->
  NoDup (map fst (filter (fun e : key * queue => negb (q_fin (snd e))) qs)).
Proof.
  intros Hs. apply (filter_keys_sorted (fun e => negb (q_fin (snd e)))) in Hs.
  unfold ksorted, keys in Hs. set (l := map fst _) in *. clearbody l.
  induction l as [|a l IH]; constructor; inversion Hs; subst; auto.
  rewrite Forall_forall in H2. intros Hin. apply (key_lt_irrefl a); auto.
Qed.

Lemma flush_ok v tr s : Inv v tr s -> rest_inv s ->
  exists s' evs, flush s = ROk (s', evs) /\ Inv (view_step v OFlush) (tr ++ evs) s' /\
    queues s' = [].
Proof.
  intros I Hr. unfold flush.
  set (ks := map fst (filter (fun e => negb (q_fin (snd e))) (queues s))).
  assert (Hks: forall k, In k ks <-> In k (v_reg v) /\ ~ In k (v_fin v)).
  { intros k. unfold ks. rewrite in_map_iff. split.
    - intros [[k' q] [E H]]; simpl in E; subst. apply filter_In in H as [H E]; simpl in E.
      apply in_lookup in H; [|apply I]. split; [eapply i_reg; eauto|].
      intros Hf. apply (i_fin _ _ _ I _ _ H) in Hf. rewrite Hf in E; discriminate.
    - intros [H1 H2]. destruct (i_open _ _ _ I k H1 H2) as [q Hl].
      exists (k, q); split; auto. apply filter_In; split; [apply lookup_in; auto|]. simpl.
      destruct (q_fin q) eqn:E; auto. apply (i_fin _ _ _ I _ _ Hl) in E; contradiction. }
  destruct (mark_all_ok ks v tr s I) as [s' [evs [v' [A [B [C [D [E [F G]]]]]]]]].
  { apply nodup_unfinished, I. }
  { intros k Hk; apply Hks; auto. }
  exists s', evs. split; auto.
  assert (Hfin: forall k, In k (v_reg v) <-> In k (v_fin v')).
  { intros k. rewrite F, Hks. split.
    - intros H. destruct (in_dec keq_dec k (v_fin v)); auto.
    - intros [[H _]|H]; auto. eapply i_finreg; eauto. }
  split.
  - apply (inv_view v'); auto.
  - assert (Hall: forall k q, lookup k (queues s') = Some q -> q_fin q = true).
    { intros k q Hl. apply (i_fin _ _ _ B _ _ Hl). apply Hfin. rewrite <- C. eapply i_reg; eauto. }
    destruct ks as [|k0 ks0] eqn:Eks.
    + simpl in A. inversion A; subst. apply Hr; auto.
    + apply (at_rest_rest s'); auto. apply G; discriminate.
Qed.

(** * Every legal call succeeds and keeps the invariant. *)
Lemma exec_ok v tr s o : Inv v tr s -> rest_inv s -> legal_op v tr o ->
  exists s' evs, exec o s = ROk (s', evs) /\ Inv (view_step v o) (tr ++ evs) s' /\
    rest_inv s'.
Proof.
  intros I Hr Hleg. destruct o as [k|k d|k|].
  - simpl. unfold add_queue. destruct (lookup k (queues s)) as [q|] eqn:E.
    + exfalso; apply Hleg. eapply i_reg; eauto.
    + simpl. exists (set_queues s (insert k (mkQueue [] false) (queues s))), [].
      split; auto. rewrite app_nil_r. split.
      * apply inv_addqueue; auto. intros; apply inv_quiet with v; auto.
      * intros H. exfalso. apply lookup_none in E.
        specialize (H k _ (lookup_insert_same k (mkQueue [] false) _ E)). discriminate.
  - destruct (add_ok v tr s k d I Hleg) as [s' [evs [A [B [C D]]]]].
    exists s', evs. split; auto. split; auto.
    destruct (in_dec keq_dec k (v_reg v)) as [H|H].
    + apply at_rest_rest; auto.
    + destruct (D H) as [-> _]; auto.
  - destruct (mark_ok v tr s k I Hleg) as [s' [evs [A [B C]]]].
    exists s', evs. split; auto. split; auto. apply at_rest_rest; auto.
  - destruct (flush_ok v tr s I Hr) as [s' [evs [A [B C]]]].
    exists s', evs. split; auto. split; auto. intros _; auto.
Qed.

Lemma run_ok : forall h v tr s, Inv v tr s -> rest_inv s -> legal_from v tr s h ->
  exists s' evs, run h s = ROk (s', evs) /\ Inv (fold_left view_step h v) (tr ++ evs) s' /\
    rest_inv s'.
Proof.
  induction h as [|o h IH]; intros v tr s I Hr Hleg; simpl.
  - exists s, []. rewrite app_nil_r; auto.
  - destruct Hleg as [H1 H2]. destruct (exec_ok v tr s o I Hr H1) as [s1 [e1 [A [B C]]]].
    destruct (IH _ _ _ B C (H2 _ _ A)) as [s2 [e2 [D [E F]]]].
    exists s2, (e1 ++ e2). rewrite A; simpl; rewrite D; simpl. rewrite app_assoc; auto.
Qed.
