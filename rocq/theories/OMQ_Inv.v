From Coq Require Import List ZArith Bool Lia Sorted.
From Verif Require Import OMQ_Model OMQ_Spec OMQ_Proofs.
Import ListNotations.
Local Open Scope Z_scope.

(** * Lists *)
Lemma items_of_app k a b : items_of k (a ++ b) = items_of k a ++ items_of k b.
Proof. unfold items_of. rewrite filter_app, map_app; auto. Qed.

Lemma items_of_one_same k d : items_of k [(k, d)] = [d].
Proof. unfold items_of; simpl. destruct (keq_dec k k); simpl; congruence. Qed.

Lemma items_of_one_other k k' d : k' <> k -> items_of k [(k', d)] = [].
Proof. intros; unfold items_of; simpl. destruct (keq_dec k' k); simpl; congruence. Qed.

Lemma items_of_in k d l : In d (items_of k l) <-> In (k, d) l.
Proof.
  unfold items_of. rewrite in_map_iff. split.
  - intros [[k' d'] [E H]]; simpl in *; subst. apply filter_In in H as [H E]; simpl in *.
    destruct (keq_dec k' k); [subst; auto|discriminate].
  - intros H. exists (k, d); split; auto. apply filter_In; simpl; split; auto.
    destruct (keq_dec k k); congruence.
Qed.

Lemma delivered_app a b : delivered (a ++ b) = delivered a ++ delivered b.
Proof. unfold delivered. apply flat_map_app. Qed.
Lemma dropped_app a b : dropped (a ++ b) = dropped a ++ dropped b.
Proof. unfold dropped. apply flat_map_app. Qed.

Lemma lastopt_snoc {A} (l : list A) x : lastopt (l ++ [x]) = Some x.
Proof.
  induction l as [|a l IH]; simpl; auto. destruct (l ++ [x]) eqn:E; auto.
  destruct l; discriminate.
Qed.

Lemma lastopt_none {A} (l : list A) : lastopt l = None -> l = [].
Proof.
  destruct l as [|a l]; auto. revert a; induction l as [|b l IH]; simpl; intros a H; [discriminate|].
  specialize (IH b H); discriminate.
Qed.

Lemma lastopt_in {A} (l : list A) x : lastopt l = Some x -> In x l.
Proof.
  induction l as [|a [|b l] IH]; simpl; intros H; try discriminate.
  - inversion H; auto.
  - right; apply IH; auto.
Qed.

Lemma lastopt_cons_some {A} (a : A) l : exists x, lastopt (a :: l) = Some x.
Proof.
  destruct (lastopt (a :: l)) eqn:E; eauto. apply lastopt_none in E; discriminate.
Qed.

Definition item_le (a b : item) : Prop := it_time a <= it_time b.

Lemma SS_snoc {A} (R : A -> A -> Prop) l x :
  StronglySorted R l -> (forall y, In y l -> R y x) -> StronglySorted R (l ++ [x]).
Proof.
  induction l as [|a l IH]; simpl; intros H1 H2.
  - repeat constructor.
  - inversion H1; subst. constructor; auto.
    rewrite Forall_forall in *. intros y Hy. apply in_app_iff in Hy as [Hy|[<-|[]]]; auto.
Qed.

Lemma SS_app_r {A} (R : A -> A -> Prop) l1 l2 :
  StronglySorted R (l1 ++ l2) -> StronglySorted R l2.
Proof. induction l1; simpl; intros H; auto. inversion H; auto. Qed.

Lemma SS_last l d x : StronglySorted item_le l -> lastopt l = Some x -> In d l -> item_le d x.
Proof.
  induction l as [|a l IH]; intros Hs Hl Hi; [inversion Hi|].
  destruct l as [|b l].
  - simpl in *. inversion Hl; destruct Hi as [<-|[]]; subst; unfold item_le; lia.
  - inversion Hs; subst. destruct Hi as [<-|Hi].
    + rewrite Forall_forall in H2. apply H2. apply lastopt_in; auto.
    + apply IH; auto.
Qed.

Lemma lastopt_app_r {A} (l1 l2 : list A) : l2 <> [] -> lastopt (l1 ++ l2) = lastopt l2.
Proof.
  intros H. induction l1 as [|a l1 IH]; simpl; auto.
  destruct (l1 ++ l2) eqn:E; auto.
  apply app_eq_nil in E as [_ E]; contradiction.
Qed.

(** * Fast forwarding *)
Fixpoint dpre (c : Z) (dr rest : list item) : Prop :=
  match dr with
  | [] => True
  | x :: dr' =>
      it_time x < c /\
      (exists y l, dr' ++ rest = y :: l /\ it_time y <= c) /\ dpre c dr' rest
  end.

Lemma dpre_extend c dr rest x : dpre c dr rest -> dpre c dr (rest ++ x).
Proof.
  induction dr as [|d dr IH]; simpl; auto. intros [H1 [[y [l [H2 H3]]] H4]].
  split; auto. split; auto. exists y, (l ++ x). rewrite app_assoc, H2; auto.
Qed.

Lemma dpre_snoc c dr y z l : dpre c dr (y :: z :: l) -> it_time y < c -> it_time z <= c ->
  dpre c (dr ++ [y]) (z :: l).
Proof.
  induction dr as [|d dr IH]; simpl.
  - intros _ H1 H2. split; auto. split; auto. exists z, l; auto.
  - intros [H1 [[w [m [H2 H3]]] H4]] Hy Hz. split; auto. split; auto.
    exists w, m. rewrite <- app_assoc; auto.
Qed.

Lemma dpre_ff c dr rest : dpre c dr rest ->
  fast_forward c (dr ++ rest) = fast_forward c rest.
Proof.
  induction dr as [|d dr IH]; auto. intros [H1 [[y [l [H2 H3]]] H4]].
  rewrite <- (IH H4). rewrite <- app_comm_cons, H2.
  apply Z.ltb_lt in H1. apply Z.leb_le in H3. simpl. rewrite H1, H3; reflexivity.
Qed.

(** * The invariant *)
Record Inv (v : view) (tr : list event) (s : state) : Prop := mkInv {
  i_sorted : ksorted (queues s);
  i_reg : forall k q, lookup k (queues s) = Some q -> In k (v_reg v);
  i_open : forall k, In k (v_reg v) -> ~ In k (v_fin v) ->
                     exists q, lookup k (queues s) = Some q;
  i_fin : forall k q, lookup k (queues s) = Some q -> (q_fin q = true <-> In k (v_fin v));
  i_finreg : forall k, In k (v_fin v) -> In k (v_reg v);
  i_cons : forall k, added v k = items_of k (dropped tr) ++ items_of k (delivered tr)
                                 ++ pending s k;
  i_unreg : forall k, ~ In k (v_reg v) -> added v k = [];
  i_mono : forall k, StronglySorted item_le (added v k);
  i_min : time_min <= last_time s;
  i_minall : forall k d, In d (added v k) -> time_min <= it_time d;
  i_last : forall e, In e (delivered tr) -> it_time (snd e) <= last_time s;
  i_time : StronglySorted time_le (delivered tr);
  i_lastnil : delivered tr = [] -> last_time s = time_min;
  i_lastsnoc : forall l e, delivered tr = l ++ [e] -> last_time s = it_time (snd e);
  i_ge : forall k q, lookup k (queues s) = Some q ->
         (forall d, In d (q_data q) -> last_time s <= it_time d) /\
         (forall d, lastopt (added v k) = Some d -> last_time s <= it_time d);
  i_cs_none : forall t, zlookup t (common_start s) = None ->
              forall k, fst k = t -> items_of k (delivered tr) = [] /\
                                     items_of k (dropped tr) = [];
  i_cs_some : forall t c, zlookup t (common_start s) = Some c ->
              exists k d r, In k (v_reg v) /\ fst k = t /\ added v k = d :: r /\
                            it_time d = c;
  i_cs_max : forall t c, zlookup t (common_start s) = Some c -> v_late v = false ->
              forall k, In k (v_reg v) -> fst k = t ->
              (forall d r, added v k = d :: r -> it_time d <= c) /\
              (added v k = [] -> In k (v_fin v));
  i_keep : forall k c, zlookup (fst k) (common_start s) = Some c ->
              dpre c (items_of k (dropped tr)) (items_of k (delivered tr) ++ pending s k) /\
              (forall d r, items_of k (delivered tr) = d :: r ->
                 c <= it_time d \/
                 (exists d2 r2, r ++ pending s k = d2 :: r2 /\ c < it_time d2) \/
                 (In k (v_fin v) /\ r ++ pending s k = []));
  i_lex : v_late v = false -> StronglySorted lex_le (delivered tr);
  i_lexq : v_late v = false -> forall e, In e (delivered tr) ->
           forall k q, lookup k (queues s) = Some q ->
           (forall d, In d (q_data q) -> lex_le e (k, d)) /\
           (forall d, lastopt (added v k) = Some d -> lex_le e (k, d)) /\
           (added v k = [] -> In k (v_fin v));
  i_added_reg : forall e, In e (v_added v) -> In (fst e) (v_reg v)
}.

Ltac dinv H := destruct H as
  [i_sorted0 i_reg0 i_open0 i_fin0 i_finreg0 i_cons0 i_unreg0 i_mono0 i_min0 i_minall0
   i_last0 i_time0 i_lastnil0 i_lastsnoc0 i_ge0 i_cs_none0 i_cs_some0 i_cs_max0 i_keep0
   i_lex0 i_lexq0 i_added_reg0].

Lemma inv_init : Inv view0 [] init.
Proof.
  constructor; simpl; intros; try discriminate; try tauto; auto using SSorted_nil;
    try solve [constructor | lia | destruct l; discriminate].
Qed.

(** Erasing empty finished queues. *)
Definition erased (qs qs' : list (key * queue)) : Prop :=
  ksorted qs' /\
  (forall k q, lookup k qs' = Some q -> lookup k qs = Some q) /\
  (forall k q, lookup k qs = Some q -> lookup k qs' = None ->
               q_data q = [] /\ q_fin q = true).

Lemma pending_erased s qs' k : erased (queues s) qs' ->
  pending (set_queues s qs') k = pending s k.
Proof.
  intros [_ [H1 H2]]. unfold pending; simpl.
  destruct (lookup k qs') as [q|] eqn:E.
  - rewrite (H1 _ _ E); auto.
  - destruct (lookup k (queues s)) as [q|] eqn:E2; auto.
    symmetry; apply (H2 _ _ E2 E).
Qed.

Lemma inv_erase v tr s qs' : Inv v tr s -> erased (queues s) qs' ->
  Inv v tr (set_queues s qs').
Proof.
  intros I He. pose proof (fun k => pending_erased s qs' k He) as Hp.
  destruct He as [H1 [H2 H3]]. dinv I.
  constructor; simpl; auto; intros.
  - eauto.
  - destruct (i_open0 k H H0) as [q Hq]. destruct (lookup k qs') as [q'|] eqn:E; eauto.
    destruct (H3 _ _ Hq E) as [_ Hf]. apply (i_fin0 _ _ Hq) in Hf; contradiction.
  - rewrite Hp; auto.
  - rewrite !Hp; auto.
Qed.

Lemma inv_blocker v tr s b : Inv v tr s ->
  Inv v tr (mkState (last_time s) (common_start s) (queues s) b).
Proof. intros []; constructor; auto. Qed.

Lemma erased_filter qs : ksorted qs ->
  (forall k q, In (k, q) qs -> q_data q = [] -> q_fin q = true) ->
  erased qs (filter nonempty qs).
Proof.
  intros Hs H. pose proof (filter_keys_sorted nonempty qs Hs) as Hs'.
  split; auto. split.
  - intros k q Hl. apply lookup_in in Hl. apply filter_In in Hl as [Hl _].
    apply in_lookup; auto.
  - intros k q Hl Hn. apply lookup_in in Hl.
    destruct (q_data q) as [|d r] eqn:E; eauto.
    apply lookup_none in Hn. exfalso; apply Hn.
    apply in_keys with q. apply filter_In. split; auto. unfold nonempty; simpl; rewrite E; auto.
Qed.

Lemma sorted_app_filter l1 l2 : ksorted (l1 ++ l2) -> ksorted (filter nonempty l1 ++ l2).
Proof.
  induction l1 as [|e l1 IH]; simpl; auto. intros H.
  apply ksorted_inv in H as [H1 H2]. destruct (nonempty e); simpl; auto.
  constructor; [apply IH; auto|]. change (Forall (key_lt (fst e)) (keys (filter nonempty l1 ++ l2))).
  rewrite Forall_forall; intros x Hx. apply H2. unfold keys in *. rewrite map_app in *.
  apply in_app_iff in Hx. apply in_app_iff. destruct Hx as [Hx|]; auto. left.
  apply in_map_iff in Hx as [y [<- Hy]]. apply filter_In in Hy as [Hy _]. apply in_map; auto.
Qed.

Lemma erased_app l1 l2 : ksorted (l1 ++ l2) ->
  (forall k q, In (k, q) l1 -> q_data q = [] -> q_fin q = true) ->
  erased (l1 ++ l2) (filter nonempty l1 ++ l2).
Proof.
  intros Hs H. pose proof (sorted_app_filter _ _ Hs) as Hs'. split; auto. split.
  - intros k q Hl. apply lookup_in in Hl. apply in_lookup; auto.
    apply in_app_iff in Hl. apply in_app_iff. destruct Hl as [Hl|]; auto.
    apply filter_In in Hl; tauto.
  - intros k q Hl Hn. apply lookup_in in Hl. apply lookup_none in Hn.
    apply in_app_iff in Hl as [Hl|Hl].
    + destruct (q_data q) as [|d r] eqn:E; eauto. exfalso; apply Hn.
      apply in_keys with q. apply in_app_iff; left. apply filter_In; split; auto.
      unfold nonempty; simpl; rewrite E; auto.
    + exfalso; apply Hn. apply in_keys with q. apply in_app_iff; auto.
Qed.

(** Common start time. *)
Lemma max_front_ge t : forall qs acc, acc <= max_front t acc qs.
Proof.
  induction qs as [|[k q] r IH]; simpl; intros acc; [lia|].
  destruct (fst k =? t); auto. destruct (q_data q); auto.
  specialize (IH (Z.max acc (it_time i))). lia.
Qed.

Lemma max_front_ub t : forall qs acc k q d r,
  In (k, q) qs -> fst k = t -> q_data q = d :: r -> it_time d <= max_front t acc qs.
Proof.
  induction qs as [|[k0 q0] rest IH]; simpl; intros acc k q d r Hin Ht Hq; [tauto|].
  destruct Hin as [E|Hin].
  - inversion E; subst. rewrite Z.eqb_refl, Hq.
    pose proof (max_front_ge (fst k) rest (Z.max acc (it_time d))). lia.
  - destruct (fst k0 =? t); eauto. destruct (q_data q0); eauto.
Qed.

Lemma max_front_attained t : forall qs acc,
  max_front t acc qs = acc \/
  exists k q d r, In (k, q) qs /\ fst k = t /\ q_data q = d :: r /\
                  it_time d = max_front t acc qs.
Proof.
  induction qs as [|[k0 q0] rest IH]; simpl; intros acc; auto.
  destruct (fst k0 =? t) eqn:E.
  - apply Z.eqb_eq in E. destruct (q_data q0) as [|d0 r0] eqn:Eq.
    + destruct (IH acc) as [H|[k [q [d [r [A B]]]]]]; auto. right; exists k, q, d, r; auto.
    + destruct (IH (Z.max acc (it_time d0))) as [H|[k [q [d [r [A B]]]]]].
      * rewrite H. destruct (Z.max_spec acc (it_time d0)) as [[_ ->]|[_ ->]]; auto.
        right; exists k0, q0, d0, r0; auto.
      * right; exists k, q, d, r; auto.
  - destruct (IH acc) as [H|[k [q [d [r [A B]]]]]]; auto. right; exists k, q, d, r; auto.
Qed.

Lemma inv_common_start v tr s t c cs : Inv v tr s ->
  (forall k q, lookup k (queues s) = Some q -> q_data q <> []) ->
  (exists k q, lookup k (queues s) = Some q /\ fst k = t) ->
  get_common_start t (common_start s) (queues s) = (c, cs) ->
  Inv v tr (mkState (last_time s) cs (queues s) (blocker s)) /\
  zlookup t cs = Some c.
Proof.
  intros I Hne [k0 [q0 [Hk0 Ht0]]] Hg. unfold get_common_start in Hg.
  destruct (zlookup t (common_start s)) as [c'|] eqn:Ez.
  - inversion Hg; subst. split; auto. dinv I; constructor; auto.
  - inversion Hg; subst cs. clear Hg. dinv I. split; [|simpl; rewrite Z.eqb_refl; auto].
    pose proof (i_cs_none0 _ Ez) as Hnone.
    assert (Hpend: forall k, fst k = t -> added v k = pending s k).
    { intros k Hk. rewrite i_cons0. destruct (Hnone k Hk) as [-> ->]; auto. }
    assert (Hc: max_front t time_min (queues s) = c) by congruence. rewrite Hc.
    constructor; simpl; auto.
    + intros t'. destruct (t' =? t) eqn:E; [discriminate|]. apply i_cs_none0.
    + intros t' c'. destruct (t' =? t) eqn:E; [|eauto]. intros Hc'; inversion Hc'; subst c'. clear Hc'.
      apply Z.eqb_eq in E; subst t'.
      assert (Hq0: exists d r, q_data q0 = d :: r).
      { specialize (Hne _ _ Hk0). destruct (q_data q0); [congruence|eauto]. }
      destruct Hq0 as [d0 [r0 Hq0]].
      destruct (max_front_attained t (queues s) time_min) as [H|[k [q [d [r [A [B [C D]]]]]]]].
      * exists k0, d0, r0. split; eauto. split; auto. rewrite Hpend; auto.
        unfold pending; rewrite Hk0. split; auto.
        assert (it_time d0 <= max_front t time_min (queues s))
          by (eapply max_front_ub; eauto using lookup_in).
        assert (time_min <= it_time d0).
        { apply (i_minall0 k0). rewrite Hpend; auto. unfold pending; rewrite Hk0, Hq0; simpl; auto. }
        lia.
      * exists k, d, r. apply in_lookup in A; auto. split; eauto. split; auto.
        rewrite Hpend; auto. unfold pending; rewrite A. split; auto. congruence.
    + intros t' c'. destruct (t' =? t) eqn:E; [|eauto]. intros Hc'; inversion Hc'; subst c'. clear Hc'.
      apply Z.eqb_eq in E; subst t'. intros Hl k Hreg Hk. rewrite Hpend; auto.
      unfold pending. destruct (lookup k (queues s)) as [q|] eqn:Elk.
      * specialize (Hne _ _ Elk). split; [|congruence].
        intros d r Hq. rewrite <- Hc. eapply max_front_ub; eauto using lookup_in.
      * split; [intros; discriminate|]. intros _.
        destruct (in_dec keq_dec k (v_fin v)) as [|n]; auto.
        destruct (i_open0 k Hreg n); congruence.
    + intros k c'. destruct (fst k =? t) eqn:E; [|eauto]. intros Hc'; inversion Hc'; subst c'. clear Hc'.
      apply Z.eqb_eq in E. destruct (Hnone k E) as [-> ->]. simpl. split; auto.
      intros; discriminate.
Qed.

Lemma lexk_lex_le d k d' k' : lexk (it_time d, k) (it_time d', k') -> lex_le (k, d) (k', d').
Proof.
  unfold lexk, lex_le, key_lt; simpl. intros [H|[H [[H'|H']|H']]]; subst; try lia.
  all: try (destruct H'; subst; lia).
Qed.

Lemma lex_le_time a b : lex_le a b -> it_time (snd a) <= it_time (snd b).
Proof. unfold lex_le; lia. Qed.

Lemma lex_le_trans a b c : lex_le a b -> lex_le b c -> lex_le a c.
Proof. unfold lex_le; lia. Qed.

Lemma pending_update_same s k q q' l cs b : lookup k (queues s) = Some q ->
  pending (mkState l cs (update k q' (queues s)) b) k = q_data q'.
Proof.
  intros H. unfold pending; simpl. rewrite lookup_update_same; auto.
  apply lookup_in in H; eapply in_keys; eauto.
Qed.

Lemma pending_update_other s k k2 q' l cs b : k <> k2 ->
  pending (mkState l cs (update k q' (queues s)) b) k2 = pending s k2.
Proof. intros H. unfold pending; simpl. rewrite lookup_update_other; auto. Qed.

Section Pop.
  Variables (v : view) (tr : list event) (s : state) (k : key) (q : queue)
            (d : item) (r : list item) (c : Z).
  Hypothesis I : Inv v tr s.
  Hypothesis Hl : lookup k (queues s) = Some q.
  Hypothesis Hq : q_data q = d :: r.
  Hypothesis Hne : forall k q, lookup k (queues s) = Some q -> q_data q <> [].
  Hypothesis Hmin : forall k' q' d' r', lookup k' (queues s) = Some q' ->
     q_data q' = d' :: r' -> lexk (it_time d, k) (it_time d', k').
  Hypothesis Hge : last_time s <= it_time d.
  Hypothesis Hcs : zlookup (fst k) (common_start s) = Some c.

  Let q' := mkQueue r (q_fin q).

  Lemma pop_added : added v k = items_of k (dropped tr) ++ items_of k (delivered tr) ++ d :: r.
  Proof. rewrite (i_cons _ _ _ I k). unfold pending. rewrite Hl, Hq; auto. Qed.

  Lemma pop_sorted : StronglySorted item_le (d :: r).
  Proof.
    pose proof (i_mono _ _ _ I k) as H. rewrite pop_added in H.
    apply SS_app_r in H. apply SS_app_r in H. auto.
  Qed.

  Lemma pop_r x : In x r -> it_time d <= it_time x.
  Proof.
    intros Hx. pose proof pop_sorted as H. inversion H; subst.
    rewrite Forall_forall in H3. apply H3; auto.
  Qed.

  Lemma pop_last x : lastopt (added v k) = Some x -> it_time d <= it_time x.
  Proof.
    intros Hx. eapply (SS_last (added v k) d x); eauto using (i_mono _ _ _ I).
    rewrite pop_added. rewrite !in_app_iff; simpl; auto.
  Qed.

  (** All data of all queues follows the selected item. *)
  Lemma pop_min k2 q2 : lookup k2 (queues s) = Some q2 ->
    (forall x, In x (q_data q2) -> lex_le (k, d) (k2, x)) /\
    (forall x, lastopt (added v k2) = Some x -> lex_le (k, d) (k2, x)) /\
    added v k2 <> [].
  Proof.
    intros H2. pose proof (Hne _ _ H2) as Hn. destruct (q_data q2) as [|d2 r2] eqn:E2; [congruence|].
    pose proof (Hmin _ _ _ _ H2 E2) as Hm. apply lexk_lex_le in Hm.
    assert (Ha: added v k2 = items_of k2 (dropped tr) ++ items_of k2 (delivered tr) ++ d2 :: r2).
    { rewrite (i_cons _ _ _ I k2). unfold pending; rewrite H2, E2; auto. }
    pose proof (i_mono _ _ _ I k2) as Hs.
    assert (Hs2: StronglySorted item_le (d2 :: r2)).
    { rewrite Ha in Hs. apply SS_app_r in Hs. apply SS_app_r in Hs. auto. }
    assert (Hx: forall x, item_le d2 x -> lex_le (k, d) (k2, x)).
    { intros x Hx. unfold item_le, lex_le in *; simpl in *. lia. }
    split; [|split].
    - intros x [<-|Hin]; auto. inversion Hs2; subst. rewrite Forall_forall in H3. auto.
    - intros x Hlast. apply Hx. apply (SS_last (added v k2) d2 x Hs Hlast). rewrite Ha, !in_app_iff; simpl; auto.
    - rewrite Ha. destruct (items_of k2 (dropped tr)); [|discriminate].
      destruct (items_of k2 (delivered tr)); discriminate.
  Qed.

  Lemma inv_deliver :
    c <= it_time d \/ (exists d2 r2, r = d2 :: r2 /\ c < it_time d2) \/
    (q_fin q = true /\ r = []) ->
    Inv v (tr ++ [Deliver k d])
        (mkState (it_time d) (common_start s) (update k q' (queues s)) (blocker s)).
  Proof.
    intros Hcase.
    assert (Hkin: In k (keys (queues s))) by (eapply in_keys, lookup_in; eauto).
    assert (Hlk: forall k2 q2, lookup k2 (update k q' (queues s)) = Some q2 ->
              exists q3, lookup k2 (queues s) = Some q3 /\ q_fin q2 = q_fin q3 /\
                         (forall x, In x (q_data q2) -> In x (q_data q3))).
    { intros k2 q2 H. destruct (keq_dec k k2) as [<-|N].
      - rewrite lookup_update_same in H; auto. inversion H; subst. exists q. split; auto. split; auto.
        unfold q'; simpl; rewrite Hq; simpl; auto.
      - rewrite lookup_update_other in H; auto. eauto. }
    pose proof I as I0. dinv I0.
    constructor; simpl; auto.
    - apply update_sorted; auto.
    - intros k2 q2 H. destruct (Hlk _ _ H) as [q3 [A _]]; eauto.
    - intros k2 H1 H2. destruct (keq_dec k k2) as [<-|N].
      + rewrite lookup_update_same; eauto.
      + rewrite lookup_update_other; auto.
    - intros k2 q2 H. destruct (Hlk _ _ H) as [q3 [A [-> _]]]; eauto.
    - intros k2. rewrite dropped_app, delivered_app, !items_of_app; simpl.
      change (items_of k2 []) with (@nil item). rewrite app_nil_r.
      destruct (keq_dec k k2) as [<-|N].
      + rewrite (pending_update_same _ _ _ _ _ _ _ Hl), items_of_one_same.
        unfold q'; simpl. rewrite pop_added. rewrite <- !app_assoc; auto.
      + rewrite (pending_update_other _ _ _ _ _ _ _ N), items_of_one_other; auto.
        rewrite app_nil_r; auto.
    - lia.
    - intros e He. rewrite delivered_app in He. apply in_app_iff in He as [He|[<-|[]]]; simpl; [|lia].
      apply i_last0 in He; lia.
    - rewrite delivered_app; simpl. apply SS_snoc; auto.
      intros y Hy. unfold time_le; simpl. apply i_last0 in Hy; lia.
    - rewrite delivered_app; simpl. intros H; destruct (delivered tr); discriminate.
    - rewrite delivered_app; simpl. intros l e H. apply app_inj_tail in H as [_ <-]; auto.
    - intros k2 q2 H. destruct (Hlk _ _ H) as [q3 [A [_ B]]].
      destruct (pop_min _ _ A) as [C [D _]]. split.
      + intros x Hx. apply (lex_le_time _ _ (C x (B x Hx))).
      + intros x Hx. apply (lex_le_time _ _ (D x Hx)).
    - intros t Ht k2 Hk2. rewrite dropped_app, delivered_app, !items_of_app; simpl.
      change (items_of k2 []) with (@nil item).
      rewrite items_of_one_other; [rewrite ?app_nil_r; apply i_cs_none0 with t; auto|].
      intros <-; congruence.
    - intros k2 c2 Hc2. rewrite dropped_app, delivered_app, !items_of_app; simpl.
      change (items_of k2 []) with (@nil item). rewrite app_nil_r.
      specialize (i_keep0 _ _ Hc2) as [K1 K2].
      destruct (keq_dec k k2) as [<-|N].
      + assert (c2 = c) by congruence; subst c2.
        rewrite (pending_update_same _ _ _ _ _ _ _ Hl), items_of_one_same.
        unfold pending in K1, K2; rewrite Hl, Hq in K1, K2. unfold q'; simpl.
        rewrite <- app_assoc; simpl. split; auto.
        intros x y Hxy. destruct (items_of k (delivered tr)) as [|a b] eqn:Eab; simpl in Hxy.
        * inversion Hxy; subst. simpl. destruct Hcase as [|[|[F ->]]]; auto.
          right; right. split; auto. eapply i_fin0; eauto.
        * inversion Hxy; subst. specialize (K2 _ _ eq_refl). rewrite <- app_assoc; simpl.
          destruct K2 as [|[|[_ E]]]; auto. destruct b; discriminate.
      + rewrite (pending_update_other _ _ _ _ _ _ _ N), items_of_one_other; auto.
        rewrite app_nil_r; auto.
    - intros Hlate. rewrite delivered_app; simpl. apply SS_snoc; auto.
      intros y Hy. destruct (i_lexq0 Hlate y Hy k q Hl) as [A _]. apply A. rewrite Hq; simpl; auto.
    - intros Hlate e He k2 q2 H. destruct (Hlk _ _ H) as [q3 [A [_ B]]].
      rewrite delivered_app in He. apply in_app_iff in He as [He|[<-|[]]].
      + destruct (i_lexq0 Hlate e He _ _ A) as [C [D E]]. split; auto.
      + destruct (pop_min _ _ A) as [C [D E]]. split; auto. split; auto. congruence.
  Qed.

  Lemma inv_drop d2 r2 :
    it_time d < c -> r = d2 :: r2 -> it_time d2 <= c ->
    Inv v (tr ++ [Drop k d])
        (mkState (last_time s) (common_start s) (update k q' (queues s)) (blocker s)).
  Proof.
    intros Hdc Hr Hd2.
    assert (Hkin: In k (keys (queues s))) by (eapply in_keys, lookup_in; eauto).
    assert (Hlk: forall k2 q2, lookup k2 (update k q' (queues s)) = Some q2 ->
              exists q3, lookup k2 (queues s) = Some q3 /\ q_fin q2 = q_fin q3 /\
                         (forall x, In x (q_data q2) -> In x (q_data q3))).
    { intros k2 q2 H. destruct (keq_dec k k2) as [<-|N].
      - rewrite lookup_update_same in H; auto. inversion H; subst. exists q. split; auto. split; auto.
        unfold q'; simpl; rewrite Hq; simpl; auto.
      - rewrite lookup_update_other in H; auto. eauto. }
    pose proof I as I0. dinv I0.
    assert (Hnodel: items_of k (delivered tr) = []).
    { specialize (i_keep0 _ _ Hcs) as [K1 K2].
      unfold pending in K2; rewrite Hl, Hq in K2.
      destruct (items_of k (delivered tr)) as [|a b] eqn:Eab; auto. exfalso.
      assert (Hs: StronglySorted item_le ((a :: b) ++ d :: r)).
      { pose proof (i_mono0 k) as Hs. rewrite pop_added, Eab in Hs. apply SS_app_r in Hs; auto. }
      destruct (K2 _ _ eq_refl) as [H|[[x [y [H H']]]|[_ H]]].
      - inversion Hs; subst. rewrite Forall_forall in H3.
        assert (item_le a d) by (apply H3; rewrite in_app_iff; simpl; auto).
        unfold item_le in *; lia.
      - simpl in Hs. rewrite H in Hs. apply StronglySorted_inv in Hs as [Hs _].
        apply StronglySorted_inv in Hs as [_ Hs].
        assert (Hin: In d (x :: y)) by (rewrite <- H, in_app_iff; simpl; auto).
        destruct Hin as [<-|Hin]; [lia|]. rewrite Forall_forall in Hs. apply Hs in Hin.
        unfold item_le in *; lia.
      - destruct b; discriminate. }
    assert (Edl: delivered (tr ++ [Drop k d]) = delivered tr)
      by (rewrite delivered_app; simpl; apply app_nil_r).
    constructor; simpl; auto; try rewrite Edl; auto.
    - apply update_sorted; auto.
    - intros k2 q2 H. destruct (Hlk _ _ H) as [q3 [A _]]; eauto.
    - intros k2 H1 H2. destruct (keq_dec k k2) as [<-|N].
      + rewrite lookup_update_same; eauto.
      + rewrite lookup_update_other; auto.
    - intros k2 q2 H. destruct (Hlk _ _ H) as [q3 [A [-> _]]]; eauto.
    - intros k2. rewrite ?Edl, dropped_app, !items_of_app; simpl.
      destruct (keq_dec k k2) as [<-|N].
      + rewrite (pending_update_same _ _ _ _ _ _ _ Hl), items_of_one_same.
        unfold q'; simpl. rewrite pop_added, Hnodel. simpl. rewrite <- !app_assoc; auto.
      + rewrite (pending_update_other _ _ _ _ _ _ _ N), items_of_one_other; auto.
        rewrite app_nil_r; auto.
    - intros k2 q2 H. destruct (Hlk _ _ H) as [q3 [A [_ B]]].
      destruct (i_ge0 _ _ A) as [C D]. split; auto.
    - intros t Ht k2 Hk2. rewrite ?Edl, dropped_app, !items_of_app; simpl.
      change (items_of k2 []) with (@nil item).
      rewrite items_of_one_other; [rewrite ?app_nil_r; apply i_cs_none0 with t; auto|].
      intros <-; congruence.
    - intros k2 c2 Hc2. rewrite ?Edl, dropped_app, !items_of_app; simpl.
      specialize (i_keep0 _ _ Hc2) as [K1 K2].
      destruct (keq_dec k k2) as [<-|N].
      + assert (c2 = c) by congruence; subst c2.
        rewrite (pending_update_same _ _ _ _ _ _ _ Hl), items_of_one_same.
        unfold pending in K1, K2; rewrite Hl, Hq in K1, K2. unfold q'; simpl.
        rewrite Hnodel in *. simpl in *. subst r. split.
        * apply dpre_snoc; auto.
        * intros; discriminate.
      + rewrite (pending_update_other _ _ _ _ _ _ _ N), items_of_one_other; auto.
        rewrite app_nil_r; auto.
    - intros Hlate e He k2 q2 H. destruct (Hlk _ _ H) as [q3 [A [_ B]]].
      destruct (i_lexq0 Hlate e He _ _ A) as [C [D E]]. split; auto.
  Qed.
End Pop.
