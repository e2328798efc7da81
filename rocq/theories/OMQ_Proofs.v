From Coq Require Import List ZArith Bool Lia Sorted.
From Verif Require Import OMQ_Model OMQ_Spec.
Import ListNotations.
Local Open Scope Z_scope.

(** * Keys *)
Definition key_lt (a b : key) : Prop :=
  fst a < fst b \/ (fst a = fst b /\ snd a < snd b).

Lemma key_ltb_spec a b : key_ltb a b = true <-> key_lt a b.
Proof.
  unfold key_ltb, key_lt. rewrite orb_true_iff, andb_true_iff, Z.ltb_lt, Z.eqb_eq, Z.ltb_lt.
  tauto.
Qed.

Lemma key_eqb_spec a b : key_eqb a b = true <-> a = b.
Proof.
  unfold key_eqb. rewrite andb_true_iff, !Z.eqb_eq. destruct a, b; simpl.
  split; [intros []; subst; auto | intros H; inversion H; auto].
Qed.

Lemma key_eqb_refl a : key_eqb a a = true.
Proof. apply key_eqb_spec; auto. Qed.

Lemma key_eqb_false a b : key_eqb a b = false <-> a <> b.
Proof.
  split; intros H.
  - intros ->. rewrite key_eqb_refl in H; discriminate.
  - destruct (key_eqb a b) eqn:E; auto. apply key_eqb_spec in E; contradiction.
Qed.

Lemma key_lt_irrefl a : ~ key_lt a a.
Proof. unfold key_lt; lia. Qed.

Lemma key_lt_trans a b c : key_lt a b -> key_lt b c -> key_lt a c.
Proof. unfold key_lt; lia. Qed.

Lemma key_lt_total a b : key_lt a b \/ a = b \/ key_lt b a.
Proof.
  unfold key_lt. destruct a as [a1 a2], b as [b1 b2]; simpl.
  destruct (Z.lt_trichotomy a1 b1) as [|[|]];
  destruct (Z.lt_trichotomy a2 b2) as [|[|]]; subst; auto; try lia.
Qed.

(** * The queue map *)
Definition keys (qs : list (key * queue)) : list key := map fst qs.
Definition ksorted (qs : list (key * queue)) : Prop :=
  StronglySorted key_lt (keys qs).

Lemma ksorted_inv e qs : ksorted (e :: qs) ->
  ksorted qs /\ (forall k, In k (keys qs) -> key_lt (fst e) k).
Proof.
  unfold ksorted; simpl; intros H. inversion H; subst.
  split; auto. rewrite Forall_forall in H3; auto.
Qed.

Lemma lookup_in k q qs : lookup k qs = Some q -> In (k, q) qs.
Proof.
  induction qs as [|[k' q'] r IH]; simpl; [discriminate|].
  destruct (key_eqb k k') eqn:E.
  - apply key_eqb_spec in E; subst. intros H; inversion H; auto.
  - auto.
Qed.

Lemma lookup_none k qs : lookup k qs = None <-> ~ In k (keys qs).
Proof.
  induction qs as [|[k' q'] r IH]; simpl; [tauto|].
  destruct (key_eqb k k') eqn:E.
  - apply key_eqb_spec in E; subst. split; [discriminate|tauto].
  - apply key_eqb_false in E. rewrite IH. split; intros H; [|tauto].
    intros [->|]; auto.
Qed.

Lemma in_keys k q qs : In (k, q) qs -> In k (keys qs).
Proof. intros; apply in_map_iff; exists (k, q); auto. Qed.

Lemma in_lookup k q qs : ksorted qs -> In (k, q) qs -> lookup k qs = Some q.
Proof.
  induction qs as [|[k' q'] r IH]; simpl; intros Hs Hin; [tauto|].
  apply ksorted_inv in Hs as [Hs Hlt].
  destruct Hin as [E|Hin].
  - inversion E; subst. rewrite key_eqb_refl; auto.
  - destruct (key_eqb k k') eqn:E; auto.
    apply key_eqb_spec in E; subst. exfalso.
    apply (key_lt_irrefl k'). apply Hlt. eapply in_keys; eauto.
Qed.

Lemma keys_in k qs : In k (keys qs) -> exists q, In (k, q) qs.
Proof.
  intros H. apply in_map_iff in H as [[k' q] [E H]]; simpl in *; subst. eauto.
Qed.

Lemma update_keys k q qs : keys (update k q qs) = keys qs.
Proof.
  induction qs as [|[k' q'] r IH]; simpl; auto.
  destruct (key_eqb k k'); simpl; [auto|]. unfold keys in *; rewrite IH; auto.
Qed.

Lemma update_sorted k q qs : ksorted qs -> ksorted (update k q qs).
Proof. unfold ksorted. rewrite update_keys; auto. Qed.

Lemma lookup_update_same k q qs : In k (keys qs) ->
  lookup k (update k q qs) = Some q.
Proof.
  induction qs as [|[k' q'] r IH]; simpl; [tauto|].
  destruct (key_eqb k k') eqn:E; simpl; rewrite E; auto.
  intros [->|]; auto. rewrite key_eqb_refl in E; discriminate.
Qed.

Lemma lookup_update_other k k2 q qs : k <> k2 ->
  lookup k2 (update k q qs) = lookup k2 qs.
Proof.
  intros N. induction qs as [|[k' q'] r IH]; simpl; auto.
  destruct (key_eqb k k') eqn:E; simpl.
  - apply key_eqb_spec in E; subst.
    destruct (key_eqb k2 k') eqn:E2; auto.
    apply key_eqb_spec in E2; subst; congruence.
  - rewrite IH; auto.
Qed.

Lemma insert_keys k q qs x : In x (keys (insert k q qs)) <-> x = k \/ In x (keys qs).
Proof.
  induction qs as [|[k' q'] r IH]; simpl; [intuition|].
  destruct (key_ltb k k'); simpl; intuition.
Qed.

Lemma insert_sorted k q qs : ksorted qs -> ~ In k (keys qs) ->
  ksorted (insert k q qs).
Proof.
  induction qs as [|[k' q'] r IH]; simpl; intros Hs Hn.
  - repeat constructor.
  - pose proof (ksorted_inv _ _ Hs) as [Hs' Hlt].
    destruct (key_ltb k k') eqn:E.
    + apply key_ltb_spec in E. constructor; [exact Hs|].
      constructor; [exact E|]. rewrite Forall_forall. intros x Hx.
      eapply key_lt_trans; [exact E|]. apply Hlt; auto.
    + constructor.
      * apply IH; auto.
      * change (Forall (key_lt k') (keys (insert k q r))).
        rewrite Forall_forall. intros x Hx. apply insert_keys in Hx as [->|Hx].
        -- destruct (key_lt_total k k') as [H|[H|H]]; auto.
           ++ apply key_ltb_spec in H; congruence.
           ++ subst; tauto.
        -- apply Hlt; auto.
Qed.

Lemma lookup_insert_same k q qs : ~ In k (keys qs) ->
  lookup k (insert k q qs) = Some q.
Proof.
  induction qs as [|[k' q'] r IH]; simpl; intros Hn.
  - rewrite key_eqb_refl; auto.
  - destruct (key_ltb k k'); simpl.
    + rewrite key_eqb_refl; auto.
    + replace (key_eqb k k') with false; [apply IH; tauto|].
      symmetry. apply key_eqb_false; intros ->; tauto.
Qed.

Lemma lookup_insert_other k k2 q qs : k <> k2 ->
  lookup k2 (insert k q qs) = lookup k2 qs.
Proof.
  intros N. induction qs as [|[k' q'] r IH]; simpl; auto.
  - replace (key_eqb k2 k) with false; auto.
    symmetry; apply key_eqb_false; auto.
  - destruct (key_ltb k k') eqn:E; simpl.
    + replace (key_eqb k2 k) with false; auto.
      symmetry; apply key_eqb_false; auto.
    + rewrite IH; auto.
Qed.

Lemma total_items_update k q q' qs : lookup k qs = Some q ->
  (total_items (update k q' qs) + length (q_data q) =
   total_items qs + length (q_data q'))%nat.
Proof.
  induction qs as [|[k1 q1] r IH]; simpl; [discriminate|].
  destruct (key_eqb k k1); simpl; intros H.
  - inversion H; subst; lia.
  - specialize (IH H); lia.
Qed.

(** * The scan *)
Definition nonempty (e : key * queue) : bool :=
  match q_data (snd e) with [] => false | _ => true end.

Definition lexk (a b : Z * key) : Prop :=
  fst a < fst b \/ (fst a = fst b /\ (key_lt (snd a) (snd b) \/ snd a = snd b)).

Lemma lexk_trans a b c : lexk a b -> lexk b c -> lexk a c.
Proof.
  unfold lexk. intros [H|[H H']] [G|[G G']]; try lia.
  right; split; [lia|].
  destruct H' as [H'| ->], G' as [G'|<-]; eauto using key_lt_trans.
Qed.

Lemma filter_keys_sorted f qs : ksorted qs -> ksorted (filter f qs).
Proof.
  induction qs as [|e r IH]; simpl; intros H; auto.
  apply ksorted_inv in H as [H1 H2]. destruct (f e); auto.
  constructor; [apply IH; auto|].
  change (Forall (key_lt (fst e)) (keys (filter f r))). rewrite Forall_forall.
  intros x Hx. apply H2. unfold keys in *. apply in_map_iff in Hx as [y [<- Hy]].
  apply filter_In in Hy as [Hy _]. apply in_map; auto.
Qed.

Lemma scan_done last : forall qs best qs' b,
  ksorted qs ->
  (forall kb db, best = Some (kb, db) ->
                 forall k, In k (keys qs) -> key_lt kb k) ->
  scan last best qs = SDone qs' b ->
  qs' = filter nonempty qs /\
  (forall k q, In (k, q) qs -> q_data q = [] -> q_fin q = true) /\
  match b with
  | None => best = None /\ qs' = []
  | Some (k, d) =>
      ((best = Some (k, d)) \/
       (exists q r, In (k, q) qs /\ q_data q = d :: r /\ last <= it_time d)) /\
      (forall k' q' d' r', In (k', q') qs -> q_data q' = d' :: r' ->
                           lexk (it_time d, k) (it_time d', k')) /\
      (forall kb db, best = Some (kb, db) -> lexk (it_time d, k) (it_time db, kb))
  end.
Proof.
  induction qs as [|[k0 q0] rest IH]; simpl; intros best qs' b Hs Hb Hsc.
  - inversion Hsc; subst. split; [auto|]. split; [tauto|].
    destruct b as [[k d]|]; auto. split; auto. split; [tauto|].
    intros kb db H; inversion H; subst. unfold lexk; simpl; auto.
  - apply ksorted_inv in Hs as [Hs Hlt]; simpl in Hlt.
    destruct (q_data q0) as [|d0 r0] eqn:Eq0.
    + destruct (q_fin q0) eqn:Ef; [|discriminate].
      unfold nonempty at 1; simpl; rewrite Eq0.
      apply IH in Hsc; auto; [|intros; eapply Hb; eauto].
      destruct Hsc as [H1 [H2 H3]]. split; [auto|]. split.
      * intros k q [E|Hin]; eauto. inversion E; subst; auto.
      * destruct b as [[k d]|]; auto. destruct H3 as [H3 [H4 H5]].
        split.
        -- destruct H3 as [H3|[q [r [A B]]]]; auto. right; exists q, r; auto.
        -- split; auto. intros k' q' d' r' [E|Hin] Hq; eauto.
           inversion E; subst; congruence.
    + unfold nonempty at 1; simpl; rewrite Eq0.
      set (nb := match best with
                 | None => (k0, d0)
                 | Some b0 => if it_time d0 <? it_time (snd b0) then (k0, d0) else b0
                 end) in *.
      destruct (last <=? it_time (snd nb)) eqn:El; [|discriminate].
      destruct (scan last (Some nb) rest) as [|kk qq|qq bb] eqn:Esc; try discriminate.
      inversion Hsc; subst qs' bb. clear Hsc.
      assert (Hnb: lexk (it_time (snd nb), fst nb) (it_time d0, k0) /\
                   (forall kb db, best = Some (kb, db) ->
                      lexk (it_time (snd nb), fst nb) (it_time db, kb)) /\
                   (nb = (k0, d0) \/ best = Some nb)).
      { subst nb. destruct best as [[kb db]|]; simpl.
        - destruct (it_time d0 <? it_time db) eqn:E; simpl.
          + apply Z.ltb_lt in E. repeat split; auto.
            * unfold lexk; simpl; auto.
            * intros ? ? H; inversion H; subst. unfold lexk; simpl; auto.
          + apply Z.ltb_ge in E. repeat split; auto.
            * assert (key_lt kb k0) by (eapply Hb; eauto).
              unfold lexk; simpl. destruct (Z.eq_dec (it_time db) (it_time d0)); [right; auto|left; lia].
            * intros ? ? H; inversion H; subst. unfold lexk; simpl; auto.
        - repeat split; auto; try discriminate. unfold lexk; simpl; auto. }
      apply IH in Esc; auto.
      2:{ intros kb db H; inversion H; subst. clear H. rewrite H1 in Hnb; simpl in Hnb.
          intros k Hk. destruct Hnb as [_ [_ [E|E]]].
          - inversion E; subst; auto.
          - eapply Hb; eauto. }
      destruct Esc as [H1 [H2 H3]].
      split; [subst; auto|]. split.
      { intros k q [E|Hin]; eauto. inversion E; subst; congruence. }
      destruct b as [[k d]|].
      * destruct H3 as [H3 [H4 H5]].
        assert (Hl: lexk (it_time d, k) (it_time (snd nb), fst nb)).
        { apply (H5 (fst nb) (snd nb)). destruct nb; auto. }
        destruct Hnb as [N1 [N2 N3]].
        split; [|split].
        -- destruct H3 as [H3|[q [r [A B]]]].
           ++ inversion H3; subst nb. clear H3.
              destruct N3 as [E|E]; [|left; congruence].
              right. exists q0, r0. rewrite H0 in *; inversion E; subst. simpl in El.
              split; auto. split; auto. apply Z.leb_le; auto.
           ++ right; exists q, r; auto.
        -- intros k' q' d' r' [E|Hin] Hq; eauto.
           inversion E; subst k' q'. rewrite Eq0 in Hq; inversion Hq; subst d' r'.
           eapply lexk_trans; eauto.
        -- intros kb db E. eapply lexk_trans; eauto.
      * destruct H3; discriminate.
Qed.

Lemma scan_blocked last : forall qs best k qs',
  scan last best qs = SBlocked k qs' ->
  exists l1 q l2, qs = l1 ++ (k, q) :: l2 /\ q_data q = [] /\ q_fin q = false /\
    qs' = filter nonempty l1 ++ (k, q) :: l2 /\
    (forall k' q', In (k', q') l1 -> q_data q' = [] -> q_fin q' = true).
Proof.
  induction qs as [|[k0 q0] rest IH]; simpl; intros best k qs' H; [discriminate|].
  destruct (q_data q0) as [|d0 r0] eqn:Eq0.
  - destruct (q_fin q0) eqn:Ef.
    + apply IH in H as [l1 [q [l2 [H1 [H2 [H3 [H4 H5]]]]]]].
      exists ((k0, q0) :: l1), q, l2. subst. split; auto. split; auto. split; auto.
      split.
      * simpl. unfold nonempty at 2; simpl; rewrite Eq0; auto.
      * intros k' q' [E|Hin]; eauto. inversion E; subst; auto.
    + inversion H; subst. exists [], q0, rest. simpl. repeat split; auto; try tauto.
  - match type of H with context [scan last (Some ?X) rest] => set (nb := X) in * end.
    destruct (last <=? it_time (snd nb)); [|discriminate].
    destruct (scan last (Some nb) rest) as [|kk qq|qq bb] eqn:Esc; try discriminate.
    inversion H; subst. apply IH in Esc as [l1 [q [l2 [H1 [H2 [H3 [H4 H5]]]]]]].
    exists ((k0, q0) :: l1), q, l2. subst. split; auto. split; auto. split; auto.
    split.
    + simpl. unfold nonempty at 2; simpl; rewrite Eq0; auto.
    + intros k' q' [E|Hin]; eauto. inversion E; subst; congruence.
Qed.

Lemma scan_no_abort last : forall qs best,
  (forall kb db, best = Some (kb, db) -> last <= it_time db) ->
  (forall k q d r, In (k, q) qs -> q_data q = d :: r -> last <= it_time d) ->
  scan last best qs <> SAbort.
Proof.
  induction qs as [|[k0 q0] rest IH]; simpl; intros best Hb Hq H; [discriminate|].
  destruct (q_data q0) as [|d0 r0] eqn:Eq0.
  - destruct (q_fin q0); [|discriminate]. eapply IH; [| |apply H]; eauto.
  - match type of H with context [scan last (Some ?X) rest] => set (nb := X) in * end.
    assert (Hn: last <= it_time (snd nb)).
    { subst nb. assert (last <= it_time d0) by (eapply Hq; eauto).
      destruct best as [[kb db]|]; simpl; auto.
      destruct (it_time d0 <? it_time db); simpl; auto. eapply Hb; eauto. }
    destruct (last <=? it_time (snd nb)) eqn:El; [|apply Z.leb_gt in El; lia].
    destruct (scan last (Some nb) rest) as [|kk qq|qq bb] eqn:Esc; try discriminate.
    eapply IH; [| |apply Esc]; eauto.
    intros kb db E; inversion E; subst. rewrite H1 in Hn; auto.
Qed.

Lemma in_filter_nonempty k q qs : In (k, q) (filter nonempty qs) ->
  In (k, q) qs /\ exists d r, q_data q = d :: r.
Proof.
  intros H. apply filter_In in H as [H1 H2]. split; auto.
  unfold nonempty in H2; simpl in H2. destruct (q_data q) as [|d r]; [discriminate|eauto].
Qed.
