(* Finite ordered maps with integer keys, kept as association lists in
   ascending key order.  They stand for std::map<int, T> and
   std::map<common::Time, T>: only the observable behaviour of the standard
   container (ISO C++ [map]) is modelled, not its tree. *)
From Coq Require Import List ZArith Bool Lia Sorted.
Import ListNotations.
Open Scope Z_scope.

Section ZMap.
Context {V : Type}.

(* std::map::find / at *)
Fixpoint zfind (k : Z) (m : list (Z * V)) : option V :=
  match m with
  | [] => None
  | (k', v) :: r => if k =? k' then Some v else zfind k r
  end.

(* std::map::operator[] = v: insert or overwrite *)
Fixpoint zput (k : Z) (v : V) (m : list (Z * V)) : list (Z * V) :=
  match m with
  | [] => [(k, v)]
  | (k', v') :: r =>
      if k <? k' then (k, v) :: m
      else if k =? k' then (k, v) :: r
      else (k', v') :: zput k v r
  end.

(* std::map::erase(key) *)
Fixpoint zerase (k : Z) (m : list (Z * V)) : list (Z * V) :=
  match m with
  | [] => []
  | (k', v') :: r => if k =? k' then r else (k', v') :: zerase k r
  end.

(* std::map::lower_bound: the entries from the first key >= k on *)
Fixpoint zlower (k : Z) (m : list (Z * V)) : list (Z * V) :=
  match m with
  | [] => []
  | (k', v') :: r => if k' <? k then zlower k r else m
  end.

(* std::map::upper_bound: the entries from the first key > k on *)
Fixpoint zupper (k : Z) (m : list (Z * V)) : list (Z * V) :=
  match m with
  | [] => []
  | (k', v') :: r => if k' <=? k then zupper k r else m
  end.

(* last entry with key < k: std::prev of lower_bound(k) *)
Fixpoint zprev (k : Z) (m : list (Z * V)) : option (Z * V) :=
  match m with
  | [] => None
  | (k', v') :: r =>
      if k' <? k then
        match zprev k r with Some e => Some e | None => Some (k', v') end
      else None
  end.

(* std::prev(end()) / rbegin() *)
Fixpoint zlast (m : list (Z * V)) : option (Z * V) :=
  match m with
  | [] => None
  | [e] => Some e
  | _ :: r => zlast r
  end.

Definition zsorted (m : list (Z * V)) : Prop :=
  StronglySorted (fun a b => fst a < fst b) m.

Lemma zsorted_nil : zsorted [].
Proof. constructor. Qed.

Lemma zsorted_inv : forall e m, zsorted (e :: m) ->
  zsorted m /\ (forall e', In e' m -> fst e < fst e').
Proof.
  intros e m H. apply StronglySorted_inv in H. destruct H as [H1 H2].
  split; auto. rewrite Forall_forall in H2. auto.
Qed.

Lemma zsorted_cons : forall e m, zsorted m ->
  (forall e', In e' m -> fst e < fst e') -> zsorted (e :: m).
Proof. intros. constructor; auto. apply Forall_forall; auto. Qed.

Lemma zfind_In : forall k v m, zfind k m = Some v -> In (k, v) m.
Proof.
  induction m as [|[k' v'] r IH]; simpl; intros H; [discriminate|].
  destruct (Z.eqb_spec k k').
  - left. congruence.
  - right; auto.
Qed.

Lemma In_zfind : forall k v m, zsorted m -> In (k, v) m -> zfind k m = Some v.
Proof.
  induction m as [|[k' v'] r IH]; simpl; intros HS H; [tauto|].
  apply zsorted_inv in HS. destruct HS as [HS HL].
  destruct H as [H|H].
  - inversion H; subst. now rewrite Z.eqb_refl.
  - destruct (Z.eqb_spec k k'); auto.
    subst. specialize (HL _ H). simpl in HL. lia.
Qed.

Lemma zfind_iff : forall k v m, zsorted m ->
  (zfind k m = Some v <-> In (k, v) m).
Proof. split; [apply zfind_In | now apply In_zfind]. Qed.

Lemma zfind_None : forall k m, zfind k m = None <-> (forall v, ~ In (k, v) m).
Proof.
  induction m as [|[k' v'] r IH]; simpl; split; intros H; auto.
  - destruct (Z.eqb_spec k k'); [discriminate|].
    intros v [E|E]; [congruence|]. eapply (proj1 IH); eauto.
  - destruct (Z.eqb_spec k k').
    + subst. exfalso. eapply H; eauto.
    + apply IH. intros v Hv. eapply H; eauto.
Qed.

Lemma In_zput : forall k v m e, In e (zput k v m) -> e = (k, v) \/ In e m.
Proof.
  induction m as [|[k' v'] r IH]; simpl; intros e H.
  - destruct H as [H|[]]; auto.
  - destruct (k <? k'); [simpl in H; intuition|].
    destruct (k =? k'); simpl in H; [intuition|].
    destruct H as [H|H]; auto. apply IH in H. intuition.
Qed.

Lemma zput_sorted : forall k v m, zsorted m -> zsorted (zput k v m).
Proof.
  induction m as [|[k' v'] r IH]; simpl; intros HS.
  - apply zsorted_cons; [constructor | simpl; tauto].
  - pose proof HS as HS0. apply zsorted_inv in HS. destruct HS as [HS HL].
    simpl in HL.
    destruct (Z.ltb_spec k k').
    + apply zsorted_cons; auto. simpl. intros e' [E|E]; subst; simpl; auto.
      specialize (HL _ E). lia.
    + destruct (Z.eqb_spec k k').
      * subst. apply zsorted_cons; auto.
      * apply zsorted_cons; auto. intros e' HE. apply In_zput in HE.
        destruct HE as [HE|HE]; subst; simpl; [lia|auto].
Qed.

Lemma zfind_zput : forall k v m k', zsorted m ->
  zfind k' (zput k v m) = if k' =? k then Some v else zfind k' m.
Proof.
  induction m as [|[k1 v1] r IH]; simpl; intros k' HS; auto.
  apply zsorted_inv in HS. destruct HS as [HS HL]. simpl in HL.
  destruct (Z.ltb_spec k k1); simpl.
  - reflexivity.
  - destruct (Z.eqb_spec k k1); simpl.
    + subst. now destruct (Z.eqb_spec k' k1).
    + destruct (Z.eqb_spec k' k1).
      * destruct (Z.eqb_spec k' k); [lia|auto].
      * auto.
Qed.

Lemma zput_length_new : forall k v m, zfind k m = None ->
  length (zput k v m) = S (length m).
Proof.
  induction m as [|[k1 v1] r IH]; simpl; intros H; auto.
  destruct (Z.eqb_spec k k1); [discriminate|].
  destruct (Z.ltb_spec k k1); simpl; auto.
Qed.

Lemma zput_length_old : forall k v v' m, zsorted m -> zfind k m = Some v' ->
  length (zput k v m) = length m.
Proof.
  induction m as [|[k1 v1] r IH]; simpl; intros HS H; [discriminate|].
  apply zsorted_inv in HS. destruct HS as [HS HL]. simpl in HL.
  destruct (Z.ltb_spec k k1); destruct (Z.eqb_spec k k1); simpl; auto; try lia.
  exfalso. apply zfind_In in H. apply HL in H. simpl in H. lia.
Qed.

Lemma In_zerase : forall k m e, In e (zerase k m) -> In e m.
Proof.
  induction m as [|[k' v'] r IH]; simpl; intros e H; auto.
  destruct (k =? k'); simpl in H; intuition.
Qed.

Lemma zerase_sorted : forall k m, zsorted m -> zsorted (zerase k m).
Proof.
  induction m as [|[k' v'] r IH]; simpl; intros HS; auto.
  apply zsorted_inv in HS. destruct HS as [HS HL].
  destruct (k =? k'); auto.
  apply zsorted_cons; auto. intros e' H. apply In_zerase in H. auto.
Qed.

Lemma zfind_zerase : forall k m k', zsorted m ->
  zfind k' (zerase k m) = if k' =? k then None else zfind k' m.
Proof.
  induction m as [|[k1 v1] r IH]; simpl; intros k' HS.
  - now destruct (k' =? k).
  - apply zsorted_inv in HS. destruct HS as [HS HL]. simpl in HL.
    destruct (Z.eqb_spec k k1); simpl.
    + subst. destruct (Z.eqb_spec k' k1); auto.
      subst. apply zfind_None. intros v Hv. apply HL in Hv. simpl in Hv. lia.
    + destruct (Z.eqb_spec k' k1); auto.
      destruct (Z.eqb_spec k' k); [lia|auto].
Qed.

Lemma zerase_length : forall k v m, zfind k m = Some v ->
  S (length (zerase k m)) = length m.
Proof.
  induction m as [|[k1 v1] r IH]; simpl; intros H; [discriminate|].
  destruct (k =? k1); simpl; auto.
Qed.

Lemma zlower_suffix : forall k m, exists p, m = p ++ zlower k m /\
  (forall e, In e p -> fst e < k).
Proof.
  induction m as [|[k1 v1] r IH]; simpl.
  - exists []. split; auto. simpl; tauto.
  - destruct (Z.ltb_spec k1 k).
    + destruct IH as (p & E & H1). exists ((k1,v1)::p). split.
      * simpl. congruence.
      * simpl. intros e [<-|HE]; auto.
    + exists []. split; auto. simpl; tauto.
Qed.

Lemma zlower_ge : forall k m e, zsorted m -> In e (zlower k m) -> k <= fst e.
Proof.
  induction m as [|[k1 v1] r IH]; simpl; intros e HS H; [tauto|].
  apply zsorted_inv in HS. destruct HS as [HS HL]. simpl in HL.
  destruct (Z.ltb_spec k1 k); auto.
  simpl in H. destruct H as [<-|H]; simpl; auto. specialize (HL _ H). lia.
Qed.

Lemma zupper_suffix : forall k m, exists p, m = p ++ zupper k m /\
  (forall e, In e p -> fst e <= k).
Proof.
  induction m as [|[k1 v1] r IH]; simpl.
  - exists []. split; auto. simpl; tauto.
  - destruct (Z.leb_spec k1 k).
    + destruct IH as (p & E & H1). exists ((k1,v1)::p). split.
      * simpl. congruence.
      * simpl. intros e [<-|HE]; auto.
    + exists []. split; auto. simpl; tauto.
Qed.

Lemma zupper_gt : forall k m e, zsorted m -> In e (zupper k m) -> k < fst e.
Proof.
  induction m as [|[k1 v1] r IH]; simpl; intros e HS H; [tauto|].
  apply zsorted_inv in HS. destruct HS as [HS HL]. simpl in HL.
  destruct (Z.leb_spec k1 k); auto.
  simpl in H. destruct H as [<-|H]; simpl; auto. specialize (HL _ H). lia.
Qed.

Lemma zsorted_app : forall a b, zsorted (a ++ b) <->
  zsorted a /\ zsorted b /\ (forall x y, In x a -> In y b -> fst x < fst y).
Proof.
  induction a as [|e a IH]; simpl; intros b; split.
  - intros H. repeat split; auto; [constructor|tauto].
  - tauto.
  - intros H. apply zsorted_inv in H. destruct H as [H HL].
    apply IH in H. destruct H as (H1 & H2 & H3). repeat split; auto.
    + apply zsorted_cons; auto. intros; apply HL; apply in_or_app; auto.
    + intros x y [<-|Hx] Hy; auto. apply HL, in_or_app; auto.
  - intros (H1 & H2 & H3). apply zsorted_inv in H1. destruct H1 as [H1 HL].
    apply zsorted_cons.
    + apply IH. repeat split; auto.
    + intros e' HE. apply in_app_or in HE. destruct HE; auto.
Qed.

Lemma zprev_spec : forall k m, zsorted m ->
  match zprev k m with
  | Some (k', v) => In (k', v) m /\ k' < k /\
      (forall e, In e m -> fst e < k -> fst e <= k')
  | None => forall e, In e m -> k <= fst e
  end.
Proof.
  induction m as [|[k1 v1] r IH]; simpl; intros HS; [tauto|].
  apply zsorted_inv in HS. destruct HS as [HS HL]. simpl in HL.
  specialize (IH HS). destruct (Z.ltb_spec k1 k).
  - destruct (zprev k r) as [[k' v]|].
    + destruct IH as (H1 & H2 & H3). repeat split; auto.
      intros e [<-|HE] Hk; auto. simpl. apply HL in H1. simpl in H1. lia.
    + repeat split; auto. intros e [<-|HE] Hk; simpl; [lia|].
      specialize (IH _ HE). lia.
  - intros e [<-|HE]; simpl; auto. specialize (HL _ HE). lia.
Qed.

Lemma zlast_In : forall m e, zlast m = Some e -> In e m.
Proof.
  induction m as [|a r IH]; simpl; intros e H; [discriminate|].
  destruct r as [|b r]; [left; congruence|]. right. auto.
Qed.

Lemma zlast_max : forall m e, zsorted m -> zlast m = Some e ->
  forall e', In e' m -> fst e' <= fst e.
Proof.
  induction m as [|a r IH]; simpl; intros e HS H e' HE; [tauto|].
  apply zsorted_inv in HS. destruct HS as [HS HL].
  destruct r as [|b r].
  - destruct HE as [<-|[]]. inversion H; subst. lia.
  - destruct HE as [<-|HE].
    + apply zlast_In in H. specialize (HL _ H). lia.
    + apply (IH e); auto.
Qed.

Lemma zlast_None : forall m, zlast m = None -> m = [].
Proof.
  induction m as [|a r IH]; auto. simpl. destruct r; [discriminate|].
  intros H. apply IH in H. discriminate.
Qed.

(* two sorted lists with the same lookups are equal *)
Lemma zmap_ext : forall m1 m2, zsorted m1 -> zsorted m2 ->
  (forall k, zfind k m1 = zfind k m2) -> m1 = m2.
Proof.
  induction m1 as [|[k v] r IH]; intros m2 S1 S2 E.
  - destruct m2 as [|[k v] r]; auto. specialize (E k). simpl in E.
    rewrite Z.eqb_refl in E. discriminate.
  - destruct m2 as [|[k2 v2] r2].
    + specialize (E k). simpl in E. rewrite Z.eqb_refl in E. discriminate.
    + apply zsorted_inv in S1. destruct S1 as [S1 L1].
      apply zsorted_inv in S2. destruct S2 as [S2 L2]. simpl in L1, L2.
      assert (k = k2).
      { pose proof (E k) as Ek. pose proof (E k2) as Ek2. simpl in Ek, Ek2.
        rewrite Z.eqb_refl in Ek, Ek2.
        destruct (Z.eqb_spec k k2); auto. destruct (Z.eqb_spec k2 k); auto.
        symmetry in Ek. apply zfind_In in Ek. apply L2 in Ek.
        apply zfind_In in Ek2. apply L1 in Ek2. simpl in *. lia. }
      subst k2. pose proof (E k) as Ek. simpl in Ek.
      rewrite Z.eqb_refl in Ek. inversion Ek; subst.
      f_equal. apply IH; auto. intros k'. specialize (E k'). simpl in E.
      destruct (Z.eqb_spec k' k); auto. subst.
      transitivity (@None V).
      * apply zfind_None. intros v Hv. apply L1 in Hv. simpl in Hv. lia.
      * symmetry. apply zfind_None. intros v Hv. apply L2 in Hv. simpl in Hv. lia.
Qed.

Lemma zsorted_NoDup : forall m, zsorted m -> NoDup (map fst m).
Proof.
  induction m as [|e r IH]; simpl; intros HS; constructor.
  - apply zsorted_inv in HS. destruct HS as [HS HL]. intros H.
    apply in_map_iff in H. destruct H as (e' & E & H). apply HL in H. lia.
  - apply zsorted_inv in HS. tauto.
Qed.

End ZMap.
