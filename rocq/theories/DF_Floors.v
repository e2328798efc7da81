(* From levels to floors. *)
From Coq Require Import ZArith List Bool Arith Relations Permutation Sorting.Sorted Lia.
From Verif Require Import DF_Model DF_Spec DF_Proofs.
Import ListNotations.

Lemma filter_app_nil {A} (p : A -> bool) l : (forall x, In x l -> p x = false) -> filter p l = [].
Proof. induction l as [|x l IH]; intros H; [reflexivity|]. cbn. rewrite (H x) by now left. apply IH. intros y Y. apply H. now right. Qed.
Lemma count_filter (p : nat -> bool) i l : p i = true -> count_occ Nat.eq_dec (filter p l) i = count_occ Nat.eq_dec l i.
Proof.
  intros P. induction l as [|x l IH]; [reflexivity|]. cbn [filter]. destruct (Nat.eq_dec x i) as [->|N].
  - rewrite P. cbn [count_occ]. destruct (Nat.eq_dec i i); [now rewrite IH | congruence].
  - cbn [count_occ]. destruct (Nat.eq_dec x i); [congruence|]. destruct (p x); [|exact IH]. cbn [count_occ]. destruct (Nat.eq_dec x i); [congruence | exact IH].
Qed.
Lemma count_app i a b : count_occ Nat.eq_dec (a ++ b) i = (count_occ Nat.eq_dec a i + count_occ Nat.eq_dec b i)%nat.
Proof. apply count_occ_app. Qed.
Lemma count_perm i a b : Permutation a b -> count_occ Nat.eq_dec a i = count_occ Nat.eq_dec b i.
Proof. intros P. now apply (Permutation_count_occ Nat.eq_dec). Qed.
Lemma count_nodup i l : NoDup l -> In i l -> count_occ Nat.eq_dec l i = 1%nat.
Proof.
  intros N I. apply (proj1 (NoDup_count_occ Nat.eq_dec l)) with (x := i) in N. apply (count_occ_In Nat.eq_dec) in I. lia.
Qed.

Section Floors.
Variable D : Type.
Variable lt : D -> D -> bool.
Variable add : D -> D -> D.
Variables zero limit : D.
Variable dist : nat -> D.
Hypothesis ASYM : forall a b, lt a b = true -> lt b a = false.
Notation span := (span D).
Notation is_short := (is_short D lt add zero limit dist).
Definition longf (a b : nat) : bool := negb (is_short (mk_span a b [])).
Lemma short_long s : is_short s = negb (longf (s_start s) (s_end s)).
Proof. unfold longf. rewrite negb_involutive. reflexivity. Qed.

Variable spans : list span.
Variable lv : list nat.
Variable E : nat -> nat -> Prop.
Notation n := (List.length spans).
Hypothesis INV : Inv n E lv.
Notation r := (rt lv).

Definition longb (i : nat) : bool := match nth_error spans i with Some s => negb (is_short s) | None => false end.
Definition L1 (l : nat) : list nat := filter (fun i => longb i && (r i =? l)) (seq 0 n).
Definition anch (i : nat) : bool := match L1 (r i) with [] => false | _ => true end.

Lemma add_long_ok is : Forall (fun i => (i < n)%nat) is -> forall ls, exists ls',
  add_long D lt add zero limit dist spans lv is ls = Some ls' /\ forall l, ls' l = ls l ++ filter (fun i => longb i && (r i =? l)) is.
Proof.
  induction 1 as [|i is H F IH]; intros ls; cbn [add_long].
  - exists ls. split; [reflexivity|]. intros l. now rewrite app_nil_r.
  - destruct (nth_error spans i) as [s|] eqn:EI; [|apply nth_error_None in EI; lia].
    assert (LB : longb i = negb (is_short s)) by (unfold longb; now rewrite EI).
    destruct (negb (is_short s)).
    + destruct (inv_find _ _ _ i INV H) as [-> _]. destruct (IH (push ls (r i) i)) as (ls' & E' & P). exists ls'. split; [exact E'|].
      intros l. rewrite P. cbn [filter]. rewrite LB. cbn [andb]. unfold push. rewrite (Nat.eqb_sym (r i) l). destruct (l =? r i); [|reflexivity].
      rewrite <- app_assoc. reflexivity.
    + destruct (IH ls) as (ls' & E' & P). exists ls'. split; [exact E'|]. intros l. rewrite P. cbn [filter]. rewrite LB. reflexivity.
Qed.

(* what a short span is added to *)
Definition target (i l : nat) : Prop := l = r i \/ (0 < i)%nat /\ l = r (i - 1) \/ (i + 1 < n)%nat /\ l = r (i + 1).
Lemma push_ok ls k i : (forall m, k = Some m -> (m < n)%nat \/ (n <= m)%nat) ->
  exists ls', push_at D spans lv ls k i = Some ls' /\
    forall l, ls' l = ls l ++ (match k with Some m => if (m <? n)%nat && (l =? r m) then [i] else [] | None => [] end).
Proof.
  intros _. destruct k as [m|]; cbn [push_at].
  - destruct (Nat.ltb_spec m n) as [L|L].
    + destruct (inv_find _ _ _ m INV L) as [-> _]. eexists. split; [reflexivity|]. intros l. unfold push. cbn [andb]. destruct (l =? r m); [reflexivity | now rewrite app_nil_r].
    + exists ls. split; [reflexivity|]. intros l. cbn [andb]. now rewrite app_nil_r.
  - exists ls. split; [reflexivity|]. intros l. now rewrite app_nil_r.
Qed.
(* quiet levels: nothing is added to them *)
Definition quiet2 (l : nat) : Prop := L1 l = [] /\ forall k, (k < n)%nat -> anch k = false ->
  ((0 < k)%nat -> r (k - 1) <> l) /\ ((k + 1 < n)%nat -> r (k + 1) <> l).
Lemma add_short_ok is : Forall (fun i => (i < n)%nat) is -> forall ls, (forall i, anch i = true -> ls (r i) <> []) ->
  exists ls' tail, add_short D lt add zero limit dist spans lv is ls = Some ls' /\ (forall l, ls' l = ls l ++ tail l) /\
    (forall l i, In i (tail l) -> In i is /\ longb i = false /\ (anch i = true -> l = r i) /\ target i l) /\
    (forall l, filter anch (tail l) = filter (fun i => anch i && negb (longb i) && (r i =? l)) is) /\
    (forall l, quiet2 l -> ls l = [] -> ls' l = []) /\
    (forall i, In i is -> longb i = false -> quiet2 (r i) -> ls (r i) = [] ->
      ((0 < i)%nat -> In i (ls' (r (i - 1)))) /\ ((i + 1 < n)%nat -> In i (ls' (r (i + 1))))) /\
    (forall i, In i is -> longb i = false -> (2 <= n)%nat -> exists l, (l < n)%nat /\ In i (ls' l)).
Proof.
  induction 1 as [|i is H F IH]; intros ls A; cbn [add_short].
  - exists ls, (fun _ => []). split; [reflexivity|]. split; [intros l; now rewrite app_nil_r|]. repeat split; intros; try contradiction; try reflexivity. assumption.
  - destruct (nth_error spans i) as [s|] eqn:EI; [|apply nth_error_None in EI; lia].
    assert (LB : longb i = negb (is_short s)) by (unfold longb; now rewrite EI).
    destruct (is_short s) eqn:SH; cbn [negb] in *.
    2:{ destruct (IH ls A) as (ls' & tail & E' & P & Q & R & T & U & V). exists ls', tail. split; [exact E'|]. split; [exact P|]. split; [|split; [|split; [exact T|split]]].
      - intros l k K. destruct (Q l k K) as (K1 & K2). split; [now right | exact K2].
      - intros l. rewrite R. cbn [filter]. rewrite LB. cbn [negb]. rewrite andb_false_r. reflexivity.
      - intros k [->|K] LK; [congruence | now apply U].
      - intros k [->|K] LK; [congruence | now apply V]. }
    destruct (inv_find _ _ _ i INV H) as [-> RI].
    destruct (ls (r i)) as [|x xs] eqn:EL.
    + assert (NA : anch i = false) by (destruct (anch i) eqn:X; [elim (A i X); exact EL | reflexivity]).
      destruct (push_ok ls (match i with O => None | S k => Some k end) i) as (ls1 & E1 & P1); [intros; lia|]. rewrite E1.
      destruct (push_ok ls1 (Some (i + 1)) i) as (ls2 & E2 & P2); [intros; lia|]. rewrite E2.
      set (t1 := fun l => match (match i with O => None | S k => Some k end) with Some m => if (m <? n)%nat && (l =? r m) then [i] else [] | None => [] end).
      set (t2 := fun l => if (i + 1 <? n)%nat && (l =? r (i + 1)) then [i] else []).
      assert (P12 : forall l, ls2 l = ls l ++ t1 l ++ t2 l) by (intros l; rewrite P2, P1, <- app_assoc; reflexivity).
      assert (T1 : forall l k, In k (t1 l) -> k = i /\ (0 < i)%nat /\ l = r (i - 1)).
      { unfold t1. intros l k K. destruct i as [|i']; [destruct K|]. destruct (Nat.ltb_spec i' n); [|destruct K]. cbn [andb] in K.
        destruct (Nat.eqb_spec l (r i')) as [->|]; [|destruct K]. destruct K as [<-|[]]. replace (S i' - 1)%nat with i' by lia. repeat split; lia. }
      assert (T2 : forall l k, In k (t2 l) -> k = i /\ (i + 1 < n)%nat /\ l = r (i + 1)).
      { unfold t2. intros l k K. destruct (Nat.ltb_spec (i + 1) n); [|destruct K]. cbn [andb] in K.
        destruct (Nat.eqb_spec l (r (i + 1))) as [->|]; [|destruct K]. destruct K as [<-|[]]. auto. }
      assert (I1 : (0 < i)%nat -> In i (t1 (r (i - 1)))).
      { intros Z. unfold t1. destruct i as [|i']; [lia|]. replace (S i' - 1)%nat with i' by lia.
        destruct (Nat.ltb_spec i' n); [|lia]. rewrite Nat.eqb_refl. now left. }
      assert (I2 : (i + 1 < n)%nat -> In i (t2 (r (i + 1)))).
      { intros Z. unfold t2. destruct (Nat.ltb_spec (i + 1) n); [|lia]. rewrite Nat.eqb_refl. now left. }
      destruct (IH ls2) as (ls' & tail & E' & P & Q & R & T & U & V).
      { intros k K. rewrite P12. specialize (A k K). destruct (ls (r k)); [congruence | discriminate]. }
      exists ls', (fun l => (t1 l ++ t2 l) ++ tail l). split; [exact E'|]. split; [|split; [|split; [|split; [|split]]]].
      * intros l. rewrite P, P12, <- !app_assoc. reflexivity.
      * intros l k K. apply in_app_iff in K. destruct K as [K|K].
        -- apply in_app_iff in K. assert (k = i /\ target i l) as [-> TG].
           { destruct K as [K|K]; [apply T1 in K | apply T2 in K]; destruct K as (-> & K1 & K2); split; auto; unfold target; tauto. }
           repeat split; [now left | congruence | congruence | exact TG].
        -- destruct (Q l k K) as (K1 & K2). split; [now right | exact K2].
      * intros l. rewrite filter_app, R. cbn [filter]. rewrite NA. cbn [andb]. rewrite (filter_app_nil anch (t1 l ++ t2 l)); [reflexivity|].
        intros k K. apply in_app_iff in K. destruct K as [K|K]; [apply T1 in K | apply T2 in K]; destruct K as (-> & _); exact NA.
      * intros l [QL QN] LL. apply T; [split; assumption|]. rewrite P12, LL. destruct (QN i H NA) as [Q1 Q2].
        destruct (t1 l) as [|y ys] eqn:Y1; [|exfalso; destruct (T1 l y) as (_ & Z1 & Z2); [rewrite Y1; now left | now apply (Q1 Z1)]].
        destruct (t2 l) as [|y ys] eqn:Y2; [reflexivity | exfalso; destruct (T2 l y) as (_ & Z1 & Z2); [rewrite Y2; now left | now apply (Q2 Z1)]].
      * intros k KI LK QK LS.
        assert (MONO : forall l x, In x (ls2 l) -> In x (ls' l)) by (intros l x X; rewrite P; apply in_app_iff; now left).
        destruct KI as [<-|KI].
        -- split; intros Z; apply MONO; rewrite P12; apply in_app_iff; right; apply in_app_iff; [left; now apply I1 | right; now apply I2].
        -- apply U; [exact KI | exact LK | exact QK|]. rewrite P12, LS. destruct QK as [QL QN]. destruct (QN i H NA) as [Q1 Q2].
           destruct (t1 (r k)) as [|y ys] eqn:Y1; [|exfalso; destruct (T1 (r k) y) as (_ & Z1 & Z2); [rewrite Y1; now left | now apply (Q1 Z1)]].
           destruct (t2 (r k)) as [|y ys] eqn:Y2; [reflexivity | exfalso; destruct (T2 (r k) y) as (_ & Z1 & Z2); [rewrite Y2; now left | now apply (Q2 Z1)]].
      * intros k KI LK N2. destruct KI as [<-|KI]; [|now apply V].
        assert (MONO : forall l x, In x (ls2 l) -> In x (ls' l)) by (intros l x X; rewrite P; apply in_app_iff; now left).
        destruct (Nat.eq_dec i 0) as [Z|Z].
        -- exists (r (i + 1)). destruct (inv_find _ _ _ (i + 1) INV) as [_ B]; [lia|]. split; [exact B|]. apply MONO. rewrite P12. apply in_app_iff. right. apply in_app_iff. right. apply I2. lia.
        -- exists (r (i - 1)). destruct (inv_find _ _ _ (i - 1) INV) as [_ B]; [lia|]. split; [exact B|]. apply MONO. rewrite P12. apply in_app_iff. right. apply in_app_iff. left. apply I1. lia.
    + destruct (IH (push ls (r i) i)) as (ls' & tail & E' & P & Q & R & T & U & V).
      { intros k K. unfold push. specialize (A k K). destruct (r k =? r i); [|exact A]. destruct (ls (r k)); discriminate. }
      exists ls', (fun l => (if l =? r i then [i] else []) ++ tail l). split; [exact E'|]. split; [|split; [|split; [|split; [|split]]]].
      * intros l. rewrite P. unfold push. destruct (l =? r i); [rewrite <- app_assoc; reflexivity | reflexivity].
      * intros l k K. apply in_app_iff in K. destruct K as [K|K].
        -- destruct (Nat.eqb_spec l (r i)) as [->|]; [|destruct K]. destruct K as [<-|[]].
           repeat split; [now left | congruence | now left].
        -- destruct (Q l k K) as (K1 & K2). split; [now right | exact K2].
      * intros l. rewrite filter_app, R. cbn [filter]. rewrite LB, (Nat.eqb_sym (r i) l). cbn [negb]. rewrite andb_true_r.
        destruct (l =? r i); cbn [filter app]; destruct (anch i); reflexivity.
      * intros l QL LL. apply T; [exact QL|]. unfold push. destruct (Nat.eqb_spec l (r i)) as [->|]; [congruence | exact LL].
      * intros k KI LK QK LS. destruct KI as [<-|KI]; [congruence|]. apply U; [exact KI | exact LK | exact QK|].
        unfold push. destruct (Nat.eqb_spec (r k) (r i)) as [EQ|]; [congruence | exact LS].
      * intros k KI LK N2. destruct KI as [<-|KI]; [|now apply V].
        exists (r i). split; [exact RI|]. rewrite P. apply in_app_iff. left. unfold push. rewrite Nat.eqb_refl. apply in_app_iff. right. now left.
Qed.

Definition final (ls : level_spans) : Prop := exists tail,
  (forall l, ls l = L1 l ++ tail l) /\
  (forall l i, In i (tail l) -> (i < n)%nat /\ longb i = false /\ (anch i = true -> l = r i) /\ target i l) /\
  (forall l, filter anch (tail l) = filter (fun i => anch i && negb (longb i) && (r i =? l)) (seq 0 n)) /\
  (forall i, (i < n)%nat -> longb i = false -> quiet2 (r i) ->
      ((0 < i)%nat -> In i (ls (r (i - 1)))) /\ ((i + 1 < n)%nat -> In i (ls (r (i + 1))))) /\
  (forall i, (i < n)%nat -> longb i = false -> (2 <= n)%nat -> exists l, (l < n)%nat /\ In i (ls l)).
Lemma in_range : Forall (fun i => (i < n)%nat) (seq 0 n).
Proof. apply Forall_forall. intros i H. apply in_seq in H. lia. Qed.
Lemma add_all_ok : exists ls1 ls2, add_long D lt add zero limit dist spans lv (seq 0 n) (fun _ => []) = Some ls1 /\
  add_short D lt add zero limit dist spans lv (seq 0 n) ls1 = Some ls2 /\ final ls2.
Proof.
  destruct (add_long_ok (seq 0 n) in_range (fun _ => [])) as (ls1 & E1 & P1). cbn [app] in P1.
  destruct (add_short_ok (seq 0 n) in_range ls1) as (ls2 & tail & E2 & P & Q & R & T & U & V).
  { intros i H. rewrite P1. unfold anch in H. fold (L1 (r i)). destruct (L1 (r i)); [discriminate | discriminate]. }
  exists ls1, ls2. split; [exact E1|]. split; [exact E2|]. exists tail. split; [|split; [|split; [|split]]].
  - intros l. rewrite P, P1. reflexivity.
  - intros l i H. destruct (Q l i H) as (A & B). apply in_seq in A. split; [lia | exact B].
  - exact R.
  - intros i H LI QI. apply U; [apply in_seq; lia | exact LI | exact QI|]. rewrite P1. apply QI.
  - intros i H LI N2. apply V; [apply in_seq; lia | exact LI | exact N2].
Qed.
Lemma anch_long i : (i < n)%nat -> longb i = true -> anch i = true.
Proof.
  intros H L. unfold anch. assert (I : In i (L1 (r i))) by (apply filter_In; split; [apply in_seq; lia | rewrite L, Nat.eqb_refl; reflexivity]).
  destruct (L1 (r i)); [destruct I | reflexivity].
Qed.
Lemma anch_iff i : (i < n)%nat -> anch i = true <-> exists j, (j < n)%nat /\ longb j = true /\ r j = r i.
Proof.
  intros H. unfold anch. destruct (L1 (r i)) as [|j js] eqn:EL.
  - split; [discriminate|]. intros (j & J & L & R). assert (I : In j (L1 (r i))) by (apply filter_In; split; [apply in_seq; lia | rewrite L, R, Nat.eqb_refl; reflexivity]).
    rewrite EL in I. destruct I.
  - split; [|reflexivity]. intros _. assert (I : In j (L1 (r i))) by (rewrite EL; now left). apply filter_In in I. destruct I as [I J].
    apply in_seq in I. apply andb_prop in J. destruct J as [J1 J2]. apply Nat.eqb_eq in J2. exists j. repeat split; [lia | exact J1 | exact J2].
Qed.
(* an anchored span is on its own level only, once *)
Lemma final_count ls l i : final ls -> (i < n)%nat -> anch i = true -> count_occ Nat.eq_dec (ls l) i = if l =? r i then 1%nat else O.
Proof.
  intros (tail & P & Q & R & _ & _) H A. rewrite P, count_app. rewrite <- (count_filter anch i (tail l) A), R. unfold L1.
  assert (C : forall p : nat -> bool, count_occ Nat.eq_dec (filter p (seq 0 n)) i = if p i then 1%nat else O).
  { intros p. destruct (p i) eqn:PI; [|apply count_occ_not_In; intros I; apply filter_In in I; destruct I; congruence].
    apply count_nodup; [apply NoDup_filter, seq_NoDup | apply filter_In; split; [apply in_seq; lia | exact PI]]. }
  rewrite !C, A. rewrite (Nat.eqb_sym l). destruct (longb i), (r i =? l); reflexivity.
Qed.
Lemma final_in ls l i : final ls -> In i (ls l) -> (i < n)%nat /\ (anch i = true -> l = r i) /\ target i l /\ (longb i = true -> l = r i).
Proof.
  intros (tail & P & Q & _) I. rewrite P in I. apply in_app_iff in I. destruct I as [I|I].
  - apply filter_In in I. destruct I as [I J]. apply in_seq in I. apply andb_prop in J. destruct J as [J1 J2]. apply Nat.eqb_eq in J2.
    repeat split; [lia | auto | left; auto | auto].
  - destruct (Q l i I) as (A & B & C & T). repeat split; [exact A | exact C | exact T | congruence].
Qed.

(* sorting the spans of a level *)
Hypothesis INCR : forall i j, (i < j < n)%nat -> forall s t, nth_error spans i = Some s -> nth_error spans j = Some t -> (s_start s < s_start t)%nat.
Lemma span_lt_ok i j : (i < n)%nat -> (j < n)%nat -> span_lt D spans i j = (i <? j)%nat.
Proof.
  intros I J. unfold span_lt. destruct (nth_error spans i) as [s|] eqn:S1; [|apply nth_error_None in S1; lia].
  destruct (nth_error spans j) as [t|] eqn:S2; [|apply nth_error_None in S2; lia].
  destruct (Nat.ltb_spec i j) as [L|L].
  - pose proof (INCR i j ltac:(lia) s t S1 S2). destruct (Nat.ltb_spec (s_start s) (s_start t)); [reflexivity | lia].
  - destruct (Nat.eq_dec i j) as [->|N].
    + assert (s = t) by congruence. subst t. rewrite !Nat.ltb_irrefl, andb_false_r. reflexivity.
    + pose proof (INCR j i ltac:(lia) t s S2 S1). destruct (Nat.ltb_spec (s_start s) (s_start t)); [lia|].
      destruct (Nat.eqb_spec (s_start s) (s_start t)); [lia | reflexivity].
Qed.
Lemma insert_span_perm i l : Permutation (insert_span D spans i l) (i :: l).
Proof.
  induction l as [|x l IH]; [apply Permutation_refl|]. cbn [insert_span]. destruct (span_lt D spans i x); [apply Permutation_refl|].
  rewrite IH. apply perm_swap.
Qed.
Lemma sort_spans_perm l : Permutation (sort_spans D spans l) l.
Proof. induction l as [|x l IH]; [apply Permutation_refl|]. cbn [sort_spans fold_right]. rewrite insert_span_perm. now constructor. Qed.
Lemma sort_spans_sorted l : Forall (fun i => (i < n)%nat) l -> Sorted le (sort_spans D spans l).
Proof.
  induction 1 as [|x l H F IH]; [constructor|]. cbn [sort_spans fold_right]. fold (sort_spans D spans l).
  assert (F' : Forall (fun i => (i < n)%nat) (sort_spans D spans l)) by (eapply Permutation_Forall; [apply Permutation_sym, sort_spans_perm | exact F]).
  clear F. revert IH F'. generalize (sort_spans D spans l). clear l. intros l S F. induction S as [|y l S IH HD]; cbn [insert_span]; [repeat constructor|].
  inversion F as [|? ? F1 F2]; subst. rewrite span_lt_ok by assumption. destruct (Nat.ltb_spec x y).
  - constructor; [constructor; assumption | constructor; lia].
  - constructor; [now apply IH|]. destruct l as [|w l]; cbn [insert_span]; [constructor; lia|].
    destruct (span_lt D spans x w); constructor; [lia | inversion HD; assumption].
Qed.

(* the loop over a level *)
Variable times : list Z.
Hypothesis NODES : Forall (fun s => s_z s <> [] /\ (s_start s < s_end s <= List.length times)%nat) spans.
Lemma collect_ok l : Forall (fun i => (i < n)%nat) l -> exists ts zs, collect D lt add zero limit dist spans times l = Some (ts, concat zs) /\
  Forall2 (fun t i => exists s, nth_error spans i = Some s /\ nth_error times (s_start s) = Some (fst t) /\
    nth_error times (s_end s - 1) = Some (snd t)) ts l /\
  Forall2 (fun v i => exists s, nth_error spans i = Some s /\ v = if longf (s_start s) (s_end s) then s_z s else []) zs l.
Proof.
  induction 1 as [|i l H F IH]; [exists [], []; repeat split; constructor|]. cbn [collect].
  destruct (nth_error spans i) as [s|] eqn:EI; [|apply nth_error_None in EI; lia].
  rewrite Forall_forall in NODES. destruct (NODES s (nth_error_In _ _ EI)) as [ZN [S1 S2]].
  destruct (nth_error times (s_start s)) as [t0|] eqn:T0; [|apply nth_error_None in T0; lia].
  destruct (s_end s) as [|e] eqn:EE; [lia|]. destruct (nth_error times e) as [t1|] eqn:T1; [|apply nth_error_None in T1; lia].
  destruct IH as (ts & zs & -> & A & B).
  exists ((t0, t1) :: ts), ((if negb (is_short s) then s_z s else []) :: zs). split; [reflexivity|]. split.
  - constructor; [|exact A]. exists s. rewrite EE. cbn [fst snd]. rewrite Nat.sub_succ, Nat.sub_0_r. auto.
  - constructor; [|exact B]. exists s. split; [exact EI|]. rewrite short_long, negb_involutive. reflexivity.
Qed.
Definition has_long (l : list nat) : bool := existsb longb l.
Lemma concat_nil (zs : list (list D)) l : Forall2 (fun v i => exists s, nth_error spans i = Some s /\ v = if longf (s_start s) (s_end s) then s_z s else []) zs l ->
  concat zs = [] <-> has_long l = false.
Proof.
  unfold has_long. induction 1 as [|v i zs l (s & EI & ->) F IH]; [cbn; tauto|]. cbn [concat existsb]. unfold longb at 1. rewrite EI, short_long, negb_involutive.
  rewrite Forall_forall in NODES. destruct (NODES s (nth_error_In _ _ EI)) as [ZN _].
  destruct (longf (s_start s) (s_end s)); cbn [orb app]; [|exact IH]. split; [|discriminate]. intros X. apply app_eq_nil in X. destruct X. contradiction.
Qed.
Lemma to_floors_ok ls ks : (forall l, Forall (fun i => (i < n)%nat) (ls l)) ->
  exists floors, to_floors D lt add zero limit dist spans times ls ks = Some floors /\
    Forall2 (floor_made_of D lt longf spans times) floors (map (fun l => sort_spans D spans (ls l)) (filter (fun l => has_long (ls l)) ks)).
Proof.
  intros RG. induction ks as [|k ks (floors & E1 & F1)]; [exists []; split; [reflexivity | constructor]|]. cbn [to_floors filter].
  destruct (ls k) as [|x xs] eqn:EL.
  - exists floors. unfold has_long at 1. cbn [existsb]. split; [exact E1 | exact F1].
  - rewrite <- EL. destruct (collect_ok (sort_spans D spans (ls k))) as (ts & zs & -> & A & B).
    { eapply Permutation_Forall; [apply Permutation_sym, sort_spans_perm | apply RG]. }
    rewrite E1. pose proof (concat_nil _ _ B) as CN.
    assert (HL : has_long (sort_spans D spans (ls k)) = has_long (ls k)).
    { unfold has_long. destruct (existsb longb (ls k)) eqn:X.
      - apply existsb_exists in X. destruct X as (y & Y & Z). apply existsb_exists. exists y. split; [|exact Z]. eapply Permutation_in; [apply Permutation_sym, sort_spans_perm | exact Y].
      - destruct (existsb longb (sort_spans D spans (ls k))) eqn:X2; [|reflexivity]. apply existsb_exists in X2. destruct X2 as (y & Y & Z).
        rewrite <- X. symmetry. apply existsb_exists. exists y. split; [|exact Z]. eapply Permutation_in; [apply sort_spans_perm | exact Y]. }
    rewrite HL in CN. destruct (concat zs) as [|z0 zr] eqn:EZ.
    + rewrite (proj1 CN eq_refl). exists floors. auto.
    + destruct (has_long (ls k)) eqn:HK.
      * destruct (median_some D (sort_values D lt (z0 :: zr))) as [m M].
        { intros X. pose proof (sort_perm D lt (z0 :: zr)) as P. rewrite X in P. apply Permutation_nil in P. discriminate. }
        rewrite M. eexists. split; [reflexivity|]. cbn [map]. constructor; [|exact F1].
        split; [apply sort_spans_sorted, RG|]. split; [exact A|]. exists zs. split; [exact B|].
        rewrite EZ. eapply median_ok; [apply sort_perm | apply sort_sorted; exact ASYM | exact M].
      * discriminate (proj2 CN eq_refl).
Qed.
Lemma final_has_long ls l : final ls -> has_long (ls l) = match L1 l with [] => false | _ => true end.
Proof.
  intros (tail & P & Q & _). unfold has_long. rewrite P, existsb_app.
  replace (existsb longb (tail l)) with false.
  2:{ symmetry. destruct (existsb longb (tail l)) eqn:X; [|reflexivity]. apply existsb_exists in X. destruct X as (i & I & L). destruct (Q l i I) as (_ & B & _). congruence. }
  rewrite orb_false_r. destruct (L1 l) as [|x xs] eqn:EL; [reflexivity|]. cbn [existsb].
  assert (I : In x (L1 l)) by (rewrite EL; now left). apply filter_In in I. destruct I as [_ I]. apply andb_prop in I. destruct I as [-> _]. reflexivity.
Qed.

(* all together *)
Lemma sort_in l i : In i (sort_spans D spans l) <-> In i l.
Proof. split; apply Permutation_in; [apply sort_spans_perm | apply Permutation_sym, sort_spans_perm]. Qed.
Lemma final_groups ls : final ls -> let groups := map (fun l => sort_spans D spans (ls l)) (filter (fun l => has_long (ls l)) (seq 0 n)) in
  (forall g, In g groups <-> exists l, (l < n)%nat /\ L1 l <> [] /\ g = sort_spans D spans (ls l)) /\
  (forall i, (i < n)%nat -> anch i = true -> count_occ Nat.eq_dec (concat groups) i = 1%nat).
Proof.
  intros FI groups. split.
  - intros g. unfold groups. rewrite in_map_iff. split.
    + intros (l & <- & L). apply filter_In in L. destruct L as [L1' L2]. apply in_seq in L1'. rewrite (final_has_long _ _ FI) in L2.
      exists l. split; [lia|]. split; [|reflexivity]. intros X. rewrite X in L2. discriminate.
    + intros (l & L & N & ->). exists l. split; [reflexivity|]. apply filter_In. split; [apply in_seq; lia|]. rewrite (final_has_long _ _ FI).
      destruct (L1 l); [congruence | reflexivity].
  - intros i H A. destruct (inv_find _ _ _ i INV H) as [_ RI].
    assert (X : forall ks, NoDup ks -> count_occ Nat.eq_dec (concat (map (fun l => sort_spans D spans (ls l)) ks)) i = if in_dec Nat.eq_dec (r i) ks then 1%nat else O).
    { induction 1 as [|k ks NI ND IH]; [reflexivity|]. cbn [map concat]. rewrite count_app, IH, (count_perm i _ _ (sort_spans_perm (ls k))), (final_count ls k i FI H A).
      destruct (Nat.eqb_spec k (r i)) as [->|NE].
      - destruct (in_dec Nat.eq_dec (r i) ks); [contradiction|]. destruct (in_dec Nat.eq_dec (r i) (r i :: ks)) as [|Y]; [reflexivity | elim Y; now left].
      - destruct (in_dec Nat.eq_dec (r i) ks) as [Y|Y]; destruct (in_dec Nat.eq_dec (r i) (k :: ks)) as [Z|Z]; try reflexivity; exfalso.
        + apply Z. now right.
        + destruct Z; congruence. }
    unfold groups. rewrite X by (apply NoDup_filter, seq_NoDup). destruct (in_dec Nat.eq_dec (r i) (filter (fun l => has_long (ls l)) (seq 0 n))) as [|Y]; [reflexivity|].
    elim Y. apply filter_In. split; [apply in_seq; lia|]. rewrite (final_has_long _ _ FI). unfold anch in A. exact A.
Qed.
Lemma collect_bad l i s : In i l -> nth_error spans i = Some s -> s_end s = O -> collect D lt add zero limit dist spans times l = None.
Proof.
  intros I EI E0. induction l as [|k l IH]; [destruct I|]. cbn [collect]. destruct I as [->|I].
  - rewrite EI, E0. destruct (nth_error times (s_start s)); reflexivity.
  - destruct (nth_error spans k) as [t|]; [|reflexivity]. rewrite (IH I). destruct (nth_error times (s_start t)); [|reflexivity].
    destruct (match s_end t with O => None | S e => nth_error times e end); reflexivity.
Qed.
Lemma floors_bad ls ks l i s : In l ks -> In i (ls l) -> nth_error spans i = Some s -> s_end s = O ->
  to_floors D lt add zero limit dist spans times ls ks = None.
Proof.
  intros L I EI E0. induction ks as [|k ks IH]; [destruct L|]. cbn [to_floors]. destruct L as [->|L].
  - destruct (ls l) as [|x xs] eqn:EL; [destruct I|]. rewrite <- EL in *.
    rewrite (collect_bad _ i s); [reflexivity | apply sort_in; exact I | exact EI | exact E0].
  - rewrite (IH L). destruct (ls k); [reflexivity|]. destruct (collect _ _ _ _ _ _ _ _ _) as [[? ?]|]; reflexivity.
Qed.
Lemma insert_floor_perm f l : Permutation (insert_floor D lt f l) (f :: l).
Proof.
  induction l as [|x l IH]; [apply Permutation_refl|]. cbn [insert_floor]. destruct (lt (f_z f) (f_z x)); [apply Permutation_refl|].
  rewrite IH. apply perm_swap.
Qed.
Lemma sort_floors_perm l : Permutation (sort_floors D lt l) l.
Proof. induction l as [|x l IH]; [apply Permutation_refl|]. cbn [sort_floors fold_right]. rewrite insert_floor_perm. now constructor. Qed.
Lemma sort_floors_sorted l : Sorted (fun f g => lt (f_z g) (f_z f) = false) (sort_floors D lt l).
Proof.
  induction l as [|x l IH]; [constructor|]. cbn [sort_floors fold_right]. fold (sort_floors D lt l). revert IH. generalize (sort_floors D lt l). clear l.
  induction 1 as [|y l S IH H]; cbn [insert_floor]; [repeat constructor|].
  destruct (lt (f_z x) (f_z y)) eqn:EX.
  - constructor; [constructor; assumption|]. constructor. now apply ASYM.
  - constructor; [exact IH|]. destruct l as [|w l]; cbn [insert_floor]; [constructor; exact EX|].
    destruct (lt (f_z x) (f_z w)); constructor; [exact EX|]. inversion H; assumption.
Qed.
End Floors.
