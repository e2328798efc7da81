From Coq Require Import List ZArith Bool PeanoNat Lia.
From Verif Require Import CB_Model CB_Spec.
Import ListNotations.
Open Scope nat_scope.

Definition live (x : task) : Prop := t_status x <> Done.

(* ---- lists ---- *)
Lemma put_length {A} j (v : A) l : length (put j v l) = length l.
Proof. revert j. induction l as [|a l IH]; intros [|j]; cbn; auto. Qed.
Lemma put_same {A} j (v : A) l : j < length l -> nth_error (put j v l) j = Some v.
Proof. revert j. induction l as [|a l IH]; intros [|j] H; cbn in *; try lia; [reflexivity | apply IH; lia]. Qed.
Lemma put_other {A} j i (v : A) l : i <> j -> nth_error (put j v l) i = nth_error l i.
Proof. revert j i. induction l as [|a l IH]; intros [|j] [|i] H; cbn; try congruence; auto. Qed.
Lemma snoc_last {A} (l : list A) x : nth_error (l ++ [x]) (length l) = Some x.
Proof. rewrite nth_error_app2, Nat.sub_diag by lia. reflexivity. Qed.
Lemma snoc_keep {A} (l : list A) x i y : nth_error l i = Some y -> nth_error (l ++ [x]) i = Some y.
Proof. intros H. rewrite nth_error_app1; [exact H | apply nth_error_Some; congruence]. Qed.
Lemma snoc_inv {A} (l : list A) x i y : nth_error (l ++ [x]) i = Some y -> nth_error l i = Some y \/ (i = length l /\ y = x).
Proof.
  intros H. destruct (Nat.lt_ge_cases i (length l)) as [L|L]; [rewrite nth_error_app1 in H by exact L; auto|].
  rewrite nth_error_app2 in H by exact L. destruct (i - length l) as [|n] eqn:E; cbn in H; [injection H as <-; right; split; [lia | reflexivity] | destruct n; discriminate].
Qed.
Lemma nth_lt {A} (l : list A) i y : nth_error l i = Some y -> i < length l.
Proof. intros H. apply nth_error_Some. congruence. Qed.

Section Status.
Variables (ts : list task) (t : nat) (x : task) (st : status).
Hypothesis X : nth_error ts t = Some x.
Lemma status_length : length (set_status ts t st) = length ts.
Proof. unfold set_status. rewrite X. apply put_length. Qed.
Lemma status_same : nth_error (set_status ts t st) t = Some (mk_task (t_kind x) (t_deps x) st).
Proof. unfold set_status. rewrite X. apply put_same. now apply nth_lt in X. Qed.
Lemma status_other i : i <> t -> nth_error (set_status ts t st) i = nth_error ts i.
Proof. intros N. unfold set_status. rewrite X. now apply put_other. Qed.
Lemma status_inv i y : nth_error (set_status ts t st) i = Some y ->
  (i <> t /\ nth_error ts i = Some y) \/ (i = t /\ y = mk_task (t_kind x) (t_deps x) st).
Proof.
  intros H. destruct (Nat.eq_dec i t) as [->|N]; [rewrite status_same in H; injection H as <-; auto|].
  rewrite status_other in H by exact N. auto.
Qed.
(* every task is still there, with the same kind and dependencies *)
Lemma status_keep i y : nth_error ts i = Some y ->
  exists y', nth_error (set_status ts t st) i = Some y' /\ t_kind y' = t_kind y /\ t_deps y' = t_deps y /\ (i <> t -> y' = y).
Proof.
  intros H. destruct (Nat.eq_dec i t) as [->|N].
  - rewrite X in H. injection H as <-. eexists. split; [apply status_same|]. cbn. repeat split; auto. congruence.
  - exists y. rewrite status_other by exact N. auto.
Qed.
(* and every task comes from one *)
Lemma status_back i y : nth_error (set_status ts t st) i = Some y ->
  exists y', nth_error ts i = Some y' /\ t_kind y' = t_kind y /\ t_deps y' = t_deps y /\ (i <> t -> y' = y) /\ (i = t -> t_status y = st /\ y' = x).
Proof.
  intros H. apply status_inv in H as [[N H]|[-> ->]].
  - exists y. repeat split; auto; congruence.
  - exists x. repeat split; auto. congruence.
Qed.
End Status.

(* ---- matchers ---- *)
Lemma matcher_in m ms b : matcher m ms = Some b -> exists a, In (a, (m, b)) ms.
Proof.
  unfold matcher. destruct (find _ ms) as [[a [m' b']]|] eqn:F; [|discriminate]. cbn. intros [= <-].
  apply find_some in F as [F E]. cbn in E. apply Nat.eqb_eq in E as ->. eauto.
Qed.
Lemma in_matcher a m b ms : In (a, (m, b)) ms -> matcher m ms <> None.
Proof.
  unfold matcher. intros H. destruct (find _ ms) eqn:F; [discriminate|]. apply find_none with (x := (a, (m, b))) in F; [|exact H].
  cbn in F. now rewrite Nat.eqb_refl in F.
Qed.
Lemma matcher_snoc m ms y : matcher m ms <> None -> matcher m (ms ++ [y]) <> None.
Proof.
  intros H. destruct (matcher m ms) as [b|] eqn:E; [|easy]. apply matcher_in in E as (a & E). eapply in_matcher, in_or_app. left. exact E.
Qed.
Lemma matcher_created m t ms : matcher m ms <> None -> matcher m (created t ms) <> None.
Proof.
  intros H. destruct (matcher m ms) as [b|] eqn:E; [|easy]. apply matcher_in in E as (a & E). unfold created.
  apply in_map with (f := fun x => if Nat.eqb (fst (snd x)) t then (fst x, (t, true)) else x) in E. cbn in E.
  destruct (Nat.eqb m t) eqn:Q; [apply Nat.eqb_eq in Q as <-|]; eapply in_matcher; exact E.
Qed.
Lemma in_created a m r t ms : In (a, (m, r)) (created t ms) -> (m = t /\ r = true /\ exists r0, In (a, (m, r0)) ms) \/ (m <> t /\ In (a, (m, r)) ms).
Proof.
  unfold created. rewrite in_map_iff. intros ([a' [m' r']] & E & H). cbn in E. destruct (Nat.eqb m' t) eqn:Q.
  - apply Nat.eqb_eq in Q as ->. injection E as <- <- <-. left. eauto.
  - apply Nat.eqb_neq in Q. injection E as -> -> ->. now right.
Qed.

(* ---- the invariant ---- *)
Definition is_node (x : task) : bool := match t_kind x, t_status x with KNode, Done => false | KNode, _ => true | _, _ => false end.
Definition open_nodes (ts : list task) : nat := length (filter is_node ts).

Lemma done_iff s t : done s t = true <-> exists x, nth_error (tasks s) t = Some x /\ ~ live x.
Proof.
  unfold done, live. destruct (nth_error (tasks s) t) as [[k d st]|].
  - split; [destruct st; try discriminate; intros _; eexists; split; [reflexivity | now cbn] | intros (x & [= <-] & L); cbn in L; destruct st; auto; destruct L; discriminate].
  - split; [discriminate | intros (x & X & _); discriminate].
Qed.
Lemma done_keep s s' t : (forall i y, nth_error (tasks s) i = Some y -> nth_error (tasks s') i = Some y) -> done s t = true -> done s' t = true.
Proof. intros K. rewrite !done_iff. intros (x & X & L). eauto. Qed.

Section Inv.
Variable found : nat -> option Z.

(* rq: the searches that have an element of constraints_ *)
Record inv (c : client) (s : state) (rq : list (Z * Z)) : Prop := mk_inv {
  i_len : length rq = length (slots s);
  i_search t x k a n m : nth_error (tasks s) t = Some x -> t_kind x = KSearch k a n m ->
    t_deps x = [m] /\ k < base s + length (slots s) /\ exists y a', nth_error (tasks s) m = Some y /\ t_kind y = KCreate a';
  i_open t x k a n m : nth_error (tasks s) t = Some x -> t_kind x = KSearch k a n m -> live x ->
    base s <= k /\ nth_error rq (k - base s) = Some (a, n) /\ nth_error (slots s) (k - base s) = Some None /\
    matcher m (matchers s) <> None /\
    (In t (node_deps s) \/ exists t' y, nth_error (tasks s) t' = Some y /\ t_kind y = KNode /\ live y /\ In t (t_deps y));
  i_slot i q : nth_error rq i = Some q ->
    (exists t x m, nth_error (tasks s) t = Some x /\ t_kind x = KSearch (base s + i) (fst q) (snd q) m /\ live x) \/
    nth_error (slots s) i = Some (option_map (fun v => (fst q, snd q, v)) (found (base s + i)));
  i_uniq t t' x x' k a n m a' n' m' : nth_error (tasks s) t = Some x -> nth_error (tasks s) t' = Some x' ->
    t_kind x = KSearch k a n m -> t_kind x' = KSearch k a' n' m' -> t = t';
  i_create t x a : nth_error (tasks s) t = Some x -> t_kind x = KCreate a ->
    t_deps x = [] /\ (live x -> exists t' y k a' n, nth_error (tasks s) t' = Some y /\ t_kind y = KSearch k a' n t /\ live y);
  i_made a m r : In (a, (m, r)) (matchers s) -> exists x a', nth_error (tasks s) m = Some x /\ t_kind x = KCreate a' /\ (live x \/ r = true);
  i_node t x : nth_error (tasks s) t = Some x -> t_kind x = KNode -> live x ->
    In t (done_deps s) \/ exists t' y, nth_error (tasks s) t' = Some y /\ t_kind y = KReport /\ live y /\ In t (t_deps y);
  i_report t x : nth_error (tasks s) t = Some x -> t_kind x = KReport -> live x ->
    when_done s <> None /\ forall t' x', nth_error (tasks s) t' = Some x' -> t_kind x' = KReport -> live x' -> t' = t;
  i_deps t x d : nth_error (tasks s) t = Some x -> In d (t_deps x) -> d < t;
  i_begun t x d : nth_error (tasks s) t = Some x -> t_status x <> Ready -> In d (t_deps x) -> done s d = true;
  i_active t x : nth_error (tasks s) t = Some x -> t_status x = Active -> t_kind x <> KNode /\ t_kind x <> KReport;
  i_deps_node d : In d (node_deps s) -> d < length (tasks s);
  i_deps_done d : In d (done_deps s) -> d < length (tasks s);
  i_count : started s = finished s + open_nodes (tasks s);
  i_waiting : waiting c = match when_done s with Some _ => true | None => false end;
  i_quiet : when_done s <> None -> node_deps s = [] /\ done_deps s = [] /\ exists t x, nth_error (tasks s) t = Some x /\ t_kind x = KReport /\ live x;
  i_ended : unended c = false -> node_deps s = [];
  i_asked : asked c = false -> rq = []
}.
Lemma inv_start : inv newcomer start [].
Proof. constructor; cbn; intros; try (destruct t; discriminate); try discriminate; try reflexivity; try easy. destruct i; discriminate. Qed.

Definition outlook (s : state) (rq : list (Z * Z)) (es : list event) : list (Z * list (Z * Z * Z)) :=
  reports s ++ match when_done s with
               | None => expected found (base s) rq es
               | Some c => (c, answers found (base s) rq) :: expected found (base s + length rq) [] es
               end.

Lemma open_snoc ts x : open_nodes (ts ++ [x]) = open_nodes ts + (if is_node x then 1 else 0).
Proof. unfold open_nodes. rewrite filter_app, app_length. cbn. destruct (is_node x); reflexivity. Qed.
Lemma open_put ts : forall t x y, nth_error ts t = Some x ->
  open_nodes (put t y ts) + (if is_node x then 1 else 0) = open_nodes ts + (if is_node y then 1 else 0).
Proof.
  unfold open_nodes. induction ts as [|a ts IH]; intros [|t] x y H; cbn in *; try discriminate.
  - injection H as ->. destruct (is_node x), (is_node y); cbn; lia.
  - specialize (IH t x y H). destruct (is_node a); cbn; lia.
Qed.
Lemma open_status ts t x st : nth_error ts t = Some x -> t_kind x <> KNode -> open_nodes (set_status ts t st) = open_nodes ts.
Proof.
  intros H N. unfold set_status. rewrite H. pose proof (open_put ts t x (mk_task (t_kind x) (t_deps x) st) H) as E.
  unfold is_node in E. cbn in E. destruct (t_kind x); try congruence; lia.
Qed.

(* DispatchScanMatcherConstruction *)
Lemma dispatch_ok c s rq a m ms ts : inv c s rq -> dispatch a s = (m, ms, ts) ->
  (ms = matchers s /\ ts = tasks s /\ matcher m ms <> None) \/
  (m = length (tasks s) /\ ms = matchers s ++ [(a, (m, false))] /\ ts = tasks s ++ [mk_task (KCreate a) [] Ready]).
Proof.
  intros I H. unfold dispatch in H. destruct (find _ _) as [[a' [m' r]]|] eqn:F; injection H as <- <- <-; [|now right].
  left. apply find_some in F as [F _]. cbn. repeat split. eapply in_matcher. exact F.
Qed.
Lemma inv_search c s rq s' a n es : inv c s rq -> allowed c (Search a n) = true -> step found (Search a n) s = Some s' ->
  inv (next c (Search a n)) s' (rq ++ [(a, n)]) /\ outlook s rq (Search a n :: es) = outlook s' (rq ++ [(a, n)]) es.
Proof.
  intros I A H. cbn in A. apply negb_true_iff in A. pose proof (i_waiting _ _ _ I) as W. rewrite A in W.
  assert (Wd : when_done s = None) by (destruct (when_done s); [discriminate | reflexivity]).
  unfold step in H. destruct s as [sl b ms ts nd dd wd st fi rp]. cbn [when_done] in Wd. subst wd.
  set (s := mk_state sl b ms ts nd dd None st fi rp) in *.
  destruct (dispatch a s) as [[m ms'] ts'] eqn:D. injection H as <-. pose proof (dispatch_ok _ _ _ _ _ _ _ I D) as O.
  split; [|unfold outlook; reflexivity].
  (* what is common to both cases *)
  assert (Keep : forall i y, nth_error ts i = Some y -> nth_error ts' i = Some y).
  { intros i y Y. destruct O as [(-> & -> & _) | (-> & -> & ->)]; [exact Y | now apply snoc_keep]. }
  assert (Back : forall i y, nth_error ts' i = Some y -> nth_error ts i = Some y \/ (i = m /\ y = mk_task (KCreate a) [] Ready /\ m = length ts /\ length ts' = S (length ts))).
  { intros i y Y. destruct O as [(-> & -> & _) | (Em & -> & ->)]; [now left|]. apply snoc_inv in Y as [Y|[-> ->]]; [now left|]. right.
    rewrite app_length. cbn in *. repeat split; auto; lia. }
  assert (Hm : exists y a', nth_error ts' m = Some y /\ t_kind y = KCreate a').
  { destruct O as [(-> & -> & O) | (-> & -> & ->)].
    - destruct (matcher m (matchers s)) as [r|] eqn:E; [|easy]. apply matcher_in in E as (a' & E). apply (i_made _ _ _ I) in E as (x & a'' & E1 & E2 & _). eauto.
    - exists (mk_task (KCreate a) [] Ready), a. split; [apply snoc_last | reflexivity]. }
  assert (Mm : matcher m ms' <> None).
  { destruct O as [(-> & -> & O) | (-> & -> & ->)]; [exact O|]. eapply in_matcher, in_or_app. right. now left. }
  assert (Mk : forall m', matcher m' ms <> None -> matcher m' ms' <> None).
  { intros m' M. destruct O as [(-> & -> & O) | (-> & -> & ->)]; [exact M | now apply matcher_snoc]. }
  assert (Le : length ts <= length ts') by (destruct O as [(-> & -> & O) | (-> & -> & ->)]; [reflexivity | rewrite app_length; cbn; lia]).
  assert (Op : open_nodes ts' = open_nodes ts) by (destruct O as [(-> & -> & O) | (-> & -> & ->)]; [reflexivity | rewrite open_snoc; apply Nat.add_0_r]).
  set (new := mk_task (KSearch (b + length sl) a n m) [m] Ready).
  assert (K2 : forall i y, nth_error ts i = Some y -> nth_error (ts' ++ [new]) i = Some y) by (intros i y Y; apply snoc_keep; auto).
  pose proof (i_len _ _ _ I) as Ln. cbn [slots s] in Ln.
  constructor; cbn [slots base matchers tasks node_deps done_deps when_done started finished].
  - rewrite !app_length. cbn. lia.
  - intros t x k a' n' m' X K. rewrite app_length. cbn [length].
    apply snoc_inv in X as [X|[-> ->]].
    + apply Back in X as [X|(-> & -> & _)]; [|discriminate]. destruct (i_search _ _ _ I t x k a' n' m' X K) as (D1 & D2 & y & a'' & D3 & D4).
      cbn [base slots s] in D2. repeat split; auto; [lia|]. exists y, a''. auto.
    + cbn in K. injection K as <- <- <- <-. repeat split; [lia|]. destruct Hm as (y & a' & Y1 & Y2). exists y, a'. split; [now apply snoc_keep | exact Y2].
  - intros t x k a' n' m' X K L. apply snoc_inv in X as [X|[-> ->]].
    + apply Back in X as [X|(-> & -> & _)]; [|discriminate]. destruct (i_open _ _ _ I t x k a' n' m' X K L) as (D1 & D2 & D3 & D4 & D5).
      cbn [base slots s matchers node_deps tasks] in *. repeat split; auto; [now apply snoc_keep | now apply snoc_keep|].
      destruct D5 as [D5|(t' & y & Y1 & Y2)]; [left; apply in_or_app; now left | right; exists t', y; auto].
    + cbn in K. injection K as <- <- <- <-. replace (b + length sl - b) with (length sl) by lia. repeat split; [lia | | apply snoc_last | exact Mm | left; apply in_or_app; right; now left].
      rewrite <- Ln. apply snoc_last.
  - intros i q Q. apply snoc_inv in Q as [Q|[-> ->]].
    + destruct (i_slot _ _ _ I i q Q) as [(t & x & m' & X1 & X2)|S]; cbn [base slots s tasks] in *.
      * left. exists t, x, m'. split; [auto | exact X2].
      * right. now apply snoc_keep.
    + left. exists (length ts'), new, m. split; [apply snoc_last|]. cbn. rewrite Ln. split; [reflexivity | discriminate].
  - intros t t' x x' k a1 n1 m1 a2 n2 m2 X X' K K'.
    assert (Old : forall t x k a' n' m', nth_error ts' t = Some x -> t_kind x = KSearch k a' n' m' -> nth_error ts t = Some x /\ k < b + length sl).
    { intros t0 x0 k0 a0 n0 m0 X0 K0. apply Back in X0 as [X0|(-> & -> & _)]; [|discriminate]. split; [exact X0|]. now destruct (i_search _ _ _ I t0 x0 k0 a0 n0 m0 X0 K0) as (_ & Dk & _). }
    apply snoc_inv in X as [X|[-> ->]]; apply snoc_inv in X' as [X'|[-> ->]].
    + destruct (Old _ _ _ _ _ _ X K) as [Y _]. destruct (Old _ _ _ _ _ _ X' K') as [Y' _]. exact (i_uniq _ _ _ I t t' x x' k a1 n1 m1 a2 n2 m2 Y Y' K K').
    + destruct (Old _ _ _ _ _ _ X K) as [_ L]. cbn in K'. injection K' as <- _ _ _. lia.
    + destruct (Old _ _ _ _ _ _ X' K') as [_ L]. cbn in K. injection K as <- _ _ _. lia.
    + reflexivity.
  - intros t x a' X K. apply snoc_inv in X as [X|[-> ->]]; [|discriminate]. apply Back in X as [X|(-> & -> & _)].
    + destruct (i_create _ _ _ I t x a' X K) as [D1 D2]. split; [exact D1|]. intros L. destruct (D2 L) as (t' & y & k & a'' & n' & Y1 & Y2). exists t', y, k, a'', n'. split; [auto | exact Y2].
    + split; [reflexivity|]. intros _. exists (length ts'), new, (b + length sl), a, n. split; [apply snoc_last|]. split; [reflexivity | discriminate].
  - intros a' m' r R. assert (R' : In (a', (m', r)) ms \/ (m' = m /\ r = false /\ m = length ts /\ ts' = ts ++ [mk_task (KCreate a) [] Ready])).
    { destruct O as [(-> & -> & O) | (-> & -> & ->)]; [now left|]. apply in_app_or in R as [R|[R|[]]]; [now left|]. injection R as <- <- <-. right. auto. }
    destruct R' as [R'|(-> & -> & E & Et)].
    + apply (i_made _ _ _ I) in R' as (x & a'' & X & K & L). exists x, a''. split; [auto|]. auto.
    + exists (mk_task (KCreate a) [] Ready), a. split; [apply snoc_keep; rewrite Et, E; apply snoc_last|]. split; [reflexivity | left; discriminate].
  - intros t x X K L. apply snoc_inv in X as [X|[-> ->]]; [|discriminate]. apply Back in X as [X|(-> & -> & _)]; [|discriminate].
    destruct (i_node _ _ _ I t x X K L) as [Dk|(t' & y & Y1 & Y2)]; [now left | right]. exists t', y. split; [auto | exact Y2].
  - intros t x X K L. apply snoc_inv in X as [X|[-> ->]]; [|discriminate]. apply Back in X as [X|(-> & -> & _)]; [|discriminate].
    now destruct (i_report _ _ _ I t x X K L) as [Dk _].
  - intros t x d X Dd. apply snoc_inv in X as [X|[-> ->]].
    + apply Back in X as [X|(-> & -> & _)]; [exact (i_deps _ _ _ I t x d X Dd) | contradiction].
    + destruct Dd as [<-|[]]. destruct Hm as (y & a' & Y & _). exact (nth_lt _ _ _ Y).
  - intros t x d X N Dd. apply snoc_inv in X as [X|[-> ->]]; [|now destruct N]. apply Back in X as [X|(-> & -> & _)]; [|now destruct N].
    apply (done_keep s); [exact K2 | exact (i_begun _ _ _ I t x d X N Dd)].
  - intros t x X Q. apply snoc_inv in X as [X|[-> ->]]; [|discriminate]. apply Back in X as [X|(-> & -> & _)]; [|discriminate]. exact (i_active _ _ _ I t x X Q).
  - intros d Dd. rewrite app_length. cbn. apply in_app_or in Dd as [Dd|[<-|[]]]; [|lia]. pose proof (i_deps_node _ _ _ I d Dd) as Q. cbn in Q. lia.
  - intros d Dd. rewrite app_length. cbn. pose proof (i_deps_done _ _ _ I d Dd) as Q. cbn in Q. lia.
  - rewrite open_snoc. pose proof (i_count _ _ _ I) as Q. cbn [started finished tasks s] in Q. cbn [is_node t_kind t_status new]. lia.
  - cbn. exact A.
  - now intros Q.
  - discriminate.
  - discriminate.
Qed.

Lemma inv_end_of_node c s rq s' es : inv c s rq -> allowed c EndOfNode = true -> step found EndOfNode s = Some s' ->
  inv (next c EndOfNode) s' rq /\ outlook s rq (EndOfNode :: es) = outlook s' rq es.
Proof.
  intros I A H. cbn in A. apply negb_true_iff in A. pose proof (i_waiting _ _ _ I) as W. rewrite A in W.
  assert (Wd : when_done s = None) by (destruct (when_done s); [discriminate | reflexivity]).
  unfold step in H. destruct s as [sl b ms ts nd dd wd st fi rp]. cbn [when_done] in Wd. subst wd. injection H as <-.
  set (s := mk_state sl b ms ts nd dd None st fi rp) in *. split; [|reflexivity]. set (new := mk_task KNode nd Ready).
  constructor; cbn [slots base matchers tasks node_deps done_deps when_done started finished].
  - exact (i_len _ _ _ I).
  - intros t x k a n m X K. apply snoc_inv in X as [X|[-> ->]]; [|discriminate]. destruct (i_search _ _ _ I t x k a n m X K) as (D1 & D2 & y & a' & D3 & D4).
    repeat split; auto. exists y, a'. split; [now apply snoc_keep | exact D4].
  - intros t x k a n m X K L. apply snoc_inv in X as [X|[-> ->]]; [|discriminate]. destruct (i_open _ _ _ I t x k a n m X K L) as (D1 & D2 & D3 & D4 & D5).
    cbn [node_deps tasks s] in D5. repeat split; auto. right. destruct D5 as [D5|(t' & y & Y1 & Y2)].
    + exists (length ts), new. split; [apply snoc_last|]. repeat split; [discriminate | exact D5].
    + exists t', y. split; [now apply snoc_keep | exact Y2].
  - intros i q Q. destruct (i_slot _ _ _ I i q Q) as [(t & x & m & X1 & X2)|S]; [left | now right]. exists t, x, m. split; [now apply snoc_keep | exact X2].
  - intros t t' x x' k a1 n1 m1 a2 n2 m2 X X' K K'. apply snoc_inv in X as [X|[-> ->]]; [|discriminate]. apply snoc_inv in X' as [X'|[-> ->]]; [|discriminate].
    exact (i_uniq _ _ _ I t t' x x' k a1 n1 m1 a2 n2 m2 X X' K K').
  - intros t x a X K. apply snoc_inv in X as [X|[-> ->]]; [|discriminate]. destruct (i_create _ _ _ I t x a X K) as [D1 D2]. split; [exact D1|].
    intros L. destruct (D2 L) as (t' & y & k & a' & n & Y1 & Y2). exists t', y, k, a', n. split; [now apply snoc_keep | exact Y2].
  - intros a m r R. apply (i_made _ _ _ I) in R as (x & a' & X & K). exists x, a'. split; [now apply snoc_keep | exact K].
  - intros t x X K L. apply snoc_inv in X as [X|[-> ->]]; [|left; apply in_or_app; right; now left].
    destruct (i_node _ _ _ I t x X K L) as [D|(t' & y & Y1 & Y2)]; [left; apply in_or_app; now left | right]. exists t', y. split; [now apply snoc_keep | exact Y2].
  - intros t x X K L. apply snoc_inv in X as [X|[-> ->]]; [|discriminate]. now destruct (i_report _ _ _ I t x X K L) as [D _].
  - intros t x d X Dd. apply snoc_inv in X as [X|[-> ->]]; [exact (i_deps _ _ _ I t x d X Dd)|]. exact (i_deps_node _ _ _ I d Dd).
  - intros t x d X N Dd. apply snoc_inv in X as [X|[-> ->]]; [|now destruct N].
    apply (done_keep s); [intros i y; apply snoc_keep | exact (i_begun _ _ _ I t x d X N Dd)].
  - intros t x X Q. apply snoc_inv in X as [X|[-> ->]]; [|discriminate]. exact (i_active _ _ _ I t x X Q).
  - intros d [].
  - intros d Dd. rewrite app_length. cbn. apply in_app_or in Dd as [Dd|[<-|[]]]; [|lia]. pose proof (i_deps_done _ _ _ I d Dd) as Q. cbn in Q. lia.
  - rewrite open_snoc. pose proof (i_count _ _ _ I) as Q. cbn [started finished tasks s] in Q. cbn [is_node t_kind t_status new]. lia.
  - cbn. exact A.
  - now intros Q.
  - reflexivity.
  - exact (i_asked _ _ _ I).
Qed.

Lemma inv_when_done c s rq z es : inv c s rq -> allowed c (WhenDone z) = true ->
  exists s', step found (WhenDone z) s = Some s' /\ inv (next c (WhenDone z)) s' rq /\ outlook s rq (WhenDone z :: es) = outlook s' rq es.
Proof.
  intros I A. cbn in A. apply andb_true_iff in A as [A1 A2]. apply negb_true_iff in A1, A2. pose proof (i_waiting _ _ _ I) as W. rewrite A1 in W.
  assert (Wd : when_done s = None) by (destruct (when_done s); [discriminate | reflexivity]).
  destruct s as [sl b ms ts nd dd wd st fi rp]. cbn [when_done] in Wd. subst wd. unfold step. eexists. split; [reflexivity|].
  set (s := mk_state sl b ms ts nd dd None st fi rp) in *. pose proof (i_ended _ _ _ I A2) as Nd. cbn in Nd. subst nd. split; [|reflexivity].
  set (new := mk_task KReport dd Ready).
  assert (No : forall t x, nth_error ts t = Some x -> t_kind x = KReport -> live x -> False).
  { intros t x X K L. destruct (i_report _ _ _ I t x X K L) as [D _]. now apply D. }
  constructor; cbn [slots base matchers tasks node_deps done_deps when_done started finished].
  - exact (i_len _ _ _ I).
  - intros t x k a n m X K. apply snoc_inv in X as [X|[-> ->]]; [|discriminate]. destruct (i_search _ _ _ I t x k a n m X K) as (D1 & D2 & y & a' & D3 & D4).
    repeat split; auto. exists y, a'. split; [now apply snoc_keep | exact D4].
  - intros t x k a n m X K L. apply snoc_inv in X as [X|[-> ->]]; [|discriminate]. destruct (i_open _ _ _ I t x k a n m X K L) as (D1 & D2 & D3 & D4 & D5).
    cbn [node_deps tasks s] in D5. repeat split; auto. destruct D5 as [D5|(t' & y & Y1 & Y2)]; [now left | right].
    exists t', y. split; [now apply snoc_keep | exact Y2].
  - intros i q Q. destruct (i_slot _ _ _ I i q Q) as [(t & x & m & X1 & X2)|S]; [left | now right]. exists t, x, m. split; [now apply snoc_keep | exact X2].
  - intros t t' x x' k a1 n1 m1 a2 n2 m2 X X' K K'. apply snoc_inv in X as [X|[-> ->]]; [|discriminate]. apply snoc_inv in X' as [X'|[-> ->]]; [|discriminate].
    exact (i_uniq _ _ _ I t t' x x' k a1 n1 m1 a2 n2 m2 X X' K K').
  - intros t x a X K. apply snoc_inv in X as [X|[-> ->]]; [|discriminate]. destruct (i_create _ _ _ I t x a X K) as [D1 D2]. split; [exact D1|].
    intros L. destruct (D2 L) as (t' & y & k & a' & n & Y1 & Y2). exists t', y, k, a', n. split; [now apply snoc_keep | exact Y2].
  - intros a m r R. apply (i_made _ _ _ I) in R as (x & a' & X & K). exists x, a'. split; [now apply snoc_keep | exact K].
  - intros t x X K L. apply snoc_inv in X as [X|[-> ->]]; [|discriminate]. right. exists (length ts), new. split; [apply snoc_last|]. repeat split; [discriminate|]. cbn.
    destruct (i_node _ _ _ I t x X K L) as [D|(t' & y & Y1 & Y2 & Y3 & _)]; [exact D|]. destruct (No t' y Y1 Y2 Y3).
  - intros t x X K L. split; [discriminate|]. intros t' x' X' K' L'. apply snoc_inv in X as [X|[-> ->]]; [destruct (No t x X K L)|].
    apply snoc_inv in X' as [X'|[-> ->]]; [destruct (No t' x' X' K' L') | reflexivity].
  - intros t x d X Dd. apply snoc_inv in X as [X|[-> ->]]; [exact (i_deps _ _ _ I t x d X Dd)|]. exact (i_deps_done _ _ _ I d Dd).
  - intros t x d X N Dd. apply snoc_inv in X as [X|[-> ->]]; [|now destruct N].
    apply (done_keep s); [intros i y; apply snoc_keep | exact (i_begun _ _ _ I t x d X N Dd)].
  - intros t x X Q. apply snoc_inv in X as [X|[-> ->]]; [|discriminate]. exact (i_active _ _ _ I t x X Q).
  - intros d [].
  - intros d [].
  - rewrite open_snoc. pose proof (i_count _ _ _ I) as Q. cbn [started finished tasks s] in Q. cbn [is_node t_kind t_status new]. lia.
  - reflexivity.
  - intros _. repeat split. exists (length ts), new. split; [apply snoc_last | split; [reflexivity | discriminate]].
  - reflexivity.
  - exact (i_asked _ _ _ I).
Qed.

Lemma inv_delete c s rq z s' es : inv c s rq -> allowed c (Delete z) = true -> step found (Delete z) s = Some s' ->
  inv (next c (Delete z)) s' rq /\ outlook s rq (Delete z :: es) = outlook s' rq es.
Proof.
  intros I A H. cbn in A. apply negb_true_iff in A. pose proof (i_asked _ _ _ I A) as E. subst rq.
  destruct s as [sl b ms ts nd dd wd st fi rp]. injection H as <-. set (s := mk_state sl b ms ts nd dd wd st fi rp) in *. split; [|reflexivity].
  assert (No : forall t x k a n m, nth_error ts t = Some x -> t_kind x = KSearch k a n m -> live x -> False).
  { intros t x k a n m X K L. destruct (i_open _ _ _ I t x k a n m X K L) as (_ & D & _). now rewrite (proj2 (nth_error_None [] _) (Nat.le_0_l _)) in D. }
  constructor; try exact (i_len _ _ _ I); try exact (i_search _ _ _ I); try exact (i_slot _ _ _ I); try exact (i_uniq _ _ _ I); try exact (i_create _ _ _ I);
    try exact (i_node _ _ _ I); try exact (i_report _ _ _ I); try exact (i_deps _ _ _ I); try exact (i_begun _ _ _ I); try exact (i_active _ _ _ I); try exact (i_deps_node _ _ _ I); try exact (i_deps_done _ _ _ I);
    try exact (i_count _ _ _ I); try exact (i_waiting _ _ _ I); try exact (i_quiet _ _ _ I); try exact (i_ended _ _ _ I); try exact (i_asked _ _ _ I).
  - intros t x k a n m X K L. destruct (No t x k a n m X K L).
  - intros a m r R. cbn in R. apply filter_In in R as [R _]. exact (i_made _ _ _ I a m r R).
Qed.

(* ---- tasks ---- *)
Lemma ready_deps s x : ready s x = true -> t_status x = Ready /\ forall d, In d (t_deps x) -> done s d = true.
Proof. unfold ready. destruct (t_status x); try discriminate. intros H. split; [reflexivity|]. now apply forallb_forall. Qed.

Lemma inv_begin c s rq t es : inv c s rq -> enabled (Begin t) s = true ->
  exists s', step found (Begin t) s = Some s' /\ inv c s' rq /\ outlook s rq (Begin t :: es) = outlook s' rq es.
Proof.
  intros I En. cbn in En. destruct (nth_error (tasks s) t) as [x|] eqn:X; [|discriminate]. apply andb_true_iff in En as [Rd Kd].
  apply ready_deps in Rd as [Rs Rd].
  assert (T : exists s', step found (Begin t) s = Some s' /\
    s' = mk_state (slots s) (base s) (matchers s) (set_status (tasks s) t Active) (node_deps s) (done_deps s) (when_done s) (started s) (finished s) (reports s)).
  { destruct s as [sl b ms ts nd dd wd st fi rp]. cbn in X. cbn [step]. rewrite X. destruct x as [k dp sx]. cbn in Rs, Rd, Kd. subst sx. destruct k as [a|k a n m| |]; try discriminate.
    - destruct (i_create _ _ _ I t _ a X eq_refl) as [_ L]. destruct L as (t' & y & k & a' & n & Y1 & Y2 & Y3); [discriminate|].
      destruct (i_open _ _ _ I t' y k a' n t Y1 Y2 Y3) as (_ & _ & _ & M & _). cbn in M. destruct (matcher t ms); [eauto | easy].
    - destruct (i_open _ _ _ I t _ k a n m X eq_refl) as (_ & _ & _ & M & _); [discriminate|]. cbn in M.
      destruct (i_search _ _ _ I t _ k a n m X eq_refl) as (D & _). cbn in D. subst dp.
      destruct (matcher m ms) as [r|] eqn:E; [|easy]. apply matcher_in in E as (a' & E). apply (i_made _ _ _ I) in E as (y & a'' & Y & K & L).
      specialize (Rd m (or_introl eq_refl)). apply done_iff in Rd as (y' & Y' & L'). rewrite Y in Y'. injection Y' as <-.
      destruct L as [L | ->]; [contradiction | eauto]. }
  destruct T as (s' & H & E). exists s'. split; [exact H|]. split; [|subst s'; reflexivity]. subst s'.
  (* the same tasks are live *)
  assert (Lv : live x) by (unfold live; rewrite Rs; discriminate).
  assert (Keep : forall i y, nth_error (tasks s) i = Some y ->
    exists y', nth_error (set_status (tasks s) t Active) i = Some y' /\ t_kind y' = t_kind y /\ t_deps y' = t_deps y /\ (live y -> live y') /\ (~ live y -> ~ live y')).
  { intros i y Y. destruct (status_keep _ _ _ Active X i y Y) as (y' & A1 & A2 & A3 & A4). exists y'. repeat split; auto.
    - intros L. destruct (Nat.eq_dec i t) as [->|N]; [|now rewrite A4]. rewrite (status_same _ _ _ Active X) in A1. injection A1 as <-. discriminate.
    - intros L. destruct (Nat.eq_dec i t) as [->|N]; [|now rewrite A4]. rewrite X in Y. injection Y as <-. contradiction. }
  assert (Back : forall i y, nth_error (set_status (tasks s) t Active) i = Some y ->
    exists y', nth_error (tasks s) i = Some y' /\ t_kind y' = t_kind y /\ t_deps y' = t_deps y /\ (live y -> live y') /\ (t_status y <> Ready -> t_status y' <> Ready \/ i = t)).
  { intros i y Y. destruct (status_back _ _ _ Active X i y Y) as (y' & A1 & A2 & A3 & A4 & A5). exists y'. repeat split; auto.
    - intros L. destruct (Nat.eq_dec i t) as [->|N]; [|now rewrite A4]. destruct (A5 eq_refl) as [_ ->]. exact Lv.
    - intros L. destruct (Nat.eq_dec i t) as [->|N]; [now right|]. left. now rewrite A4. }
  constructor; cbn [slots base matchers tasks node_deps done_deps when_done started finished].
  - exact (i_len _ _ _ I).
  - intros i y k a n m Y K. apply Back in Y as (y' & Y & K' & D' & L'). rewrite K in K'. destruct (i_search _ _ _ I i y' k a n m Y K') as (D1 & D2 & z & a' & D3 & D4).
    rewrite D' in D1. repeat split; auto. apply Keep in D3 as (z' & Z1 & Z2 & _). exists z', a'. split; [exact Z1 | congruence].
  - intros i y k a n m Y K L. apply Back in Y as (y' & Y & K' & D' & L' & _). rewrite K in K'. destruct (i_open _ _ _ I i y' k a n m Y K' (L' L)) as (D1 & D2 & D3 & D4 & D5).
    repeat split; auto. destruct D5 as [D5|(t' & z & Z1 & Z2 & Z3 & Z4)]; [now left | right]. apply Keep in Z1 as (z' & Z1 & Z2' & Z3' & Z4' & _). exists t', z'. repeat split; auto; [congruence|]. now rewrite Z3'.
  - intros i q Q. destruct (i_slot _ _ _ I i q Q) as [(t' & z & m & Z1 & Z2 & Z3)|S]; [left | now right]. apply Keep in Z1 as (z' & Z1 & Z2' & Z3' & Z4' & _). exists t', z', m. repeat split; auto. congruence.
  - intros i j y z k a1 n1 m1 a2 n2 m2 Y Z K K'. apply Back in Y as (y' & Y & Ky & _). apply Back in Z as (z' & Z & Kz & _). rewrite K in Ky. rewrite K' in Kz. exact (i_uniq _ _ _ I i j y' z' k a1 n1 m1 a2 n2 m2 Y Z Ky Kz).
  - intros i y a Y K. apply Back in Y as (y' & Y & K' & D' & L' & _). rewrite K in K'. destruct (i_create _ _ _ I i y' a Y K') as [D1 D2]. rewrite D' in D1. split; [exact D1|].
    intros L. destruct (D2 (L' L)) as (t' & z & k & a' & n & Z1 & Z2 & Z3). apply Keep in Z1 as (z' & Z1 & Z2' & Z3' & Z4' & _). exists t', z', k, a', n. repeat split; auto. congruence.
  - intros a m r R. apply (i_made _ _ _ I) in R as (z & a' & Z & K & L). apply Keep in Z as (z' & Z1 & Z2' & Z3' & Z4' & _). exists z', a'. repeat split; auto; [congruence|]. destruct L; auto.
  - intros i y Y K L. apply Back in Y as (y' & Y & K' & D' & L' & _). rewrite K in K'. destruct (i_node _ _ _ I i y' Y K' (L' L)) as [D|(t' & z & Z1 & Z2 & Z3 & Z4)]; [now left | right].
    apply Keep in Z1 as (z' & Z1 & Z2' & Z3' & Z4' & _). exists t', z'. repeat split; auto; [congruence|]. now rewrite Z3'.
  - intros i y Y K L. apply Back in Y as (y' & Y & K' & D' & L' & _). rewrite K in K'. destruct (i_report _ _ _ I i y' Y K' (L' L)) as [D1 D2]. split; [exact D1|].
    intros j z Z Kz Lz. apply Back in Z as (z' & Z & Kz' & _ & Lz' & _). rewrite Kz in Kz'. exact (D2 j z' Z Kz' (Lz' Lz)).
  - intros i y d Y D. apply Back in Y as (y' & Y & K' & D' & _). rewrite <- D' in D. exact (i_deps _ _ _ I i y' d Y D).
  - intros i y d Y N D. apply Back in Y as (y' & Y & K' & D' & _ & N'). rewrite <- D' in D.
    assert (Q : done s d = true) by (destruct (N' N) as [N2 | ->]; [exact (i_begun _ _ _ I i y' d Y N2 D) | rewrite X in Y; injection Y as <-; auto]).
    apply done_iff in Q as (z & Z & Lz). apply Keep in Z as (z' & Z & _ & _ & _ & Lz'). apply done_iff. exists z'. auto.
  - intros i y Y Q. apply (status_inv _ _ _ Active X) in Y as [[N Y]|[-> ->]]; [exact (i_active _ _ _ I i y Y Q)|]. cbn. destruct (t_kind x); split; discriminate.
  - intros d D. rewrite (status_length _ _ _ Active X). exact (i_deps_node _ _ _ I d D).
  - intros d D. rewrite (status_length _ _ _ Active X). exact (i_deps_done _ _ _ I d D).
  - rewrite (open_status _ _ x Active X); [exact (i_count _ _ _ I)|]. intros Q. now rewrite Q in Kd.
  - exact (i_waiting _ _ _ I).
  - intros W. destruct (i_quiet _ _ _ I W) as (Q1 & Q2 & t' & z & Z1 & Z2 & Z3). repeat split; auto. apply Keep in Z1 as (z' & Z1 & Z2' & Z3' & Z4' & _). exists t', z'. repeat split; auto. congruence.
  - exact (i_ended _ _ _ I).
  - exact (i_asked _ _ _ I).
Qed.

(* a task is completed *)
Section Complete.
Variables (s : state) (t : nat) (x : task).
Hypothesis X : nth_error (tasks s) t = Some x.
Lemma comp_keep i y : nth_error (tasks s) i = Some y ->
  exists y', nth_error (set_status (tasks s) t Done) i = Some y' /\ t_kind y' = t_kind y /\ t_deps y' = t_deps y /\ (i <> t -> y' = y) /\ (~ live y -> ~ live y').
Proof.
  intros Y. destruct (status_keep _ _ _ Done X i y Y) as (y' & A1 & A2 & A3 & A4). exists y'. repeat split; auto.
  intros L. destruct (Nat.eq_dec i t) as [->|N]; [|now rewrite A4]. rewrite (status_same _ _ _ Done X) in A1. injection A1 as <-. unfold live. cbn. auto.
Qed.
Lemma comp_back i y : nth_error (set_status (tasks s) t Done) i = Some y ->
  exists y', nth_error (tasks s) i = Some y' /\ t_kind y' = t_kind y /\ t_deps y' = t_deps y /\ (live y -> i <> t /\ live y' /\ y' = y) /\ (t_status y <> Ready -> t_status y' <> Ready \/ i = t).
Proof.
  intros Y. destruct (status_back _ _ _ Done X i y Y) as (y' & A1 & A2 & A3 & A4 & A5). exists y'. split; [exact A1|]. split; [exact A2|]. split; [exact A3|]. split.
  - intros L. destruct (Nat.eq_dec i t) as [->|N]; [destruct (A5 eq_refl) as [Q _]; contradiction|]. rewrite A4 by exact N. auto.
  - intros L. destruct (Nat.eq_dec i t) as [->|N]; [now right|]. left. now rewrite A4.
Qed.
End Complete.

(* what an invariant after the completion of a task x needs beyond the invariant before *)
Lemma inv_complete c s rq t x sl ms fi : inv c s rq -> nth_error (tasks s) t = Some x ->
  (forall d, In d (t_deps x) -> done s d = true) ->
  live x -> t_kind x <> KReport -> length sl = length (slots s) ->
  (forall m, matcher m (matchers s) <> None -> matcher m ms <> None) ->
  (forall a m r, In (a, (m, r)) ms -> m = t /\ r = true \/ (m <> t \/ (forall a, t_kind x <> KCreate a)) /\ In (a, (m, r)) (matchers s)) ->
  (forall a m r, In (a, (m, r)) ms -> exists r', In (a, (m, r')) (matchers s)) ->
  (forall i q, nth_error rq i = Some q ->
     (forall k a n m, t_kind x = KSearch k a n m -> k <> base s + i) -> nth_error sl i = nth_error (slots s) i) ->
  (forall i q m, nth_error rq i = Some q -> t_kind x = KSearch (base s + i) (fst q) (snd q) m ->
     nth_error sl i = Some (option_map (fun v => (fst q, snd q, v)) (found (base s + i)))) ->
  started s = fi + open_nodes (set_status (tasks s) t Done) ->
  inv c (mk_state sl (base s) ms (set_status (tasks s) t Done) (node_deps s) (done_deps s) (when_done s) (started s) fi (reports s)) rq.
Proof.
  intros I X Dp Lx Nr Ls Mk Md Mi Same New Cnt.
  pose proof (comp_keep s t x X) as Keep. pose proof (comp_back s t x X) as Back.
  constructor; cbn [slots base matchers tasks node_deps done_deps when_done started finished].
  - rewrite Ls. exact (i_len _ _ _ I).
  - rewrite Ls. intros i y k a n m Y K. apply Back in Y as (y' & Y & K' & D' & L'). rewrite K in K'. destruct (i_search _ _ _ I i y' k a n m Y K') as (D1 & D2 & z & a' & D3 & D4).
    rewrite D' in D1. repeat split; auto. apply Keep in D3 as (z' & Z1 & Z2 & _). exists z', a'. split; [exact Z1 | congruence].
  - intros i y k a n m Y K L. apply Back in Y as (y' & Y & K' & D' & L' & _). rewrite K in K'. destruct (L' L) as (Ni & Ly & Ey). subst y'.
    destruct (i_open _ _ _ I i y k a n m Y K' Ly) as (D1 & D2 & D3 & D4 & D5).
    assert (E : nth_error sl (k - base s) = nth_error (slots s) (k - base s)).
    { apply Same with (q := (a, n)); [exact D2|]. intros k0 a0 n0 m0 K0 ->. replace (base s + (k - base s)) with k in K0 by lia.
      apply Ni. exact (i_uniq _ _ _ I i t y x k a n m a0 n0 m0 Y X K' K0). }
    rewrite E. repeat split; auto. destruct D5 as [D5|(t' & z & Z1 & Z2 & Z3 & Z4)]; [now left | right].
    pose proof Z1 as Z0. apply Keep in Z1 as (z' & Z1 & Z2' & Z3' & Z4' & _).
    assert (Nt : t' <> t). { intros ->. rewrite X in Z0. injection Z0 as <-. specialize (Dp i Z4). apply done_iff in Dp as (w & W1 & W2). rewrite Y in W1. injection W1 as <-. contradiction. }
    rewrite (Z4' Nt) in *. exists t', z. auto.
  - intros i q Q. destruct (i_slot _ _ _ I i q Q) as [(t' & z & m & Z1 & Z2 & Z3)|S].
    + destruct (Nat.eq_dec t' t) as [->|Nt].
      * right. rewrite X in Z1. injection Z1 as <-. eapply New; eauto.
      * left. apply Keep in Z1 as (z' & Z1 & Z2' & Z3' & Z4' & _). rewrite (Z4' Nt) in *. exists t', z, m. auto.
    + destruct (nth_error sl i) as [v|] eqn:Ev.
      2:{ apply nth_error_None in Ev. rewrite Ls in Ev. apply nth_error_None in Ev. congruence. }
      right. destruct (t_kind x) as [a0|k0 a0 n0 m0| |] eqn:Kx; try (rewrite <- Ev, (Same i q Q); [exact S | intros; discriminate]).
      destruct (Nat.eq_dec k0 (base s + i)) as [->|Nk].
      * rewrite <- Ev. destruct (i_open _ _ _ I t x _ a0 n0 m0 X Kx Lx) as (_ & D & _). replace (base s + i - base s) with i in D by lia. rewrite Q in D. injection D as ->. eapply New; eauto.
      * rewrite <- Ev, (Same i q Q); [exact S|]. intros k1 a1 n1 m1 [= <- _ _ _]. exact Nk.
  - intros i j y z k a1 n1 m1 a2 n2 m2 Y Z K K'. apply Back in Y as (y' & Y & Ky & _). apply Back in Z as (z' & Z & Kz & _). rewrite K in Ky. rewrite K' in Kz. exact (i_uniq _ _ _ I i j y' z' k a1 n1 m1 a2 n2 m2 Y Z Ky Kz).
  - intros i y a Y K. apply Back in Y as (y' & Y & K' & D' & L' & _). rewrite K in K'. destruct (i_create _ _ _ I i y' a Y K') as [D1 D2]. rewrite D' in D1. split; [exact D1|].
    intros L. destruct (L' L) as (Ni & Ly & Ey). subst y'. destruct (D2 Ly) as (t' & z & k & a' & n & Z1 & Z2 & Z3).
    assert (Nt : t' <> t).
    { intros ->. rewrite X in Z1. injection Z1 as <-. destruct (i_search _ _ _ I t x k a' n i X Z2) as (E & _). specialize (Dp i). rewrite E in Dp.
      specialize (Dp (or_introl eq_refl)). apply done_iff in Dp as (w & W1 & W2). rewrite Y in W1. injection W1 as <-. contradiction. }
    apply Keep in Z1 as (z' & Z1 & Z2' & Z3' & Z4' & _). rewrite (Z4' Nt) in *. exists t', z, k, a', n. auto.
  - intros a m r R. destruct (Mi a m r R) as (r' & R'). pose proof R' as R2. apply (i_made _ _ _ I) in R2 as (z & a' & Z & K & L).
    pose proof Z as Z0. apply Keep in Z as (z' & Z1 & Z2' & Z3' & Z4' & _). exists z', a'. split; [exact Z1|]. split; [congruence|].
    destruct (Md a m r R) as [[-> ->]|[[N|N] R3]]; [now right | |].
    + rewrite (Z4' N) in *. apply (i_made _ _ _ I) in R3 as (w & a'' & W & _ & L'). rewrite Z0 in W. injection W as <-. exact L'.
    + assert (Nm : m <> t) by (intros ->; rewrite X in Z0; injection Z0 as <-; exact (N a' K)).
      rewrite (Z4' Nm) in *. apply (i_made _ _ _ I) in R3 as (w & a'' & W & _ & L'). rewrite Z0 in W. injection W as <-. exact L'.
  - intros i y Y K L. apply Back in Y as (y' & Y & K' & D' & L' & _). rewrite K in K'. destruct (L' L) as (Ni & Ly & Ey). destruct (i_node _ _ _ I i y' Y K' Ly) as [D|(t' & z & Z1 & Z2 & Z3 & Z4)]; [now left | right].
    assert (Nt : t' <> t) by (intros ->; rewrite X in Z1; injection Z1 as <-; contradiction).
    apply Keep in Z1 as (z' & Z1 & Z2' & Z3' & Z4' & _). rewrite (Z4' Nt) in *. exists t', z. auto.
  - intros i y Y K L. apply Back in Y as (y' & Y & K' & D' & L' & _). rewrite K in K'. destruct (L' L) as (Ni & Ly & Ey). destruct (i_report _ _ _ I i y' Y K' Ly) as [D1 D2]. split; [exact D1|].
    intros j z Z Kz Lz. apply Back in Z as (z' & Z & Kz' & _ & Lz' & _). rewrite Kz in Kz'. destruct (Lz' Lz) as (_ & Lz2 & _). exact (D2 j z' Z Kz' Lz2).
  - intros i y d Y D. apply Back in Y as (y' & Y & K' & D' & _). rewrite <- D' in D. exact (i_deps _ _ _ I i y' d Y D).
  - intros i y d Y N D. apply Back in Y as (y' & Y & K' & D' & _ & N'). rewrite <- D' in D.
    assert (Q : done s d = true) by (destruct (N' N) as [N2 | ->]; [exact (i_begun _ _ _ I i y' d Y N2 D) | rewrite X in Y; injection Y as <-; auto]).
    apply done_iff in Q as (z & Z & Lz). apply Keep in Z as (z' & Z & _ & _ & _ & Lz'). apply done_iff. exists z'. auto.
  - intros i y Y Q. apply (status_inv _ _ _ Done X) in Y as [[N Y]|[-> ->]]; [exact (i_active _ _ _ I i y Y Q) | discriminate].
  - intros d D. rewrite (status_length _ _ _ Done X). exact (i_deps_node _ _ _ I d D).
  - intros d D. rewrite (status_length _ _ _ Done X). exact (i_deps_done _ _ _ I d D).
  - exact Cnt.
  - exact (i_waiting _ _ _ I).
  - intros W. destruct (i_quiet _ _ _ I W) as (Q1 & Q2 & t' & z & Z1 & Z2 & Z3). repeat split; auto.
    assert (Nt : t' <> t) by (intros ->; rewrite X in Z1; injection Z1 as <-; contradiction).
    apply Keep in Z1 as (z' & Z1 & Z2' & Z3' & Z4' & _). rewrite (Z4' Nt) in *. exists t', z. auto.
  - exact (i_ended _ _ _ I).
  - exact (i_asked _ _ _ I).
Qed.

Lemma inv_end c s rq t es : inv c s rq -> enabled (End t) s = true ->
  exists s', step found (End t) s = Some s' /\ inv c s' rq /\ outlook s rq (End t :: es) = outlook s' rq es.
Proof.
  intros I En. cbn in En. destruct (nth_error (tasks s) t) as [x|] eqn:X; [|discriminate].
  assert (Ac : t_status x = Active) by (destruct (t_kind x), (t_status x); congruence).
  assert (Lx : live x) by (unfold live; rewrite Ac; discriminate).
  assert (Dp : forall d, In d (t_deps x) -> done s d = true) by (intros d D; apply (i_begun _ _ _ I t x d X); [congruence | exact D]).
  destruct (t_kind x) as [a|k a n m| |] eqn:Kx; try discriminate.
  - (* a scan matcher *)
    destruct (i_create _ _ _ I t x a X Kx) as [_ L]. destruct (L Lx) as (t' & y & k & a' & n & Y1 & Y2 & Y3).
    destruct (i_open _ _ _ I t' y k a' n t Y1 Y2 Y3) as (_ & _ & _ & M & _).
    assert (G : inv c (mk_state (slots s) (base s) (created t (matchers s)) (set_status (tasks s) t Done) (node_deps s) (done_deps s) (when_done s) (started s) (finished s) (reports s)) rq).
    { apply (inv_complete c s rq t x); auto; try (rewrite Kx; discriminate).
      - intros m. apply matcher_created.
      - intros a0 m r R. apply in_created in R as [(-> & -> & _)|[N R]]; [now left | right; auto].
      - intros a0 m r R. apply in_created in R as [(-> & -> & r0 & R)|[N R]]; eauto.
      - rewrite (open_status _ _ x Done X); [exact (i_count _ _ _ I)|]. rewrite Kx. discriminate. }
    destruct s as [sl b ms ts nd dd wd st fi rp]. cbn [tasks matchers] in X, M. cbn [step]. rewrite X. destruct x as [kx dx sx]. cbn in Kx. subst kx.
    destruct (matcher t ms) as [r|]; [|easy]. eexists. split; [reflexivity|]. split; [exact G | reflexivity].
  - (* a search *)
    destruct (i_open _ _ _ I t x k a n m X Kx Lx) as (Bk & Rq & Sl & M & _). destruct (i_search _ _ _ I t x k a n m X Kx) as (_ & Kl & _).
    assert (G : forall sl, length sl = length (slots s) ->
      (forall i, i <> k - base s -> nth_error sl i = nth_error (slots s) i) ->
      nth_error sl (k - base s) = Some (option_map (fun v => (a, n, v)) (found k)) ->
      inv c (mk_state sl (base s) (matchers s) (set_status (tasks s) t Done) (node_deps s) (done_deps s) (when_done s) (started s) (finished s) (reports s)) rq).
    { intros sl Ls So Sn. apply (inv_complete c s rq t x); auto; try (rewrite Kx; discriminate).
      - intros a0 m0 r R. right. split; [right; intros a1; rewrite Kx; discriminate | exact R].
      - intros a0 m0 r R. eauto.
      - intros i q Q N. apply So. intros ->. apply (N k a n m Kx). lia.
      - intros i q m0 Q K. rewrite Kx in K. injection K as E1 E2 E3 E4. subst k a n m0. replace (base s + i - base s) with i in Sn by lia. exact Sn.
      - rewrite (open_status _ _ x Done X); [exact (i_count _ _ _ I)|]. rewrite Kx. discriminate. }
    destruct s as [sl b ms ts nd dd wd st fi rp]. cbn [tasks matchers slots base] in X, M, Bk, Sl, Kl, G. cbn [step]. rewrite X. destruct x as [kx dx sx]. cbn in Kx. subst kx.
    destruct (matcher m ms) as [r|]; [|easy]. destruct (found k) as [v|].
    + rewrite (proj2 (Nat.leb_le b k) Bk), (proj2 (Nat.ltb_lt k (b + length sl)) Kl). cbn [andb]. eexists. split; [reflexivity|]. split; [|reflexivity].
      apply G; [apply put_length | intros i N; now apply put_other | apply put_same; lia].
    + eexists. split; [reflexivity|]. split; [|reflexivity]. apply G; auto.
Qed.

Lemma inv_finish c s rq t es : inv c s rq -> enabled (Finish t) s = true ->
  exists s', step found (Finish t) s = Some s' /\ inv c s' rq /\ outlook s rq (Finish t :: es) = outlook s' rq es.
Proof.
  intros I En. cbn in En. destruct (nth_error (tasks s) t) as [x|] eqn:X; [|discriminate]. apply andb_true_iff in En as [Rd Kd].
  apply ready_deps in Rd as [Rs Rd]. assert (Lx : live x) by (unfold live; rewrite Rs; discriminate).
  assert (Kx : t_kind x = KNode) by (destruct (t_kind x); congruence).
  assert (G : inv c (mk_state (slots s) (base s) (matchers s) (set_status (tasks s) t Done) (node_deps s) (done_deps s) (when_done s) (started s) (S (finished s)) (reports s)) rq).
  { apply (inv_complete c s rq t x); auto; try (rewrite Kx; discriminate).
    - intros a0 m0 r R. right. split; [right; intros a1; rewrite Kx; discriminate | exact R].
    - intros a0 m0 r R. eauto.
    - unfold set_status. rewrite X. pose proof (open_put (tasks s) t x (mk_task (t_kind x) (t_deps x) Done) X) as E. unfold is_node in E. cbn [t_kind t_status] in E.
      rewrite Kx, Rs in *. pose proof (i_count _ _ _ I). lia. }
  destruct s as [sl b ms ts nd dd wd st fi rp]. eexists. split; [reflexivity|]. split; [exact G | reflexivity].
Qed.

(* when the callback can be called everything has been finished *)
Lemma report_ready c s rq t : inv c s rq -> enabled (Report t) s = true ->
  when_done s <> None /\ started s = finished s /\
  (forall i y, nth_error (tasks s) i = Some y -> live y -> i = t) /\
  flat_map (fun o => match o with Some r => [r] | None => [] end) (slots s) = answers found (base s) rq.
Proof.
  intros I En. cbn in En. destruct (nth_error (tasks s) t) as [x|] eqn:X; [|discriminate]. apply andb_true_iff in En as [Rd Kd].
  apply ready_deps in Rd as [Rs Rd]. assert (Lx : live x) by (unfold live; rewrite Rs; discriminate).
  assert (Kx : t_kind x = KReport) by (destruct (t_kind x); congruence).
  destruct (i_report _ _ _ I t x X Kx Lx) as [W U]. destruct (i_quiet _ _ _ I W) as (Q1 & Q2 & _).
  assert (NN : forall i y, nth_error (tasks s) i = Some y -> t_kind y = KNode -> ~ live y).
  { intros i y Y K L. destruct (i_node _ _ _ I i y Y K L) as [D|(t' & z & Z1 & Z2 & Z3 & Z4)]; [now rewrite Q2 in D|].
    pose proof (U t' z Z1 Z2 Z3) as ->. rewrite X in Z1. injection Z1 as <-. specialize (Rd i Z4). apply done_iff in Rd as (w & W1 & W2). rewrite Y in W1. injection W1 as <-. contradiction. }
  assert (NS : forall i y k a n m, nth_error (tasks s) i = Some y -> t_kind y = KSearch k a n m -> ~ live y).
  { intros i y k a n m Y K L. destruct (i_open _ _ _ I i y k a n m Y K L) as (_ & _ & _ & _ & [D|(t' & z & Z1 & Z2 & Z3 & _)]); [now rewrite Q1 in D|].
    exact (NN t' z Z1 Z2 Z3). }
  split; [exact W|]. split; [|split].
  - pose proof (i_count _ _ _ I) as E. assert (Z : open_nodes (tasks s) = 0); [|lia]. unfold open_nodes.
    destruct (filter is_node (tasks s)) as [|y l] eqn:F; [reflexivity|]. assert (Y : In y (filter is_node (tasks s))) by (rewrite F; now left).
    apply filter_In in Y as [Y1 Y2]. apply In_nth_error in Y1 as (i & Y1). unfold is_node in Y2. exfalso.
    destruct (t_kind y) eqn:K; try discriminate. apply (NN i y Y1 K). unfold live. destruct (t_status y); congruence.
  - intros i y Y L. destruct (t_kind y) as [a|k a n m| |] eqn:K.
    + destruct (i_create _ _ _ I i y a Y K) as [_ Q]. destruct (Q L) as (t' & z & k & a' & n & Z1 & Z2 & Z3). destruct (NS t' z k a' n i Z1 Z2 Z3).
    + destruct (NS i y k a n m Y K L).
    + destruct (NN i y Y K L).
    + exact (U i y Y K L).
  - pose proof (i_len _ _ _ I) as Ln.
    assert (All : forall i q, nth_error rq i = Some q -> nth_error (slots s) i = Some (option_map (fun v => (fst q, snd q, v)) (found (base s + i)))).
    { intros i q Q. destruct (i_slot _ _ _ I i q Q) as [(t' & z & m & Z1 & Z2 & Z3)|E]; [destruct (NS t' z _ _ _ _ Z1 Z2 Z3) | exact E]. }
    clear - Ln All. revert All Ln. generalize (base s) as b, (slots s) as sl. induction rq as [|q r IH]; intros b sl All Ln; destruct sl as [|o sl]; try discriminate; [reflexivity|].
    cbn [flat_map answers]. rewrite (IH (S b) sl).
    + specialize (All 0 q eq_refl). cbn in All. rewrite Nat.add_0_r in All. injection All as ->. unfold answer. destruct (found b); reflexivity.
    + intros i q' Q. specialize (All (S i) q' Q). cbn in All. replace (S b + i) with (b + S i) by lia. exact All.
    + now injection Ln.
Qed.

Lemma inv_report c s rq t es : inv c s rq -> enabled (Report t) s = true ->
  exists s', step found (Report t) s = Some s' /\ inv (next c (Report t)) s' [] /\ outlook s rq (Report t :: es) = outlook s' [] es.
Proof.
  intros I En. destruct (report_ready c s rq t I En) as (W & Cn & Only & An).
  cbn in En. destruct (nth_error (tasks s) t) as [x|] eqn:X; [|discriminate]. apply andb_true_iff in En as [Rd Kd].
  apply ready_deps in Rd as [Rs Rd]. assert (Lx : live x) by (unfold live; rewrite Rs; discriminate).
  assert (Kx : t_kind x = KReport) by (destruct (t_kind x); congruence).
  destruct (i_quiet _ _ _ I W) as (Q1 & Q2 & _). pose proof (i_len _ _ _ I) as Ln.
  pose proof (comp_keep s t x X) as Keep. pose proof (comp_back s t x X) as Back.
  assert (Dead : forall i y, nth_error (set_status (tasks s) t Done) i = Some y -> ~ live y).
  { intros i y Y L. apply Back in Y as (y' & Y & _ & _ & L' & _). destruct (L' L) as (N & L2 & _). exact (N (Only i y' Y L2)). }
  destruct s as [sl b ms ts nd dd wd st fi rp]. cbn [when_done node_deps done_deps slots tasks base] in *. subst nd dd. destruct wd as [z|]; [|easy]. unfold step.
  eexists. split; [reflexivity|]. split.
  2:{ unfold outlook. cbn [reports when_done base]. rewrite <- app_assoc. cbn [expected app]. now rewrite An, Ln. }
  constructor; cbn [slots base matchers tasks node_deps done_deps when_done started finished].
  - reflexivity.
  - intros i y k a n m Y K. apply Back in Y as (y' & Y & K' & D' & L'). rewrite K in K'. destruct (i_search _ _ _ I i y' k a n m Y K') as (D1 & D2 & w & a' & D3 & D4).
    cbn in D2. rewrite D' in D1. split; [exact D1|]. split; [cbn; lia|]. apply Keep in D3 as (w' & W1 & W2 & _). exists w', a'. split; [exact W1 | congruence].
  - intros i y k a n m Y K L. destruct (Dead i y Y L).
  - intros [|i] q Q; discriminate.
  - intros i j y w k a1 n1 m1 a2 n2 m2 Y Z K K'. apply Back in Y as (y' & Y & Ky & _). apply Back in Z as (w' & Z & Kz & _). rewrite K in Ky. rewrite K' in Kz. exact (i_uniq _ _ _ I i j y' w' k a1 n1 m1 a2 n2 m2 Y Z Ky Kz).
  - intros i y a Y K. pose proof (Dead i y Y) as Dy. apply Back in Y as (y' & Y & K' & D' & L' & _). rewrite K in K'. destruct (i_create _ _ _ I i y' a Y K') as [D1 D2]. rewrite D' in D1. split; [exact D1 | contradiction].
  - intros a m r R. apply (i_made _ _ _ I) in R as (y & a' & Y & K & L). pose proof Y as Y0. apply Keep in Y as (y' & Y1 & Y2 & Y3 & Y4 & _). exists y', a'. split; [exact Y1|]. split; [congruence|].
    assert (N : m <> t) by (intros ->; cbn in Y0; rewrite X in Y0; congruence). now rewrite (Y4 N).
  - intros i y Y K L. destruct (Dead i y Y L).
  - intros i y Y K L. destruct (Dead i y Y L).
  - intros i y d Y D. apply Back in Y as (y' & Y & K' & D' & _). rewrite <- D' in D. exact (i_deps _ _ _ I i y' d Y D).
  - intros i y d Y N D. apply Back in Y as (y' & Y & K' & D' & _ & N'). rewrite <- D' in D.
    match type of I with inv _ ?s0 _ => assert (Q : done s0 d = true) by (destruct (N' N) as [N2 | ->]; [exact (i_begun _ _ _ I i y' d Y N2 D) | rewrite X in Y; injection Y as <-; auto]) end.
    apply done_iff in Q as (w & Z & Lz). apply Keep in Z as (w' & Z & _ & _ & _ & Lz'). apply done_iff. exists w'. auto.
  - intros i y Y Q. apply (status_inv _ _ _ Done X) in Y as [[N Y]|[-> ->]]; [exact (i_active _ _ _ I i y Y Q) | discriminate].
  - intros d [].
  - intros d [].
  - rewrite (open_status _ _ x Done X); [exact (i_count _ _ _ I)|]. rewrite Kx. discriminate.
  - reflexivity.
  - now intros [].
  - reflexivity.
  - reflexivity.
Qed.

(* ---- runs ---- *)
Lemma inv_step c s rq e es : inv c s rq -> allowed c e = true -> enabled e s = true ->
  exists s' rq', step found e s = Some s' /\ inv (next c e) s' rq' /\ outlook s rq (e :: es) = outlook s' rq' es.
Proof.
  intros I A En. destruct e as [a n| |z|a|t|t|t|t].
  - destruct (step found (Search a n) s) as [s'|] eqn:H.
    + exists s', (rq ++ [(a, n)]). split; [reflexivity|]. eapply inv_search; eauto.
    + destruct s. unfold step in H. destruct (dispatch _ _) as [[? ?] ?]; discriminate.
  - destruct (step found EndOfNode s) as [s'|] eqn:H; [|destruct s; discriminate].
    exists s', rq. split; [reflexivity|]. eapply inv_end_of_node; eauto.
  - destruct (inv_when_done c s rq z es I A) as (s' & H & G). eauto.
  - destruct (step found (Delete a) s) as [s'|] eqn:H; [|destruct s; discriminate].
    exists s', rq. split; [reflexivity|]. eapply inv_delete; eauto.
  - destruct (inv_begin c s rq t es I En) as (s' & H & G). eauto.
  - destruct (inv_end c s rq t es I En) as (s' & H & G). eauto.
  - destruct (inv_finish c s rq t es I En) as (s' & H & G). eauto.
  - destruct (inv_report c s rq t es I En) as (s' & H & G). eauto.
Qed.
Lemma inv_run es : forall c s rq, inv c s rq -> polite c es = true -> possible found es s ->
  exists s' rq', run found es s = Some s' /\ inv (after c es) s' rq' /\ outlook s rq es = outlook s' rq' [].
Proof.
  induction es as [|e es IH]; intros c s rq I Po Ps; [exists s, rq; auto|]. cbn in Po, Ps. apply andb_true_iff in Po as [A Po]. destruct Ps as [En Ps].
  destruct (inv_step c s rq e es I A En) as (s1 & rq1 & H & I1 & O1). rewrite H in Ps.
  destruct (IH _ _ _ I1 Po Ps) as (s' & rq' & H' & I' & O'). exists s', rq'. cbn [run]. rewrite H. split; [exact H'|]. split; [exact I' | congruence].
Qed.

(* the tasks that are not done can go on *)
Lemma first_live s (P : nat -> task -> Prop) (Pd : forall t x, P t x \/ ~ P t x) : forall n, n <= length (tasks s) ->
  (forall i x, i < n -> nth_error (tasks s) i = Some x -> ~ P i x) \/
  (exists t x, nth_error (tasks s) t = Some x /\ P t x /\ forall i y, i < t -> nth_error (tasks s) i = Some y -> ~ P i y).
Proof.
  induction n as [|n IH]; intros Le; [left; intros; lia|]. destruct IH as [IH|IH]; [lia | | now right].
  destruct (nth_error (tasks s) n) as [x|] eqn:X; [|apply nth_error_None in X; lia].
  destruct (Pd n x) as [Y|N]; [right; exists n, x; auto|]. left. intros i y L Y. destruct (Nat.eq_dec i n) as [->|Ne]; [congruence | apply IH; auto; lia].
Qed.
Lemma progress c s rq : inv c s rq -> (exists t x, nth_error (tasks s) t = Some x /\ live x) ->
  exists e, internal e = true /\ enabled e s = true.
Proof.
  intros I (t0 & x0 & X0 & L0).
  destruct (first_live s (fun _ x => live x)) with (n := length (tasks s)) as [N|(t & x & X & L & F)]; [| lia | |].
  - intros _ x. unfold live. destruct (t_status x); [left | left | right]; auto; discriminate.
  - destruct (N t0 x0 (nth_lt _ _ _ X0) X0 L0).
  - assert (D : forallb (done s) (t_deps x) = true).
    { apply forallb_forall. intros d Dd. pose proof (i_deps _ _ _ I t x d X Dd) as Lt. apply done_iff.
      destruct (nth_error (tasks s) d) as [y|] eqn:Y; [exists y; split; [reflexivity | exact (F d y Lt Y)]|]. apply nth_error_None in Y. apply nth_lt in X. lia. }
    destruct (t_status x) eqn:St; [| |contradiction].
    + destruct (t_kind x) eqn:K; [exists (Begin t) | exists (Begin t) | exists (Finish t) | exists (Report t)]; cbn; rewrite X; unfold ready; rewrite St, D, K; auto.
    + destruct (t_kind x) eqn:K; [exists (End t) | exists (End t) | |]; cbn; try (rewrite X, K, St; auto).
      * destruct (i_active _ _ _ I t x X St) as [Q _]. congruence.
      * destruct (i_active _ _ _ I t x X St) as [_ Q]. congruence.
Qed.

(* how much there is to do *)
Definition weight (x : task) : nat := match t_status x with Ready => 2 | Active => 1 | Done => 0 end.
Definition todo (s : state) : nat := list_sum (map weight (tasks s)).
Lemma todo_put ts : forall t x y, nth_error ts t = Some x -> list_sum (map weight (put t y ts)) + weight x = list_sum (map weight ts) + weight y.
Proof.
  induction ts as [|a ts IH]; intros [|t] x y H; cbn in *; try discriminate; [injection H as ->; lia|]. specialize (IH t x y H). unfold list_sum in *. lia.
Qed.
Lemma todo_status ts t x st : nth_error ts t = Some x -> weight (mk_task (t_kind x) (t_deps x) st) < weight x ->
  list_sum (map weight (set_status ts t st)) < list_sum (map weight ts).
Proof. intros X L. unfold set_status. rewrite X. pose proof (todo_put ts t x (mk_task (t_kind x) (t_deps x) st) X). lia. Qed.
Lemma step_todo e s s' : enabled e s = true -> internal e = true -> step found e s = Some s' -> todo s' < todo s.
Proof.
  intros En In H. destruct e as [a n| |z|a|t|t|t|t]; try discriminate; cbn in En; destruct (nth_error (tasks s) t) as [[k d st]|] eqn:X; try discriminate;
    destruct s as [sl b ms ts nd dd wd sta fi rp]; cbn [tasks t_kind t_status] in *; unfold step in H; rewrite ?X in H; unfold ready in En; cbn [t_kind t_status] in En; unfold todo; cbn [tasks].
  - destruct st; try discriminate. destruct k; try (rewrite andb_false_r in En; discriminate).
    + destruct (matcher t ms); [|discriminate]. injection H as <-. cbn [tasks]. eapply todo_status; [exact X | cbn; lia].
    + destruct (matcher m ms) as [[]|]; try discriminate. injection H as <-. cbn [tasks]. eapply todo_status; [exact X | cbn; lia].
  - destruct st; try (destruct k; discriminate). destruct k; try discriminate.
    + destruct (matcher t ms); [|discriminate]. injection H as <-. cbn [tasks]. eapply todo_status; [exact X | cbn; lia].
    + destruct (matcher m ms); [|discriminate]. destruct (found k); [destruct (_ && _); [|discriminate]|]; injection H as <-; cbn [tasks]; (eapply todo_status; [exact X | cbn; lia]).
  - destruct st; try discriminate. injection H as <-. cbn [tasks]. eapply todo_status; [exact X | cbn; lia].
  - destruct st; try discriminate. destruct wd; [|discriminate]. injection H as <-. cbn [tasks]. eapply todo_status; [exact X | cbn; lia].
Qed.
Lemma run_todo es : forall s s', possible found es s -> forallb internal es = true -> run found es s = Some s' -> length es + todo s' <= todo s.
Proof.
  induction es as [|e es IH]; intros s s' P O H; cbn [possible forallb run length] in *; [injection H as <-; lia|]. apply andb_true_iff in O as [O1 O2].
  destruct P as [En P]. destruct (step found e s) as [s1|] eqn:E; [|discriminate]. pose proof (step_todo _ _ _ En O1 E). specialize (IH s1 s' P O2 H). lia.
Qed.
(* at most two events for each task that is not done *)
Lemma todo_bound s : todo s <= 2 * length (filter (fun x => match t_status x with Done => false | _ => true end) (tasks s)).
Proof.
  unfold todo. induction (tasks s) as [|x l IH]; [cbn; lia|]. cbn [map filter]. unfold list_sum in *. cbn [fold_right]. unfold weight at 1.
  destruct (t_status x); cbn [length]; lia.
Qed.
End Inv.
