(* Slicing and levels. *)
From Coq Require Import ZArith List Bool Arith Relations Permutation Sorting.Sorted Lia.
From Verif Require Import DF_Model DF_Spec.
Import ListNotations.

(* union-find *)
Lemma find_more f : forall f' i lv r, (f <= f')%nat -> level_find f i lv = Some r -> level_find f' i lv = Some r.
Proof.
  induction f as [|f IH]; intros f' i lv r L H; [discriminate|]. destruct f' as [|f']; [lia|]. cbn [level_find] in *.
  destruct (nth_error lv i); [|discriminate]. destruct (i =? n); [exact H|]. apply IH; [lia | exact H].
Qed.
Lemma set_nth_length l : forall i v, List.length (set_nth l i v) = List.length l.
Proof. induction l as [|x l IH]; intros i v; [reflexivity|]. destruct i; cbn [set_nth List.length]; [reflexivity | now rewrite IH]. Qed.
Lemma set_nth_same l : forall i v, (i < List.length l)%nat -> nth_error (set_nth l i v) i = Some v.
Proof. induction l as [|x l IH]; intros i v H; [cbn in H; lia|]. destruct i; [reflexivity|]. cbn. apply IH. cbn in H. lia. Qed.
Lemma set_nth_other l : forall i v j, i <> j -> nth_error (set_nth l i v) j = nth_error l j.
Proof. induction l as [|x l IH]; intros i v j H; [reflexivity|]. destruct i, j; cbn; try congruence. apply IH. lia. Qed.
Lemma set_nth_id l : forall i v, nth_error l i = Some v -> set_nth l i v = l.
Proof. induction l as [|x l IH]; intros i v H; [reflexivity|]. destruct i; cbn in *; [congruence|]. f_equal. now apply IH. Qed.

Definition nonroot (lv : list nat) (i : nat) : bool := match nth_error lv i with Some p => negb (i =? p) | None => true end.
Definition nr (lv : list nat) : nat := List.length (filter (nonroot lv) (seq 0 (List.length lv))).
Lemma filter_le {A} (p : A -> bool) l : (List.length (filter p l) <= List.length l)%nat.
Proof. induction l as [|x l IH]; [cbn; lia|]. cbn. destruct (p x); cbn; lia. Qed.
Lemma nr_le lv : (nr lv <= List.length lv)%nat.
Proof. unfold nr. rewrite <- (seq_length (List.length lv) 0) at 2. apply filter_le. Qed.
Lemma filter_ext_out {A} (p p' : A -> bool) l : (forall x, In x l -> p x = p' x) -> filter p l = filter p' l.
Proof. induction l as [|x l IH]; intros H; [reflexivity|]. cbn. rewrite (H x) by now left. rewrite IH; [reflexivity|]. intros y Y. apply H. now right. Qed.
Lemma filter_one (p p' : nat -> bool) a l : NoDup l -> In a l -> p a = false -> p' a = true -> (forall x, x <> a -> p x = p' x) ->
  List.length (filter p' l) = S (List.length (filter p l)).
Proof.
  induction 1 as [|x l N ND IH]; intros I PA PA' H; [destruct I|]. cbn. destruct (Nat.eq_dec x a) as [->|NE].
  - rewrite PA, PA'. cbn. f_equal. f_equal. apply filter_ext_out. intros y Y. symmetry. apply H. intros ->. contradiction.
  - destruct I as [I|I]; [congruence|]. rewrite <- (H x NE). destruct (p x); cbn; rewrite IH by assumption; reflexivity.
Qed.
Lemma find_root f : forall i lv r, level_find f i lv = Some r -> nth_error lv r = Some r.
Proof.
  induction f as [|f IH]; intros i lv r H; [discriminate|]. cbn [level_find] in H. destruct (nth_error lv i) as [p|] eqn:E; [|discriminate].
  destruct (Nat.eqb_spec i p) as [->|N]; [congruence | now apply IH in H].
Qed.
Lemma find_set lv a b : nth_error lv a = Some a -> nth_error lv b = Some b -> a <> b ->
  forall f i r, level_find f i lv = Some r -> level_find (S f) i (set_nth lv a b) = Some (if r =? a then b else r).
Proof.
  intros A B N. induction f as [|f IH]; intros i r H; [discriminate|]. change (level_find (S (S f)) i (set_nth lv a b)) with
    (match nth_error (set_nth lv a b) i with None => None | Some p => if i =? p then Some p else level_find (S f) p (set_nth lv a b) end).
  cbn [level_find] in H. destruct (nth_error lv i) as [p|] eqn:E; [|discriminate].
  assert (LA : (a < List.length lv)%nat) by (apply nth_error_Some; congruence).
  destruct (Nat.eq_dec i a) as [->|NA].
  - rewrite A in E. injection E as <-. rewrite Nat.eqb_refl in H. injection H as <-. rewrite set_nth_same by exact LA. rewrite Nat.eqb_refl.
    destruct (Nat.eqb_spec a b); [congruence|]. cbn [level_find]. rewrite set_nth_other by exact N. rewrite B, Nat.eqb_refl. reflexivity.
  - rewrite set_nth_other by lia. rewrite E. destruct (Nat.eqb_spec i p) as [->|NP].
    + injection H as <-. destruct (Nat.eqb_spec p a); [congruence | reflexivity].
    + now apply IH.
Qed.

Definition rt (lv : list nat) (i : nat) : nat := match find_level i lv with Some r => r | None => O end.
Definition Inv (n : nat) (E : nat -> nat -> Prop) (lv : list nat) : Prop :=
  List.length lv = n /\ (forall i, (i < n)%nat -> exists r, level_find (S (nr lv)) i lv = Some r /\ (r < n)%nat) /\
  (forall i j, (i < n)%nat -> (j < n)%nat -> (rt lv i = rt lv j <-> clos_refl_sym_trans nat E i j)).
Lemma inv_find n E lv i : Inv n E lv -> (i < n)%nat -> find_level i lv = Some (rt lv i) /\ (rt lv i < n)%nat.
Proof.
  intros (L & F & _) H. destruct (F i H) as (r & R & LR). assert (X : find_level i lv = Some r).
  { unfold find_level. eapply find_more; [|exact R]. pose proof (nr_le lv). lia. }
  unfold rt. rewrite X. auto.
Qed.
Lemma inv_iff n E E' lv : (forall i j, E i j <-> E' i j) -> Inv n E lv -> Inv n E' lv.
Proof.
  intros H (A & B & C). split; [exact A|]. split; [exact B|]. intros i j I J. rewrite (C i j I J). clear I J.
  split; intros X; induction X; try (apply rst_step; now apply H); try apply rst_refl; try (now apply rst_sym); try (eapply rst_trans; eassumption).
Qed.
Lemma union_ok n E lv i j : Inv n E lv -> (forall x y, E x y -> (x < n)%nat /\ (y < n)%nat) -> (i < n)%nat -> (j < n)%nat ->
  exists lv', level_union i j lv = Some lv' /\ Inv n (fun x y => E x y \/ x = i /\ y = j) lv'.
Proof.
  intros INV RNG I J. pose proof INV as (L & F & C). unfold level_union.
  destruct (inv_find _ _ _ i INV I) as [FI LI]. destruct (inv_find _ _ _ j INV J) as [FJ LJ]. rewrite FI, FJ. eexists. split; [reflexivity|].
  assert (RI : nth_error lv (rt lv i) = Some (rt lv i)) by (eapply find_root; exact FI).
  assert (RJ : nth_error lv (rt lv j) = Some (rt lv j)) by (eapply find_root; exact FJ).
  assert (SUB : forall x y, clos_refl_sym_trans nat E x y -> clos_refl_sym_trans nat (fun x y => E x y \/ x = i /\ y = j) x y).
  { intros x y H. induction H; [apply rst_step; now left | apply rst_refl | now apply rst_sym | eapply rst_trans; eassumption]. }
  assert (NEW : clos_refl_sym_trans nat (fun x y => E x y \/ x = i /\ y = j) i j) by (apply rst_step; now right).
  destruct (Nat.eq_dec (rt lv i) (rt lv j)) as [EQ|NE].
  - rewrite <- EQ, set_nth_id by exact RI. split; [exact L|]. split; [exact F|]. intros x y X Y. rewrite (C x y X Y). split; [apply SUB|].
    intros H. induction H as [x y [H|[-> ->]]|x|x y H IH|x y z H1 IH1 H2 IH2].
    + now apply rst_step.
    + now apply (C i j I J).
    + apply rst_refl.
    + apply rst_sym. now apply IH.
    + destruct (lt_dec y n) as [YN|YN]; [eapply rst_trans; [now apply IH1 | now apply IH2]|].
      exfalso. clear - H1 X YN RNG I J. assert (Q : forall a b, clos_refl_sym_trans nat (fun x y => E x y \/ x = i /\ y = j) a b -> a = b \/ (a < n)%nat /\ (b < n)%nat).
      { intros a b Z. induction Z as [a b [Z|[-> ->]]|a|a b Z IH|a b c Z1 IH1 Z2 IH2]; [right; now apply RNG | right; auto | now left | lia | lia]. }
      destruct (Q _ _ H1) as [->|[_ U]]; lia.
  - set (a := rt lv i) in *. set (b := rt lv j) in *. set (lv' := set_nth lv a b).
    assert (L' : List.length lv' = n) by (unfold lv'; now rewrite set_nth_length).
    assert (NR : nr lv' = S (nr lv)).
    { unfold nr. rewrite L', L. apply (filter_one _ _ a).
      - apply seq_NoDup.
      - apply in_seq. lia.
      - unfold nonroot. rewrite RI, Nat.eqb_refl. reflexivity.
      - unfold nonroot, lv'. rewrite set_nth_same by lia. destruct (Nat.eqb_spec a b); [congruence | reflexivity].
      - intros x X. unfold nonroot, lv'. rewrite set_nth_other by congruence. reflexivity. }
    assert (FF : forall x, (x < n)%nat -> level_find (S (nr lv')) x lv' = Some (if rt lv x =? a then b else rt lv x)).
    { intros x X. rewrite NR. destruct (F x X) as (r & R & LR). destruct (inv_find _ _ _ x INV X) as [FX _].
      assert (r = rt lv x) as ->.
      { assert (Y : find_level x lv = Some r) by (unfold find_level; eapply find_more; [|exact R]; pose proof (nr_le lv); lia). congruence. }
      apply find_set; assumption. }
    assert (RT : forall x, (x < n)%nat -> rt lv' x = if rt lv x =? a then b else rt lv x).
    { intros x X. unfold rt at 1, find_level. assert (LN : (S (nr lv') <= S (List.length lv'))%nat) by (pose proof (nr_le lv'); lia).
      rewrite (find_more _ _ x lv' _ LN (FF x X)). reflexivity. }
    split; [exact L'|]. split.
    + intros x X. eexists. split; [apply FF; exact X|]. destruct (rt lv x =? a); [exact LJ|]. now destruct (inv_find _ _ _ x INV X).
    + intros x y X Y. rewrite (RT x X), (RT y Y). split.
      * assert (TA : forall z, (z < n)%nat -> rt lv z = a -> clos_refl_sym_trans nat (fun x y => E x y \/ x = i /\ y = j) z i).
        { intros z Z H. apply SUB, (C z i Z I). exact H. }
        assert (TB : forall z, (z < n)%nat -> rt lv z = b -> clos_refl_sym_trans nat (fun x y => E x y \/ x = i /\ y = j) z j).
        { intros z Z H. apply SUB, (C z j Z J). exact H. }
        destruct (Nat.eqb_spec (rt lv x) a) as [EX|EX]; destruct (Nat.eqb_spec (rt lv y) a) as [EY|EY]; intros H.
        -- apply SUB, C; congruence || assumption.
        -- eapply rst_trans; [apply TA; assumption|]. eapply rst_trans; [exact NEW|]. apply rst_sym, TB; [exact Y | congruence].
        -- eapply rst_trans; [apply TB; [exact X | congruence]|]. eapply rst_trans; [apply rst_sym, NEW|]. apply rst_sym, TA; [exact Y | congruence].
        -- apply SUB, C; assumption.
      * intros H. clear - H X Y C RNG I J NE.
        assert (Q : forall u v, clos_refl_sym_trans nat (fun x y => E x y \/ x = i /\ y = j) u v ->
          u = v \/ (u < n)%nat /\ (v < n)%nat /\ (if rt lv u =? a then b else rt lv u) = (if rt lv v =? a then b else rt lv v)).
        { intros u v Z. induction Z as [u v [Z|[-> ->]]|u|u v Z IH|u v w Z1 IH1 Z2 IH2].
          - right. destruct (RNG _ _ Z) as [U V]. split; [exact U|]. split; [exact V|].
            replace (rt lv u) with (rt lv v); [reflexivity|]. symmetry. apply C; [assumption | assumption | now apply rst_step].
          - right. split; [exact I|]. split; [exact J|]. fold a b. rewrite Nat.eqb_refl. destruct (Nat.eqb_spec b a); congruence.
          - now left.
          - destruct IH as [->|(U & V & W)]; [now left | right; auto].
          - destruct IH1 as [->|(U & V & W)]; [exact IH2|]. destruct IH2 as [<-|(U' & V' & W')]; [now right; auto|].
            right. split; [exact U|]. split; [exact V'|]. congruence. }
        destruct (Q _ _ H) as [->|(_ & _ & W)]; [reflexivity | exact W].
Qed.
Lemma seq_inv n : Inv n (fun _ _ => False) (seq 0 n).
Proof.
  assert (S0 : forall i, (i < n)%nat -> nth_error (seq 0 n) i = Some i).
  { intros i H. rewrite (nth_error_nth' (seq 0 n) O) by now rewrite seq_length. rewrite seq_nth by exact H. reflexivity. }
  assert (F : forall f i, (i < n)%nat -> level_find (S f) i (seq 0 n) = Some i).
  { intros f i H. cbn [level_find]. rewrite (S0 i H), Nat.eqb_refl. reflexivity. }
  split; [apply seq_length|]. split; [intros i H; exists i; auto|].
  intros i j I J. unfold rt, find_level. rewrite (F _ i I), (F _ j J). split; [intros ->; apply rst_refl|].
  intros H. induction H as [? ? []|x|x y H IH|x y z H1 IH1 H2 IH2]; [reflexivity | symmetry; now apply IH|].
  assert (Q : forall a b, clos_refl_sym_trans nat (fun _ _ => False) a b -> a = b).
  { intros a b Z. induction Z; [contradiction | reflexivity | congruence | congruence]. }
  rewrite (Q _ _ H1). now apply Q.
Qed.

Section Proofs.
Variable D : Type.
Variable lt : D -> D -> bool.
Variable apart close : D -> D -> bool.
Hypothesis ASYM : forall a b, lt a b = true -> lt b a = false.
Notation span := (span D).
Notation insert_sorted := (insert_sorted D lt).
Notation median := (median D).
Notation sorted := (sorted D lt).
Notation is_median := (is_median D lt).

(* sorting *)
Lemma insert_perm v l : Permutation (insert_sorted v l) (v :: l).
Proof.
  induction l as [|x l IH]; [apply Permutation_refl|]. cbn [DF_Model.insert_sorted]. destruct (lt v x); [apply Permutation_refl|].
  rewrite IH. apply perm_swap.
Qed.
Lemma insert_sorted_ok v l : sorted l -> sorted (insert_sorted v l).
Proof.
  induction 1 as [|x l S IH H]; cbn [DF_Model.insert_sorted]; [repeat constructor|].
  destruct (lt v x) eqn:E.
  - constructor; [constructor; assumption|]. constructor. now apply ASYM.
  - constructor; [exact IH|]. destruct l as [|y l]; cbn [DF_Model.insert_sorted]; [constructor; exact E|].
    destruct (lt v y); constructor; [exact E|]. inversion H; assumption.
Qed.
Lemma sort_perm l : Permutation (sort_values D lt l) l.
Proof. induction l as [|x l IH]; [apply Permutation_refl|]. cbn [sort_values fold_right]. rewrite insert_perm. now constructor. Qed.
Lemma sort_sorted l : sorted (sort_values D lt l).
Proof. induction l as [|x l IH]; [constructor|]. cbn [sort_values fold_right]. now apply insert_sorted_ok. Qed.
Lemma median_some l : l <> [] -> exists m, median l = Some m.
Proof.
  intros N. unfold DF_Model.median. destruct l as [|x l]; [congruence|].
  destruct (nth_error (x :: l) (List.length (x :: l) / 2)) eqn:E; [eauto|].
  apply nth_error_None in E. assert (List.length (x :: l) / 2 < List.length (x :: l))%nat by (apply Nat.div_lt; cbn; lia). lia.
Qed.
Lemma median_nth l m : median l = Some m -> nth_error l (List.length l / 2) = Some m.
Proof. unfold DF_Model.median. destruct l; [discriminate | auto]. Qed.
Lemma median_ok l l' m : Permutation l l' -> sorted l -> median l = Some m -> is_median l' m.
Proof.
  intros P S M. exists l. split; [exact P|]. split; [exact S|]. rewrite <- (Permutation_length P). now apply median_nth.
Qed.

(* slicing *)
Lemma part_snoc {A} (l : list A) a i z : (a <= i)%nat -> nth_error l i = Some z -> part l a (S i) = part l a i ++ [z].
Proof.
  intros H E. unfold part. replace (S i - a)%nat with (S (i - a)) by lia.
  assert (X : nth_error (skipn a l) (i - a) = Some z).
  { clear - H E. revert i l H E. induction a as [|a IH]; intros i l H E; [rewrite Nat.sub_0_r; exact E|].
    destruct i as [|i]; [lia|]. destruct l as [|x l]; [destruct i; discriminate|]. cbn [skipn]. apply IH; [lia | exact E]. }
  revert X. generalize (skipn a l). generalize (i - a)%nat. clear. intros k. induction k as [|k IH]; intros l X.
  - destruct l; [discriminate|]. injection X as <-. reflexivity.
  - destruct l as [|x l]; [discriminate|]. cbn [firstn app]. f_equal. now apply IH.
Qed.
Lemma part_length {A} (l : list A) a b : (a <= b <= List.length l)%nat -> List.length (part l a b) = (b - a)%nat.
Proof. intros H. unfold part. rewrite firstn_length, skipn_length. lia. Qed.
Lemma skipn_cons {A} (l : list A) : forall i z r, skipn i l = z :: r -> nth_error l i = Some z /\ skipn (S i) l = r.
Proof.
  induction l as [|x l IH]; intros i z r H; [destruct i; discriminate|]. destruct i; cbn [skipn nth_error] in *.
  - injection H as -> ->. auto.
  - now apply IH.
Qed.
Lemma slice_loop_ok all zs : forall i cur, skipn i all = zs -> (i <= List.length all)%nat -> cut_ok D lt apart all cur -> s_end cur = i ->
  exists ss, slice_loop D lt apart i zs cur = Some ss /\ cut_up D lt apart all (s_start cur) ss.
Proof.
  induction zs as [|z zs IH]; intros i cur SK LE OK EN; cbn [slice_loop].
  - exists [cur]. split; [reflexivity|]. constructor; [exact OK|].
    assert (List.length (skipn i all) = O) by now rewrite SK. rewrite skipn_length in H. lia.
  - destruct (skipn_cons _ _ _ _ SK) as [EZ SK']. pose proof OK as (O1 & O2 & O3 & O4).
    assert (LI : (i < List.length all)%nat) by (apply nth_error_Some; congruence).
    destruct (median_some (s_z cur)) as [m M].
    { intros E. apply Permutation_length in O2. rewrite E, part_length in O2 by lia. cbn in O2. lia. }
    rewrite M. assert (ME : is_median (part all (s_start cur) i) m) by (rewrite EN in O2; eapply median_ok; eassumption).
    destruct (apart m z) eqn:AP.
    + destruct (IH (S i) (mk_span i (S i) (insert_sorted z []))) as (ss & E & C).
      * exact SK'.
      * lia.
      * split; [cbn; lia|]. cbn [s_start s_end s_z DF_Model.insert_sorted]. split; [|split; [repeat constructor | intros; lia]].
        rewrite (part_snoc all i i z) by (lia || assumption). unfold part. rewrite Nat.sub_diag. apply Permutation_refl.
      * reflexivity.
      * rewrite E. exists (cur :: ss). split; [reflexivity|]. constructor; [exact OK | exists m, z; rewrite EN; auto|]. rewrite EN. exact C.
    + destruct (IH (S i) (mk_span (s_start cur) (S i) (insert_sorted z (s_z cur)))) as (ss & E & C).
      * exact SK'.
      * lia.
      * split; [cbn; lia|]. cbn [s_start s_end s_z]. split; [|split].
        -- rewrite insert_perm, (part_snoc all _ i z) by (lia || assumption). rewrite EN in O2. rewrite O2. apply Permutation_cons_append.
        -- now apply insert_sorted_ok.
        -- intros k y K Y. destruct (Nat.eq_dec k i) as [->|NK]; [exists m; split; [exact ME | congruence]|]. apply O4; [lia | exact Y].
      * reflexivity.
      * exists ss. split; [exact E | exact C].
Qed.
Lemma slice_ok z0 z1 zs : apart z0 z1 = false -> exists ss, slice D lt apart (z0 :: z1 :: zs) = Some ss /\ cut_up D lt apart (z0 :: z1 :: zs) 0 ss.
Proof.
  intros A. cbn [slice slice_loop s_z DF_Model.median List.length nth_error Nat.div Nat.divmod fst].
  rewrite A. cbn [s_start].
  apply (slice_loop_ok (z0 :: z1 :: zs) zs 2 (mk_span 0 2 (insert_sorted z1 [z0]))).
  - reflexivity.
  - cbn. lia.
  - split; [cbn; lia|]. cbn [s_start s_end s_z]. split; [|split].
    + rewrite insert_perm. apply perm_swap.
    + apply insert_sorted_ok. repeat constructor.
    + intros i z H E. assert (i = 1)%nat as -> by lia. injection E as <-. exists z0. split; [|exact A].
      exists [z0]. repeat constructor.
  - reflexivity.
Qed.
Lemma slice_jump z0 z1 zs : apart z0 z1 = true -> exists ss, slice D lt apart (z0 :: z1 :: zs) = Some (mk_span 0 0 [z0] :: ss) /\
  cut_up D lt apart (z0 :: z1 :: zs) 1 ss.
Proof.
  intros A. cbn [slice slice_loop s_z DF_Model.median List.length nth_error Nat.div Nat.divmod fst].
  rewrite A. destruct (slice_loop_ok (z0 :: z1 :: zs) zs 2 (mk_span 1 2 (insert_sorted z1 []))) as (ss & E & C).
  - reflexivity.
  - cbn. lia.
  - split; [cbn; lia|]. cbn [s_start s_end s_z]. split; [apply Permutation_refl|]. split; [repeat constructor | intros; lia].
  - reflexivity.
  - exists ss. rewrite E. split; [reflexivity | exact C].
Qed.

(* what the rest needs of the spans *)
Lemma cut_values zs a ss : cut_up D lt apart zs a ss -> Forall (fun s => s_z s <> [] /\ (s_start s < s_end s <= List.length zs)%nat) ss.
Proof.
  assert (Q : forall s, cut_ok D lt apart zs s -> (s_end s <= List.length zs)%nat -> s_z s <> [] /\ (s_start s < s_end s <= List.length zs)%nat).
  { intros s (A & B & _) L. split; [|lia]. intros E. apply Permutation_length in B. rewrite E, part_length in B by lia. cbn in B. lia. }
  induction 1 as [s OK E|s ss OK (m & z & _ & Z & _) C IH].
  - constructor; [apply Q; [exact OK | lia] | constructor].
  - constructor; [|exact IH]. apply Q; [exact OK|]. assert (s_end s < List.length zs)%nat by (apply nth_error_Some; congruence). lia.
Qed.
Lemma cut_starts zs a ss : cut_up D lt apart zs a ss -> StronglySorted (fun s t => (s_start s < s_start t)%nat) ss /\ Forall (fun s => (a <= s_start s)%nat) ss.
Proof.
  induction 1 as [s (A & _) E|s ss (A & _) _ C [IH1 IH2]].
  - repeat constructor.
  - split.
    + constructor; [exact IH1|]. eapply Forall_impl; [|exact IH2]. cbn. intros t T. lia.
    + constructor; [lia|]. eapply Forall_impl; [|exact IH2]. cbn. intros t T. lia.
Qed.

(* levels *)
Definition edge (spans : list span) (i j : nat) : Prop := exists si sj mi mj, nth_error spans i = Some si /\ nth_error spans j = Some sj /\
    middle D si = Some mi /\ middle D sj = Some mj /\ close mi mj = true.
Lemma group_ok spans ps : Forall (fun s => s_z s <> []) spans ->
  Forall (fun p => (fst p < List.length spans)%nat /\ (snd p < List.length spans)%nat) ps ->
  forall (E : nat -> nat -> Prop) lv, (forall x y, E x y -> (x < List.length spans)%nat /\ (y < List.length spans)%nat) -> Inv (List.length spans) E lv ->
  exists lv', group D close spans ps lv = Some lv' /\ Inv (List.length spans) (fun x y => E x y \/ In (x, y) ps /\ edge spans x y) lv'.
Proof.
  intros NE. induction ps as [|[i j] ps IH]; intros F E lv R I.
  - exists lv. split; [reflexivity|]. eapply inv_iff; [|exact I]. intros x y. cbn [In]. tauto.
  - inversion F as [|? ? [LI LJ] F']; subst. cbn [fst snd] in LI, LJ. cbn [group].
    destruct (nth_error spans i) as [si|] eqn:SI; [|apply nth_error_None in SI; lia].
    destruct (nth_error spans j) as [sj|] eqn:SJ; [|apply nth_error_None in SJ; lia].
    rewrite Forall_forall in NE.
    destruct (median_some (s_z si) (NE _ (nth_error_In _ _ SI))) as [mi MI]. destruct (median_some (s_z sj) (NE _ (nth_error_In _ _ SJ))) as [mj MJ].
    rewrite MI, MJ. assert (ED : close mi mj = true <-> edge spans i j).
    { apply median_nth in MI, MJ. split; [intros H; exists si, sj, mi, mj; auto|]. intros (a & b & c & d & A & B & C & X & Y).
      unfold middle in C, X. congruence. }
    destruct (close mi mj).
    + destruct (union_ok _ E lv i j I R LI LJ) as (lv1 & -> & I1).
      destruct (IH F' (fun x y => E x y \/ x = i /\ y = j) lv1) as (lv2 & E2 & I2); [intros x y [H|[-> ->]]; auto | exact I1|].
      exists lv2. split; [exact E2|]. eapply inv_iff; [|exact I2]. intros x y. cbn [In]. split.
      * intros [[H|[-> ->]]|[H1 H2]]; [now left | right; split; [now left | tauto] | right; auto].
      * intros [H|[[H|H] H2]]; [now left; left | injection H as -> ->; left; right; auto | right; auto].
    + destruct (IH F' E lv R I) as (lv2 & E2 & I2). exists lv2. split; [exact E2|]. eapply inv_iff; [|exact I2]. intros x y. cbn [In]. split.
      * intros [H|[H1 H2]]; [now left | right; auto].
      * intros [H|[[H|H] H2]]; [now left | injection H as -> ->; apply ED in H2; discriminate | right; auto].
Qed.
Lemma pairs_in n i j : In (i, j) (pairs n) <-> (i < j < n)%nat.
Proof.
  unfold pairs. rewrite in_flat_map. split.
  - intros (x & X & H). apply in_map_iff in H. destruct H as (y & E & Y). injection E as -> ->. apply in_seq in X, Y. lia.
  - intros H. exists i. split; [apply in_seq; lia|]. apply in_map_iff. exists j. split; [reflexivity|]. apply in_seq. lia.
Qed.
Lemma levels_ok spans : Forall (fun s => s_z s <> []) spans ->
  exists lv, group D close spans (pairs (List.length spans)) (seq 0 (List.length spans)) = Some lv /\ Inv (List.length spans) (similar D close spans) lv.
Proof.
  intros NE. assert (FP : Forall (fun p => (fst p < List.length spans)%nat /\ (snd p < List.length spans)%nat) (pairs (List.length spans))).
  { apply Forall_forall. intros [i j] H. apply pairs_in in H. cbn. lia. }
  destruct (group_ok spans (pairs (List.length spans)) NE FP (fun _ _ => False) (seq 0 (List.length spans))) as (lv & E & I).
  - intros x y [].
  - apply seq_inv.
  - exists lv. split; [exact E|]. eapply inv_iff; [|exact I]. intros x y. cbn beta. rewrite pairs_in. unfold similar, edge. split.
    + intros [[]|[H1 H2]]. split; [lia | exact H2].
    + intros [H1 H2]. right. split; [|exact H2]. destruct H2 as (si & sj & _ & _ & _ & B & _).
      assert (y < List.length spans)%nat by (apply nth_error_Some; congruence). lia.
Qed.
End Proofs.
