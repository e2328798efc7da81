From Coq Require Import List ZArith Bool Arith Lia.
From Verif Require Import ASM_Model ASM_Spec Properties_ASM SC_Model SC_Spec.
Import ListNotations.
Open Scope nat_scope.

Lemma sid_eqb_eq a b : sid_eqb a b = true <-> a = b.
Proof. destruct a, b. unfold sid_eqb. cbn [fst snd]. rewrite andb_true_iff, !Z.eqb_eq. split; [intros [-> ->]; reflexivity | intros [= -> ->]; auto]. Qed.
Lemma active_in N k j : 1 <= N -> In j (active N k) <-> (j * N + 1 <= k <= (j + 2) * N).
Proof.
  intros HN. destruct k as [|k]; cbn [active]; [cbn; lia|]. pose proof (Nat.div_mod k N ltac:(lia)) as D. pose proof (Nat.mod_upper_bound k N ltac:(lia)) as U.
  destruct (k / N) as [|q]; cbn [In].
  - split; [intros [<- | []]; lia|]. intros H. left. destruct j; [reflexivity | nia].
  - split; [intros [<- | [<- | []]]; nia|]. intros H. assert (j = q \/ j = S q) by (assert (q < S j) by nia; assert (j < S (S q)) by nia; lia). intuition.
Qed.
Lemma active_nodup N k : NoDup (active N k).
Proof. destruct k as [|k]; cbn [active]; [constructor|]. destruct (k / N); repeat constructor; cbn; try tauto. intros [H | []]. lia. Qed.
Lemma active_numbers N k : active N (S k) = seq (pred (k / N)) (length (active N (S k))).
Proof. cbn [active]. destruct (k / N); reflexivity. Qed.
Lemma slice_firstn {D} a n k (ds : list D) : a + n <= k -> slice a n (firstn k ds) = slice a n ds.
Proof. intros H. unfold slice. rewrite skipn_firstn_comm, firstn_firstn. f_equal. lia. Qed.
Lemma firstn_snoc {A} (l r : list A) : firstn (length l) (l ++ r) = l.
Proof. rewrite firstn_app, Nat.sub_diag, firstn_all. cbn [firstn]. apply app_nil_r. Qed.
Lemma among_true k ks : among k ks = true <-> In k ks.
Proof. unfold among. rewrite existsb_exists. split; [intros [x [I E]]; apply Nat.eqb_eq in E; now subst | intros I; exists k; split; [exact I | apply Nat.eqb_refl]]. Qed.
Lemma increasing_snoc ks k : increasing (ks ++ [k]) -> increasing ks /\ forall x, In x ks -> x < k.
Proof.
  induction ks as [|a [|b ks] IH]; cbn [app]; [split; [exact I | intros x []]| intros [A _]; split; [exact I | intros x [<- | []]; exact A] |].
  intros [A B]. destruct (IH B) as [I1 I2]. split; [split; assumption|]. intros x [<- | X]; [pose proof (I2 b (or_introl eq_refl)); lia | now apply I2].
Qed.

Lemma Forall2_len {A B} (Q : A -> B -> Prop) l l' : Forall2 Q l l' -> length l = length l'.
Proof. induction 1; cbn; congruence. Qed.

Section Proofs.
Variables D C P G : Type.
Variable create : D -> C.
Variable insert : C -> D -> option C.
Variable finish : C -> option C.
Variables (pose : C -> P) (grid : C -> G).
Variable good : C -> Prop.
Hypothesis create_good : forall d, good (create d).
Hypothesis insert_good : forall c d, good c -> exists c', insert c d = Some c' /\ good c'.
Hypothesis finish_good : forall c, good c -> exists c', finish c = Some c'.
Hypothesis insert_pose : forall c d c', insert c d = Some c' -> pose c' = pose c.
Hypothesis finish_pose : forall c c', finish c = Some c' -> pose c' = pose c.
Variable N : nat.
Hypothesis HN : 1 <= N.
Hypothesis H31 : (Z.of_nat (2 * N) < 2 ^ 31)%Z.
Local Notation submap_of := (submap_of D C create insert finish).
Local Notation proto_of := (proto_of pose grid).
Local Notation send_all := (send_all create insert finish pose grid (Z.of_nat N)).

Lemma submap_of_pose ds j s : submap_of N ds j = Some s -> exists d, nth_error ds (j * N) = Some d /\ pose (s_content s) = pose (create d).
Proof.
  unfold ASM_Spec.submap_of. destruct (slice (j * N) (2 * N) ds) as [|d r] eqn:E; [discriminate|]. intros H. exists d. split.
  - unfold slice in E. destruct (skipn (j * N) ds) as [|d' r'] eqn:S; [now rewrite firstn_nil in E|]. destruct (2 * N) as [|n] eqn:M; [lia|]. cbn [firstn] in E. injection E as -> _.
    clear - S. revert S. generalize (j * N). induction ds as [|x ds IH]; intros [|n] S; cbn in *; try discriminate; [now injection S as -> _ | now apply IH].
  - assert (F : forall l c c', feed D C insert c l = Some c' -> pose c' = pose c).
    { induction l as [|x l IH]; intros c c' Q; cbn [feed] in Q; [now injection Q as ->|]. destruct (insert c x) eqn:I; [|discriminate]. rewrite (IH _ _ Q). now apply insert_pose with x. }
    destruct (feed D C insert (create d) (d :: r)) as [c|] eqn:Fe; [|discriminate]. apply F in Fe. destruct (Nat.eqb (length (d :: r)) (2 * N)); [|injection H as <-; exact Fe].
    destruct (finish c) as [c'|] eqn:Fi; [|discriminate]. injection H as <-. cbn [s_content]. rewrite (finish_pose _ _ Fi). exact Fe.
Qed.

(* message number k *)
Definition is_message (t : Z) (ds : list D) (k : nat) (m : message D P G) : Prop :=
  m_trajectory m = t /\ nth_error ds (k - 1) = Some (m_node m) /\
  Forall2 (fun j e => exists s, e = (Z.of_nat j, proto_of s) /\ submap_of N (firstn k ds) j = Some s) (active N k) (m_submaps m).

Lemma number_ok (Q : nat -> submap C -> Prop) ss : forall a, Forall2 Q (seq a (length ss)) ss ->
  Forall2 (fun j e => exists s, e = (Z.of_nat j, proto_of s) /\ Q j s) (seq a (length ss)) (number pose grid (Z.of_nat a) ss).
Proof.
  induction ss as [|s ss IH]; intros a F; [constructor|]. cbn [length seq number] in *. inversion F as [|? ? ? ? F1 F2]; subst. constructor; [now exists s|].
  replace (Z.of_nat a + 1)%Z with (Z.of_nat (S a)) by lia. now apply IH.
Qed.
Lemma start_ok k j s (ds : list D) : length ds = S k -> pred (k / N) = j -> submap_of N ds j = Some s ->
  (if s_fin s then Z.of_nat j + 1 else Z.of_nat j)%Z = Z.of_nat (pred (S k / N)).
Proof.
  intros L J H. destruct (submap_of_num _ _ _ _ _ _ _ _ _ H) as [_ [F _]]. rewrite L in F.
  pose proof (Nat.div_mod k N ltac:(lia)) as D1. pose proof (Nat.mod_upper_bound k N ltac:(lia)) as U1.
  pose proof (Nat.div_mod (S k) N ltac:(lia)) as D2. pose proof (Nat.mod_upper_bound (S k) N ltac:(lia)) as U2.
  set (q := k / N) in *. set (q' := S k / N) in *. clearbody q q'. assert (Q : q <= q' <= S q) by nia.
  destruct (s_fin s).
  - assert (X : (j + 2) * N <= S k) by (now apply F). assert (q' = j + 2) by (destruct q; cbn [pred] in J; subst j; nia). lia.
  - assert (X : S k < (j + 2) * N) by (destruct (le_lt_dec ((j + 2) * N) (S k)) as [Y|Y]; [apply F in Y; discriminate | exact Y]).
    f_equal. destruct q as [|q]; cbn [pred] in J; subst j; [assert (q' < 2) by nia; lia | assert (q' < S (S q)) by nia; lia].
Qed.
Lemma send_all_app s es e : send_all s (es ++ [e]) =
  match send_all s es with
  | None => None
  | Some (s', ms) => match send create insert finish pose grid (Z.of_nat N) s' e with Some (s'', m) => Some (s'', ms ++ [m]) | None => None end
  end.
Proof.
  revert s. induction es as [|a es IH]; intros s; cbn [SC_Model.send_all app].
  - destruct (send create insert finish pose grid (Z.of_nat N) s e) as [[s' m]|]; reflexivity.
  - destruct (send create insert finish pose grid (Z.of_nat N) s a) as [[s' m]|]; [|reflexivity]. rewrite IH. destruct (send_all s' es) as [[s'' ms]|]; [|reflexivity].
    destruct (send create insert finish pose grid (Z.of_nat N) s'' e) as [[s3 m3]|]; reflexivity.
Qed.
Lemma sent_ok t ds : exists s ms, send_all new_sender (map (pair t) ds) = Some (s, ms) /\
  Forall2 (fun j x => submap_of N ds j = Some x) (active N (length ds)) (fst s t) /\ snd s = Z.of_nat (pred (length ds / N)) /\
  length ms = length ds /\ forall k m, 1 <= k -> nth_error ms (k - 1) = Some m -> is_message t ds k m.
Proof.
  induction ds as [|d ds IH] using rev_ind.
  - exists new_sender, []. split; [reflexivity|]. split; [constructor|]. split; [cbn; now rewrite Nat.div_0_l by lia|]. split; [reflexivity|]. intros k m _ H. destruct (k - 1); discriminate.
  - destruct IH as [s [ms [E [A [B [L M]]]]]]. rewrite map_app. cbn [map]. rewrite send_all_app, E. cbn [send].
    destruct (step_ok D C create insert finish good create_good insert_good finish_good N ds d (fst s t) HN H31 A) as [ss [I F]]. rewrite I.
    assert (LA : length (ds ++ [d]) = S (length ds)) by (rewrite app_length; cbn; lia). rewrite LA in F. rewrite active_numbers in F.
    assert (LS : length (active N (S (length ds))) = length ss) by (apply Forall2_len in F; now rewrite seq_length in F). rewrite LS in F.
    assert (NE : length ss <> 0) by (rewrite <- LS; cbn [active]; destruct (length ds / N); cbn; lia). destruct ss as [|front r]; [now cbn in NE|].
    do 2 eexists. split; [reflexivity|]. cbn [fst snd]. rewrite Z.eqb_refl, LA. split; [rewrite active_numbers, LS; exact F|]. split.
    { rewrite B. cbn [length seq] in F. inversion F as [|? ? ? ? F1 F2]; subst. now apply (start_ok (length ds) _ front (ds ++ [d])). }
    split; [rewrite app_length, L; cbn; lia|]. intros k m K H. destruct (Nat.eq_dec (k - 1) (length ds)) as [Q|Q].
    + rewrite Q, <- L, nth_error_app2, Nat.sub_diag in H by lia. injection H as <-. replace k with (S (length ds)) by lia. split; [reflexivity|]. cbn [m_node m_submaps].
      split; [replace (S (length ds) - 1) with (length ds) by lia; rewrite nth_error_app2, Nat.sub_diag by lia; reflexivity|].
      rewrite <- LA, firstn_all. rewrite LA, active_numbers, LS, B. exact (number_ok (fun j x => submap_of N (ds ++ [d]) j = Some x) (front :: r) _ F).
    + assert (k - 1 < length ms). { assert (k - 1 < length (ms ++ [mk_message t d (number pose grid (snd s) (front :: r))])) by (apply nth_error_Some; congruence). rewrite app_length in H0. cbn [length] in H0. lia. }
      rewrite nth_error_app1 in H by assumption. destruct (M k m K H) as [M1 [M2 M3]]. split; [exact M1|]. split; [rewrite nth_error_app1 by lia; exact M2|].
      rewrite firstn_app. replace (k - length ds) with 0 by lia. cbn [firstn]. rewrite app_nil_r. exact M3.
Qed.

(* the receiver; cr and fi say which submaps have been created and finished *)
Section Receiver.
Variables (t : Z) (ds : list D).
Hypothesis Ht : (0 <= t)%Z.
Local Notation stands_for := (stands_for create insert finish pose grid N ds).
Definition inv (cr fi : nat -> Prop) (c : cloud D P G) (owner : list nat) : Prop :=
  NoDup owner /\ (forall j, In j owner <-> cr j) /\ Forall2 (fun j o => stands_for (fi j) j o) owner (c_objects c) /\
  (forall i p, lookup i (c_unfinished c) = Some p <-> exists j, i = (t, Z.of_nat j) /\ nth_error owner p = Some j /\ ~ fi j).

Lemma inv_iff cr fi cr' fi' c owner : (forall j, cr j <-> cr' j) -> (forall j, cr j -> (fi j <-> fi' j)) -> inv cr fi c owner -> inv cr' fi' c owner.
Proof.
  intros A B [I1 [I2 [I3 I4]]]. split; [exact I1|]. split; [intros j; rewrite <- A; apply I2|]. split.
  - assert (Q : forall j, In j owner -> (fi j <-> fi' j)) by (intros j J; apply B, I2, J). clear - I3 Q. induction I3 as [|j o l l' H F IH]; constructor; [|apply IH; intros i I; apply Q; now right].
    specialize (Q j (or_introl eq_refl)). destruct H as [H1 [H2 H3]]. split; [exact H1|]. split; [intros X; apply H2; tauto | intros X; apply H3; tauto].
  - intros i p. rewrite I4. split; intros [j [J1 [J2 J3]]]; exists j; (split; [exact J1|]; split; [exact J2|]); assert (cr j) by (apply I2; eapply nth_error_In; exact J2); rewrite ?B in *; auto; rewrite <- ?B; auto; tauto.
Qed.
Lemma set_object_ok (Q Q' : nat -> rsub P G -> Prop) owner p j o : forall l, NoDup owner -> Forall2 Q owner l -> nth_error owner p = Some j ->
  (forall i x, i <> j -> Q i x -> Q' i x) -> Q' j o -> Forall2 Q' owner (set_object p o l).
Proof.
  revert p. induction owner as [|a owner IH]; intros p l ND F E H Ho; [destruct p; discriminate|]. inversion F as [|? x ? l' F1 F2]; subst. inversion ND as [|? ? NI ND']; subst. destruct p as [|p]; cbn [nth_error set_object] in *.
  - injection E as ->. constructor; [exact Ho|]. clear - F2 H NI. induction F2 as [|i x l l' X F IH]; constructor; [apply H; [intros ->; apply NI; now left | exact X] | apply IH; intros I; apply NI; now right].
  - constructor; [|now apply IH]. apply H; [|exact F1]. intros ->. apply NI. eapply nth_error_In. exact E.
Qed.
Lemma lookup_filter i i' l : lookup i (filter (fun e => negb (sid_eqb i' (fst e))) l) = if sid_eqb i i' then None else lookup i l.
Proof.
  induction l as [|[j p] l IH]; cbn [filter lookup fst]; [now destruct (sid_eqb i i')|]. destruct (sid_eqb i' j) eqn:E; cbn [negb].
  - rewrite IH. apply sid_eqb_eq in E. subst j. now destruct (sid_eqb i i').
  - cbn [lookup]. rewrite IH. destruct (sid_eqb i i') eqn:E'; [|reflexivity]. apply sid_eqb_eq in E'. subst i'. now rewrite E.
Qed.

Lemma update_ok cr fi c owner k j s : inv cr fi c owner -> k <= length ds -> ~ fi j -> (cr j -> k <> j * N + 1) -> submap_of N (firstn k ds) j = Some s ->
  j * N + 1 <= k <= (j + 2) * N ->
  exists c' r more, update_submap c (t, Z.of_nat j) (proto_of s) = Some (c', r) /\ c_nodes c' = c_nodes c /\
    inv (fun i => cr i \/ (i = j /\ k = i * N + 1)) (fun i => fi i \/ (i = j /\ k = (i + 2) * N)) c' (owner ++ more) /\
    match r with Some p => nth_error (owner ++ more) p = Some j /\ (cr j \/ k = j * N + 1) | None => ~ (cr j \/ k = j * N + 1) end.
Proof.
  intros [I1 [I2 [I3 I4]]] K NF CK S R. destruct (submap_of_num _ _ _ _ _ _ _ _ _ S) as [Nu [Fi _]]. assert (LK : length (firstn k ds) = k) by (rewrite firstn_length; lia). rewrite LK in Nu, Fi. rewrite Nat.min_r in Nu by lia.
  destruct (submap_of_pose _ _ _ S) as [d [Hd Hp]]. assert (Hd' : nth_error ds (j * N) = Some d). { rewrite <- (firstn_skipn k ds), nth_error_app1; [exact Hd|]. rewrite firstn_length. lia. }
  unfold update_submap. destruct (lookup (t, Z.of_nat j) (c_unfinished c)) as [p|] eqn:Lo.
  - pose proof (proj1 (I4 _ _) Lo) as [j' [J1 [J2 J3]]]. injection J1 as J1. apply Nat2Z.inj in J1. subst j'. assert (Cj : cr j) by (apply I2; eapply nth_error_In; exact J2). specialize (CK Cj).
    destruct (nth_error (c_objects c) p) as [o|] eqn:Ob.
    2:{ exfalso. apply nth_error_None in Ob. apply Forall2_len in I3. assert (p < length owner) by (apply nth_error_Some; congruence). lia. }
    assert (So : stands_for (fi j) j o). { clear - I3 J2 Ob. revert p J2 Ob. induction I3 as [|a b l l' H F IH]; intros [|p] A B; cbn in A, B; try discriminate; [injection A as ->; injection B as ->; exact H | now apply (IH p)]. }
    destruct So as [[d' [So1 So2]] [_ So4]]. specialize (So4 NF). destruct So4 as [So4 [So5 So6]]. rewrite Hd' in So1. injection So1 as <-.
    unfold updated. cbn [proto_of p_fin p_num p_grid r_fin r_pose r_grid]. rewrite So6. destruct (s_fin s) eqn:Fs.
    + assert (Kf : k = (j + 2) * N) by (pose proof (proj1 Fi eq_refl); lia). do 2 eexists. exists []. rewrite app_nil_r. split; [reflexivity|]. split; [reflexivity|]. cbn [c_objects c_unfinished]. split; [|split; [exact J2 | now left]].
      split; [exact I1|]. split; [intros i; rewrite I2; split; [now left | intros [X | [-> X]]; [exact X | lia]]|]. split.
      * apply (set_object_ok (fun i x => stands_for (fi i) i x) _ owner p j _ _ I1 I3 J2).
        -- intros i x NI [X1 [X2 X3]]. split; [exact X1|]. split; [intros [Y | [Y _]]; [now apply X2 | contradiction] | intros Y; apply X3; tauto].
        -- split; [exists d; split; [exact Hd' | exact So2]|]. split; [|intros Y; exfalso; apply Y; right; auto]. intros _. exists s. split.
           ++ unfold ASM_Spec.submap_of in *. rewrite slice_firstn in S by lia. exact S.
           ++ cbn. auto.
      * intros i q. cbn [c_unfinished]. rewrite lookup_filter. destruct (sid_eqb i (t, Z.of_nat j)) eqn:Ei.
        -- apply sid_eqb_eq in Ei. subst i. split; [discriminate|]. intros [j' [Y1 [_ Y3]]]. injection Y1 as Y1. apply Nat2Z.inj in Y1. subst j'. exfalso. apply Y3. right. auto.
        -- rewrite I4. split; intros [j' [Y1 [Y2 Y3]]]; exists j'; (split; [exact Y1|]; split; [exact Y2|]); [|tauto]. intros [Y | [-> _]]; [contradiction|]. subst i. now rewrite (proj2 (sid_eqb_eq _ _) eq_refl) in Ei.
    + assert (Kf : k <> (j + 2) * N) by (intros Y; assert (false = true) by (apply Fi; lia); discriminate). do 2 eexists. exists []. rewrite app_nil_r. split; [reflexivity|]. split; [reflexivity|]. cbn [c_objects c_unfinished]. split; [|split; [exact J2 | now left]].
      apply inv_iff with cr fi; [intros i; split; [now left | intros [X | [-> X]]; [exact X | lia]] | intros i _; split; [now left | intros [X | [-> X]]; [exact X | contradiction]] |].
      split; [exact I1|]. split; [exact I2|]. split; [|exact I4].
      apply (set_object_ok (fun i x => stands_for (fi i) i x) _ owner p j _ _ I1 I3 J2); [auto|]. split; [exists d; split; [exact Hd' | exact So2]|]. split; [intros Y; contradiction | intros _; cbn; repeat split; lia].
  - assert (Cn : ~ cr j). { intros X. apply I2 in X. apply In_nth_error in X. destruct X as [p X]. assert (Y : lookup (t, Z.of_nat j) (c_unfinished c) = Some p) by (apply I4; exists j; auto). congruence. }
    cbn [proto_of p_num p_pose p_fin p_grid]. rewrite Nu. destruct (Z.eqb_spec (Z.of_nat (k - j * N)) 1) as [E|E].
    + assert (Kj : k = j * N + 1) by lia. assert (Fs : s_fin s = false) by (destruct (s_fin s); [pose proof (proj1 Fi eq_refl); nia | reflexivity]). cbn [fst snd]. rewrite (proj2 (Z.leb_le 0 t) Ht), (proj2 (Z.leb_le 0 (Z.of_nat j)) ltac:(lia)). cbn [andb].
      do 2 eexists. exists [j]. split; [reflexivity|]. split; [reflexivity|]. cbn [c_objects c_unfinished]. pose proof (Forall2_len _ _ _ I3) as LL. split; [|split; [rewrite <- LL, nth_error_app2, Nat.sub_diag by lia; reflexivity | now right]].
      assert (Nj : ~ In j owner) by (intros X; apply Cn, I2, X).
      split. { (clear - I1 Nj; induction owner as [|a l IH]; cbn [app]; [repeat constructor; intros [] | inversion I1 as [|? ? X Y]; subst; constructor; [rewrite in_app_iff; intros [Z | [Z | []]]; [contradiction | subst; apply Nj; now left] | apply IH; [exact Y | intros Z; apply Nj; now right]]]). }
      split. { intros i. rewrite in_app_iff, I2. cbn [In]. split; [intros [X | [<- | []]]; [now left | right; auto] | intros [X | [-> _]]; [now left | right; now left]]. }
      split. { apply Forall2_app.
        - assert (Q : forall i x, stands_for (fi i) i x -> stands_for (fi i \/ i = j /\ k = (i + 2) * N) i x). { intros i x [X1 [X2 X3]]. split; [exact X1|]. split; [intros [Y | [-> Y]]; [now apply X2 | nia] | intros Y; apply X3; tauto]. }
          clear - I3 Q. induction I3; constructor; auto.
        - constructor; [|constructor]. split; [exists d; split; [exact Hd' | exact Hp]|]. split; [intros [Y | [_ Y]]; [contradiction | nia]|]. intros _. cbn. rewrite Fs, E. repeat split; lia. }
      intros i q. cbn [c_unfinished lookup]. destruct (sid_eqb i (t, Z.of_nat j)) eqn:Ei.
      * apply sid_eqb_eq in Ei. subst i. split.
        -- intros [= <-]. exists j. split; [reflexivity|]. rewrite <- LL, nth_error_app2, Nat.sub_diag by lia. split; [reflexivity|]. intros [Y | [_ Y]]; [contradiction | nia].
        -- intros [j' [Y1 [Y2 _]]]. injection Y1 as Y1. apply Nat2Z.inj in Y1. subst j'. f_equal. destruct (le_lt_dec (length owner) q) as [Q|Q].
           ++ assert (q < length (owner ++ [j])) by (apply nth_error_Some; congruence). rewrite app_length in H. cbn in H. lia.
           ++ rewrite nth_error_app1 in Y2 by exact Q. exfalso. apply Nj. eapply nth_error_In. exact Y2.
      * rewrite I4. split; intros [j' [Y1 [Y2 Y3]]]; exists j'; (split; [exact Y1|]).
        -- split; [rewrite nth_error_app1; [exact Y2 | apply nth_error_Some; congruence]|]. intros [Y | [-> Y]]; [contradiction | nia].
        -- split; [|tauto]. destruct (le_lt_dec (length owner) q) as [Q|Q]; [|now rewrite nth_error_app1 in Y2 by exact Q].
           assert (q < length (owner ++ [j])) by (apply nth_error_Some; congruence). rewrite app_length in H. cbn in H. assert (q = length owner) by lia. subst q. rewrite nth_error_app2, Nat.sub_diag in Y2 by lia. injection Y2 as <-. subst i. now rewrite (proj2 (sid_eqb_eq _ _) eq_refl) in Ei.
    + assert (Kj : k <> j * N + 1) by lia. exists c, None, []. rewrite app_nil_r. split; [reflexivity|]. split; [reflexivity|]. split; [|tauto].
      apply inv_iff with cr fi; [intros i; split; [now left | intros [X | [-> X]]; [exact X | contradiction]] | intros i Ci; split; [now left | intros [X | [-> X]]; [exact X | contradiction]] |].
      split; [exact I1|]. split; [exact I2|]. split; [exact I3 | exact I4].
Qed.

Lemma update_all_ok k js : forall cr fi c owner subs, k <= length ds -> NoDup js -> inv cr fi c owner ->
  (forall j, In j js -> ~ fi j /\ (cr j -> k <> j * N + 1) /\ j * N + 1 <= k <= (j + 2) * N) ->
  Forall2 (fun j e => exists s, e = (Z.of_nat j, proto_of s) /\ submap_of N (firstn k ds) j = Some s) js subs ->
  exists c' rs more, update_all c t subs = Some (c', rs) /\ c_nodes c' = c_nodes c /\
    inv (fun i => cr i \/ (In i js /\ k = i * N + 1)) (fun i => fi i \/ (In i js /\ k = (i + 2) * N)) c' (owner ++ more) /\
    Forall2 (fun j r => match r with Some p => nth_error (owner ++ more) p = Some j /\ (cr j \/ k = j * N + 1) | None => ~ (cr j \/ k = j * N + 1) end) js rs.
Proof.
  induction js as [|j js IH]; intros cr fi c owner subs K ND I H F; inversion F as [|? e ? l F1 F2]; subst.
  - exists c, [], []. rewrite app_nil_r. split; [reflexivity|]. split; [reflexivity|]. split; [|constructor]. apply inv_iff with cr fi; [| |exact I]; intros; cbn; tauto.
  - destruct F1 as [s [-> S]]. inversion ND as [|? ? NI ND']; subst. destruct (H j (or_introl eq_refl)) as [H1 [H2 H3]].
    destruct (update_ok cr fi c owner k j s I K H1 H2 S H3) as [c1 [r [more [E [En [I' R]]]]]]. cbn [update_all]. rewrite E.
    assert (HH : forall i, In i js -> ~ (fi i \/ (i = j /\ k = (i + 2) * N)) /\ ((cr i \/ (i = j /\ k = i * N + 1)) -> k <> i * N + 1) /\ i * N + 1 <= k <= (i + 2) * N).
    { intros i Ii. destruct (H i (or_intror Ii)) as [A1 [A2 A3]]. assert (i <> j) by (intros ->; contradiction). split; [|split; [|exact A3]].
      - intros [X | [X _]]; contradiction.
      - intros [X | [X _]]; [now apply A2 | contradiction]. }
    destruct (IH _ _ c1 (owner ++ more) l K ND' I' HH F2) as [c2 [rs [more2 [E2 [En2 [I2 R2]]]]]]. rewrite E2. exists c2, (r :: rs), (more ++ more2). rewrite app_assoc. split; [reflexivity|]. split; [congruence|]. split.
    + eapply inv_iff; [| |exact I2]; intros; cbn [In]; intuition (subst; auto).
    + constructor.
      * destruct r as [p|]; [|exact R]. destruct R as [Ra Rb]. split; [|exact Rb]. rewrite nth_error_app1; [exact Ra | apply nth_error_Some; congruence].
      * clear - R2 NI. induction R2 as [|i r' js' rs' X F IH]; constructor.
        -- assert (i <> j) by (intros ->; apply NI; now left). destruct r' as [p|]; [destruct X as [Xa Xb]; split; [exact Xa | tauto] | tauto].
        -- apply IH. intros Y. apply NI. now right.
Qed.
End Receiver.
End Proofs.
