(* C94: submaps on an uplink server. *)
From Coq Require Import List ZArith Bool Arith Lia.
From Verif Require Import ASM_Model ASM_Spec Properties_ASM SC_Model SC_Spec SC_Proofs.
From Verif Require LTU_Model.
Import ListNotations.
Open Scope nat_scope.

(* a node of the uplink server and what it should be: its data and the numbers of its submaps *)
Definition same_node {D} (t : Z) (owner : list nat) (n : Z * D * list nat) (e : D * list nat) : Prop :=
  fst n = (t, fst e) /\ Forall2 (fun p j => nth_error owner p = Some j) (snd n) (snd e).

Lemma receive_all_app {D P G} rc (ms : list (message D P G)) m : forall c, receive_all rc c (ms ++ [m]) = match receive_all rc c ms with Some c' => rc c' m | None => None end.
Proof. induction ms as [|a ms IH]; intros c; cbn [receive_all app]; [now destruct (rc c m)|]. destruct (rc c a); [apply IH | reflexivity]. Qed.
Lemma flat_map_ext_in {A B} (f g : A -> list B) l : (forall a, In a l -> f a = g a) -> flat_map f l = flat_map g l.
Proof. induction l as [|a l IH]; intros H; [reflexivity|]. cbn [flat_map]. rewrite (H a (or_introl eq_refl)), IH; [reflexivity|]. intros b I. apply H. now right. Qed.
Lemma arriving_snoc {D} N (ds : list D) ks k : 1 <= N -> increasing (ks ++ [k]) ->
  arriving N ds (ks ++ [k]) = arriving N ds ks ++
    match nth_error ds (k - 1), filter (fun j => among (j * N + 1) (ks ++ [k])) (active N k) with Some d, (_ :: _) as js => [(d, js)] | _, _ => [] end.
Proof.
  intros HN I. apply increasing_snoc in I. destruct I as [_ I]. unfold arriving. rewrite flat_map_app. cbn [flat_map]. rewrite app_nil_r. f_equal. apply flat_map_ext_in. intros k' K.
  destruct (nth_error ds (k' - 1)); [|reflexivity]. replace (filter (fun j => among (j * N + 1) (ks ++ [k])) (active N k')) with (filter (fun j => among (j * N + 1) ks) (active N k')); [reflexivity|].
  apply filter_ext_in. intros j J. apply active_in in J; [|exact HN]. specialize (I k' K). apply eq_true_iff_eq. rewrite !among_true, in_app_iff. cbn [In]. split; [now left | intros [X | [X | []]]; [exact X | lia]].
Qed.

Section Main.
Variables D C P G : Type.
Variable create : D -> C.
Variable insert : C -> D -> option C.
Variable finish : C -> option C.
Variables (pose : C -> P) (grid : C -> G).
Variable good : C -> Prop.
Hypothesis create_good : forall d, good (create d).
Hypothesis insert_good : forall c d, good c -> exists c', insert c d = Some c' /\ good c'.
Hypothesis finish_good : forall c, good c -> exists c', finish c = Some c'.
Hypothesis insert_pose : forall c d c', insert c d = Some c' -> pose c' = pose c.
Hypothesis finish_pose : forall c c', finish c = Some c' -> pose c' = pose c.
Variable N : nat.
Hypothesis HN : 1 <= N.
Hypothesis H31 : (Z.of_nat (2 * N) < 2 ^ 31)%Z.

Lemma pointers_ok (Q : nat -> Prop) (owner js : list nat) rs (f : nat -> bool) : (forall j, In j js -> (f j = true <-> Q j)) ->
  Forall2 (fun j r => match r with Some p => nth_error owner p = Some j /\ Q j | None => ~ Q j end) js rs ->
  Forall2 (fun p j => nth_error owner p = Some j) (pointers rs) (filter f js) /\ ((forall j, In j js -> Q j) -> length (pointers rs) = length rs).
Proof.
  intros H F. induction F as [|j r js rs X F IH]; [split; [constructor | reflexivity]|]. destruct IH as [IH1 IH2]; [intros i I; apply H; now right|]. specialize (H j (or_introl eq_refl)). cbn [filter pointers]. destruct r as [p|].
  - destruct X as [X1 X2]. rewrite (proj2 H X2). split; [constructor; assumption|]. intros A. cbn [length]. rewrite IH2; [reflexivity|]. intros i I. apply A. now right.
  - split; [|intros A; exfalso; apply X, A; now left]. destruct (f j); [exfalso; apply X, H; reflexivity | exact IH1].
Qed.

Lemma received_ok t ds s msgs : (0 <= t)%Z -> send_all create insert finish pose grid (Z.of_nat N) new_sender (map (pair t) ds) = Some (s, msgs) ->
  forall ks ms, increasing ks -> selection msgs ks ms ->
  exists c owner, receive_all receive new_cloud ms = Some c /\
    inv D C P G create insert finish pose grid N t ds (fun j => In (j * N + 1) ks) (fun j => In ((j + 2) * N) ks) c owner /\
    Forall2 (same_node t owner) (c_nodes c) (arriving N ds ks) /\
    ((forall k j, In k ks -> In j (active N k) -> In (j * N + 1) ks) -> receive_all receive3 new_cloud ms = Some c).
Proof.
  intros Ht E. destruct (sent_ok D C P G create insert finish pose grid good create_good insert_good finish_good N HN H31 t ds) as [s' [ms' [E' [_ [_ [L M]]]]]]. rewrite E in E'. injection E' as <- <-.
  intros ks. induction ks as [|k ks IH] using rev_ind; intros ms I S.
  - inversion S; subst. exists new_cloud, []. split; [reflexivity|]. split; [|split; [constructor | reflexivity]].
    split; [constructor|]. split; [cbn; tauto|]. split; [constructor|]. intros i p. cbn. split; [discriminate | intros [j [_ [X _]]]; destruct p; discriminate].
  - destruct (increasing_snoc _ _ I) as [I1 I2]. apply Forall2_app_inv_l in S. destruct S as [ms1 [m' [S1 [S2 ->]]]]. inversion S2 as [|? m ? ? [K1 K2] S3]; subst. inversion S3; subst. clear S2 S3.
    destruct (IH ms1 I1 S1) as [c [owner [R [V [Nd R3]]]]]. clear IH. destruct (M k m K1 K2) as [Mt [Md Ms]].
    assert (KL : k <= length ds) by (assert (k - 1 < length msgs) by (apply nth_error_Some; congruence); lia).
    assert (HH : forall j, In j (active N k) -> ~ In ((j + 2) * N) ks /\ (In (j * N + 1) ks -> k <> j * N + 1) /\ j * N + 1 <= k <= (j + 2) * N).
    { intros j J. apply active_in in J; [|exact HN]. split; [intros X; apply I2 in X; lia|]. split; [intros X; apply I2 in X; lia | exact J]. }
    destruct (update_all_ok D C P G create insert finish pose grid insert_pose finish_pose N HN H31 t ds Ht k (active N k) _ _ c owner (m_submaps m) KL (active_nodup N k) V HH Ms) as [c' [rs [more [U [Un [V' F]]]]]].
    assert (NE : m_submaps m <> []). { intros X. rewrite X in Ms. inversion Ms as [Y|]. destruct k as [|k]; [lia|]. cbn [active] in Y. destruct (k / N); discriminate. }
    set (cr' := fun j => among (j * N + 1) (ks ++ [k])).
    assert (Cr : forall j, In j (active N k) -> (cr' j = true <-> (In (j * N + 1) ks \/ k = j * N + 1))). { intros j _. unfold cr'. rewrite among_true, in_app_iff. cbn [In]. intuition. }
    destruct (pointers_ok _ (owner ++ more) _ rs cr' Cr F) as [Ps All].
    assert (V2 : inv D C P G create insert finish pose grid N t ds (fun j => In (j * N + 1) (ks ++ [k])) (fun j => In ((j + 2) * N) (ks ++ [k])) c' (owner ++ more)).
    { eapply inv_iff; [| |exact V']; cbn beta; intros j; [|intros _]; rewrite in_app_iff; cbn [In]; (split; [intros [X | [_ X]]; [now left | right; left; lia] | intros [X | [X | []]]; [now left | right; split; [apply active_in; [exact HN | nia] | lia]]]). }
    assert (Old : Forall2 (same_node t (owner ++ more)) (c_nodes c) (arriving N ds ks)).
    { clear - Nd. induction Nd as [|n e l l' [X1 X2] F IH]; constructor; [|exact IH]. split; [exact X1|]. clear - X2. induction X2 as [|p j l l' X F IH]; constructor; [rewrite nth_error_app1; [exact X | apply nth_error_Some; congruence] | exact IH]. }
    rewrite !receive_all_app, R. rewrite arriving_snoc by assumption. rewrite Md. change (fun j => among (j * N + 1) (ks ++ [k])) with cr'.
    assert (Rm : receive c m = match pointers rs with [] => Some c' | ps => Some (add_node c' m ps) end) by (unfold receive; destruct (m_submaps m) eqn:Sm; [congruence|]; rewrite Mt; try rewrite Sm in U; now rewrite U).
    assert (Rm3 : receive3 c m = if Nat.eqb (length (pointers rs)) (length rs) then Some (add_node c' m (pointers rs)) else None) by (unfold receive3; destruct (m_submaps m) eqn:Sm; [congruence|]; rewrite Mt; try rewrite Sm in U; now rewrite U).
    set (fl := filter cr' (active N k)) in *. clearbody fl. destruct (pointers rs) as [|p ps] eqn:Pe.
    + exists c', (owner ++ more). split; [exact Rm|]. split; [exact V2|]. inversion Ps; subst fl. rewrite app_nil_r, Un. split; [exact Old|].
      intros A. exfalso. assert (X : length ([] : list nat) = length rs) by (apply All; intros j J; apply Cr; [exact J|]; unfold cr'; rewrite among_true; apply (A k); [apply in_app_iff; right; now left | exact J]).
      destruct rs; [|discriminate X]. inversion F as [Y|]. destruct k as [|k]; [lia|]. cbn [active] in Y. destruct (k / N); discriminate.
    + exists (add_node c' m (p :: ps)), (owner ++ more). split; [exact Rm|]. split; [exact V2|]. destruct fl as [|j js]; [inversion Ps|]. cbn [add_node c_nodes]. rewrite Un. split.
      * apply Forall2_app; [exact Old|]. constructor; [|constructor]. split; [cbn; now rewrite Mt | exact Ps].
      * intros A. rewrite R3. 2:{ intros k' j' X1 X2. specialize (A k' j' ltac:(apply in_app_iff; now left) X2). apply in_app_iff in A. destruct A as [A | [A | []]]; [exact A|]. apply active_in in X2; [|exact HN]. specialize (I2 k' X1). lia. }
        rewrite Rm3, All, Nat.eqb_refl; [reflexivity|]. intros i J. apply Cr; [exact J|]. unfold cr'. rewrite among_true. apply (A k); [apply in_app_iff; right; now left | exact J].
Qed.
End Main.

(* The content of a submap: the functions of ASM_Model that do not fail, and keep the pose. *)
Definition keeps_pose {D C P} (create : D -> C) (insert : C -> D -> option C) (finish : C -> option C) (pose : C -> P) : Prop :=
  exists good : C -> Prop, (forall d, good (create d)) /\ (forall c d, good c -> exists c', insert c d = Some c' /\ good c') /\
    (forall c, good c -> exists c', finish c = Some c') /\
    (forall c d c', insert c d = Some c' -> pose c' = pose c) /\ (forall c c', finish c = Some c' -> pose c' = pose c).

(* Whatever messages of a trajectory are lost, each object of the uplink server is one submap, those and only
   those whose first message arrived; it has its pose, and its grid if its last message arrived; and each node
   is added with the objects of its submaps that exist. *)
Theorem C94_received : forall D C P G create insert finish (pose : C -> P) (grid : C -> G) N t (ds : list D),
  keeps_pose create insert finish pose -> 1 <= N -> (Z.of_nat (2 * N) < 2 ^ 31)%Z -> (0 <= t)%Z ->
  exists s msgs, send_all create insert finish pose grid (Z.of_nat N) new_sender (map (pair t) ds) = Some (s, msgs) /\ length msgs = length ds /\
  forall ks ms, increasing ks -> selection msgs ks ms ->
  exists c owner, receive_all receive new_cloud ms = Some c /\
    NoDup owner /\ (forall j, In j owner <-> In (j * N + 1) ks) /\
    Forall2 (fun j o => stands_for create insert finish pose grid N ds (In ((j + 2) * N) ks) j o) owner (c_objects c) /\
    Forall2 (same_node t owner) (c_nodes c) (arriving N ds ks).
Proof.
  intros D C P G create insert finish pose grid N t ds [good [H1 [H2 [H3 [H4 H5]]]]] HN H31 Ht.
  destruct (sent_ok D C P G create insert finish pose grid good H1 H2 H3 N HN H31 t ds) as [s [msgs [E [_ [_ [L _]]]]]]. exists s, msgs. split; [exact E|]. split; [exact L|]. intros ks ms I S.
  destruct (received_ok D C P G create insert finish pose grid good H1 H2 H3 H4 H5 N HN H31 t ds s msgs Ht E ks ms I S) as [c [owner [R [[V1 [V2 [V3 _]]] [Nd _]]]]]. exists c, owner. auto.
Qed.

Lemma seq_increasing a n : increasing (seq a n).
Proof. revert a. induction n as [|[|n] IH]; intros a; [exact I | exact I|]. split; [lia | apply (IH (S a))]. Qed.
Lemma among_seq k n : among k (seq 1 n) = (Nat.leb 1 k && Nat.leb k n)%bool.
Proof. apply eq_true_iff_eq. rewrite among_true, in_seq, andb_true_iff, !Nat.leb_le. lia. Qed.
(* If nothing is lost, every node is added with its active submaps, in 2D and in 3D. *)
Theorem C94_complete : forall D C P G create insert finish (pose : C -> P) (grid : C -> G) N t (ds : list D),
  keeps_pose create insert finish pose -> 1 <= N -> (Z.of_nat (2 * N) < 2 ^ 31)%Z -> (0 <= t)%Z ->
  exists s msgs c owner, send_all create insert finish pose grid (Z.of_nat N) new_sender (map (pair t) ds) = Some (s, msgs) /\
    receive_all receive new_cloud msgs = Some c /\ receive_all receive3 new_cloud msgs = Some c /\
    NoDup owner /\ (forall j, In j owner <-> j * N < length ds) /\
    Forall2 (fun j o => stands_for create insert finish pose grid N ds ((j + 2) * N <= length ds) j o) owner (c_objects c) /\
    Forall2 (same_node t owner) (c_nodes c) (combine ds (map (active N) (seq 1 (length ds)))).
Proof.
  intros D C P G create insert finish pose grid N t ds [good [H1 [H2 [H3 [H4 H5]]]]] HN H31 Ht.
  destruct (sent_ok D C P G create insert finish pose grid good H1 H2 H3 N HN H31 t ds) as [s [msgs [E [_ [_ [L _]]]]]].
  assert (Sel : selection msgs (seq 1 (length ds)) msgs).
  { unfold selection. rewrite <- L. clear. assert (X : forall a (l pre : list (message D P G)), length pre = a -> Forall2 (fun k m => 1 <= k /\ nth_error (pre ++ l) (k - 1) = Some m) (seq (S a) (length l)) l).
    { intros a l. revert a. induction l as [|m l IH]; intros a pre La; [constructor|]. cbn [length seq]. constructor; [split; [lia|]; replace (S a - 1) with (length pre) by lia; rewrite nth_error_app2, Nat.sub_diag by lia; reflexivity|].
      specialize (IH (S a) (pre ++ [m])). rewrite <- app_assoc in IH. apply IH. rewrite app_length. cbn. lia. }
    apply (X 0 msgs [] eq_refl). }
  destruct (received_ok D C P G create insert finish pose grid good H1 H2 H3 H4 H5 N HN H31 t ds s msgs Ht E _ msgs (seq_increasing 1 (length ds)) Sel) as [c [owner [R [[V1 [V2 [V3 _]]] [Nd R3]]]]].
  exists s, msgs, c, owner. split; [exact E|]. split; [exact R|]. split; [apply R3; intros k j K J; rewrite in_seq in *; apply active_in in J; [lia | exact HN]|].
  split; [exact V1|]. split; [intros j; rewrite V2, in_seq; lia|]. split.
  - clear - V3 HN. induction V3 as [|j o l l' [X1 [X2 X3]] F IH]; constructor; [|exact IH]. rewrite in_seq in *. split; [exact X1|]. split; [intros Y; apply X2; nia | intros Y; apply X3; nia].
  - replace (combine ds (map (active N) (seq 1 (length ds)))) with (arriving N ds (seq 1 (length ds))); [exact Nd|]. unfold arriving.
    assert (X : forall pre l, ds = pre ++ l -> flat_map (fun k => match nth_error ds (k - 1), filter (fun j => among (j * N + 1) (seq 1 (length ds))) (active N k) with Some d, (_ :: _) as js => [(d, js)] | _, _ => [] end) (seq (S (length pre)) (length l)) = combine l (map (active N) (seq (S (length pre)) (length l)))).
    { intros pre l. revert pre. induction l as [|d l IH]; intros pre Ed; [reflexivity|]. cbn [length seq flat_map map combine]. specialize (IH (pre ++ [d])). rewrite app_length, Nat.add_1_r, <- app_assoc in IH. cbn [app] in IH. rewrite (IH Ed).
      replace (nth_error ds (S (length pre) - 1)) with (Some d) by (rewrite Ed; replace (S (length pre) - 1) with (length pre) by lia; rewrite nth_error_app2, Nat.sub_diag by lia; reflexivity).
      replace (filter (fun j => among (j * N + 1) (seq 1 (length ds))) (active N (S (length pre)))) with (active N (S (length pre))).
      - remember (active N (S (length pre))) as ac. destruct ac; [exfalso; cbn [active] in Heqac; destruct (length pre / N); discriminate | reflexivity].
      - symmetry. assert (Q : forall j, In j (active N (S (length pre))) -> among (j * N + 1) (seq 1 (length ds)) = true).
        { intros j J. apply active_in in J; [|exact HN]. rewrite among_true, in_seq, Ed, app_length. cbn [length]. lia. }
        clear - Q. induction (active N (S (length pre))) as [|j l IH]; [reflexivity|]. cbn [filter]. rewrite Q by (now left). f_equal. apply IH. intros i I. apply Q. now right. }
    apply (X [] ds eq_refl).
Qed.

(* registering the nodes of a contiguous part of the messages *)
Lemma register_all_app ls l : forall g, register_all g (ls ++ [l]) =
  match register_all g ls with None => None | Some (g', iss) => match register g' l with None => None | Some (g'', is) => Some (g'', iss ++ [is]) end end.
Proof.
  induction ls as [|a ls IH]; intros g; cbn [register_all app].
  - destruct (register g l) as [[g' is]|]; reflexivity.
  - destruct (register g a) as [[g' is]|]; [|reflexivity]. rewrite IH. destruct (register_all g' ls) as [[g'' iss]|]; [|reflexivity]. destruct (register g'' l) as [[g3 is3]|]; reflexivity.
Qed.
Lemma owner_inj (owner : list nat) p q j : NoDup owner -> nth_error owner p = Some j -> nth_error owner q = Some j -> p = q.
Proof. intros ND A B. apply (NoDup_nth_error owner); [exact ND | apply nth_error_Some; congruence | congruence]. Qed.
Lemma Forall2_nth {A B} (Q : A -> B -> Prop) l l' i a b : Forall2 Q l l' -> nth_error l i = Some a -> nth_error l' i = Some b -> Q a b.
Proof. intros F. revert i. induction F as [|x y l l' H F IH]; intros [|i] X Y; cbn in X, Y; try discriminate; [injection X as ->; injection Y as ->; exact H | now apply (IH i)]. Qed.
Definition registered (owner : list nat) (j0 q : nat) (g : graph) : Prop :=
  Forall2 (fun p j => nth_error owner p = Some j) (g_submaps g) (seq j0 q) /\ g_optimized g = q.
Lemma registered_nth owner j0 q g i : registered owner j0 q g -> i < q -> exists p, nth_error (g_submaps g) i = Some p /\ nth_error owner p = Some (j0 + i).
Proof.
  intros [F _] I. pose proof (Forall2_len _ _ _ F) as L. rewrite seq_length in L. destruct (nth_error (g_submaps g) i) as [p|] eqn:E; [|apply nth_error_None in E; lia].
  exists p. split; [reflexivity|]. apply (Forall2_nth _ _ _ i _ _ F E). rewrite nth_error_nth' with (d := 0) by (rewrite seq_length; lia). now rewrite seq_nth.
Qed.
Lemma registered_last owner j0 q g : registered owner j0 (S q) g -> exists p l, rev (g_submaps g) = p :: l /\ nth_error owner p = Some (j0 + q).
Proof.
  intros R. destruct (registered_nth owner j0 (S q) g q R ltac:(lia)) as [p [E O]]. destruct R as [F _]. pose proof (Forall2_len _ _ _ F) as L. rewrite seq_length in L.
  destruct (rev (g_submaps g)) as [|x l] eqn:Re; [apply (f_equal (@length nat)) in Re; rewrite rev_length in Re; cbn in Re; lia|]. exists p, l. split; [|exact O]. f_equal.
  apply (f_equal (@rev nat)) in Re. rewrite rev_involutive in Re. cbn [rev] in Re. rewrite Re in E, L. rewrite app_length in L. cbn in L. rewrite nth_error_app2 in E by lia. replace (q - length (rev l)) with 0 in E by lia. now injection E.
Qed.
Lemma registered_snoc owner j0 q g p n : registered owner j0 q g -> nth_error owner p = Some (j0 + q) -> n = S q -> registered owner j0 (S q) (mk_graph (g_submaps g ++ [p]) n).
Proof. intros [F _] O ->. split; [|reflexivity]. cbn [g_submaps]. rewrite seq_S. apply Forall2_app; [exact F | constructor; [exact O | constructor]]. Qed.

Lemma register_first owner j0 q g p : NoDup owner -> registered owner j0 q g -> q <= 1 -> nth_error owner p = Some j0 ->
  exists g', register g [p] = Some (g', [0]) /\ registered owner j0 1 g'.
Proof.
  intros ND R Q O. unfold register. cbn [rev app]. destruct q as [|[|q]]; [| |lia].
  - destruct R as [F G]. inversion F as [E|]. rewrite G. cbn [rev]. rewrite Nat.eqb_refl. eexists. split; [reflexivity|]. split; [|reflexivity]. cbn. constructor; [exact O | constructor].
  - destruct (registered_last owner j0 0 g R) as [x [l [Re Ox]]]. rewrite Nat.add_0_r in Ox. rewrite Re. rewrite (owner_inj owner x p j0 ND Ox O), Nat.eqb_refl. pose proof R as [F G]. rewrite G. inversion F as [|y ? ? ? F1 F2 E1 E2]. inversion F2; subst.
    rewrite (owner_inj owner y p j0 ND F1 O), Nat.eqb_refl. eexists. split; [reflexivity|]. split; [|reflexivity]. cbn. constructor; [exact O | constructor].
Qed.
Lemma register_second owner j0 q e g p p' : NoDup owner -> registered owner j0 q g -> 1 <= q -> q = e \/ q = S e -> 1 <= e -> nth_error owner p = Some (j0 + e - 1) -> nth_error owner p' = Some (j0 + e) ->
  exists g', register g [p; p'] = Some (g', [e - 1; e]) /\ registered owner j0 (S e) g'.
Proof.
  intros ND R Q1 Q E O O'. assert (NP : p <> p') by (intros ->; rewrite O in O'; injection O'; lia). unfold register. cbn [rev app]. pose proof R as [F G]. rewrite G. destruct q as [|q]; [lia|].
  destruct (registered_last owner j0 q g R) as [x [l [Re Ox]]]. rewrite Re. destruct (registered_nth owner j0 (S q) g q R ltac:(lia)) as [y [Ey Oy]]. assert (x = y) by (now apply (owner_inj owner x y (j0 + q))). subst y.
  destruct Q as [<- | Q].
  - replace (j0 + S q - 1) with (j0 + q) in O by lia. assert (x = p) by (now apply (owner_inj owner x p (j0 + q))). subst x. rewrite (proj2 (Nat.eqb_neq p p') NP). rewrite nth_error_app1 by (apply nth_error_Some; congruence). rewrite Ey, Nat.eqb_refl.
    eexists. split; [replace (S q - 1) with q by lia; reflexivity|]. now apply registered_snoc.
  - assert (q = e) by lia. subst q. assert (x = p') by (now apply (owner_inj owner x p' (j0 + e))). subst x. rewrite Nat.eqb_refl, Ey. rewrite (proj2 (Nat.eqb_neq p' p)) by congruence. rewrite Nat.eqb_refl.
    destruct e as [|e]; [lia|]. destruct (registered_nth owner j0 (S (S e)) g e R ltac:(lia)) as [y [Ey' Oy']]. rewrite Ey'. replace (j0 + S e - 1) with (j0 + e) in O by lia. rewrite (owner_inj owner y p (j0 + e) ND Oy' O), Nat.eqb_refl.
    eexists. split; [replace (S e - 1) with e by lia; reflexivity|]. split; [exact F | reflexivity].
Qed.

Lemma registered_ok {D} N t owner (ds : list D) a j0 : 1 <= N -> 1 <= a -> NoDup owner -> (forall j, j0 <= j <-> a <= j * N + 1) ->
  forall n nodes, a + n <= S (length ds) -> Forall2 (same_node t owner) nodes (arriving N ds (seq a n)) ->
  exists g iss, register_all new_graph (map snd nodes) = Some (g, iss) /\ registered owner j0 (match n with O => 0 | S m => S ((a + m - 1) / N) - j0 end) g /\
    Forall2 (fun is e => is = map (fun j => j - j0) (snd e)) iss (arriving N ds (seq a n)).
Proof.
  intros HN Ha ND J0. induction n as [|n IH]; intros nodes L F.
  - inversion F; subst. exists new_graph, []. split; [reflexivity|]. split; [split; [constructor | reflexivity] | constructor].
  - rewrite seq_S in *. pose proof (seq_increasing a (S n)) as Inc. rewrite seq_S in Inc. rewrite arriving_snoc in * by assumption.
    set (k := a + n) in *. destruct (nth_error ds (k - 1)) as [d|] eqn:Ed; [|apply nth_error_None in Ed; lia].
    assert (Fl : filter (fun j => among (j * N + 1) (seq a n ++ [k])) (active N k) = filter (fun j => Nat.leb j0 j) (active N k)).
    { apply filter_ext_in. intros j J. apply active_in in J; [|exact HN]. apply eq_true_iff_eq. unfold k. rewrite <- seq_S, among_true, in_seq, Nat.leb_le, J0. lia. }
    rewrite Fl in *. clear Fl. apply Forall2_app_inv_r in F. destruct F as [n1 [n2 [F1 [F2 ->]]]]. destruct (IH n1 ltac:(lia) F1) as [g [iss [E [R Fi]]]]. clear IH.
    set (e := (k - 1) / N). assert (Act : active N k = match e with O => [0] | S m => [m; S m] end) by (assert (K1 : 1 <= k) by (unfold k; lia); unfold e; clearbody k; destruct k as [|k']; [lia|]; cbn [active]; replace (S k' - 1) with k' by lia; reflexivity).
    pose proof (Nat.div_mod (k - 1) N ltac:(lia)) as Dm. pose proof (Nat.mod_upper_bound (k - 1) N ltac:(lia)) as Ub. fold e in Dm.
    set (q := match n with O => 0 | S m => S ((a + m - 1) / N) - j0 end) in *.
    assert (Q : (e < j0 /\ q = 0) \/ (e = j0 /\ q <= 1) \/ (j0 < e /\ (q = e - j0 \/ q = S (e - j0)) /\ 1 <= q)).
    { assert (Z0 : j0 = 0 \/ (j0 - 1) * N + 1 < a). { destruct j0 as [|j]; [now left|]. right. destruct (le_lt_dec a ((S j - 1) * N + 1)) as [X|X]; [apply J0 in X; lia | exact X]. }
      pose proof (proj1 (J0 j0) ltac:(lia)) as Z1. unfold q. destruct n as [|m].
      - assert (k = a) by (unfold k; lia). assert (e <= j0) by nia. lia.
      - set (e' := (a + m - 1) / N) in *. pose proof (Nat.div_mod (a + m - 1) N ltac:(lia)) as D'. pose proof (Nat.mod_upper_bound (a + m - 1) N ltac:(lia)) as U'. fold e' in D'. assert (k - 1 = S (a + m - 1)) by (unfold k; lia).
        assert (e' <= e <= S e') by nia. lia. }
    assert (Cases : filter (fun j => Nat.leb j0 j) (active N k) = if Nat.ltb e j0 then [] else if Nat.eqb e j0 then [j0] else [e - 1; e]).
    { rewrite Act. destruct (Nat.ltb_spec e j0); [|destruct (Nat.eqb_spec e j0)]; destruct e as [|m]; cbn [filter].
      - now rewrite (proj2 (Nat.leb_gt j0 0)) by lia.
      - rewrite (proj2 (Nat.leb_gt j0 m)), (proj2 (Nat.leb_gt j0 (S m))) by lia. reflexivity.
      - subst j0. reflexivity.
      - rewrite (proj2 (Nat.leb_gt j0 m)), (proj2 (Nat.leb_le j0 (S m))) by lia. congruence.
      - lia.
      - rewrite (proj2 (Nat.leb_le j0 m)), (proj2 (Nat.leb_le j0 (S m))) by lia. now replace (S m - 1) with m by lia. }
    rewrite Cases in *. clear Cases. destruct Q as [[Q1 Q2] | [[Q1 Q2] | [Q1 [Q2 Q3]]]].
    + rewrite (proj2 (Nat.ltb_lt e j0) Q1) in *. inversion F2; subst n2. cbn [map]. rewrite !app_nil_r. exists g, iss. split; [exact E|]. split; [replace (S e - j0) with 0 by lia; rewrite Q2 in R; exact R | exact Fi].
    + rewrite (proj2 (Nat.ltb_ge e j0)), (proj2 (Nat.eqb_eq e j0)) in * by lia. inversion F2 as [|nd ? r ? [S1 S2] F3]; subst. inversion F3; subst. cbn [snd] in S2. inversion S2 as [|p ? ps ? P1 P2 Pe]; subst. inversion P2; subst.
      cbn [map]. rewrite map_app. cbn [map]. rewrite register_all_app, E. rewrite <- Pe. destruct (register_first owner e q g p ND R Q2 P1) as [g' [Eg Rg]]. rewrite Eg. exists g', (iss ++ [[0]]). split; [reflexivity|].
      split; [replace (S e - e) with 1 by lia; exact Rg|]. apply Forall2_app; [exact Fi|]. constructor; [cbn; now rewrite Nat.sub_diag | constructor].
    + rewrite (proj2 (Nat.ltb_ge e j0)), (proj2 (Nat.eqb_neq e j0)) in * by lia. inversion F2 as [|nd ? r ? [S1 S2] F3]; subst. inversion F3; subst. cbn [snd] in S2. inversion S2 as [|p ? ps ? P1 P2 Pe]; subst. inversion P2 as [|p' ? ps' ? P3 P4]; subst. inversion P4; subst.
      rewrite map_app. cbn [map]. rewrite register_all_app, E. rewrite <- Pe.
      destruct (register_second owner j0 q (e - j0) g p p' ND R Q3 Q2 ltac:(lia)) as [g' [Eg Rg]]; [replace (j0 + (e - j0) - 1) with (e - 1) by lia; exact P1 | replace (j0 + (e - j0)) with e by lia; exact P3|]. rewrite Eg. exists g', (iss ++ [[e - j0 - 1; e - j0]]). split; [reflexivity|].
      split; [replace (S e - j0) with (S (e - j0)) by lia; exact Rg|]. apply Forall2_app; [exact Fi|]. constructor; [cbn [snd map]; now replace (e - j0 - 1) with (e - 1 - j0) by lia | constructor].
Qed.
(* After a loss the uploader registers its trajectories again, and sends the messages from then on under a new
   trajectory.  In 2D their nodes are added to the pose graph without a failed CHECK: the submaps from the first
   that begins after the loss, number j0, are registered in their order, and the nodes before are left out. *)
Theorem C94_recovery : forall D C P G create insert finish (pose : C -> P) (grid : C -> G) N t (ds : list D) a n,
  keeps_pose create insert finish pose -> 1 <= N -> (Z.of_nat (2 * N) < 2 ^ 31)%Z -> (0 <= t)%Z -> 1 <= a -> a + n <= S (length ds) ->
  exists s msgs, send_all create insert finish pose grid (Z.of_nat N) new_sender (map (pair t) ds) = Some (s, msgs) /\
  forall ms, selection msgs (seq a n) ms ->
  exists c g iss j0, receive_all receive new_cloud ms = Some c /\ (forall j, j0 <= j <-> a <= j * N + 1) /\
    register_all new_graph (map snd (c_nodes c)) = Some (g, iss) /\
    Forall2 (fun is e => is = map (fun j => j - j0) (snd e)) iss (arriving N ds (seq a n)).
Proof.
  intros D C P G create insert finish pose grid N t ds a n KP HN H31 Ht Ha L. destruct (C94_received D C P G create insert finish pose grid N t ds KP HN H31 Ht) as [s [msgs [E [_ H]]]]. exists s, msgs. split; [exact E|]. intros ms S.
  destruct (H (seq a n) ms (seq_increasing a n) S) as [c [owner [R [ND [_ [_ Nd]]]]]].
  assert (J0 : forall j, (a - 1 + (N - 1)) / N <= j <-> a <= j * N + 1).
  { intros j. pose proof (Nat.div_mod (a - 1 + (N - 1)) N ltac:(lia)) as Dm. pose proof (Nat.mod_upper_bound (a - 1 + (N - 1)) N ltac:(lia)) as Ub. set (q := (a - 1 + (N - 1)) / N) in *. clearbody q. split; intros X; [nia|]. destruct (le_lt_dec q j) as [Y|Y]; [exact Y | nia]. }
  destruct (registered_ok N t owner ds a _ HN Ha ND J0 n (c_nodes c) L Nd) as [g [iss [Rg [_ Fi]]]]. exists c, g, iss, ((a - 1 + (N - 1)) / N). auto.
Qed.

(* submaps of numbers: the pose is the first of the data, and the grid all of them *)
Definition ex_create (d : Z) : Z * list Z := (d, []).
Definition ex_insert (c : Z * list Z) (d : Z) : option (Z * list Z) := Some (fst c, snd c ++ [d]).
Definition ex_finish (c : Z * list Z) : option (Z * list Z) := Some c.
Definition ex_send (N : Z) (es : list (Z * Z)) := send_all ex_create ex_insert ex_finish fst snd N new_sender es.
Lemma ex_keeps : keeps_pose ex_create ex_insert ex_finish fst.
Proof. exists (fun _ => True). repeat split; intros; try (eexists; split; [reflexivity | exact I]); try (eexists; reflexivity); match goal with H : _ = Some _ |- _ => injection H as <- end; reflexivity. Qed.

(* It is false for several trajectories, which share the index of the first submap: after a submap of one
   trajectory is finished, another sends its submaps under other ids.  Here object 3 is the second submap of
   trajectory 1, created at data 13, and gets the grid of the first one, which begins with 11. *)
Theorem C94_trajectories_refuted : exists es s msgs c o g,
  ex_send 2 es = Some (s, msgs) /\ receive_all receive new_cloud msgs = Some c /\ nth_error (c_objects c) 3 = Some o /\ r_fin o = true /\
  r_grid o = Some g /\ r_pose o = 13%Z /\ hd 0%Z g = 11%Z.
Proof.
  exists [(0, 1); (0, 2); (0, 3); (1, 11); (1, 12); (1, 13); (0, 4); (1, 14)]%Z. do 5 eexists. split; [vm_compute; reflexivity|]. split; [vm_compute; reflexivity|].
  split; [vm_compute; reflexivity|]. split; [reflexivity|]. split; [reflexivity|]. split; reflexivity.
Qed.
(* In 3D the loss of a message is not tolerated: without the first the second is a node in no submap, and a
   null pointer. *)
Theorem C94_lost_refuted : exists s m1 m2 c,
  ex_send 2 [(0, 1); (0, 2)]%Z = Some (s, [m1; m2]) /\ receive_all receive new_cloud [m2] = Some c /\ c_nodes c = [] /\
  receive_all receive3 new_cloud [m2] = None.
Proof. do 4 eexists. split; [vm_compute; reflexivity|]. split; [vm_compute; reflexivity|]. split; reflexivity. Qed.

(* In 3D every loss of first messages is fatal: if the first message that arrives is not the first of the
   trajectory, its oldest submap has begun before, and the null pointer for it is used.  So it is with the uploader's
   recovery, which goes on with the first message of a new submap, unless that is the first submap. *)
Lemma pointers_le l : length (pointers l) <= length l.
Proof. induction l as [|[p|] l IH]; cbn [pointers length]; lia. Qed.
Theorem C94_recovery_3d : forall D C P G create insert finish (pose : C -> P) (grid : C -> G) N t (ds : list D) a m ms,
  keeps_pose create insert finish pose -> 1 <= N -> (Z.of_nat (2 * N) < 2 ^ 31)%Z -> 2 <= a ->
  forall s msgs, send_all create insert finish pose grid (Z.of_nat N) new_sender (map (pair t) ds) = Some (s, msgs) ->
  nth_error msgs (a - 1) = Some m -> receive_all receive3 new_cloud (m :: ms) = None.
Proof.
  intros D C P G create insert finish pose grid N t ds a m ms [good [H1 [H2 [H3 _]]]] HN H31 Ha s msgs E Hm.
  destruct (sent_ok D C P G create insert finish pose grid good H1 H2 H3 N HN H31 t ds) as [s' [ms' [E' [_ [_ [L M]]]]]]. rewrite E in E'. injection E' as <- <-.
  destruct (M a m ltac:(lia) Hm) as [Mt [_ Ms]]. assert (KL : a <= length ds) by (assert (a - 1 < length msgs) by (apply nth_error_Some; congruence); lia).
  cbn [receive_all]. replace (receive3 new_cloud m) with (@None (cloud D P G)); [reflexivity|]. symmetry. unfold receive3.
  destruct (active N a) as [|j js] eqn:A; [destruct a as [|a]; [lia|]; cbn [active] in A; destruct (a / N); discriminate|].
  inversion Ms as [|? e ? l [x [-> Sx]] F2]; subst. destruct (submap_of_num _ _ _ _ _ _ _ _ _ Sx) as [Nu _]. rewrite firstn_length in Nu.
  assert (J : j * N + 1 < a <= (j + 2) * N).
  { assert (I : In j (active N a)) by (rewrite A; now left). apply active_in in I; [|exact HN]. split; [|lia]. destruct (Nat.eq_dec a (j * N + 1)) as [->|]; [exfalso | lia].
    rewrite Nat.add_1_r in A. cbn [active] in A. rewrite Nat.div_mul in A by lia. destruct j as [|j]; [lia|]. injection A. lia. }
  cbn [update_all]. unfold update_submap at 1. cbn [lookup c_unfinished new_cloud proto_of p_num]. rewrite (proj2 (Z.eqb_neq (s_num x) 1)) by (rewrite Nu; lia).
  destruct (update_all new_cloud (m_trajectory m) l) as [[c' qs]|]; [|reflexivity]. cbn [pointers length]. pose proof (pointers_le qs). now rewrite (proj2 (Nat.eqb_neq _ _)) by lia.
Qed.

(* And losing a message without registering again would not be either: without the third of seven messages the
   fourth node fails a CHECK in the pose graph. *)
Theorem C94_gap_refuted : exists s m1 m2 m3 ms c,
  ex_send 2 (map (pair 0%Z) [1; 2; 3; 4; 5; 6; 7]%Z) = Some (s, m1 :: m2 :: m3 :: ms) /\ receive_all receive new_cloud (m1 :: m2 :: ms) = Some c /\
  register_all new_graph (map snd (c_nodes c)) = None.
Proof. do 6 eexists. split; [vm_compute; reflexivity|]. split; [vm_compute; reflexivity|]. reflexivity. Qed.

(* Once a trajectory has two submaps or more, a node that arrives with a single one of its submaps, whichever, fails
   a CHECK *)
Theorem C94_single : forall g p, 2 <= g_optimized g -> register g [p] = None.
Proof. intros [subs n] p H. unfold register. cbn [rev app g_optimized g_submaps] in *. destruct n as [|[|n]]; [lia | lia|]. reflexivity. Qed.
Print Assumptions C94_single.

(* The uploader does lose messages as in C94_gap_refuted (LTU_Model): a write fails, the channel is not ready in time, and
   TryRecovery returns with the old number of the trajectory.  Here messages 1 to 7 of a trajectory are enqueued, with
   IsNewSubmap as they have it, and all but the third arrive for uplink trajectory 0. *)
Definition newest {D P G} (m : message D P G) : bool := match rev (m_submaps m) with (_, p) :: _ => (p_num p =? 1)%Z | [] => false end.
Fixpoint items_of {D P G} (n : Z) (ms : list (message D P G)) : list LTU_Model.item :=
  match ms with [] => [] | m :: r => LTU_Model.mk_item (m_trajectory m) n (newest m) :: items_of (n + 1) r end.
Theorem C94_uploader_refuted : exists s msgs es u m1 m2 m3 ms c,
  ex_send 2 (map (pair 0%Z) [1; 2; 3; 4; 5; 6; 7]%Z) = Some (s, msgs) /\ msgs = m1 :: m2 :: m3 :: ms /\
  LTU_Model.steps 1 LTU_Model.start (LTU_Model.AddTrajectory 0 (Some 0%Z) :: map LTU_Model.Enqueue (items_of 1 msgs) ++ es) = Some u /\
  map (fun e => (LTU_Model.tag (fst e), snd e)) (concat (LTU_Model.received u)) = [(1, 0); (2, 0); (4, 0); (5, 0); (6, 0); (7, 0)]%Z /\
  receive_all receive new_cloud (m1 :: m2 :: ms) = Some c /\ register_all new_graph (map snd (c_nodes c)) = None.
Proof.
  set (ok := LTU_Model.Tick LTU_Model.WriteOk true []).
  eexists _, _, [ok; ok; LTU_Model.Tick (LTU_Model.WriteFailed false) false []; ok; ok; ok; ok], _, _, _, _, _, _.
  split; [vm_compute; reflexivity|]. split; [reflexivity|]. split; [vm_compute; reflexivity|]. split; [reflexivity|]. split; [vm_compute; reflexivity|]. reflexivity.
Qed.

(* seven nodes with submaps of four, and the same without the third message, the first of the second submap *)
Example C94_example : exists s msgs c, ex_send 2 (map (pair 0%Z) [1; 2; 3; 4; 5; 6; 7]%Z) = Some (s, msgs) /\ receive_all receive new_cloud msgs = Some c /\
  c_objects c = [mk_rsub 1 4 true (Some [1; 2; 3; 4]); mk_rsub 3 4 true (Some [3; 4; 5; 6]); mk_rsub 5 0 false None; mk_rsub 7 1 false None]%Z /\
  map snd (c_nodes c) = [[0]; [0]; [0; 1]; [0; 1]; [1; 2]; [1; 2]; [2; 3]].
Proof. do 3 eexists. split; [vm_compute; reflexivity|]. split; [vm_compute; reflexivity|]. split; reflexivity. Qed.
Example C94_recovered : exists s m1 ms c g, ex_send 2 (map (pair 0%Z) [1; 2; 3; 4; 5; 6; 7]%Z) = Some (s, m1 :: ms) /\ receive_all receive new_cloud ms = Some c /\
  register_all new_graph (map snd (c_nodes c)) = Some (g, [[0]; [0]; [0; 1]; [0; 1]; [1; 2]]).
Proof. do 5 eexists. split; [vm_compute; reflexivity|]. split; [vm_compute; reflexivity|]. reflexivity. Qed.
Example C94_lost : exists s m1 m2 m3 ms c, ex_send 2 (map (pair 0%Z) [1; 2; 3; 4; 5; 6; 7]%Z) = Some (s, m1 :: m2 :: m3 :: ms) /\ receive_all receive new_cloud (m1 :: m2 :: ms) = Some c /\
  c_objects c = [mk_rsub 1 4 true (Some [1; 2; 3; 4]); mk_rsub 5 0 false None; mk_rsub 7 1 false None]%Z /\
  map snd (c_nodes c) = [[0]; [0]; [0]; [1]; [1]; [1; 2]].
Proof. do 6 eexists. split; [vm_compute; reflexivity|]. split; [vm_compute; reflexivity|]. split; reflexivity. Qed.

Print Assumptions C94_received.
Print Assumptions C94_complete.
Print Assumptions C94_recovery.
Print Assumptions C94_recovery_3d.
Print Assumptions C94_gap_refuted.
Print Assumptions C94_uploader_refuted.
Print Assumptions C94_trajectories_refuted.
Print Assumptions C94_lost_refuted.
