(* C23: the two-submap protocol of ActiveSubmaps2D and ActiveSubmaps3D. *)
From Coq Require Import List ZArith Bool Arith Lia.
From Verif Require Import ASM_Model ASM_Spec.
Import ListNotations.
Open Scope nat_scope.

Section Proofs.
Variables D C : Type.
Variable create : D -> C.
Variable insert : C -> D -> option C.
Variable finish : C -> option C.
Variable good : C -> Prop.
Hypothesis create_good : forall d, good (create d).
Hypothesis insert_good : forall c d, good c -> exists c', insert c d = Some c' /\ good c'.
Hypothesis finish_good : forall c, good c -> exists c', finish c = Some c'.

Local Notation submap_of := (submap_of D C create insert finish).
Local Notation feed := (feed D C insert).
Local Notation insert_range_data := (insert_range_data D C create insert finish).
Local Notation run := (run D C create insert finish).

Lemma feed_good ds : forall c, good c -> exists c', feed c ds = Some c' /\ good c'.
Proof.
  induction ds as [|d ds IH]; intros c G; cbn [ASM_Spec.feed]; [eauto|].
  destruct (insert_good c d G) as [c' [-> G']]. auto.
Qed.
Lemma feed_snoc ds d : forall c, feed c (ds ++ [d]) =
  match feed c ds with Some c' => insert c' d | None => None end.
Proof.
  induction ds as [|e ds IH]; intros c; cbn [ASM_Spec.feed app].
  - now destruct (insert c d).
  - destruct (insert c e); auto.
Qed.

Lemma slice_length a n (ds : list D) : length (slice a n ds) = Nat.min n (length ds - a).
Proof. unfold slice. now rewrite firstn_length, skipn_length. Qed.
Lemma slice_snoc a n (ds : list D) d : a <= length ds -> length ds < a + n ->
  slice a n (ds ++ [d]) = slice a n ds ++ [d].
Proof.
  intros H1 H2. unfold slice. rewrite skipn_app.
  replace (a - length ds) with 0 by lia. cbn [skipn].
  rewrite !firstn_all2; rewrite ?app_length, ?skipn_length; cbn [length]; lia || reflexivity.
Qed.

(* an unfinished submap in terms of its data *)
Lemma submap_of_open N ds j : j * N < length ds -> length ds < (j + 2) * N ->
  exists d r c, slice (j * N) (2 * N) ds = d :: r /\ feed (create d) (d :: r) = Some c /\ good c /\
    submap_of N ds j = Some (mk_submap c (Z.of_nat (length ds - j * N)) false).
Proof.
  intros H1 H2. pose proof (slice_length (j * N) (2 * N) ds) as Ls.
  unfold ASM_Spec.submap_of. destruct (slice (j * N) (2 * N) ds) as [|d r] eqn:E.
  - cbn in Ls. lia.
  - destruct (feed_good (d :: r) (create d) (create_good d)) as [c [F G]].
    exists d, r, c. rewrite F. do 3 (split; [auto|]).
    destruct (Nat.eqb_spec (length (d :: r)) (2 * N)) as [Q|Q]; [lia|].
    do 2 f_equal. lia.
Qed.

Lemma submap_of_num N ds j s : submap_of N ds j = Some s ->
  s_num s = Z.of_nat (Nat.min (2 * N) (length ds - j * N)) /\
  (s_fin s = true <-> (j + 2) * N <= length ds) /\ j * N < length ds.
Proof.
  unfold ASM_Spec.submap_of. pose proof (slice_length (j * N) (2 * N) ds) as Ls.
  destruct (slice (j * N) (2 * N) ds) as [|d r] eqn:E; [discriminate|].
  destruct (feed _ _) as [c|]; [|discriminate].
  assert (length (d :: r) <> 0) by (cbn; lia).
  destruct (Nat.eqb_spec (length (d :: r)) (2 * N)) as [Q|Q].
  - destruct (finish c) as [c'|]; [|discriminate]. intros H'.
    assert (s = mk_submap c' (Z.of_nat (length (d :: r))) true) as -> by congruence. cbn [s_num s_fin].
    split; [lia|]. split; [|lia]. split; [lia | reflexivity].
  - intros H'. assert (s = mk_submap c (Z.of_nat (length (d :: r))) false) as -> by congruence.
    cbn [s_num s_fin]. split; [lia|]. split; [|lia]. split; [discriminate | lia].
Qed.

(* inserting the next data into submap j, finishing it if it is then full *)
Lemma submap_of_step N ds d j : 1 <= N -> (Z.of_nat (2 * N) < 2 ^ 31)%Z ->
  j * N < length ds -> length ds < (j + 2) * N ->
  exists s s' t, submap_of N ds j = Some s /\ submap_insert D C insert s d = Some s' /\
    s_num s' = Z.of_nat (length ds + 1 - j * N) /\
    submap_of N (ds ++ [d]) j = Some t /\
    (length ds + 1 = (j + 2) * N -> submap_finish C finish s' = Some t) /\
    (length ds + 1 <> (j + 2) * N -> s' = t).
Proof.
  intros HN H31 H1 H2. destruct (submap_of_open N ds j H1 H2) as [e [r [c [E [F [G ->]]]]]].
  destruct (insert_good c d G) as [c' [I G']].
  exists (mk_submap c (Z.of_nat (length ds - j * N)) false).
  unfold submap_insert. cbn [s_fin s_content s_num]. rewrite I.
  destruct (Z.ltb_spec (Z.of_nat (length ds - j * N) + 1) (2 ^ 31)); [|lia].
  unfold ASM_Spec.submap_of. rewrite slice_snoc by lia. rewrite E. cbn [app].
  assert (F' : feed (create e) (e :: r ++ [d]) = Some c').
  { change (e :: r ++ [d]) with ((e :: r) ++ [d]). now rewrite feed_snoc, F. }
  rewrite F'.
  assert (Len : length (e :: r ++ [d]) = length ds + 1 - j * N).
  { change (e :: r ++ [d]) with ((e :: r) ++ [d]). rewrite app_length, <- E, slice_length. cbn [length]. lia. }
  rewrite Len. destruct (finish_good c' G') as [c'' Fi].
  destruct (Nat.eqb_spec (length ds + 1 - j * N) (2 * N)) as [Q|Q].
  - rewrite Fi. eexists _, _. do 2 (split; [reflexivity|]). split; [cbn; lia|]. split; [reflexivity|].
    split; [|lia]. intros _. unfold submap_finish. cbn [s_fin s_content s_num]. rewrite Fi. do 2 f_equal. lia.
  - eexists _, _. do 2 (split; [reflexivity|]). split; [cbn; lia|]. split; [reflexivity|].
    split; [lia|]. intros _. f_equal. lia.
Qed.

(* the new submap receives its first data *)
Lemma submap_of_new N ds d j : 1 <= N -> j * N = length ds ->
  exists s' t, submap_insert D C insert (mk_submap (create d) 0 false) d = Some s' /\ s_num s' = 1%Z /\
    submap_of N (ds ++ [d]) j = Some t /\ s' = t.
Proof.
  intros HN H1. destruct (insert_good (create d) d (create_good d)) as [c' [I G']].
  unfold submap_insert. cbn [s_fin s_content s_num]. rewrite I. cbn [Z.add Z.ltb Z.pow Z.compare].
  destruct (Z.ltb_spec 1 (2 ^ 31)) as [_|Q]; [|lia].
  unfold ASM_Spec.submap_of. rewrite slice_snoc by lia.
  assert (E : slice (j * N) (2 * N) ds = []) by (apply length_zero_iff_nil; rewrite slice_length; lia).
  rewrite E. cbn [app ASM_Spec.feed]. rewrite I. cbn [length].
  destruct (Nat.eqb_spec 1 (2 * N)); [lia|]. eexists _, _. repeat split.
Qed.

Lemma step_ok N ds d ss : 1 <= N -> (Z.of_nat (2 * N) < 2 ^ 31)%Z ->
  Forall2 (fun j s => submap_of N ds j = Some s) (active N (length ds)) ss ->
  exists ss', insert_range_data (Z.of_nat N) ss d = Some ss' /\
    Forall2 (fun j s => submap_of N (ds ++ [d]) j = Some s) (active N (length (ds ++ [d]))) ss'.
Proof.
  intros HN H31 F. rewrite app_length. cbn [length]. rewrite Nat.add_1_r. cbn [active].
  assert (L2 : (2 * Z.of_nat N <? 2 ^ 31)%Z = true) by (apply Z.ltb_lt; lia).
  destruct (length ds) as [|k] eqn:Lk.
  { cbn [active] in F. inversion F; subst. rewrite Nat.div_0_l by lia.
    destruct (submap_of_new N ds d 0 HN ltac:(lia)) as [s' [t [I [Nu [O ->]]]]].
    unfold ASM_Model.insert_range_data. cbn [rev add_submap length Z.of_nat Z.leb Z.compare app insert_all].
    unfold add_submap. cbn [length Z.of_nat Z.leb Z.compare app insert_all]. rewrite I, L2, Nu.
    destruct (Z.eqb_spec 1 (2 * Z.of_nat N)); [lia|]. eexists. split; [reflexivity|].
    constructor; [exact O | constructor]. }
  cbn [active] in F. pose proof (Nat.div_mod k N ltac:(lia)) as DM.
  pose proof (Nat.mod_upper_bound k N ltac:(lia)) as MB.
  set (q := k / N) in *. set (r := k mod N) in *. clearbody q r.
  destruct (Nat.eq_dec (S r) N) as [New | Old].
  - (* a new submap *)
    assert (Eq : (S k) / N = S q) by (symmetry; apply (Nat.div_unique _ _ _ 0); lia). rewrite Eq.
    destruct (submap_of_step N ds d q HN H31 ltac:(lia) ltac:(lia)) as [s [s' [t [Q1 [Q2 [Q3 [Q4 [Q5 Q6]]]]]]]].
    destruct (submap_of_new N ds d (S q) HN ltac:(lia)) as [n' [u [I [Nu [O ->]]]]].
    assert (B : s_num s = Z.of_nat N) by (destruct (submap_of_num _ _ _ _ Q1) as [-> _]; lia).
    assert (Add : exists ss1, insert_all D C insert ss1 d = Some [s'; u] /\
      match rev ss with [] => true | back :: _ => (s_num back =? Z.of_nat N)%Z end = true /\
      add_submap D C create ss d = Some ss1).
    { exists [s; mk_submap (create d) 0 false]. cbn [insert_all]. rewrite Q2, I. split; [reflexivity|].
      destruct q as [|p].
      - inversion F as [|? ? ? ? E1 F1]; subst. inversion F1; subst.
        rewrite Q1 in E1. injection E1 as <-. cbn [rev app]. rewrite B, Z.eqb_refl. now split.
      - inversion F as [|? s0 ? ? E0 F0]; subst. inversion F0 as [|? ? ? ? E1 F1]; subst. inversion F1; subst.
        rewrite Q1 in E1. injection E1 as <-. cbn [rev app]. rewrite B, Z.eqb_refl. split; [reflexivity|].
        destruct (submap_of_num _ _ _ _ E0) as [_ [Fin _]].
        unfold add_submap. cbn [length Z.of_nat Z.leb Z.compare Pos.compare Pos.compare_cont app].
        assert (s_fin s0 = true) as -> by (apply Fin; lia). reflexivity. }
    destruct Add as [ss1 [A1 [A2 A3]]].
    unfold ASM_Model.insert_range_data. rewrite A2, A3, A1, L2, Q3.
    destruct (Z.eqb_spec (Z.of_nat (length ds + 1 - q * N)) (2 * Z.of_nat N)) as [E|E].
    + rewrite Q5 by lia. eexists. split; [reflexivity|]. repeat (constructor; auto).
    + rewrite <- Q6 in Q4 by lia. eexists. split; [reflexivity|]. repeat (constructor; auto).
  - (* the submaps stay the same *)
    assert (Eq : (S k) / N = q) by (symmetry; apply (Nat.div_unique _ _ _ (S r)); lia). rewrite Eq.
    destruct (submap_of_step N ds d q HN H31 ltac:(lia) ltac:(lia)) as [s [s' [t [Q1 [Q2 [Q3 [Q4 [_ Q6]]]]]]]].
    assert (B : (s_num s =? Z.of_nat N)%Z = false).
    { apply Z.eqb_neq. destruct (submap_of_num _ _ _ _ Q1) as [-> _]. lia. }
    unfold ASM_Model.insert_range_data. destruct q as [|p].
    + inversion F as [|? ? ? ? E1 F1]; subst. inversion F1; subst. rewrite Q1 in E1. injection E1 as <-.
      cbn [rev app]. rewrite B. cbn [insert_all]. rewrite Q2, L2, Q3.
      destruct (Z.eqb_spec (Z.of_nat (length ds + 1 - 0 * N)) (2 * Z.of_nat N)); [lia|].
      rewrite <- Q6 in Q4 by lia. eexists. split; [reflexivity|]. repeat (constructor; auto).
    + destruct (submap_of_step N ds d p HN H31 ltac:(lia) ltac:(lia)) as [s0 [s0' [t0 [P1 [P2 [P3 [P4 [P5 P6]]]]]]]].
      inversion F as [|? ? ? ? E0 F0]; subst. inversion F0 as [|? ? ? ? E1 F1]; subst. inversion F1; subst.
      rewrite Q1 in E1. injection E1 as <-. rewrite P1 in E0. injection E0 as <-.
      cbn [rev app]. rewrite B. cbn [insert_all]. rewrite P2, Q2, L2, P3. rewrite <- Q6 in Q4 by lia.
      destruct (Z.eqb_spec (Z.of_nat (length ds + 1 - p * N)) (2 * Z.of_nat N)) as [E|E].
      * rewrite P5 by lia. eexists. split; [reflexivity|]. repeat (constructor; auto).
      * rewrite <- P6 in P4 by lia. eexists. split; [reflexivity|]. repeat (constructor; auto).
Qed.

Lemma run_snoc N ds d : forall ss, run N ss (ds ++ [d]) =
  match run N ss ds with Some ss' => insert_range_data N ss' d | None => None end.
Proof.
  induction ds as [|e ds IH]; intros ss; cbn [ASM_Model.run app].
  - now destruct (insert_range_data N ss d).
  - destruct (insert_range_data N ss e); auto.
Qed.

(* After any number of insertions no CHECK has failed and the active submaps are the
   newest and the one before it, each holding exactly its data, finished iff it has
   all 2 N. *)
Lemma protocol N ds : 1 <= N -> (Z.of_nat (2 * N) < 2 ^ 31)%Z ->
  exists ss, run (Z.of_nat N) [] ds = Some ss /\
    Forall2 (fun j s => submap_of N ds j = Some s) (active N (length ds)) ss.
Proof.
  intros HN H31. induction ds as [|d ds IH] using rev_ind.
  - exists []. split; [reflexivity | constructor].
  - destruct IH as [ss [E F]]. destruct (step_ok N ds d ss HN H31 F) as [ss' [E' F']].
    exists ss'. rewrite run_snoc, E. now split.
Qed.
End Proofs.

(* C23 *)
Theorem C23_protocol : forall D C create insert finish (good : C -> Prop),
  (forall d : D, good (create d)) ->
  (forall c d, good c -> exists c', insert c d = Some c' /\ good c') ->
  (forall c, good c -> exists c', finish c = Some c') ->
  forall N ds, 1 <= N -> (Z.of_nat (2 * N) < 2 ^ 31)%Z ->
  exists ss, run D C create insert finish (Z.of_nat N) [] ds = Some ss /\
    Forall2 (fun j s => submap_of D C create insert finish N ds j = Some s) (active N (length ds)) ss.
Proof. intros. now apply protocol with good. Qed.

(* consequences in the words of the property *)
Theorem C23_submaps : forall D C create insert finish (good : C -> Prop),
  (forall d : D, good (create d)) ->
  (forall c d, good c -> exists c', insert c d = Some c' /\ good c') ->
  (forall c, good c -> exists c', finish c = Some c') ->
  forall N ds, 1 <= N -> (Z.of_nat (2 * N) < 2 ^ 31)%Z -> ds <> [] ->
  exists ss, run D C create insert finish (Z.of_nat N) [] ds = Some ss /\
    1 <= length ss <= 2 /\
    (forall s, In s ss -> (1 <= s_num s <= 2 * Z.of_nat N)%Z /\
                          (s_fin s = true <-> s_num s = 2 * Z.of_nat N)%Z) /\
    (forall s s', ss = [s; s'] -> s_num s = s_num s' + Z.of_nat N)%Z.
Proof.
  intros D C create insert finish good H1 H2 H3 N ds HN H31 NE.
  destruct (C23_protocol D C create insert finish good H1 H2 H3 N ds HN H31) as [ss [E F]].
  exists ss. split; [exact E|].
  destruct (length ds) as [|k] eqn:Lk; [apply length_zero_iff_nil in Lk; contradiction|].
  cbn [active] in F. pose proof (Nat.div_mod k N ltac:(lia)) as DM.
  pose proof (Nat.mod_upper_bound k N ltac:(lia)) as MB.
  split.
  { destruct (k / N); inversion F as [|? ? ? ? _ F1]; subst; inversion F1 as [|? ? ? ? _ F2]; subst;
      try (inversion F2; subst); cbn; lia. }
  split.
  - intros s I. assert (J : exists j, submap_of D C create insert finish N ds j = Some s).
    { clear - F I. revert I. induction F as [|j s' js ss E F IH]; intros I; [contradiction|].
      destruct I as [<- | I]; eauto. }
    destruct J as [j Ej]. destruct (submap_of_num _ _ _ _ _ _ _ _ _ Ej) as [Nu [Fi Lt]].
    rewrite Nu. split; [lia|]. rewrite Fi. lia.
  - intros s s' ->. destruct (k / N) as [|p] eqn:Eq.
    + inversion F as [|? ? ? ? E0 F0]; subst. inversion F0.
    + inversion F as [|? ? ? ? E0 F0]; subst. inversion F0 as [|? ? ? ? E1 F1]; subst.
      destruct (submap_of_num _ _ _ _ _ _ _ _ _ E0) as [-> _].
      destruct (submap_of_num _ _ _ _ _ _ _ _ _ E1) as [-> _]. lia.
Qed.

(* a finished submap refuses further data and finishing again *)
Theorem C23_finished_refuses : forall D C insert finish (s : submap C) (d : D), s_fin s = true ->
  submap_insert D C insert s d = None /\ submap_finish C finish s = None.
Proof. intros D C insert finish s d F. unfold submap_insert, submap_finish. now rewrite F. Qed.

(* submaps with the list of inserted data as content, N = 2 *)
Definition ex_run (ds : list nat) : option (list (submap (list nat))) :=
  run nat (list nat) (fun _ => []) (fun c d => Some (c ++ [d])) Some 2 [] ds.
Example C23_example :
  ex_run [1] = Some [mk_submap [1] 1 false] /\
  ex_run [1; 2; 3] = Some [mk_submap [1; 2; 3] 3 false; mk_submap [3] 1 false] /\
  ex_run [1; 2; 3; 4] = Some [mk_submap [1; 2; 3; 4] 4 true; mk_submap [3; 4] 2 false] /\
  ex_run [1; 2; 3; 4; 5] = Some [mk_submap [3; 4; 5] 3 false; mk_submap [5] 1 false] /\
  submap_of nat (list nat) (fun _ => []) (fun c d => Some (c ++ [d])) Some 2 [1; 2; 3; 4; 5] 0 =
    Some (mk_submap [1; 2; 3; 4] 4 true).
Proof. vm_compute. repeat split. Qed.

Print Assumptions C23_protocol.
Print Assumptions C23_submaps.
Print Assumptions C23_finished_refuses.
