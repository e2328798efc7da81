(* Proofs about the range data collator. *)
From Coq Require Import ZArith List Bool Permutation Sorted Lia.
From Verif Require Import ZMap RDC_Model RDC_Spec.
Import ListNotations.
Open Scope Z_scope.

Section Proofs.
Variables P O I T : Type.
Variable z0 : I.
Variable ticks : T -> Z.
Variable shift : Z -> T -> T.
Variable tlt : T -> T -> bool.
Variable sort : list (P * T * I * nat) -> list (P * T * I * nat).
Hypothesis sort_perm : forall l, Permutation (sort l) l.
Hypothesis sort_sorted : forall l,
  StronglySorted (fun a b => tlt (snd (fst (fst b))) (snd (fst (fst a))) = false) (sort l).

Notation data := (data P O I T).
Notation entry := (entry P O I T).
Notation abs := (abs_time ticks).

(* the points of a message with one intensity per point *)
Definition mk (d : data) (n : P * T * I) : entry :=
  let '(p, t, i) := n in
  {| e_time := time d; e_origin := origin d; e_point := p; e_rel := t; e_int := i |}.
Definition ent (d : data) : list entry := map (mk d) (combine (ranges d) (intensities d)).
Definition even (d : data) : Prop := length (intensities d) = length (ranges d).

Lemma resize_length n (l : list I) : length (resize z0 n l) = n.
Proof. unfold resize. rewrite app_length, firstn_length, repeat_length. lia. Qed.

Lemma combine_resize {A} : forall (r : list A) (l : list I),
  combine r (resize z0 (length r) l) = combine r (l ++ repeat z0 (length r)).
Proof.
  induction r as [|a r IH]; intros l; [reflexivity|].
  destruct l as [|i l].
  - unfold resize. simpl. reflexivity.
  - unfold resize in *. simpl. f_equal. rewrite IH.
    clear IH. change (z0 :: repeat z0 (length r)) with (repeat z0 (S (length r))).
    replace (repeat z0 (S (length r))) with (repeat z0 (length r) ++ [z0])
      by (rewrite <- repeat_cons; reflexivity).
    rewrite app_assoc.
    assert (L : (length r <= length (l ++ repeat z0 (length r)))%nat)
      by (rewrite app_length, repeat_length; lia).
    revert L. generalize (l ++ repeat z0 (length r)). clear.
    induction r as [|a r IH]; intros l L; [reflexivity|]. destruct l; simpl in *; [lia|].
    f_equal. apply IH. lia.
Qed.

Definition resized (d : data) : data :=
  {| time := time d; origin := origin d; ranges := ranges d;
     intensities := resize z0 (length (ranges d)) (intensities d) |}.
Lemma ent_resized d : ent (resized d) = entries z0 d.
Proof.
  unfold ent, entries, resized, mk. cbn [time origin ranges intensities].
  now rewrite combine_resize.
Qed.
Lemma ent_even d : even d -> ent d = entries z0 d.
Proof.
  unfold even. intros E. rewrite <- ent_resized. unfold ent, resized, resize.
  cbn [time origin ranges intensities]. rewrite <- E, firstn_all, Nat.sub_diag, app_nil_r. reflexivity.
Qed.
Lemma even_resized d : even (resized d).
Proof. apply resize_length. Qed.

Lemma count_while_le {A} (f : A -> bool) : forall l, (count_while f l <= length l)%nat.
Proof. induction l as [|x r IH]; simpl; [lia|]. destruct (f x); lia. Qed.
Lemma count_while_pre {A} (f : A -> bool) : forall l,
  Forall (fun x => f x = true) (firstn (count_while f l) l).
Proof.
  induction l as [|x r IH]; simpl; [constructor|]. destruct (f x) eqn:E; simpl; constructor; auto.
Qed.
Lemma count_while_next {A} (f : A -> bool) : forall l x r,
  skipn (count_while f l) l = x :: r -> f x = false.
Proof.
  induction l as [|y l IH]; simpl; intros x r E; [discriminate|].
  destruct (f y) eqn:F; simpl in E; [eauto|]. now injection E as -> _.
Qed.
Lemma count_while_all {A} (f : A -> bool) : forall l, Forall (fun x => f x = true) l ->
  count_while f l = length l.
Proof. induction 1; simpl; auto. rewrite H. now rewrite IHForall. Qed.

Lemma skipn_plus {A} : forall n m (l : list A), skipn (n + m) l = skipn m (skipn n l).
Proof. induction n as [|n IH]; intros m l; [reflexivity|]. destruct l; simpl; [now rewrite skipn_nil|apply IH]. Qed.
Lemma combine_skipn {A B} : forall n (a : list A) (b : list B),
  combine (skipn n a) (skipn n b) = skipn n (combine a b).
Proof.
  induction n as [|n IH]; intros a b; [reflexivity|].
  destruct a, b; cbn [combine skipn]; auto. now rewrite combine_nil.
Qed.
Lemma combine_firstn_l {A B} : forall n (a : list A) (b : list B),
  combine (firstn n a) b = firstn n (combine a b).
Proof.
  induction n as [|n IH]; intros a b; [reflexivity|].
  destruct a, b; cbn [combine firstn]; auto. now rewrite IH.
Qed.
Lemma sorted_app {A} (R : A -> A -> Prop) a b : StronglySorted R (a ++ b) ->
  StronglySorted R a /\ StronglySorted R b /\ (forall x y, In x a -> In y b -> R x y).
Proof.
  induction a as [|x a IH]; simpl; intros S.
  - split; [constructor|split; auto]. intros ? ? [].
  - inversion S; subst. destruct (IH H1) as (A1 & A2 & A3). rewrite Forall_app in H2.
    split; [constructor; tauto|]. split; auto. intros u v [->|U] V; [|auto].
    destruct H2 as [_ H2]. rewrite Forall_forall in H2. auto.
Qed.
Lemma sorted_skipn {A} (R : A -> A -> Prop) n (l : list A) : StronglySorted R l -> StronglySorted R (skipn n l).
Proof. intros S. rewrite <- (firstn_skipn n l) in S. now apply sorted_app in S. Qed.
Lemma forall_skipn {A} (Q : A -> Prop) n (l : list A) : Forall Q l -> Forall Q (skipn n l).
Proof. intros S. rewrite <- (firstn_skipn n l) in S. now apply Forall_app in S. Qed.

Lemma measure_ok corr idx : forall (ps : list (P * T)) (is : list I), (length ps <= length is)%nat ->
  measure shift corr idx ps is =
  Some (map (fun n => let '(p, t, i) := n in (p, shift corr t, i, idx)) (combine ps is)).
Proof.
  induction ps as [|[p t] r IH]; intros is L; [reflexivity|].
  destruct is as [|i is]; simpl in *; [lia|]. rewrite IH by lia. reflexivity.
Qed.

(* what a reader sees *)
Definition resolve (os : list O) (r : P * T * I * nat) : option (O * P * T * I) :=
  let '(p, t, i, n) := r in
  match nth_error os n with Some o => Some (o, p, t, i) | None => None end.

(* the result so far shows the points in del *)
Definition shows (ce : Z) (acc : list O * list (P * T * I * nat)) (del : list entry) : Prop :=
  map (resolve (fst acc)) (snd acc) = map (fun e => view shift e ce) del.

Lemma shows_snoc ce acc del o ns d : shows ce acc del -> o = origin d ->
  shows ce (fst acc ++ [o],
            snd acc ++ map (fun n => let '(p, t, i) := n in (p, shift (time d - ce) t, i, length (fst acc))) ns)
    (del ++ map (mk d) ns).
Proof.
  unfold shows. intros H ->. cbn [fst snd]. rewrite !map_app. f_equal.
  - rewrite <- H. apply map_ext_in. intros [[[p t] i] n] HI.
    assert (E : resolve (fst acc) (p, t, i, n) <> None).
    { assert (In (resolve (fst acc) (p, t, i, n)) (map (fun e => view shift e ce) del))
        by (rewrite <- H; now apply in_map).
      apply in_map_iff in H0. destruct H0 as (e & E & _). rewrite <- E. discriminate. }
    cbn [resolve] in *. destruct (nth_error (fst acc) n) as [o|] eqn:N; [|contradiction].
    rewrite nth_error_app1, N; auto. apply nth_error_Some. congruence.
  - rewrite !map_map. apply map_ext. intros [[p t] i]. cbn [resolve].
    rewrite nth_error_app2, Nat.sub_diag by lia. reflexivity.
Qed.

Definition msg (d : data) : Prop := message_ok ticks d /\ even d.

Lemma crop_ok cs ce d acc del : msg d -> cs <= ce -> shows ce acc del ->
  exists acc' rest x n,
    crop ticks shift cs ce d acc = Some (acc', rest) /\
    shows ce acc' (del ++ n) /\
    ent d = x ++ n ++ match rest with Some d' => ent d' | None => [] end /\
    Forall (fun e => abs e < cs) x /\ Forall (fun e => cs <= abs e <= ce) n /\
    (time d <= ce -> rest = None) /\
    match rest with Some d' => msg d' /\ time d' = time d | None => True end.
Proof.
  intros ((SO & LE & TM) & EV) CE SH. unfold crop.
  set (b := overlap_begin ticks cs d). set (e := overlap_end ticks cs ce d).
  assert (Lb : (b <= length (ranges d))%nat) by apply count_while_le.
  assert (Le : (b <= e <= length (ranges d))%nat).
  { unfold e, overlap_end. fold b. pose proof (count_while_le (fun p => time d + ticks (snd p) <=? ce) (skipn b (ranges d))) as L.
    rewrite skipn_length in L. lia. }
  set (Z' := combine (ranges d) (intensities d)).
  assert (LZ : length Z' = length (ranges d)) by (unfold Z'; rewrite combine_length, EV; lia).
  assert (FST : map fst Z' = ranges d).
  { unfold Z'. clear - EV. unfold even in EV. revert EV. generalize (ranges d) (intensities d).
    induction l as [|a l IH]; intros [|i l0] E; simpl in *; try lia; auto. f_equal. apply IH. lia. }
  set (X := firstn b Z'). set (N := firstn (e - b) (skipn b Z')). set (R := skipn e Z').
  assert (ZE : Z' = X ++ N ++ R).
  { unfold X, N, R. replace e with (b + (e - b))%nat at 2 by lia. rewrite skipn_plus.
    now rewrite firstn_skipn, firstn_skipn. }
  assert (AX : Forall (fun n => time d + ticks (snd (fst n)) < cs) X).
  { pose proof (count_while_pre (fun p => time d + ticks (snd p) <? cs) (ranges d)) as F.
    change (count_while _ _) with b in F. rewrite <- FST, firstn_map, Forall_map in F.
    eapply Forall_impl; [|exact F]. intros a. cbv beta. apply Z.ltb_lt. }
  assert (AN : Forall (fun n => cs <= time d + ticks (snd (fst n)) <= ce) N).
  { pose proof (count_while_pre (fun p => time d + ticks (snd p) <=? ce) (skipn b (ranges d))) as F.
    assert (Ee : count_while (fun p => time d + ticks (snd p) <=? ce) (skipn b (ranges d)) = (e - b)%nat)
      by (unfold e, overlap_end; fold b; lia).
    rewrite Ee in F. rewrite <- FST, skipn_map, firstn_map, Forall_map in F. fold N in F.
    assert (G : Forall (fun n => cs <= time d + ticks (snd (fst n))) (skipn b Z')).
    { assert (S2 : StronglySorted (fun u v => ticks (snd u) <= ticks (snd v)) (map fst (skipn b Z')))
        by (rewrite <- skipn_map, FST; now apply sorted_skipn).
      pose proof (count_while_next (fun p => time d + ticks (snd p) <? cs) (ranges d)) as NX.
      change (count_while _ _) with b in NX. rewrite <- FST, skipn_map in NX.
      destruct (skipn b Z') as [|h r]; [constructor|]. cbn [map] in NX, S2.
      specialize (NX _ _ eq_refl). apply Z.ltb_ge in NX. constructor; auto.
      inversion S2; subst. rewrite Forall_map in H2. eapply Forall_impl; [|exact H2].
      intros a Ha. cbv beta in Ha. lia. }
    assert (G' : Forall (fun n => cs <= time d + ticks (snd (fst n))) N).
    { rewrite <- (firstn_skipn (e - b) (skipn b Z')) in G. apply Forall_app in G. tauto. }
    rewrite Forall_forall in *. intros n Hn. specialize (F n Hn). specialize (G' n Hn).
    cbv beta in *. apply Z.leb_le in F. lia. }
  assert (EA : exists acc', (if (b <? e)%nat then
      match measure shift (time d - ce) (length (fst acc))
              (firstn (e - b) (skipn b (ranges d))) (skipn b (intensities d)) with
      | Some r => Some (fst acc ++ [origin d], snd acc ++ r)
      | None => None
      end
    else Some acc) = Some acc' /\ shows ce acc' (del ++ map (mk d) N)).
  { destruct (Nat.ltb_spec b e) as [L|L].
    - rewrite measure_ok by (rewrite firstn_length, !skipn_length; unfold even in EV; lia).
      eexists. split; [reflexivity|]. rewrite combine_firstn_l, combine_skipn. fold Z' N.
      now apply shows_snoc.
    - exists acc. split; auto. replace N with (@nil (P * T * I)); [now rewrite app_nil_r|].
      unfold N. replace (e - b)%nat with 0%nat by lia. reflexivity. }
  destruct EA as (acc' & EA & SH'). cbv zeta. rewrite EA. clear EA.
  exists acc'. eexists. exists (map (mk d) X), (map (mk d) N).
  split; [reflexivity|]. split; auto. split; [|split; [|split; [|split]]].
  - unfold ent. fold Z'. rewrite ZE at 1. rewrite !map_app. f_equal. f_equal.
    destruct (Nat.eqb_spec e (length (ranges d))) as [Q|Q].
    + unfold R. rewrite skipn_all2 by lia. reflexivity.
    + destruct (Nat.eqb_spec e 0) as [Q0|Q0].
      * unfold R. rewrite Q0. reflexivity.
      * unfold R, Z'. rewrite <- combine_skipn. reflexivity.
  - rewrite Forall_map. eapply Forall_impl; [|exact AX]. intros [[p t] i]. cbn. auto.
  - rewrite Forall_map. eapply Forall_impl; [|exact AN]. intros [[p t] i]. cbn. auto.
  - intros TD. assert (Q : e = length (ranges d)).
    { unfold e, overlap_end. fold b. rewrite count_while_all, skipn_length; [lia|].
      apply forall_skipn. eapply Forall_impl; [|exact LE]. intros a Ha. cbv beta in *.
      apply Z.leb_le. lia. }
    rewrite Q, Nat.eqb_refl. reflexivity.
  - destruct (Nat.eqb_spec e (length (ranges d))); [exact Logic.I|].
    destruct (Nat.eqb_spec e 0); [repeat split; auto; apply TM|].
    split; [|reflexivity]. split.
    + split; [|split]; cbn [ranges time]; [now apply sorted_skipn|now apply forall_skipn|auto].
    + unfold even. cbn [ranges intensities]. rewrite !skipn_length. now rewrite EV.
Qed.

Definition pents (m : list (Z * data)) : list entry := flat_map (fun kd => ent (snd kd)) m.

Lemma crop_all_ok cs ce : cs <= ce -> forall m acc del,
  Forall (fun kd => msg (snd kd)) m -> NoDup (map fst m) -> shows ce acc del ->
  exists acc' m' x n,
    crop_all ticks shift cs ce m acc = Some (acc', m') /\
    shows ce acc' (del ++ n) /\
    Permutation (pents m) (x ++ n ++ pents m') /\
    Forall (fun e => abs e < cs) x /\ Forall (fun e => cs <= abs e <= ce) n /\
    Forall (fun kd => msg (snd kd)) m' /\ NoDup (map fst m') /\
    (forall k d', In (k, d') m' -> exists d, In (k, d) m /\ time d' = time d /\ ce < time d).
Proof.
  intros CE. induction m as [|[k d] r IH]; intros acc del M ND SH.
  - exists acc, [], [], []. rewrite app_nil_r. simpl.
    repeat (split; [solve [auto|constructor]|]). intros ? ? [].
  - inversion M; subst. cbn [map fst] in ND. inversion ND; subst.
    destruct (crop_ok cs ce d acc del H1 CE SH) as (acc1 & rest & x1 & n1 & C1 & S1 & E1 & X1 & N1 & T1 & R1).
    destruct (IH acc1 (del ++ n1) H2 H4 S1) as (acc2 & m2 & x2 & n2 & C2 & S2 & E2 & X2 & N2 & M2 & D2 & O2).
    cbn [crop_all]. rewrite C1, C2.
    eexists acc2, _, (x1 ++ x2), (n1 ++ n2). split; [reflexivity|].
    rewrite app_assoc. split; auto.
    assert (F1 : Forall (fun e => abs e < cs) (x1 ++ x2)) by (apply Forall_app; auto).
    assert (F2 : Forall (fun e => cs <= abs e <= ce) (n1 ++ n2)) by (apply Forall_app; auto).
    split; [|split; [exact F1|split; [exact F2|]]].
    + cbn [pents flat_map snd]. rewrite E1. fold (pents r).
      set (re := match rest with Some d' => ent d' | None => [] end).
      assert (PR : pents (match rest with Some d' => (k, d') :: m2 | None => m2 end) = re ++ pents m2)
        by (unfold re; destruct rest; reflexivity).
      rewrite PR, E2. rewrite <- !app_assoc. apply Permutation_app_head.
      transitivity (x2 ++ n1 ++ re ++ n2 ++ pents m2).
      { rewrite !app_assoc. do 2 apply Permutation_app_tail. rewrite <- !app_assoc.
        transitivity ((n1 ++ re) ++ x2); [now rewrite <- app_assoc|apply Permutation_app_comm]. }
      apply Permutation_app_head. apply Permutation_app_head.
      rewrite !app_assoc. apply Permutation_app_tail. apply Permutation_app_comm.
    + assert (OO : forall k' d', In (k', d') (match rest with Some d' => (k, d') :: m2 | None => m2 end) ->
        exists d0, In (k', d0) ((k, d) :: r) /\ time d' = time d0 /\ ce < time d0).
      { intros k' d' HI.
        assert (Q : (exists d0, rest = Some d0 /\ (k', d') = (k, d0)) \/ In (k', d') m2).
        { destruct rest; [destruct HI as [HI|HI]; [left; eexists; split; eauto|auto]|auto]. }
        destruct Q as [(d0 & -> & Q)|Q].
        - injection Q as -> ->. exists d. split; [now left|]. destruct R1 as (_ & R1). split; auto.
          destruct (Z_lt_le_dec ce (time d)) as [L|L]; auto. specialize (T1 L). discriminate.
        - destruct (O2 _ _ Q) as (d0 & A & B). exists d0. split; [now right|auto]. }
      split; [|split; [|exact OO]].
      * destruct rest; auto. constructor; auto. exact (proj1 R1).
      * destruct rest as [d'|]; auto. cbn [map fst]. constructor; auto.
        intros HI. apply in_map_iff in HI. destruct HI as ([k2 d2] & E & HI). cbn [fst] in E. subst k2.
        destruct (O2 _ _ HI) as (d0 & A & _). apply H3. apply in_map_iff. now exists (k, d0).
Qed.

(* what the state is between the calls: `last` is the time of the last message *)
Definition inv (last : Z) (c : collator P O I T) : Prop :=
  Forall (fun kd => msg (snd kd) /\ end' c <= time (snd kd) <= last) (pending c) /\
  NoDup (map fst (pending c)) /\ time_min <= end' c <= last.

Lemma zput_new k (d : data) : forall m, zfind k m = None -> Permutation (zput k d m) ((k, d) :: m).
Proof.
  induction m as [|[k' d'] r IH]; intros F; [reflexivity|]. cbn [zput zfind] in *.
  destruct (Z.ltb_spec k k'); [reflexivity|]. destruct (Z.eqb_spec k k'); [discriminate|].
  rewrite (IH F). apply perm_swap.
Qed.

Lemma emplace_new k (d : data) m : zfind k m = None -> NoDup (map fst m) ->
  Permutation (emplace k d m) ((k, d) :: m) /\ NoDup (map fst (emplace k d m)).
Proof.
  intros F N. unfold emplace. rewrite F. pose proof (zput_new k d m F) as P1. split; auto.
  eapply Permutation_NoDup; [apply Permutation_sym, Permutation_map, P1|].
  cbn [map fst]. constructor; auto. intros HI. apply in_map_iff in HI.
  destruct HI as ([k' v] & E & HI). cbn [fst] in E. subst. exact (proj1 (zfind_None k m) F v HI).
Qed.

Lemma pents_perm m m' : Permutation m m' -> Permutation (pents m) (pents m').
Proof. intros H. unfold pents. now apply Permutation_flat_map. Qed.

Lemma oldest_ge m b : b <= time_max -> Forall (fun kd : Z * data => b <= time (snd kd)) m -> b <= oldest m.
Proof.
  unfold oldest. generalize time_max. induction m as [|[k d] r IH]; intros t L F; [exact L|].
  cbn [fold_left]. inversion F; subst. apply IH; auto. cbn [snd] in *. lia.
Qed.
Lemma oldest_le m k d : In (k, d) m -> oldest m <= time (P:=P) (O:=O) (I:=I) (T:=T) d.
Proof.
  unfold oldest.
  assert (A : forall (m : list (Z * data)) t, fold_left (fun t kd => Z.min t (time (snd kd))) m t <= t).
  { clear. induction m as [|[k d] r IH]; intros t; [apply Z.le_refl|]. cbn [fold_left].
    eapply Z.le_trans; [apply IH|]. cbn [snd]. lia. }
  generalize time_max. induction m as [|[k' d'] r IH]; intros t HI; [destruct HI|].
  cbn [fold_left]. destruct HI as [E|HI].
  - injection E as -> ->. eapply Z.le_trans; [apply A|]. cbn [snd]. lia.
  - now apply IH.
Qed.

Lemma merge_ok last m cs ce : cs <= ce <= last -> time_min <= ce ->
  Forall (fun kd => msg (snd kd) /\ time (snd kd) <= last) m -> NoDup (map fst m) ->
  exists r c' x n,
    crop_and_merge ticks shift sort {| pending := m; start := cs; end' := ce |} = Some (r, c') /\
    inv last c' /\ end' c' = ce /\ m_time r = ce /\
    Permutation (seen r) (map (fun e => view shift e ce) n) /\ by_time tlt r /\
    Permutation (pents m) (x ++ n ++ pents (pending c')) /\
    Forall (fun e => abs e < cs) x /\ Forall (fun e => cs <= abs e <= ce) n /\
    (forall k d', In (k, d') (pending c') -> exists d, In (k, d) m /\ ce < time d).
Proof.
  intros CE TM M ND.
  destruct (crop_all_ok cs ce (proj1 CE) m ([], []) []) as (acc & m' & x & n & C & S & E & X & N & M' & D' & OO).
  { eapply Forall_impl; [|exact M]. cbv beta. tauto. } { auto. } { reflexivity. }
  unfold crop_and_merge. cbn [pending start end']. rewrite C. destruct acc as [os ms].
  eexists _, _, x, n. split; [reflexivity|].
  assert (IV : inv last {| pending := m'; start := cs; end' := ce |}).
  { unfold inv. cbn [pending end']. split; [|split; [exact D'|lia]].
    rewrite Forall_forall in *. intros [k d'] HI. destruct (OO _ _ HI) as (d & A & B & L).
    split; [exact (M' _ HI)|]. specialize (M _ A). cbn [snd] in *. lia. }
  split; auto. cbn [end' m_time pending]. split; [reflexivity|]. split; [reflexivity|].
  split; [|split; [|split; [|split; [|split]]]]; auto.
  - unfold seen. cbn [m_ranges m_origins]. unfold shows in S. cbn [fst snd] in S. rewrite app_nil_l in S.
    rewrite <- S. apply Permutation_map, sort_perm.
  - apply sort_sorted.
  - intros k d' HI. destruct (OO _ _ HI) as (d & A & B & L). eauto.
Qed.

Lemma add_ok expected last c k d : inv last c -> In k expected -> message_ok ticks d -> last <= time d ->
  exists o c' x n,
    add z0 ticks shift sort expected c k d = Some (o, c') /\ inv (time d) c' /\
    Permutation (entries z0 d ++ pents (pending c)) (x ++ n ++ pents (pending c')) /\
    match o with
    | None => x = [] /\ n = [] /\ end' c' = end' c
    | Some r => m_time r = end' c' /\ end' c <= end' c' /\
        Permutation (seen r) (map (fun e => view shift e (end' c')) n) /\ by_time tlt r /\
        Forall (fun e => abs e < end' c) x /\ Forall (fun e => end' c <= abs e <= end' c') n
    end.
Proof.
  intros (A & ND & B) IN MO L. unfold add.
  assert (EX : existsb (Z.eqb k) expected = true) by (apply existsb_exists; exists k; split; [auto|apply Z.eqb_refl]).
  rewrite EX. cbv zeta. fold (resized d).
  assert (MR : msg (resized d)) by (split; [exact MO|apply even_resized]).
  destruct (zfind k (pending c)) as [old|] eqn:F.
  - pose proof (zfind_In _ _ _ F) as HI. pose proof (proj1 (Forall_forall _ _) A _ HI) as (_ & T1). cbn [snd] in T1.
    destruct (merge_ok (time d) (pending c) (end' c) (time old)) as
      (r & c' & x & n & C & IV & E1 & E2 & S & BT & PM & X & N & OO); auto; try lia.
    { eapply Forall_impl; [|exact A]. cbv beta. intros a (A1 & A2). split; auto. lia. }
    rewrite C.
    assert (FN : zfind k (pending c') = None).
    { destruct (zfind k (pending c')) as [d'|] eqn:F'; auto. exfalso.
      destruct (OO _ _ (zfind_In _ _ _ F')) as (d0 & A0 & L0).
      assert (d0 = old).
      { clear - ND HI A0. induction (pending c) as [|[k1 d1] r IH]; [destruct HI|].
        cbn [map fst] in ND. inversion ND; subst.
        destruct HI as [E|HI], A0 as [E'|A0]; try congruence.
        - exfalso. injection E as -> ->. apply H1. apply in_map_iff. now exists (k, d0).
        - exfalso. injection E' as -> ->. apply H1. apply in_map_iff. now exists (k, old).
        - auto. }
      subst. lia. }
    destruct IV as (I1 & I2 & I3).
    destruct (emplace_new k (resized d) (pending c') FN I2) as (P1 & P2).
    eexists _, _, x, n. split; [reflexivity|]. cbn [pending end'].
    split; [|split].
    + unfold inv. cbn [pending end']. split; [|split; auto]. 
      eapply Permutation_Forall; [symmetry; exact P1|]. constructor; auto.
      split; auto. cbn [snd resized time]. lia.
    + rewrite (pents_perm _ _ P1). cbn [pents flat_map snd]. rewrite ent_resized. fold (pents (pending c')).
      rewrite PM. rewrite !app_assoc. apply Permutation_app_tail. rewrite <- app_assoc.
      apply Permutation_app_comm.
    + rewrite E1. repeat split; auto. lia.
  - destruct (emplace_new k (resized d) (pending c) F ND) as (P1 & P2).
    assert (M2 : Forall (fun kd => msg (snd kd) /\ end' c <= time (snd kd) <= time d) (emplace k (resized d) (pending c))).
    { eapply Permutation_Forall; [symmetry; exact P1|]. constructor.
      - split; auto. cbn [snd resized time]. lia.
      - eapply Forall_impl; [|exact A]. cbv beta. intros a (A1 & A2). split; auto. lia. }
    assert (PE : Permutation (entries z0 d ++ pents (pending c)) (pents (emplace k (resized d) (pending c)))).
    { rewrite (pents_perm _ _ P1). cbn [pents flat_map snd]. now rewrite ent_resized. }
    destruct (Nat.eqb (length (nodup Z.eq_dec expected)) (length (emplace k (resized d) (pending c)))).
    + set (m := emplace k (resized d) (pending c)) in *.
      assert (O1 : end' c <= oldest m).
      { apply oldest_ge; [destruct MO as (_ & _ & MT); lia|]. eapply Forall_impl; [|exact M2].
        cbv beta. intros a (A1 & A2). lia. }
      assert (O2 : oldest m <= time d).
      { apply (oldest_le m k (resized d)). apply (Permutation_in _ (Permutation_sym P1)). now left. }
      destruct (merge_ok (time d) m (end' c) (oldest m)) as
        (r & c' & x & n & C & IV & E1 & E2 & S & BT & PM & X & N & OO); auto; try lia.
      { eapply Forall_impl; [|exact M2]. cbv beta. intros a (A1 & A2). split; auto. lia. }
      rewrite C. exists (Some r), c', x, n. split; [reflexivity|]. split; auto.
      split; [now rewrite PE|]. rewrite E1. repeat split; auto.
    + eexists None, _, [], []. split; [reflexivity|]. cbn [pending end' app]. split; [|split; auto].
      unfold inv. cbn [pending end']. split; [auto|split; [auto|lia]].
Qed.

Lemma run_ok expected : forall ms last c, inv last c ->
  Forall (fun kd => In (fst kd) expected /\ message_ok ticks (snd kd) /\ last <= time (snd kd)) ms ->
  StronglySorted (fun a b => time (snd a) <= time (snd b)) ms ->
  exists os c' del drop,
    run z0 ticks shift sort expected c ms = Some (os, c') /\
    Forall (fun kd => even (snd kd)) (pending c') /\
    results_ok ticks shift tlt (end' c) os del drop /\
    Permutation (flat_map (fun kd => entries z0 (snd kd)) ms ++ pents (pending c))
      (concat drop ++ concat del ++ pents (pending c')).
Proof.
  induction ms as [|[k d] r IH]; intros last c IV F S.
  - exists [], c, [], []. split; [reflexivity|]. split; [|split; [exact Logic.I|reflexivity]].
    destruct IV as (A & _). eapply Forall_impl; [|exact A]. cbv beta. intros a ((_ & Q) & _). exact Q.
  - inversion F; subst. inversion S; subst. destruct H1 as (IN & MO & L). cbn [fst snd] in *.
    destruct (add_ok expected last c k d IV IN MO L) as (o & c1 & x & n & E1 & I1 & P1 & R1).
    destruct (IH (time d) c1 I1) as (os & c2 & del & drop & E2 & V2 & R2 & P2); auto.
    { rewrite Forall_forall in *. intros kd HI. destruct (H2 _ HI) as (Q1 & Q2 & _).
      split; [exact Q1|split; [exact Q2|exact (H4 _ HI)]]. }
    cbn [run]. rewrite E1, E2. exists (o :: os), c2, (n :: del), (x :: drop).
    split; [reflexivity|]. split; [exact V2|]. split.
    + destruct o as [m|]; cbn [results_ok].
      * destruct R1 as (Em & Le & SP & BT & X & N). rewrite Em. repeat (split; auto).
      * destruct R1 as (-> & -> & Ee). now rewrite <- Ee.
    + cbn [flat_map snd concat].
      transitivity (flat_map (fun kd => entries z0 (snd kd)) r ++ entries z0 d ++ pents (pending c)).
      { rewrite !app_assoc. apply Permutation_app_tail, Permutation_app_comm. }
      rewrite P1.
      transitivity ((x ++ n) ++ flat_map (fun kd => entries z0 (snd kd)) r ++ pents (pending c1)).
      { rewrite !app_assoc. apply Permutation_app_tail. rewrite <- app_assoc. apply Permutation_app_comm. }
      rewrite P2. rewrite <- !app_assoc. apply Permutation_app_head.
      rewrite !app_assoc. do 2 apply Permutation_app_tail. apply Permutation_app_comm.
Qed.
End Proofs.
