From Coq Require Import List ZArith Bool Lia Sorted.
From Verif Require Import ZMap MapById_Model MapById_Spec MapById_Proofs PG_Model PG_Maps PG_Spec
  PG_Proofs PG_Trim.
Import ListNotations.
Open Scope Z_scope.

(* ---- trimming several submaps ---- *)
Lemma kept_ext {A} (P Q : A -> Prop) l l' : (forall a, In a l -> (P a <-> Q a)) -> kept P l l' -> kept Q l l'.
Proof.
  intros H K. induction K as [|a l l' Pa K IH|a l l' Na K IH]; [constructor | apply kept_yes | apply kept_no];
    try (apply IH; intros b I; apply H; now right).
  - apply (H a); [now left | exact Pa].
  - intros Q'. apply Na. apply (H a); [now left | exact Q'].
Qed.
Lemma kept_kept {A} (P Q : A -> Prop) l l' : kept P l l' -> forall l'', kept Q l' l'' -> kept (fun a => P a /\ Q a) l l''.
Proof.
  induction 1 as [|a l l' Pa K IH|a l l' Na K IH]; intros l'' K'.
  - inversion K'; constructor.
  - inversion K' as [|? ? ? Qa K2|? ? ? Qa K2]; subst; [apply kept_yes | apply kept_no]; auto; tauto.
  - apply kept_no; [tauto | auto].
Qed.
Lemma without_ext {D} (P Q : id -> Prop) (m m' : mbi D) : (forall x, P x <-> Q x) -> without P m m' -> without Q m m'.
Proof. intros H W x. destruct (W x) as [A B]. rewrite <- (H x). auto. Qed.
Lemma kept_all {A} (P : A -> Prop) l : (forall a, In a l -> P a) -> kept P l l.
Proof. induction l as [|a l IH]; intros H; constructor; [apply H; now left | apply IH; intros; apply H; now right]. Qed.

Lemma trim_all_ok l : forall g g', wfg g -> trim_all l g = Some g' ->
  wfg g' /\ trimmed_set (fun s => In s l) g g' /\ NoDup l /\
  (forall s, In s l -> stored s (osubs g) /\ exists d, get s (subs g) = Some d /\ fin d = true) /\
  gposes g' = gposes g /\ trajs g' = trajs g /\ trimmers g' = trimmers g /\
  searches g' = searches g /\ added g' = added g /\ initial g' = initial g /\
  num_nodes g' = num_nodes g /\ num_finished g' = num_finished g.
Proof.
  induction l as [|s l IH]; intros g g' W H; cbn [trim_all] in H.
  - injection H as <-. split; [exact W|]. split; [|split; [constructor | split; [contradiction | repeat split]]].
    assert (F : forall n, leaves (fun s => In s []) g n <-> False) by (intros n; split; [intros [(s & [] & _) _] | contradiction]).
    repeat split; try contradiction; try reflexivity.
    + intros L. now apply F in L.
    + intros L. now apply F in L.
    + apply kept_all. intros a _. split; [auto|]. intros L. now apply F in L.
  - ob H. pose proof (trim_submap_ok s g W) as K. rewrite E in K.
    destruct K as (W1 & T & So & Fi & _ & N1 & N2). pose proof T as (T1 & T2 & T3 & T4 & T5 & Q1 & Q2 & Q3 & Q4 & Q5 & Q6).
    destruct (IH _ _ W1 H) as (W2 & (U1 & U2 & U3 & U4 & U5) & ND & Hl & R1 & R2 & R3 & R4 & R5 & R6 & R7 & R8).
    assert (Nin : ~ In s l).
    { intros I. destruct (Hl s I) as [So' _]. unfold stored in So'. rewrite (proj1 (T2 s) eq_refl) in So'. congruence. }
    assert (Lv : forall n, leaves (fun x => In x (s :: l)) g n <-> only_in g s n \/ leaves (fun x => In x l) g0 n).
    { intros n. split.
      - intros [(x & Ix & Rx) A]. cbn in A.
        destruct (in_dec id_dec x l) as [Il|Nl].
        + right. split; [|intros y Ry; apply (trimmed_recorded _ _ _ y n T) in Ry as [Ny Ry]; destruct (A y Ry); [congruence | assumption]].
          exists x. split; [exact Il|]. apply (trimmed_recorded _ _ _ x n T). split; [|exact Rx]. intros ->. contradiction.
        + destruct Ix as [<-|]; [|contradiction].
          (* is there another one ? *)
          assert (Dec : (forall y, recorded g y n -> y = s) \/ exists y, recorded g y n /\ y <> s).
          { pose proof (entries_In (subs g)) as En.
            destruct (existsb (fun e => mem n (nids (snd e)) && negb (id_eqb (fst e) s)) (entries (subs g))) eqn:Ex.
            - right. apply existsb_exists in Ex as ([y d] & Iy & B). apply andb_true_iff in B as [B1 B2]. cbn in B1, B2.
              apply En in Iy; [|apply W]. apply mem_spec in B1. exists y. split; [exists d; auto|].
              intros ->. now rewrite id_eqb_refl in B2.
            - left. intros y (d & Gy & Iy). destruct (id_dec y s) as [|Ny]; [assumption|]. exfalso.
              assert (existsb (fun e => mem n (nids (snd e)) && negb (id_eqb (fst e) s)) (entries (subs g)) = true); [|congruence].
              apply existsb_exists. exists (y, d). split; [apply En; [apply W | exact Gy]|]. cbn.
              apply mem_spec in Iy. rewrite Iy. destruct (id_eqb_spec y s); [contradiction | reflexivity]. }
          destruct Dec as [D | (y & Ry & Ny)]; [left; split; auto|]. right. split.
          * exists y. split; [destruct (A y Ry); [congruence | assumption]|]. apply (trimmed_recorded _ _ _ y n T). auto.
          * intros z Rz. apply (trimmed_recorded _ _ _ z n T) in Rz as [Nz Rz]. destruct (A z Rz); [congruence | assumption].
      - intros [[R A] | [(x & Ix & Rx) A]].
        + split; [exists s; split; [now left | exact R]|]. intros y Ry. left. symmetry. auto.
        + split; [apply (trimmed_recorded _ _ _ x n T) in Rx as [_ Rx]; exists x; split; [now right | exact Rx]|].
          intros y Ry. destruct (id_dec y s) as [->|Ny]; [now left | right]. apply A. apply (trimmed_recorded _ _ _ y n T). auto. }
    split; [exact W2|]. split; [|split; [|split; [|rewrite R1, R2, R3, R4, R5, R6, R7, R8; repeat split; assumption]]].
    + assert (C1 : forall D (m m1 m2 : mbi D), without (fun x => x = s) m m1 -> without (fun x => In x l) m1 m2 ->
                  without (fun x => In x (s :: l)) m m2).
      { intros D m m1 m2 A B x. destruct (A x) as [A1 A2], (B x) as [B1 B2]. split.
        - intros [<- | I]; [|auto]. rewrite B2 by exact Nin. auto.
        - intros N. rewrite B2 by (intros I; apply N; now right). apply A2. intros ->. apply N. now left. }
      assert (C2 : forall D (m m1 m2 : mbi D), without (only_in g s) m m1 -> without (leaves (fun x => In x l) g0) m1 m2 ->
                  without (leaves (fun x => In x (s :: l)) g) m m2).
      { intros D m m1 m2 A B x. destruct (A x) as [A1 A2], (B x) as [B1 B2]. rewrite Lv. split.
        - intros [I | I]; [|auto]. rewrite B2; [auto|]. intros [(y & _ & Ry) _].
          apply (trimmed_recorded _ _ _ y x T) in Ry as [Ny Ry]. apply Ny. now apply I.
        - intros N. rewrite B2 by tauto. apply A2. tauto. }
      split; [eapply C1; eassumption|]. split; [eapply C1; eassumption|].
      split; [eapply C2; eassumption|]. split; [eapply C2; eassumption|].
      eapply kept_ext; [|eapply kept_kept; eassumption]. intros c Ic. cbn. rewrite Lv. split; [|intuition].
      intros [[A B] [C D]]. split; [intros [E1 | I1]; [congruence | contradiction] | tauto].
    + constructor; assumption.
    + intros x [<- | I]; [auto|]. destruct (Hl x I) as [A (d & B & C)]. split.
      * unfold stored in *. rewrite (proj2 (T2 x)) in A; [exact A|]. intros ->. contradiction.
      * exists d. split; [|exact C]. unfold get in *. rewrite (proj2 (T1 x)) in B; [exact B|]. intros ->. contradiction.
Qed.

(* ---- pure localization ---- *)
Lemma filter_length_le {A} (f : A -> bool) l : (length (filter f l) <= length l)%nat.
Proof. induction l as [|a l IH]; cbn; [lia|]. destruct (f a); cbn; lia. Qed.
Lemma firstn_In {A} n (l : list A) x : In x (firstn n l) -> In x l.
Proof. rewrite <- (firstn_skipn n l) at 2. intros I. apply in_or_app. now left. Qed.
Lemma submap_ids_In t g x : wfg g -> In x (submap_ids t g) <-> fst x = t /\ stored x (osubs g).
Proof.
  intros W. unfold submap_ids. rewrite in_map_iff. split.
  - intros ([y v] & <- & I). apply traj_entries_In in I as [A B]; [|apply W]. cbn. split; [exact A | eapply get_stored; exact B].
  - intros [A B]. unfold stored in B. fold (get x (osubs g)) in B. destruct (get x (osubs g)) as [v|] eqn:G; [|congruence].
    exists (x, v). split; [reflexivity|]. apply traj_entries_In; [apply W | auto].
Qed.
Lemma submap_ids_sorted t g : wfg g -> StronglySorted idlt (submap_ids t g).
Proof.
  intros W. unfold submap_ids, traj_entries. destruct (zfind t (osubs g)) as [[c d]|] eqn:F; [|constructor].
  destruct (wf_find _ _ _ _ (w_osubs _ W) F) as (Sd & _ & _). clear - Sd. rewrite map_map. cbn.
  unfold zsorted in Sd. induction Sd as [|[k v] r S IH Fa]; cbn; constructor; [exact IH|].
  apply Forall_forall. intros x I. apply in_map_iff in I as ([k' v'] & <- & I). rewrite Forall_forall in Fa.
  specialize (Fa _ I). unfold idlt. rewrite id_ltb_spec. cbn in *. right. split; [reflexivity|]. exact Fa.
Qed.
Lemma sorted_split l k x : StronglySorted idlt l -> In x l ->
  In x (firstn k l) <-> (length (filter (fun y => id_ltb x y) l) >= length l - k)%nat.
Proof.
  intros So. revert k. induction So as [|a l So IH F]; intros k I; [contradiction|].
  destruct k as [|k]; cbn [firstn].
  - split; [contradiction|]. cbn [length filter]. intros G.
    assert (length (filter (fun y => id_ltb x y) l) <= length l)%nat by apply filter_length_le.
    destruct (id_ltb x a) eqn:E; cbn in G; [|lia].
    destruct I as [<- | I]; [rewrite id_ltb_spec in E; lia|].
    rewrite Forall_forall in F. specialize (F x I). unfold idlt in F. rewrite id_ltb_spec in E, F. lia.
  - cbn [filter length]. destruct I as [<- | I].
    + split; [|now left]. intros _. assert (E : id_ltb a a = false) by (apply not_true_iff_false; rewrite id_ltb_spec; lia).
      rewrite E. assert (Al : filter (fun y => id_ltb a y) l = l).
      { clear - F. induction l as [|b l IHl]; [reflexivity|]. inversion F; subst. cbn. unfold idlt in H1. rewrite H1. f_equal. auto. }
      rewrite Al. lia.
    + rewrite Forall_forall in F. specialize (F x I).
      assert (E : id_ltb x a = false) by (apply not_true_iff_false; unfold idlt in F; rewrite id_ltb_spec in *; lia).
      rewrite E. cbn [In]. replace (S (length l) - S k)%nat with (length l - k)%nat by lia.
      rewrite <- IH by exact I. split; [intros [<- | J]; [|exact J] | now right].
      unfold idlt in F. rewrite id_ltb_spec in F. lia.
Qed.
Lemma StronglySorted_NoDup l : StronglySorted idlt l -> NoDup l.
Proof.
  induction 1 as [|a l S IH F]; constructor; auto. intros I. rewrite Forall_forall in F. specialize (F a I).
  unfold idlt in F. rewrite id_ltb_spec in F. lia.
Qed.
Lemma newest_dec k g s : wfg g -> stored s (osubs g) ->
  among_newest k g s <-> Z.of_nat (length (filter (fun y => id_ltb s y) (submap_ids (fst s) g))) < k.
Proof.
  intros W S. set (L := filter _ _).
  assert (HL : forall j, In j (map snd L) <-> stored (fst s, j) (osubs g) /\ snd s < j).
  { intros j. rewrite in_map_iff. split.
    - intros ([a b] & <- & I). apply filter_In in I as [I E]. apply submap_ids_In in I as [A B]; [|exact W].
      cbn in A. subst a. rewrite id_ltb_spec in E. cbn in *. split; [exact B | lia].
    - intros [A B]. exists (fst s, j). split; [reflexivity|]. apply filter_In. split; [apply submap_ids_In; auto|].
      apply id_ltb_spec. cbn. lia. }
  assert (ND : NoDup (map snd L)).
  { assert (NL : NoDup L) by (apply NoDup_filter, StronglySorted_NoDup, submap_ids_sorted, W).
    assert (Fx : forall x, In x L -> fst x = fst s) by (intros x I; apply filter_In in I as [I _]; now apply submap_ids_In in I).
    clear - NL Fx. induction NL as [|[a b] l N NL IH]; cbn; constructor.
    - intros I. apply in_map_iff in I as ([a' b'] & E & I). cbn in E. subst b'. apply N.
      pose proof (Fx (a, b) (or_introl eq_refl)). pose proof (Fx (a', b) (or_intror I)). cbn in *.
      replace a with a' by congruence. exact I.
    - apply IH. intros x I. apply Fx. now right. }
  split.
  - intros (l & Hl & Nl & Len). assert (Le : (length (map snd L) <= length l)%nat); [|rewrite map_length in Le; eapply Z.le_lt_trans; [apply inj_le, Le | exact Len]].
    apply NoDup_incl_length; [exact ND|]. intros j I. apply Hl, HL, I.
  - intros Len. exists (map snd L). split; [exact HL|]. split; [exact ND|]. now rewrite map_length.
Qed.

Lemma trim_pure_ok t keep g tr g' : wfg g -> zsorted (trajs g) -> trim_pure t keep g = Some (tr, g') ->
  let k := if is_finished t g then 0 else keep in
  wfg g' /\ trimmed_set (fun s => fst s = t /\ stored s (osubs g) /\ ~ among_newest k g s) g g' /\
  tr = Pure t k (k =? 0) /\
  (forall a, traj_state a g' = if (k =? 0) && (a =? t) then (Deleted, snd (traj_state t g)) else traj_state a g).
Proof.
  intros W Sg H k. unfold trim_pure in H. fold k in H. cbv zeta in H. ob H.
  destruct (trim_all_ok _ _ _ W E) as (W' & T & _ & Hl & P1 & P2 & _).
  set (L := firstn (length (submap_ids t g) - Z.to_nat k) (submap_ids t g)) in *.
  assert (HL : forall s, In s L <-> fst s = t /\ stored s (osubs g) /\ ~ among_newest k g s).
  { intros s. assert (Hin : fst s = t /\ stored s (osubs g) -> (In s L <-> ~ among_newest k g s)).
    { intros [A B]. rewrite newest_dec by auto. rewrite A. unfold L. rewrite sorted_split;
        [|now apply submap_ids_sorted | now apply submap_ids_In].
      set (f := filter _ _). assert (length f <= length (submap_ids t g))%nat by apply filter_length_le.
      assert (length f < length (submap_ids t g))%nat.
      { clear - W A B. subst f. assert (I : In s (submap_ids t g)) by now apply submap_ids_In.
        apply in_split in I as (l1 & l2 & ->). rewrite filter_app, !app_length. cbn.
        assert (Es : id_ltb s s = false) by (apply not_true_iff_false; rewrite id_ltb_spec; lia). rewrite Es.
        pose proof (filter_length_le (fun y => id_ltb s y) l1). pose proof (filter_length_le (fun y => id_ltb s y) l2). lia. }
      lia. }
    split.
    - intros I. assert (J : In s (submap_ids t g)) by (eapply firstn_In; exact I).
      apply submap_ids_In in J; [|exact W]. destruct J as [A B]. split; [exact A|]. split; [exact B|]. now apply Hin.
    - intros (A & B & C). now apply Hin. }
  assert (TS : trimmed_set (fun s => fst s = t /\ stored s (osubs g) /\ ~ among_newest k g s) g g0).
  { destruct T as (T1 & T2 & T3 & T4 & T5).
    assert (LV : forall n, leaves (fun s => In s L) g n <-> leaves (fun s => fst s = t /\ stored s (osubs g) /\ ~ among_newest k g s) g n).
    { intros n. unfold leaves. split; intros [(s & A & B) C]; (split; [exists s; split; [now apply HL | exact B]|]); intros x R; apply HL, C, R. }
    split; [now apply (without_ext _ _ _ _ HL)|]. split; [now apply (without_ext _ _ _ _ HL)|].
    split; [now apply (without_ext _ _ _ _ LV)|]. split; [now apply (without_ext _ _ _ _ LV)|].
    eapply kept_ext; [|exact T5]. intros c _. cbn. now rewrite HL, LV. }
  injection H as H. destruct (k =? 0) eqn:K0.
  - injection H as <- <-. apply Z.eqb_eq in K0. split; [destruct W'; constructor; assumption|]. split; [exact TS|].
    split; [reflexivity|]. intros a. unfold traj_state. cbn. rewrite P2, zfind_zput by exact Sg.
    destruct (a =? t) eqn:Ea; reflexivity.
  - injection H as <- <-. split; [exact W'|]. split; [exact TS|]. split; [reflexivity|].
    intros a. unfold traj_state. now rewrite P2.
Qed.

(* ---- the states of the trajectories ---- *)
Lemma add_trajectory_trajs t g g' : add_trajectory t g = Some g' ->
  trajs g' = zput t (traj_state t g) (trajs g) /\ (traj_state t g = (Active, Normal) \/ traj_state t g = (Frozen, Normal)).
Proof.
  unfold add_trajectory. intros H. destruct (traj_state t g) as [[] []] eqn:E; try discriminate; injection H as <-; auto.
Qed.
Definition same_trajs (g g' : graph) : Prop :=
  (zsorted (trajs g) -> zsorted (trajs g')) /\
  (zsorted (trajs g) -> forall t, traj_state t g' = traj_state t g).
Lemma same_trajs_eq g g' : trajs g' = trajs g -> same_trajs g g'.
Proof. intros E. split; unfold traj_state; now rewrite E. Qed.
Lemma same_trajs_put t g g' : trajs g' = zput t (traj_state t g) (trajs g) -> same_trajs g g'.
Proof.
  intros E. split; intros S; [rewrite E; now apply zput_sorted|]. intros a. unfold traj_state at 1.
  rewrite E, zfind_zput by exact S. destruct (Z.eqb_spec a t) as [->|]; reflexivity.
Qed.
Lemma append_node_trajs t objs g r : append_node t objs g = Some r ->
  trajs (snd r) = zput t (traj_state t g) (trajs g).
Proof.
  unfold append_node. destruct (rev objs) as [|o l]; [discriminate|]. intros H. ob H. ob H. ob H. cbv zeta in H.
  apply add_trajectory_trajs in E as [E _]. cbn in H.
  destruct (match last_id t (subs g0) with Some _ => _ | None => _ end); [ob H|]; injection H as <-; exact E.
Qed.
Lemma call_trajs c g r : do_call c g = Some r -> zsorted (trajs g) ->
  zsorted (trajs (fst r)) /\ forall t, fst (traj_state t (fst r)) = fst (traj_state t g).
Proof.
  intros H S.
  assert (Sm : same_trajs g (fst r) -> zsorted (trajs (fst r)) /\ forall t, fst (traj_state t (fst r)) = fst (traj_state t g)).
  { intros [A B]. split; [auto|]. intros t. now rewrite B. }
  destruct c; cbn [do_call] in H.
  - ob H. ob H. injection H as <-. apply Sm. eapply same_trajs_put. cbn. eapply append_node_trajs; eassumption.
  - injection H as <-. apply Sm, same_trajs_eq; reflexivity.
  - destruct (zfind t (trajs g)) as [[s d]|] eqn:F; injection H as <-; [|apply Sm, same_trajs_eq; reflexivity].
    cbn. split; [now apply zput_sorted|]. intros a. unfold traj_state. cbn. rewrite zfind_zput by exact S.
    destruct (Z.eqb_spec a t) as [->|]; [now rewrite F | reflexivity].
  - injection H as <-. apply Sm, same_trajs_eq; reflexivity.
  - injection H as <-. apply Sm, same_trajs_eq; reflexivity.
  - ob H. apply add_trajectory_trajs in E as [E _]. ob H. ob H. ob H. injection H as <-. apply Sm.
    eapply same_trajs_put. exact E.
  - ob H. apply add_trajectory_trajs in E as [E _]. ob H. ob H. injection H as <-. apply Sm.
    eapply same_trajs_put. exact E.
  - injection H as <-. apply Sm, same_trajs_eq; reflexivity.
  - injection H as <-. apply Sm, same_trajs_eq; reflexivity.
  - destruct tr; [ob H|]; injection H as <-; apply Sm, same_trajs_eq; reflexivity.
  - injection H as <-. apply Sm, same_trajs_eq; reflexivity.
  - injection H as <-. apply Sm, same_trajs_eq; reflexivity.
  - injection H as <-. apply Sm, same_trajs_eq; reflexivity.
  - ob H. injection H as <-. apply Sm, same_trajs_eq; reflexivity.
  - ob H. injection H as <-. apply Sm, same_trajs_eq; reflexivity.
Qed.

Lemma compute_all_trajs o l : forall g g', compute_all o l g = Some g' -> trajs g' = trajs g.
Proof.
  induction l as [|[n s] l IH]; intros g g' H; cbn [compute_all] in H; [now injection H as <-|].
  ob H. rewrite (IH _ _ H). clear H IH. unfold compute_constraint in E.
  destruct (get s (subs g)); [|discriminate]. ob E. destruct (v_skip (o n s)); [now injection E as <-|].
  ob E. ob E. injection E as <-. now destruct (v_search (o n s)).
Qed.
Lemma insert_node_trajs n l : forall g g', insert_node n l g = Some g' -> trajs g' = trajs g.
Proof.
  induction l as [|s l IH]; intros g g' H; cbn [insert_node] in H; [now injection H as <-|].
  ob H. ob H. ob H. now rewrite (IH _ _ H).
Qed.
Lemma initialize_trajs t objs g r : initialize_poses t objs g = Some r -> trajs (snd r) = trajs g.
Proof.
  unfold initialize_poses. destruct objs as [|o1 [|o2 [|]]]; try discriminate; intros H.
  - ob H. ob H. ob H. ob H. injection H as <-. cbn. destruct (mbi_traj_size t (osubs g) =? 0)%nat.
    + ob E. ob E. ob E. now injection E as <-.
    + now injection E as <-.
  - destruct (last_id t (osubs g)); [|discriminate]. ob H. destruct b.
    + ob H. now injection H as <-.
    + ob H. ob H. ob H. ob H. now injection H as <-.
Qed.
Lemma node_item_trajs k o n objs nw g r : node_item k o n objs nw g = Some r -> trajs (fst r) = trajs g.
Proof.
  unfold node_item. intros H. ob H. ob H. cbv zeta in H. destruct (fst p) as [|front l]; [discriminate|].
  ob H. ob H. ob H. ob H. ob H. ob H. ob H. cbv zeta in H. injection H as <-. cbn.
  apply initialize_trajs in E0. apply insert_node_trajs in E3. cbn in E3.
  assert (A : trajs (fst p1) = trajs g0) by (destruct nw; [ob E5; ob E5; ob E5|]; injection E5 as <-; reflexivity).
  apply compute_all_trajs in E6.
  assert (B : trajs g2 = trajs g1) by (destruct nw; [eapply compute_all_trajs; eassumption | now injection E7 as <-]).
  congruence.
Qed.
Lemma add_constraints_trajs l : forall g g', add_constraints l g = Some g' -> trajs g' = trajs g.
Proof.
  induction l as [|c l IH]; intros g g' H; cbn [add_constraints] in H; [now injection H as <-|].
  ob H. ob H. ob H. rewrite (IH _ _ H). cbn. destruct (c_inter c); ob E1; ob E1; now injection E1 as <-.
Qed.
Lemma state_put g t s : zsorted (trajs g) -> forall g', trajs g' = zput t s (trajs g) ->
  zsorted (trajs g') /\ forall a, traj_state a g' = if a =? t then s else traj_state a g.
Proof.
  intros S g' E. split; [rewrite E; now apply zput_sorted|]. intros a. unfold traj_state.
  rewrite E, zfind_zput by exact S. now destruct (a =? t).
Qed.
(* what a work item does to the states *)
Lemma exec_trajs k o i g r : exec k o i g = Some r -> zsorted (trajs g) ->
  zsorted (trajs (fst r)) /\ forall t, i <> IFinish t -> i <> IFreeze t -> fst (traj_state t (fst r)) = fst (traj_state t g).
Proof.
  intros H S.
  assert (Sm : trajs (fst r) = trajs g -> zsorted (trajs (fst r)) /\ forall t, i <> IFinish t -> i <> IFreeze t ->
    fst (traj_state t (fst r)) = fst (traj_state t g)).
  { intros E. split; [now rewrite E|]. intros t _ _. unfold traj_state. now rewrite E. }
  destruct i; cbn [exec] in H.
  - apply Sm. eapply node_item_trajs; eassumption.
  - ob H. injection H as <-. now apply Sm.
  - destruct (zfind t (trajs g)) as [[s d]|] eqn:F; [|discriminate].
    assert (E : exists w, r = (set_trajs (zput t (s, w) (trajs g)) g, false)) by
      (destruct s, d; try discriminate; injection H as <-; eexists; reflexivity).
    destruct E as (w & ->). destruct (state_put g t (s, w) S (set_trajs (zput t (s, w) (trajs g)) g) eq_refl) as [A B]. split; [exact A|].
    intros a _ _. cbn [fst]. rewrite B. destruct (Z.eqb_spec a t) as [->|]; [|reflexivity]. unfold traj_state. now rewrite F.
  - ob H. injection H as <-. cbn [fst].
    destruct (state_put g t (Finished, snd (traj_state t g)) S (set_subs (finish_submaps t (subs g))
              (set_trajs (zput t (Finished, snd (traj_state t g)) (trajs g)) g)) eq_refl) as [A B].
    split; [exact A|]. intros a N _. rewrite B. destruct (Z.eqb_spec a t) as [->|]; [congruence | reflexivity].
  - ob H. ob H. injection H as <-. cbn [fst].
    destruct (state_put g t (Frozen, snd (traj_state t g)) S (set_trajs (zput t (Frozen, snd (traj_state t g)) (trajs g)) g) eq_refl) as [A B].
    split; [exact A|]. intros a _ N. rewrite B. destruct (Z.eqb_spec a t) as [->|]; [congruence | reflexivity].
  - ob H. ob H. injection H as <-. now apply Sm.
  - ob H. ob H. injection H as <-. now apply Sm.
  - ob H. ob H. injection H as <-. now apply Sm.
  - ob H. injection H as <-. apply Sm. eapply add_constraints_trajs; eassumption.
  - injection H as <-. now apply Sm.
  - injection H as <-. now apply Sm.
  - injection H as <-. now apply Sm.
Qed.
Lemma remove_nodes_trajs l : forall g g', remove_nodes l g = Some g' -> trajs g' = trajs g.
Proof.
  induction l as [|n l IH]; intros g g' H; cbn [remove_nodes] in H; [now injection H as <-|].
  ob H. ob H. now rewrite (IH _ _ H).
Qed.
Lemma trim_all_trajs l : forall g g', trim_all l g = Some g' -> trajs g' = trajs g.
Proof.
  induction l as [|s l IH]; intros g g' H; cbn [trim_all] in H; [now injection H as <-|].
  ob H. rewrite (IH _ _ H). unfold trim_submap in E. ob E. ob E. cbv zeta in E. ob E. ob E.
  now rewrite (remove_nodes_trajs _ _ _ E).
Qed.
(* the states only change to DELETED *)
Definition dies (g g' : graph) : Prop :=
  zsorted (trajs g) -> zsorted (trajs g') /\
  forall t, fst (traj_state t g') = fst (traj_state t g) \/ fst (traj_state t g') = Deleted.
Lemma dies_eq g g' : trajs g' = trajs g -> dies g g'.
Proof. intros E S. rewrite E. split; [exact S|]. intros t. left. unfold traj_state. now rewrite E. Qed.
Lemma dies_put g g' t d : trajs g' = zput t (Deleted, d) (trajs g) -> dies g g'.
Proof.
  intros E S. destruct (state_put g t _ S g' E) as [A B]. split; [exact A|]. intros a. rewrite B.
  destruct (a =? t); auto.
Qed.
Lemma dies_trans g1 g2 g3 : dies g1 g2 -> dies g2 g3 -> dies g1 g3.
Proof.
  intros A B S. destruct (A S) as [S2 A2]. destruct (B S2) as [S3 B3]. split; [exact S3|]. intros t.
  destruct (B3 t) as [->|]; auto.
Qed.
Lemma delete_dies l : forall g g', delete_trajectories l g = Some g' -> dies g g'.
Proof.
  induction l as [|[t [s d]] l IH]; intros g g' H; cbn [delete_trajectories] in H; [injection H as <-; now apply dies_eq|].
  destruct d; eauto. ob H. eapply dies_trans; [|eapply IH; exact H]. eapply dies_put. cbn.
  now rewrite (trim_all_trajs _ _ _ E).
Qed.
Lemma trim_one_dies ch tr g a : trim_one ch tr g = Some a -> dies g (snd a).
Proof.
  destruct tr; cbn [trim_one].
  - unfold trim_pure. cbv zeta. intros H. ob H. pose proof (trim_all_trajs _ _ _ E) as T. injection H as <-.
    destruct ((if is_finished t g then 0 else keep) =? 0); cbn; [|now apply dies_eq].
    eapply dies_put. cbn. rewrite T. reflexivity.
  - intros H. ob H. injection H as <-. apply dies_eq. eapply trim_all_trajs; eassumption.
Qed.
Lemma trim_with_dies chs l : forall k g a, trim_with chs k l g = Some a -> dies g (snd a).
Proof.
  induction l as [|tr l IH]; intros k g a H; cbn [trim_with] in H; [injection H as <-; now apply dies_eq|].
  ob H. ob H. injection H as <-. eapply dies_trans; [eapply trim_one_dies; exact E | exact (IH _ _ _ E0)].
Qed.
Lemma handling_dies res chs g g' : finish_handling res chs g = Some g' -> dies g g'.
Proof.
  unfold finish_handling. intros H. ob H. ob H. ob H. injection H as <-.
  eapply dies_trans; [eapply delete_dies; eassumption|]. eapply dies_trans; [eapply trim_with_dies; eassumption|].
  now apply dies_eq.
Qed.

Definition revives (t : Z) (i : item) : Prop := i = IFinish t \/ i = IFreeze t.
Lemma call_items c g r t : do_call c g = Some r -> (exists i, In i (snd r) /\ revives t i) ->
  c = FinishTrajectory t \/ c = FreezeTrajectory t.
Proof.
  intros H (i & I & R). destruct c; cbn [do_call] in H;
    repeat match type of H with
           | bind ?e _ = Some _ => destruct e; [cbn [bind] in H | discriminate H]
           | (if ?b then _ else None) = Some _ => destruct b; [|discriminate H]
           | match ?x with _ => _ end = Some _ => destruct x
           end; try discriminate H; injection H as <-; cbn in I;
    repeat match goal with H : _ \/ _ |- _ => destruct H | H : False |- _ => destruct H end; subst;
    destruct R as [R | R]; try discriminate R; injection R as ->; auto.
Qed.

Lemma step_trajs every_n e s s' : zsorted (trajs (gr s)) -> step every_n e s = Some s' ->
  zsorted (trajs (gr s')) /\
  forall t, (forall i, In i (queue s) -> ~ revives t i) ->
    fst (traj_state t (gr s')) = fst (traj_state t (gr s)) \/ fst (traj_state t (gr s')) = Deleted.
Proof.
  intros S H. unfold step in H. destruct s as [g q m]; cbn [gr queue md] in *. destruct e.
  - ob H. injection H as <-. cbn [gr queue] in *. destruct (call_trajs _ _ _ E S) as [A B]. split; [exact A|]. auto.
  - destruct m; try (injection H as <-; cbn; split; [exact S | auto]). destruct q as [|i q].
    + injection H as <-. cbn. auto.
    + ob H. injection H as <-. cbn [gr queue] in *. destruct (exec_trajs _ _ _ _ _ E S) as [A B]. split; [exact A|].
      intros t N. left. apply B; intros ->; apply (N _ (or_introl eq_refl)); [now left | now right].
  - destruct m; try (injection H as <-; cbn; split; [exact S | auto]).
  - destruct m; try (injection H as <-; cbn; split; [exact S | auto]). ob H. injection H as <-. cbn [gr queue].
    assert (T : trajs g0 = trajs g).
    { unfold run_optimization in E. destruct (entries (osubs g)); [now injection E as <-|].
      ob E. ob E. ob E. now injection E as <-. }
    split; [now rewrite T|]. intros t _. left. unfold traj_state. now rewrite T.
  - destruct m; try (injection H as <-; cbn; split; [exact S | auto]). ob H. injection H as <-. cbn [gr queue].
    destruct (handling_dies _ _ _ _ E S) as [A B]. auto.
  - destruct m; try (injection H as <-; cbn; split; [exact S | auto]). ob H. injection H as <-. cbn. auto.
Qed.
Lemma step_queue every_n e s s' t : step every_n e s = Some s' -> e <> Call (FinishTrajectory t) ->
  e <> Call (FreezeTrajectory t) -> (forall i, In i (queue s) -> ~ revives t i) ->
  forall i, In i (queue s') -> ~ revives t i.
Proof.
  intros H N1 N2 Q. unfold step in H. destruct s as [g q m]; cbn [gr queue md] in *. destruct e.
  - ob H. injection H as <-. cbn [queue]. intros i I R. apply in_app_or in I as [I | I]; [eapply Q; eassumption|].
    destruct (call_items _ _ _ t E) as [-> | ->]; [eauto | congruence | congruence].
  - destruct m; try (injection H as <-; exact Q). destruct q as [|i q]; [injection H as <-; exact Q|].
    ob H. injection H as <-. cbn. intros j J. apply Q. now right.
  - destruct m; try (injection H as <-; exact Q).
  - destruct m; try (injection H as <-; exact Q). ob H. injection H as <-. exact Q.
  - destruct m; try (injection H as <-; exact Q). ob H. injection H as <-. exact Q.
  - destruct m; try (injection H as <-; exact Q). ob H. injection H as <-. exact Q.
Qed.
Lemma run_deleted every_n t es : forall s s', zsorted (trajs (gr s)) -> run every_n es s = Some s' ->
  (forall e, In e es -> e <> Call (FinishTrajectory t) /\ e <> Call (FreezeTrajectory t)) ->
  (forall i, In i (queue s) -> ~ revives t i) -> fst (traj_state t (gr s)) = Deleted ->
  fst (traj_state t (gr s')) = Deleted.
Proof.
  induction es as [|e es IH]; intros s s' S H Ne Q D; cbn [run] in H; [now injection H as <-|].
  ob H. destruct (step_trajs _ _ _ _ S E) as [S1 T]. destruct (Ne e (or_introl eq_refl)) as [N1 N2].
  eapply (IH _ _ S1 H); [intros e' I; apply Ne; now right | eapply step_queue; eassumption|].
  destruct (T t Q) as [->|]; auto.
Qed.
Lemma run_sorted every_n es : forall s s', zsorted (trajs (gr s)) -> run every_n es s = Some s' -> zsorted (trajs (gr s')).
Proof.
  induction es as [|e es IH]; intros s s' S H; cbn [run] in H; [now injection H as <-|].
  ob H. destruct (step_trajs _ _ _ _ S E) as [S1 _]. eauto.
Qed.
Lemma run_app every_n es es' s : run every_n (es ++ es') s = bind (run every_n es s) (run every_n es').
Proof.
  revert s. induction es as [|e es IH]; intros s; cbn; [reflexivity|]. destruct (step every_n e s); [apply IH | reflexivity].
Qed.
