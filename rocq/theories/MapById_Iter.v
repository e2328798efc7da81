From Coq Require Import List ZArith Bool Lia Sorted.
From Verif Require Import ZMap MapById_Model MapById_Spec MapById_Proofs.
Import ListNotations.
Open Scope Z_scope.

Section I.
Context {D : Type}.
Implicit Types (m ts : mbi D).

Definition tag (t : Z) (d : list (Z * D)) : list ((Z * Z) * D) :=
  map (fun e => ((t, fst e), snd e)) d.
Definition flat_all (m : mbi D) : list ((Z * Z) * D) :=
  flat_map (fun e => tag (fst e) (snd (snd e))) m.
Definition flat (it : @iter D) : list ((Z * Z) * D) :=
  match fst it with
  | [] => []
  | (t, _) :: r => tag t (snd it) ++ flat_all r
  end.

Definition nonempty (m : mbi D) : Prop := forall t c d, In (t, (c, d)) m -> d <> [].

(* a position in m *)
Definition pos (m : mbi D) (it : @iter D) : Prop :=
  (exists p, m = p ++ fst it) /\
  match fst it with
  | [] => snd it = []
  | (_, (_, d)) :: _ => snd it <> [] /\ exists q, d = q ++ snd it
  end.

Lemma tag_length : forall t d, length (tag t d) = length d.
Proof. intros. apply map_length. Qed.

Lemma flat_all_app : forall a b : mbi D, flat_all (a ++ b) = flat_all a ++ flat_all b.
Proof. intros. apply flat_map_app. Qed.

Lemma flat_all_cons : forall t c d (r : mbi D),
  flat_all ((t, (c, d)) :: r) = tag t d ++ flat_all r.
Proof. reflexivity. Qed.

Lemma advance_cons : forall t c d r ds, nonempty r -> 
  flat (advance ((t, (c, d)) :: r) ds) = tag t ds ++ flat_all r.
Proof.
  intros t c d r ds NE. destruct ds as [|e ds]; simpl.
  - destruct r as [|[t' [c' d']] r']; auto. simpl.
    destruct d' as [|e' d'].
    + exfalso. eapply NE; [left; reflexivity|reflexivity].
    + destruct r'; reflexivity.
  - destruct r; reflexivity.
Qed.

Lemma advance_pos : forall m t c d r ds, nonempty r ->
  (exists p, m = p ++ (t, (c, d)) :: r) -> (exists q, d = q ++ ds) ->
  pos m (advance ((t, (c, d)) :: r) ds).
Proof.
  intros m t c d r ds NE [p Hp] [q Hq]. destruct ds as [|e ds]; simpl.
  - destruct r as [|[t' [c' d']] r']; simpl.
    + split; simpl; auto. exists m. now rewrite app_nil_r.
    + destruct d' as [|e' d'].
      * exfalso. eapply NE; [left; reflexivity|reflexivity].
      * assert (pos m ((t', (c', e' :: d')) :: r', e' :: d')).
        { split; simpl.
          - exists (p ++ [(t, (c, d))]). rewrite <- app_assoc. auto.
          - split; [discriminate|]. exists []; auto. }
        destruct r'; auto.
  - assert (pos m ((t, (c, d)) :: r, e :: ds)).
    { split; simpl; eauto. split; [discriminate|]. eauto. }
    destruct r; auto.
Qed.

Lemma nonempty_app : forall p q, nonempty (p ++ q) -> nonempty q.
Proof. unfold nonempty. intros p q H t c d Hi. eapply H, in_or_app; eauto. Qed.

Lemma begin_spec : forall m t, nonempty m ->
  pos m (it_begin m t) /\ flat (it_begin m t) = flat_all (zlower t m).
Proof.
  intros m t NE. destruct (zlower_suffix t m) as (p & Hp & _).
  unfold it_begin. destruct (zlower t m) as [|[k [c d]] r] eqn:E.
  - split; auto. split; simpl; auto. exists m. now rewrite app_nil_r.
  - assert (NE' : nonempty r).
    { rewrite Hp in NE. apply nonempty_app in NE. intros t' c' d' H.
      eapply NE; right; eauto. }
    split.
    + apply advance_pos; eauto. exists []; auto.
    + now rewrite advance_cons.
Qed.

Lemma pos_deref : forall m it x l, pos m it -> flat it = x :: l ->
  it_deref it = Some x.
Proof.
  intros m [ts ds] x l [_ P] F. unfold flat in F. simpl in *.
  destruct ts as [|[t [c d]] r]; [discriminate|].
  destruct P as [N _]. destruct ds as [|[i v] ds]; [congruence|].
  simpl in F. congruence.
Qed.

Lemma pos_next : forall m it x l, nonempty m -> pos m it -> flat it = x :: l ->
  exists it', it_next it = Some it' /\ pos m it' /\ flat it' = l.
Proof.
  intros m [ts ds] x l NE [[p P0] P] F. unfold flat in F. simpl in *.
  destruct ts as [|[t [c d]] r]; [discriminate|].
  destruct P as [N [q Q]]. destruct ds as [|[i v] ds]; [congruence|].
  simpl in F. inversion F; subst.
  assert (NE' : nonempty r).
  { apply nonempty_app in NE. intros t' c' d' H. eapply NE; right; eauto. }
  exists (advance ((t, (c, q ++ (i, v) :: ds)) :: r) ds). split; auto. split.
  - apply advance_pos; eauto. exists (q ++ [(i, v)]). rewrite <- app_assoc. auto.
  - now rewrite advance_cons.
Qed.

Lemma suffix_eq : forall {A} (p1 p2 s1 s2 : list A),
  p1 ++ s1 = p2 ++ s2 -> length s1 = length s2 -> s1 = s2.
Proof.
  intros A p1 p2 s1 s2 E L.
  assert (length p1 = length p2).
  { apply (f_equal (@length A)) in E. rewrite !app_length in E. lia. }
  revert p2 E H. induction p1 as [|a p1 IH]; intros [|b p2] E H; simpl in *;
    try discriminate; auto.
  inversion E; subst. inversion H. eauto.
Qed.

Lemma pos_eqb : forall m a b, pos m a -> pos m b -> (it_eqb a b = true <-> a = b).
Proof.
  intros m [ts ds] [ts' ds'] [[p P0] P] [[p' P0'] P']. simpl in *.
  unfold it_eqb; simpl. split.
  - intros H. destruct ts as [|[t [c d]] r], ts' as [|[t' [c' d']] r'];
      simpl in *; try discriminate.
    + subst; auto.
    + apply andb_prop in H. destruct H as [H1 H2].
      apply Nat.eqb_eq in H1, H2.
      assert (E : (t, (c, d)) :: r = (t', (c', d')) :: r').
      { apply (suffix_eq p p'); [exact (eq_trans (eq_sym P0) P0')|simpl; auto]. }
      inversion E; subst. destruct P as [_ [q Q]]. destruct P' as [_ [q' Q']].
      f_equal. apply (suffix_eq q q'); [exact (eq_trans (eq_sym Q) Q')|auto].
  - intros E. inversion E; subst. destruct ts'; auto.
    rewrite !Nat.eqb_refl. auto.
Qed.

Lemma flat_all_pos_len : forall m t c d r, nonempty m -> In (t, (c, d)) m ->
  r = flat_all m -> (0 < length r)%nat.
Proof.
  intros m t c d r NE H ->. induction m as [|[t' [c' d']] m IH]; [destruct H|].
  simpl. rewrite app_length, tag_length.
  destruct d' as [|e d']; [|simpl; lia].
  exfalso. eapply NE; [left; reflexivity|reflexivity].
Qed.

Lemma pos_flat_inj : forall m a b, nonempty m -> pos m a -> pos m b ->
  length (flat a) = length (flat b) -> a = b.
Proof.
  intros m [ts ds] [ts' ds'] NE [[p P0] P] [[p' P0'] P'] L. simpl in *.
  unfold flat in L; simpl in L.
  assert (NE1 : nonempty ts) by (rewrite P0 in NE; eapply nonempty_app; eauto).
  assert (NE2 : nonempty ts') by (rewrite P0' in NE; eapply nonempty_app; eauto).
  (* the longer trajectory suffix has strictly more elements *)
  assert (STEP : forall (u u' : mbi D) dsu dsu' w,
    nonempty u -> nonempty u' ->
    (match u with [] => dsu = [] | (_, (_, d)) :: _ => dsu <> [] /\ exists q, d = q ++ dsu end) ->
    (match u' with [] => dsu' = [] | (_, (_, d)) :: _ => dsu' <> [] /\ exists q, d = q ++ dsu' end) ->
    u = w ++ u' -> w <> [] ->
    (length (match u' with [] => [] | (t, _) :: r => tag t dsu' ++ flat_all r end)
     < length (match u with [] => [] | (t, _) :: r => tag t dsu ++ flat_all r end))%nat).
  { clear. intros u u' dsu dsu' w N1 N2 H1 H2 E Nw.
    destruct w as [|[t [c d]] w]; [congruence|]. subst u. simpl in *.
    destruct H1 as [Hn [q Hq]].
    assert (LE : (length (match u' with [] => [] | (t, _) :: r => tag t dsu' ++ flat_all r end)
              <= length (flat_all (w ++ u')))%nat).
    { rewrite flat_all_app, app_length.
      destruct u' as [|[t' [c' d']] r']; [simpl; lia|].
      destruct H2 as [_ [q' Hq']]. subst d'. rewrite flat_all_cons.
      rewrite !app_length, !tag_length, app_length. lia. }
    rewrite app_length, tag_length. destruct dsu; [congruence|simpl; lia]. }
  assert (HS : (exists w, ts = w ++ ts') \/ (exists w, ts' = w ++ ts)).
  { rewrite P0 in P0'. clear - P0'. revert p' P0'.
    induction p as [|a p IH]; intros p' E; simpl in *.
    - left; eauto.
    - destruct p' as [|b p']; simpl in *.
      + right. exists (a :: p). auto.
      + inversion E. eauto. }
  destruct HS as [[w E]|[w E]].
  - destruct w as [|x w].
    + simpl in E. subst ts'. destruct ts as [|[t [c d]] r]; simpl in *; [congruence|].
      f_equal. destruct P as [_ [q Q]], P' as [_ [q' Q']].
      apply (suffix_eq q q'); [exact (eq_trans (eq_sym Q) Q')|].
      rewrite !app_length, !tag_length in L. lia.
    + exfalso. pose proof (STEP ts ts' ds ds' (x :: w) NE1 NE2 P P' E).
      specialize (H ltac:(discriminate)). lia.
  - destruct w as [|x w].
    + simpl in E. subst ts'. destruct ts as [|[t [c d]] r]; simpl in *; [congruence|].
      f_equal. destruct P as [_ [q Q]], P' as [_ [q' Q']].
      apply (suffix_eq q q'); [exact (eq_trans (eq_sym Q) Q')|].
      rewrite !app_length, !tag_length in L. lia.
    + exfalso. pose proof (STEP ts' ts ds' ds (x :: w) NE2 NE1 P' P E).
      specialize (H ltac:(discriminate)). lia.
Qed.

Lemma collect_spec : forall m p fuel it stop, nonempty m -> pos m it -> pos m stop ->
  flat it = p ++ flat stop -> (length p <= fuel)%nat ->
  it_collect fuel stop it = Some p.
Proof.
  intros m. induction p as [|x p IH]; intros fuel it stop NE P1 P2 F L.
  - assert (it = stop) by (eapply pos_flat_inj; eauto; now rewrite F).
    subst. assert (it_eqb stop stop = true) by (eapply pos_eqb; eauto).
    destruct fuel; simpl; now rewrite H.
  - destruct fuel as [|fuel]; [simpl in L; lia|]. simpl.
    destruct (it_eqb it stop) eqn:E.
    + apply (pos_eqb m) in E; auto. subst. exfalso.
      apply (f_equal (@length _)) in F. rewrite app_length in F. simpl in F. lia.
    + rewrite (pos_deref m it x (p ++ flat stop)); auto.
      destruct (pos_next m it x (p ++ flat stop) NE P1 F) as (it' & -> & P' & F').
      rewrite (IH fuel it' stop); auto. simpl in L. lia.
Qed.

Lemma mbi_size_flat : forall m, mbi_size m = length (flat_all m).
Proof.
  intros m. unfold mbi_size.
  assert (forall a, fold_left (fun s e => (s + length (snd (snd e)))%nat) m a
                    = (a + length (flat_all m))%nat).
  { induction m as [|[t [c d]] m IH]; intros a; simpl; [lia|].
    rewrite IH. simpl. rewrite app_length, tag_length. lia. }
  now rewrite H.
Qed.

Lemma wf_nonempty : forall m, wf m -> nonempty m.
Proof. intros m W t c d H. eapply wf_data; eauto. Qed.

Lemma In_flat_all : forall m t i v, wf m ->
  (In ((t, i), v) (flat_all m) <-> mbi_at t i m = Some v).
Proof.
  intros m t i v W. unfold flat_all, mbi_at. rewrite in_flat_map. split.
  - intros ([t' [c d]] & H & HI). simpl in HI. unfold tag in HI.
    apply in_map_iff in HI. destruct HI as ([i' v'] & E & HI). simpl in E.
    inversion E; subst. rewrite (In_zfind _ (c, d)); auto; [|apply W].
    apply In_zfind; auto. eapply wf_data; eauto.
  - destruct (zfind t m) as [[c d]|] eqn:E; [|discriminate].
    intros H. exists (t, (c, d)). split; [now apply zfind_In|]. simpl.
    unfold tag. apply in_map_iff. exists (i, v). split; auto. now apply zfind_In.
Qed.

Lemma StronglySorted_app {A} (R : A -> A -> Prop) : forall a b,
  StronglySorted R a -> StronglySorted R b ->
  (forall x y, In x a -> In y b -> R x y) -> StronglySorted R (a ++ b).
Proof.
  induction a as [|x a IH]; simpl; intros b Sa Sb H; auto.
  apply StronglySorted_inv in Sa. destruct Sa as [Sa Fa]. constructor; auto.
  rewrite Forall_forall in *. intros y Hy. apply in_app_or in Hy. destruct Hy; auto.
Qed.

Lemma flat_all_sorted : forall m, wf m ->
  StronglySorted (fun x y => id_lt (fst x) (fst y)) (flat_all m).
Proof.
  induction m as [|[t [c d]] m IH]; intros W; simpl; [constructor|].
  assert (Wm : wf m).
  { constructor.
    - apply (zsorted_inv _ _ (wf_sorted _ W)).
    - intros; eapply wf_data; eauto. right; eauto.
    - intros; eapply wf_nonneg; eauto. right; eauto.
    - intros; eapply wf_idx; eauto. right; eauto. }
  apply StronglySorted_app; auto.
  - destruct (wf_data _ W t c d (or_introl eq_refl)) as [Sd _].
    clear - Sd. induction d as [|e d IH]; simpl; [constructor|].
    apply zsorted_inv in Sd. destruct Sd as [Sd L]. constructor; auto.
    apply Forall_forall. intros x Hx. apply in_map_iff in Hx.
    destruct Hx as (e' & <- & He). right. simpl. auto.
  - intros x [[t' i'] v'] Hx Hy. apply in_map_iff in Hx.
    destruct Hx as (e & <- & He). left. simpl.
    unfold flat_all in Hy. apply in_flat_map in Hy.
    destruct Hy as ([t2 [c2 d2]] & H2 & H3). apply in_map_iff in H3.
    destruct H3 as (e3 & E3 & _). inversion E3; subst. simpl.
    apply (proj2 (zsorted_inv _ _ (wf_sorted _ W)) _ H2).
Qed.

Lemma wf_items : forall m, wf m -> zfind int_max m = None ->
  (forall t x, zfind t m = Some x -> t <= int_max) ->
  mbi_items m = Some (flat_all m).
Proof.
  intros m W N B. unfold mbi_items.
  destruct (begin_spec m 0 (wf_nonempty _ W)) as [P0 F0].
  destruct (begin_spec m int_max (wf_nonempty _ W)) as [P1 F1].
  apply (collect_spec m); auto.
  - now apply wf_nonempty.
  - rewrite F0, F1.
    assert (zlower 0 m = m) as ->.
    { destruct m as [|[t [c d]] r]; auto. simpl.
      pose proof (wf_nonneg _ W t c d (or_introl eq_refl)).
      destruct (Z.ltb_spec t 0); [lia|auto]. }
    assert (zlower int_max m = []) as ->.
    { destruct (zlower int_max m) as [|[t x] r] eqn:E; auto. exfalso.
      assert (HI : In (t, x) (zlower int_max m)) by (rewrite E; left; auto).
      pose proof (zlower_ge _ _ _ (wf_sorted _ W) HI) as G. simpl in G.
      destruct (zlower_suffix int_max m) as (p & Ep & _).
      assert (HM : In (t, x) m) by (rewrite Ep; apply in_or_app; auto).
      apply In_zfind in HM; [|apply W]. pose proof (B _ _ HM).
      assert (t = int_max) by lia. congruence. }
    simpl. now rewrite app_nil_r.
  - rewrite mbi_size_flat. lia.
Qed.

Lemma zlower_split : forall {V} t (l : list (Z * V)), zsorted l ->
  zlower t l = match zfind t l with Some x => [(t, x)] | None => [] end ++ zlower (t + 1) l.
Proof.
  intros V t l. induction l as [|[k v] r IH]; intros S; simpl; auto.
  apply zsorted_inv in S. destruct S as [S L]. simpl in L.
  destruct (Z.ltb_spec k t).
  - destruct (Z.eqb_spec t k); [lia|].
    destruct (Z.ltb_spec k (t + 1)); [|lia]. auto.
  - destruct (Z.eqb_spec t k).
    + subst. destruct (Z.ltb_spec k (k + 1)); [|lia]. simpl. f_equal.
      destruct r as [|[k2 v2] r2]; auto. simpl.
      specialize (L _ (or_introl eq_refl)). simpl in L.
      destruct (Z.ltb_spec k2 (k + 1)); [lia|auto].
    + destruct (Z.ltb_spec k (t + 1)); [lia|].
      assert (zfind t r = None) as ->.
      { apply zfind_None. intros w Hw. apply L in Hw. simpl in Hw. lia. }
      auto.
Qed.

Definition traj_flat (t : Z) (m : mbi D) : list ((Z * Z) * D) :=
  match zfind t m with Some (_, d) => tag t d | None => [] end.

Lemma flat_begin_end : forall m t, wf m ->
  flat (it_begin m t) = traj_flat t m ++ flat (it_end m t).
Proof.
  intros m t W. unfold it_end.
  destruct (begin_spec m t (wf_nonempty _ W)) as [_ ->].
  destruct (begin_spec m (t + 1) (wf_nonempty _ W)) as [_ ->].
  rewrite (zlower_split t m) by apply W. unfold traj_flat.
  destruct (zfind t m) as [[c d]|]; simpl; auto.
Qed.

Lemma traj_flat_size : forall m t, length (traj_flat t m) = mbi_traj_size t m.
Proof.
  intros. unfold traj_flat, mbi_traj_size. destruct (zfind t m) as [[c d]|]; auto.
  apply tag_length.
Qed.

Lemma traj_size_le : forall m t, (mbi_traj_size t m <= mbi_size m)%nat.
Proof.
  intros m t. rewrite mbi_size_flat. unfold mbi_traj_size.
  induction m as [|[k [c d]] m IH]; simpl; [lia|].
  rewrite app_length, tag_length. destruct (t =? k); simpl; lia.
Qed.

Lemma wf_traj_items : forall m t, wf m ->
  mbi_traj_items t m = Some (traj_flat t m).
Proof.
  intros m t W. unfold mbi_traj_items.
  pose proof (wf_nonempty _ W) as NE.
  apply (collect_spec m); auto.
  - apply begin_spec; auto.
  - unfold it_end. apply begin_spec; auto.
  - now apply flat_begin_end.
  - rewrite traj_flat_size. apply traj_size_le.
Qed.

Lemma traj_flat_spec : forall m t, wf m ->
  lists_map (fun a b => if a =? t then mbi_at a b m else None) (traj_flat t m).
Proof.
  intros m t W. unfold lists_map, traj_flat, mbi_at. split.
  - destruct (zfind t m) as [[c d]|] eqn:E; [|constructor].
    destruct (wf_find _ _ _ _ W E) as (Sd & _ & _).
    clear - Sd. induction d as [|e d IH]; simpl; [constructor|].
    apply zsorted_inv in Sd. destruct Sd as [Sd L]. constructor; auto.
    apply Forall_forall. intros x Hx. apply in_map_iff in Hx.
    destruct Hx as (e' & <- & He). right. simpl. auto.
  - intros a i v. destruct (Z.eqb_spec a t).
    + subst a. destruct (zfind t m) as [[c d]|] eqn:E.
      * destruct (wf_find _ _ _ _ W E) as (Sd & _ & _).
        rewrite (zfind_iff i v d Sd). unfold tag. rewrite in_map_iff. split.
        -- intros ([i' v'] & EE & H). inversion EE; subst; auto.
        -- intros H. exists (i, v). auto.
      * simpl. split; [tauto|discriminate].
    + split; [|discriminate]. destruct (zfind t m) as [[c d]|]; simpl; [|tauto].
      unfold tag. rewrite in_map_iff. intros (e & EE & H). inversion EE. congruence.
Qed.

(* find *)
Lemma it_find_spec : forall m t i, wf m ->
  pos m (it_find m t i) /\
  it_deref (it_find m t i) =
    match mbi_at t i m with Some v => Some ((t, i), v) | None => None end /\
  (mbi_at t i m = None -> it_find m t i = ([], [])).
Proof.
  intros m t i W. unfold it_find, mbi_at.
  pose proof (zlower_split t m (wf_sorted _ W)) as Z1.
  destruct (zlower_suffix t m) as (p & Hp & _).
  assert (PE : pos m ([], [])).
  { split; simpl; auto. exists m. now rewrite app_nil_r. }
  destruct (zfind t m) as [[c d]|] eqn:E.
  - simpl in Z1. rewrite Z1 in *. rewrite Z.eqb_refl.
    destruct (wf_find _ _ _ _ W E) as (Sd & Nd & _).
    pose proof (zlower_split i d Sd) as Z2.
    destruct (zlower_suffix i d) as (q & Hq & _).
    destruct (zfind i d) as [v|] eqn:EI.
    + simpl in Z2. rewrite Z2 in *. rewrite Z.eqb_refl.
      split; [|split; [auto|discriminate]].
      split; simpl; eauto. split; [discriminate|eauto].
    + simpl in Z2. destruct (zlower i d) as [|[j v] dr] eqn:EL; auto.
      destruct (Z.eqb_spec j i); auto. subst j. exfalso.
      symmetry in Z2.
      assert (HI : In (i, v) (zlower (i + 1) d)) by (rewrite Z2; left; auto).
      apply zlower_ge in HI; auto. simpl in HI. lia.
  - simpl in Z1. destruct (zlower t m) as [|[k [c d]] r] eqn:EL; auto.
    destruct (Z.eqb_spec k t); auto. subst k. exfalso. symmetry in Z1.
    assert (HI : In (t, (c, d)) (zlower (t + 1) m)) by (rewrite Z1; left; auto).
    apply zlower_ge in HI; [|apply W]. simpl in HI. lia.
Qed.

(* lower_bound *)
Section LB.
Variable time : D -> Z.

(* number of entries with keys in (l, r] *)
Definition between (l r : Z) (d : list (Z * D)) : nat :=
  length (filter (fun e => (l <? fst e) && (fst e <=? r)) d).

Lemma filter_length_le' : forall {A} (f : A -> bool) l, (length (filter f l) <= length l)%nat.
Proof. induction l as [|a l IH]; simpl; auto. destruct (f a); simpl; lia. Qed.

Lemma between_lt_right : forall l r r' d v, In (r, v) d -> l < r -> r' < r ->
  (between l r' d < between l r d)%nat.
Proof.
  unfold between. intros l r r' d v HI Hl Hr. induction d as [|[k w] d IH]; [destruct HI|].
  assert (M : forall d : list (Z * D),
     (length (filter (fun e => Z.ltb l (fst e) && Z.leb (fst e) r') d) <=
      length (filter (fun e => Z.ltb l (fst e) && Z.leb (fst e) r) d))%nat).
  { clear - Hr. intros dd. induction dd as [|[k w] dd IH]; simpl; auto.
    destruct (Z.ltb_spec l k), (Z.leb_spec k r'), (Z.leb_spec k r);
      simpl; try lia. }
  simpl. destruct HI as [E|HI].
  - inversion E; subst.
    destruct (Z.ltb_spec l r); [|lia]. destruct (Z.leb_spec r r'); [lia|].
    rewrite Z.leb_refl. simpl. specialize (M d). lia.
  - specialize (IH HI). destruct (Z.ltb_spec l k), (Z.leb_spec k r'), (Z.leb_spec k r);
      simpl; try lia.
Qed.

Lemma between_lt_left : forall l l' r d v, In (l', v) d -> l < l' -> l' <= r ->
  (between l' r d < between l r d)%nat.
Proof.
  unfold between. intros l l' r d v HI Hl Hr. induction d as [|[k w] d IH]; [destruct HI|].
  assert (M : forall d : list (Z * D),
     (length (filter (fun e => Z.ltb l' (fst e) && Z.leb (fst e) r) d) <=
      length (filter (fun e => Z.ltb l (fst e) && Z.leb (fst e) r) d))%nat).
  { clear - Hl. intros dd. induction dd as [|[k w] dd IH]; simpl; auto.
    destruct (Z.ltb_spec l' k), (Z.ltb_spec l k), (Z.leb_spec k r);
      simpl; try lia. }
  simpl. destruct HI as [E|HI].
  - inversion E; subst.
    destruct (Z.ltb_spec l' l'); [lia|]. destruct (Z.ltb_spec l l'); [|lia].
    destruct (Z.leb_spec l' r); [|lia]. simpl. specialize (M d). lia.
  - specialize (IH HI). destruct (Z.ltb_spec l' k), (Z.ltb_spec l k), (Z.leb_spec k r);
      simpl; try lia.
Qed.

Lemma zupper_hd : forall k d k2 v2 r, zsorted d -> zupper k d = (k2, v2) :: r ->
  In (k2, v2) d /\ k < k2 /\ forall (e : Z * D), In e d -> k < fst e -> k2 <= fst e.
Proof.
  intros k d k2 v2 r S E. destruct (zupper_suffix k d) as (p & Hp & HL).
  assert (HI : In (k2, v2) (zupper k d)) by (rewrite E; left; auto).
  repeat split.
  - rewrite Hp. apply in_or_app; auto.
  - apply zupper_gt in HI; auto.
  - intros e He Hk. rewrite Hp in He. apply in_app_or in He. destruct He as [He|He].
    + apply HL in He. lia.
    + rewrite E in He. destruct He as [<-|He]; [simpl; lia|].
      rewrite Hp, E in S. apply zsorted_app in S. destruct S as (_ & S & _).
      apply zsorted_inv in S. destruct S as [_ S]. apply S in He. simpl in He. lia.
Qed.

Lemma zlower_hd : forall k d k2 v2 r, zsorted d -> zlower k d = (k2, v2) :: r ->
  In (k2, v2) d /\ k <= k2 /\ forall (e : Z * D), In e d -> k <= fst e -> k2 <= fst e.
Proof.
  intros k d k2 v2 r S E. destruct (zlower_suffix k d) as (p & Hp & HL).
  assert (HI : In (k2, v2) (zlower k d)) by (rewrite E; left; auto).
  repeat split.
  - rewrite Hp. apply in_or_app; auto.
  - apply zlower_ge in HI; auto.
  - intros e He Hk. rewrite Hp in He. apply in_app_or in He. destruct He as [He|He].
    + apply HL in He. lia.
    + rewrite E in He. destruct He as [<-|He]; [simpl; lia|].
      rewrite Hp, E in S. apply zsorted_app in S. destruct S as (_ & S & _).
      apply zsorted_inv in S. destruct S as [_ S]. apply S in He. simpl in He. lia.
Qed.

Lemma zlower_nil : forall k d, zlower k d = [] -> forall e : Z * D, In e d -> fst e < k.
Proof.
  intros k d E e He. destruct (zlower_suffix k d) as (p & Hp & HL).
  rewrite E, app_nil_r in Hp. subst p. auto.
Qed.

Lemma zupper_nil : forall k d, zupper k d = [] -> forall e : Z * D, In e d -> fst e <= k.
Proof.
  intros k d E e He. destruct (zupper_suffix k d) as (p & Hp & HL).
  rewrite E, app_nil_r in Hp. subst p. auto.
Qed.

Lemma lb_loop_spec : forall fuel d l r vl vr q, zsorted d ->
  (forall i j a b, In (i, a) d -> In (j, b) d -> i <= j -> time a <= time b) ->
  In (l, vl) d -> In (r, vr) d -> l <= r -> (between l r d <= fuel)%nat ->
  q <= time vr ->
  (forall i a, In (i, a) d -> i < l -> time a < q) ->
  exists k v, lb_loop time fuel d l r q = Some k /\ In (k, v) d /\ q <= time v /\
    (forall i a, In (i, a) d -> i < k -> time a < q).
Proof.
  induction fuel as [|fuel IH]; intros d l r vl vr q S Mo Hl Hr LR F Hq Low.
  - assert (l = r).
    { destruct (Z.eq_dec l r); auto. exfalso.
      pose proof (between_lt_right l r l d vr Hr ltac:(lia) ltac:(lia)). lia. }
    subst. simpl. rewrite Z.eqb_refl. exists r, vr. auto.
  - simpl. destruct (Z.eqb_spec l r).
    + subst. exists r, vr. auto.
    + set (mid := l + Z.quot (r - l) 2).
      assert (Hm : l <= mid < r).
      { unfold mid. rewrite Z.quot_div_nonneg by lia.
        pose proof (Z.div_mod (r - l) 2). pose proof (Z.mod_pos_bound (r - l) 2). lia. }
      destruct (zlower mid d) as [|[k v] rest] eqn:EL.
      { exfalso. pose proof (zlower_nil _ _ EL _ Hr) as C. simpl in C. lia. }
      destruct (zlower_hd _ _ _ _ _ S EL) as (Hk & Lk & Mk).
      assert (SEL : exists k' v',
        (if mid <? k then if k =? l then None else zprev k d else Some (k, v)) = Some (k', v')
        /\ In (k', v') d /\ l <= k' < r).
      { destruct (Z.ltb_spec mid k).
        - destruct (Z.eqb_spec k l); [lia|].
          pose proof (zprev_spec k d S) as PS.
          destruct (zprev k d) as [[k' v']|].
          + destruct PS as (P1 & P2 & P3). exists k', v'. repeat split; auto.
            * apply (P3 (l, vl)); auto. simpl. lia.
            * specialize (Mk (r, vr) Hr). simpl in Mk. lia.
          + exfalso. specialize (PS (l, vl) Hl). simpl in PS. lia.
        - exists k, v. repeat split; auto; try lia. }
      destruct SEL as (k' & v' & -> & Hk' & Bk').
      destruct (Z.ltb_spec (time v') q).
      * destruct (zupper k' d) as [|[k2 v2] r2] eqn:EU.
        { exfalso. pose proof (zupper_nil _ _ EU _ Hr) as C. simpl in C. lia. }
        destruct (zupper_hd _ _ _ _ _ S EU) as (H2 & L2 & M2).
        pose proof (M2 (r, vr) Hr ltac:(simpl; lia)) as R2. simpl in R2.
        apply (IH d k2 r v2 vr q); auto.
        -- pose proof (between_lt_left l k2 r d v2 H2 ltac:(lia) ltac:(lia)). lia.
        -- intros i a Hi Li. destruct (Z_le_gt_dec i k').
           ++ pose proof (Mo _ _ _ _ Hi Hk' l0). lia.
           ++ pose proof (M2 (i, a) Hi ltac:(simpl; lia)) as C. simpl in C. lia.
      * apply (IH d l k' vl v' q); auto; try lia.
        pose proof (between_lt_right l r k' d vr Hr ltac:(lia) ltac:(lia)). lia.
Qed.

Lemma lower_bound_spec : forall m t q, wf m ->
  times_monotone time (fun a b => mbi_at a b m) t ->
  exists it, mbi_lower_bound time t q m = Some it /\
    ((exists i v, first_not_before time (fun a b => mbi_at a b m) t q i v /\
                  it = it_find m t i) \/
     ((forall i v, mbi_at t i m = Some v -> time v < q) /\ it = it_end m t)).
Proof.
  intros m t q W Mo. unfold mbi_lower_bound, times_monotone, first_not_before in *.
  unfold mbi_at in *. destruct (zfind t m) as [[c d]|] eqn:E.
  2:{ eexists. split; eauto. right. split; auto. discriminate. }
  destruct (wf_find _ _ _ _ W E) as (Sd & Nd & _).
  destruct d as [|[l vl] d']; [congruence|].
  destruct (zlast ((l, vl) :: d')) as [[r vr]|] eqn:EL.
  2:{ apply zlast_None in EL. discriminate. }
  set (d := (l, vl) :: d') in *.
  assert (Mo' : forall i j a b, In (i, a) d -> In (j, b) d -> i <= j -> time a <= time b).
  { intros i j a b Ha Hb L. eapply Mo; eauto; apply In_zfind; auto. }
  assert (Hr : In (r, vr) d) by (apply zlast_In; auto).
  assert (Hl : In (l, vl) d) by (left; auto).
  assert (Max : forall e, In e d -> fst e <= r).
  { intros e He. apply (zlast_max _ _ Sd EL); auto. }
  destruct (Z.ltb_spec (time vr) q).
  - eexists. split; eauto. right. split; auto. intros i v Hv.
    apply zfind_In in Hv. pose proof (Mo' _ _ _ _ Hv Hr (Max _ Hv)). lia.
  - destruct (lb_loop_spec (length d) d l r vl vr q) as (k & v & Ek & Hk & Hv & Low); auto.
    + apply (Max (l, vl)); auto.
    + unfold between. apply filter_length_le'.
    + intros i a Hi Li. exfalso. unfold d in Hi. destruct Hi as [X|Hi].
      * inversion X; subst. lia.
      * unfold d in Sd. apply zsorted_inv in Sd. destruct Sd as [_ SS].
        apply SS in Hi. simpl in Hi. lia.
    + rewrite Ek. eexists. split; eauto. left. exists k, v. split; auto.
      split; [apply In_zfind; auto|]. split; auto. intros j b Hj Hb.
      apply zfind_In in Hj. destruct (Z_lt_le_dec j k); auto.
      specialize (Low _ _ Hj l0). lia.
Qed.
End LB.
End I.
