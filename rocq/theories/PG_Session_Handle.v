(* The last part of HandleWorkQueue in a well-behaved session. *)
From Coq Require Import List ZArith Bool Lia Sorted.
From Verif Require Import ZMap MapById_Model MapById_Spec MapById_Proofs PG_Model PG_Maps PG_Spec PG_Proofs PG_Trim PG_Client PG_Delete PG_Session PG_Session_Call PG_Session_Node PG_Session_Work PG_Session_Trim.
Import ListNotations.
Open Scope Z_scope.

(* what holds between the trimming steps *)
Record mid (g : graph) (k : client) (q : list item) : Prop := {
  m_glob : glob g;
  m_none : searches g = [];
  m_status : forall t, status g t (filter (concerns t) q) (closed k t) (del k t) (ph k t);
  m_trajs : zsorted (trajs g);
  m_pub : forall x, stored x (osubs g) -> stored x (gposes g);
  m_poses : poses_ok g
}.

Lemma NoDup_firstn {A} n (l : list A) : NoDup l -> NoDup (firstn n l).
Proof.
  intros N. revert n. induction N as [|a l Na N IH]; intros [|n]; cbn; constructor; auto.
  intros I. apply Na. eapply firstn_In. exact I.
Qed.
Lemma NoDup_join {A} (l r : list A) : NoDup l -> NoDup r -> (forall x, In x l -> ~ In x r) -> NoDup (l ++ r).
Proof.
  induction 1 as [|a l Na N IH]; intros R D; cbn; [exact R|]. constructor.
  - intros I. apply in_app_or in I as [I|I]; [contradiction|]. apply (D a); [now left | exact I].
  - apply IH; [exact R|]. intros x I. apply D. now right.
Qed.
Lemma entries_NoDup {D} (m : mbi D) : wf m -> NoDup (map fst (entries m)).
Proof.
  intros W. pose proof (wf_sorted _ W) as Sm. assert (Sd : forall t c d, In (t, (c, d)) m -> zsorted d) by (intros t c d I; eapply (wf_data _ W); exact I).
  clear W. unfold entries. unfold zsorted in Sm. induction Sm as [|[t [c d]] r Sm IH F]; cbn; [constructor|].
  rewrite map_app, map_map. cbn. apply NoDup_join.
  - specialize (Sd t c d (or_introl eq_refl)). pose proof (zsorted_NoDup _ Sd) as N. clear - N. induction d as [|[i v] d IHd]; cbn in *; constructor.
    + inversion N as [|? ? A B]; subst. intros I. apply A. apply in_map_iff in I as ([i' v'] & [= ->] & I). apply in_map_iff. exists (i, v'). auto.
    + inversion N; subst. auto.
  - apply IH. intros. eapply Sd. right. eassumption.
  - intros x I J. apply in_map_iff in I as ([i v] & <- & I). apply in_map_iff in J as ([y v'] & E & J). cbn in E. subst y.
    apply in_flat_map in J as ([t' [c' d']] & J & K). apply in_map_iff in K as ([i' w] & K & _). cbn in K. injection K as -> _ _.
    rewrite Forall_forall in F. specialize (F _ J). cbn in F. lia.
Qed.
Lemma NoDup_map_filter {A B} (f : A -> B) p l : NoDup (map f l) -> NoDup (map f (filter p l)).
Proof.
  induction l as [|a l IH]; cbn; [auto|]. intros N. inversion N as [|? ? Na N']; subst. destruct (p a); cbn; [|auto].
  constructor; [|auto]. intros I. apply Na. apply in_map_iff in I as (b & E & I). apply filter_In in I as [I _]. apply in_map_iff. eauto.
Qed.

Lemma mid_trim l g k q : mid g k q -> NoDup l ->
  (forall s, In s l -> exists d, get s (subs g) = Some d /\ fin d = true) ->
  (forall t x, last_id t (gposes g) = Some x -> In x l ->
     fst (traj_state t g) <> Active /\ forall j, stored (t, j) (osubs g) -> In (t, j) l) ->
  exists g', trim_all l g = Some g' /\ mid g' k q /\ gposes g' = gposes g /\ trajs g' = trajs g /\ trimmers g' = trimmers g /\
    num_nodes g' = num_nodes g /\ num_finished g' = num_finished g /\
    (forall x, stored x (subs g') <-> ~ In x l /\ stored x (subs g)).
Proof.
  intros [G1 G2 G3 G4 G5 G6] ND Hl Hp.
  destruct (trim_all_keeps l g G1 G2 ND Hl) as (g' & H & G' & S' & St). exists g'. split; [exact H|].
  destruct (trim_all_ok _ _ _ (g_wf _ G1) H) as (W' & (T1 & T2 & _) & _ & Hl2 & Q1 & Q2 & Q3 & Q4 & Q5 & Q6 & Q7 & Q8).
  assert (Su : forall x, stored x (subs g') <-> ~ In x l /\ stored x (subs g)).
  { intros x. destruct (T1 x) as [A B]. unfold stored. destruct (in_dec id_dec x l) as [I|N]; [rewrite A by exact I; tauto | rewrite B by exact N; tauto]. }
  assert (So : forall x, stored x (osubs g') <-> ~ In x l /\ stored x (osubs g)).
  { intros x. destruct (T2 x) as [A B]. unfold stored. destruct (in_dec id_dec x l) as [I|N]; [rewrite A by exact I; tauto | rewrite B by exact N; tauto]. }
  assert (Ts : forall a, traj_state a g' = traj_state a g) by (intros a; unfold traj_state; now rewrite Q2).
  split; [|do 5 (split; [assumption|]); exact Su]. constructor; auto.
  - now rewrite Q2.
  - intros x Sx. rewrite Q1. apply G5. now apply So in Sx.
  - intros t x L. rewrite Q1 in L. destruct (G6 t x L) as [Sx | [A B]].
    + destruct (in_dec id_dec x l) as [I|N]; [right|left; apply Su; auto]. destruct (Hp t x L I) as [Na Al].
      split; [|now rewrite Ts]. intros j. destruct (get (t, j) (osubs g')) eqn:Ej; [|reflexivity]. exfalso.
      apply get_stored, So in Ej as [N Ej]. apply N. now apply Al.
    + right. split; [|now rewrite Ts]. intros j. destruct (get (t, j) (osubs g')) eqn:Ej; [|reflexivity]. exfalso.
      apply get_stored, So in Ej as [_ Ej]. apply Ej, A.
Qed.

(* a trajectory that is done is emptied and marked *)
Lemma mid_delete g k q t d2 : mid g k q -> done g t -> filter (concerns t) q = [] -> closed k t = true ->
  fst (traj_state t g) <> Active -> d2 = Normal ->
  exists g1, trim_all (submap_ids t g) g = Some g1 /\ trajs g1 = trajs g /\ trimmers g1 = trimmers g /\ gposes g1 = gposes g /\
    num_nodes g1 = num_nodes g /\ num_finished g1 = num_finished g /\
    mid (set_trajs (zput t (Deleted, d2) (trajs g1)) g1) k q.
Proof.
  intros M D Eq Cl Na ->. pose proof (g_wf _ (m_glob _ _ _ M)) as W.
  destruct (mid_trim (submap_ids t g) g k q M) as (g1 & H & M1 & Q1 & Q2 & Q3 & Q4 & Q5 & Su).
  - apply StronglySorted_NoDup, submap_ids_sorted, W.
  - intros [a j] I. apply submap_ids_In in I as [A B]; [|exact W]. cbn in A. subst a. apply (d_dom _ _ D) in B. rewrite stored_get in B.
    destruct (get (t, j) (subs g)) as [d|] eqn:E; [|congruence]. exists d. split; [reflexivity | eapply (d_fin _ _ D); exact E].
  - intros a x L I. apply submap_ids_In in I as [A B]; [|exact W].
    apply last_id_Some in L as (A' & _); [|apply W]. assert (E : a = t) by congruence. rewrite E. split; [exact Na|].
    intros j Sj. apply submap_ids_In; auto.
  - exists g1. do 6 (split; [assumption|]). pose proof M1 as [G1 G2 G3 G4 G5 G6].
    set (g2 := set_trajs (zput t (Deleted, Normal) (trajs g1)) g1).
    destruct (state_put g1 t (Deleted, Normal) G4 g2 eq_refl) as [Z1 T1].
    assert (Em : forall j, get (t, j) (subs g1) = None).
    { intros j. destruct (get (t, j) (subs g1)) eqn:E; [|reflexivity]. exfalso. apply get_stored, Su in E as [N E].
      apply N, submap_ids_In; [exact W|]. split; [reflexivity|]. now apply (d_dom _ _ D). }
    assert (D1 : done g1 t).
    { pose proof (G3 t) as S. rewrite Eq, Cl in S. inversion S; subst; auto.
      destruct its; discriminate. }
    constructor; cbn; auto.
    + apply (glob_maps g1); auto using incl_refl; apply G1.
    + intros a. destruct (Z.eq_dec a t) as [->|N].
      * rewrite Eq, Cl. apply st_deleted; [rewrite T1, Z.eqb_refl; reflexivity | exact Em | apply (done_same g1); [now apply same_maps | exact D1]].
      * apply (status_same g1); [now apply same_maps | | apply G3]. rewrite T1. destruct (Z.eqb_spec a t); congruence.
    + intros a x L. destruct (G6 a x L) as [|[A B]]; [now left | right]. split; [exact A|]. rewrite T1. destruct (a =? t); [discriminate | exact B].
Qed.

Lemma mid_delete_all k q l : forall g, mid g k q -> NoDup (map fst l) ->
  (forall t s, In (t, s) l -> traj_state t g = s) ->
  exists g', delete_trajectories l g = Some g' /\ mid g' k q /\ gposes g' = gposes g /\ trimmers g' = trimmers g /\
    num_nodes g' = num_nodes g /\ num_finished g' = num_finished g.
Proof.
  induction l as [|[t [st ds]] l IH]; intros g M ND Hs; cbn [delete_trajectories]; [exists g; auto 7|].
  inversion ND as [|? ? Nt ND']; subst.
  assert (Hs' : forall t' s, In (t', s) l -> traj_state t' g = s) by (intros t' s I; apply Hs; now right).
  destruct ds; try (apply IH; assumption).
  pose proof (Hs t _ (or_introl eq_refl)) as T.
  pose proof (m_status _ _ _ M t) as S.
  assert (C : filter (concerns t) q = [] /\ closed k t = true /\ done g t /\ fst (traj_state t g) <> Active).
  { inversion S; subst; try congruence. split; [reflexivity|]. split; [reflexivity|]. split; [assumption|]. rewrite T. cbn. congruence. }
  destruct C as (C1 & C2 & C3 & C4).
  destruct (mid_delete g k q t Normal M C3 C1 C2 C4 eq_refl) as (g1 & H & Q1 & Q2 & Q3 & Q4 & Q5 & M2).
  rewrite H. cbn [bind]. destruct (IH _ M2 ND') as (g' & H' & M' & R1 & R2 & R3 & R4).
  - intros t' s I. unfold traj_state. cbn. rewrite zfind_zput by (rewrite Q1; apply M). destruct (Z.eqb_spec t' t) as [->|].
    + exfalso. apply Nt. apply in_map_iff. exists (t, s). auto.
    + rewrite Q1. now apply Hs'.
  - exists g'. split; [exact H'|]. split; [exact M'|]. cbn in R1, R2, R3, R4. repeat split; congruence.
Qed.

(* two newer ones *)
Lemma two_newer t g x keep : wfg g -> 2 <= keep ->
  In x (firstn (length (submap_ids t g) - Z.to_nat keep) (submap_ids t g)) ->
  fst x = t /\ stored x (osubs g) /\
  exists i j, snd x < i /\ i < j /\ stored (t, i) (osubs g) /\ stored (t, j) (osubs g).
Proof.
  intros W K I. pose proof (submap_ids_sorted t g W) as So. pose proof (firstn_In _ _ _ I) as I0.
  assert (Ne : (length (submap_ids t g) - Z.to_nat keep <> 0)%nat) by (intros E; rewrite E in I; contradiction).
  apply submap_ids_In in I0 as A; [|exact W]. destruct A as [A B]. split; [exact A|]. split; [exact B|].
  apply (sorted_split _ _ _ So I0) in I.
  set (f := filter (fun y => id_ltb x y) (submap_ids t g)) in *.
  assert (Lf : (length f >= 2)%nat) by lia.
  assert (Nf : NoDup f) by (apply NoDup_filter, StronglySorted_NoDup, So).
  assert (Hf : forall y, In y f -> fst y = t /\ stored y (osubs g) /\ snd x < snd y).
  { intros y Iy. apply filter_In in Iy as [Iy L]. apply submap_ids_In in Iy as [C D]; [|exact W]. split; [exact C|]. split; [exact D|].
    rewrite id_ltb_spec in L. lia. }
  destruct f as [|[a1 i] [|[a2 j] r]]; cbn in Lf; [lia | lia|].
  destruct (Hf (a1, i)) as (E1 & S1 & L1); [now left|]. destruct (Hf (a2, j)) as (E2 & S2 & L2); [right; now left|].
  cbn in E1, E2, L1, L2. subst a1 a2. inversion Nf as [|? ? N _]; subst. assert (i <> j) by (intros ->; apply N; now left).
  destruct (Z_lt_dec i j).
  - exists i, j. auto.
  - exists j, i. repeat split; auto; lia.
Qed.

Lemma mid_pure g k q t keep : mid g k q -> 2 <= keep -> pure k t = true -> (del k t = true -> pure k t = false) ->
  exists tr g', trim_pure t keep g = Some (tr, g') /\ mid g' k q /\ gposes g' = gposes g /\ trimmers g' = trimmers g /\
    num_nodes g' = num_nodes g /\ num_finished g' = num_finished g /\ (trimmer_done tr = true \/ tr = Pure t keep false).
Proof.
  intros M K Pu Hd. pose proof (g_wf _ (m_glob _ _ _ M)) as W.
  assert (Nd : del k t = false) by (destruct (del k t); [now rewrite Hd in Pu | reflexivity]).
  unfold trim_pure. destruct (is_finished t g) eqn:Fi.
  - cbv zeta. replace (length (submap_ids t g) - Z.to_nat 0)%nat with (length (submap_ids t g)) by lia. rewrite firstn_all.
    pose proof (m_status _ _ _ M t) as S. rewrite Nd in S. unfold is_finished in Fi.
    assert (C : filter (concerns t) q = [] /\ closed k t = true /\ done g t /\ traj_state t g = (Finished, Normal)).
    { inversion S; subst; try congruence; auto; match goal with H : traj_state t g = _ |- _ => rewrite H in Fi; discriminate end. }
    destruct C as (C1 & C2 & C3 & C4).
    destruct (mid_delete g k q t Normal M C3 C1 C2) as (g1 & H & Q1 & Q2 & Q3 & Q4 & Q5 & M2); [rewrite C4; discriminate | reflexivity|].
    rewrite H. cbn [bind Z.eqb]. assert (Ts : snd (traj_state t g1) = Normal) by (unfold traj_state in *; rewrite Q1, C4; reflexivity).
    rewrite Ts. do 2 eexists. split; [reflexivity|]. split; [exact M2|]. cbn. auto 8.
  - cbv zeta. set (l := firstn _ _).
    destruct (mid_trim l g k q M) as (g1 & H & M1 & Q1 & Q2 & Q3 & Q4 & Q5 & _).
    + apply NoDup_firstn, StronglySorted_NoDup, submap_ids_sorted, W.
    + intros x I. destruct (two_newer _ _ _ _ W K I) as (A & B & i & j & L1 & L2 & S1 & S2). destruct x as [a x]. cbn in A, L1. subst a.
      assert (Lv : forall w c p p' r, live g t w c p p' r -> exists d, get (t, x) (subs g) = Some d /\ fin d = true).
      { intros w c p p' r [R1 R2 R11 R3 R4 R5 R6 R7 R8 R9 R10]. pose proof (proj1 (R3 x) B) as [Sx _]. pose proof (proj1 (R3 j) S2) as [_ Lj].
        rewrite stored_get in Sx. destruct (get (t, x) (subs g)) as [d|] eqn:E; [|congruence]. exists d. split; [reflexivity|].
        apply (R11 x d E). apply stored_nonneg in B; [|apply W]. destruct w; cbn in *; lia. }
      assert (Dn : done g t -> exists d, get (t, x) (subs g) = Some d /\ fin d = true).
      { intros D. pose proof (proj1 (d_dom _ _ D x) B) as Sx. rewrite stored_get in Sx. destruct (get (t, x) (subs g)) as [d|] eqn:E; [|congruence].
        exists d. split; [reflexivity|]. eapply (d_fin _ _ D). exact E. }
      pose proof (m_status _ _ _ M t) as S. inversion S; subst; eauto.
    + intros a x L I. exfalso. destruct (two_newer _ _ _ _ W K I) as (A & B & i & j & L1 & L2 & S1 & S2).
      apply last_id_Some in L as (A' & _ & N); [|apply W]. apply (m_pub _ _ _ M) in S1. apply S1.
      assert (E : a = t) by congruence. rewrite E in N. now apply N.
    + rewrite H. cbn [bind]. assert (E0 : keep =? 0 = false) by lia. rewrite E0. do 2 eexists. split; [reflexivity|]. split; [exact M1|]. auto 8.
Qed.

Lemma mid_with k q chs l : forall i g, mid g k q -> Forall (trimmer_ok k) l -> (forall t, del k t = true -> pure k t = false) ->
  spares_last chs g ->
  exists r g', trim_with chs i l g = Some (r, g') /\ mid g' k q /\ num_nodes g' = num_nodes g /\ num_finished g' = num_finished g /\
    Forall (trimmer_ok k) (filter (fun tr => negb (trimmer_done tr)) r).
Proof.
  induction l as [|tr l IH]; intros i g M F Hd Sp; cbn [trim_with]; [do 2 eexists; split; [reflexivity|]; cbn; auto|].
  inversion F as [|? ? Ft F']; subst. pose proof (g_wf _ (m_glob _ _ _ M)) as W.
  assert (One : exists tr' g', trim_one (chs i) tr g = Some (tr', g') /\ mid g' k q /\ gposes g' = gposes g /\
    num_nodes g' = num_nodes g /\ num_finished g' = num_finished g /\ (trimmer_done tr' = true \/ trimmer_ok k tr')).
  { destruct tr as [t keep f|]; cbn [trim_one].
    - destruct Ft as [Ft1 Ft2]. destruct (mid_pure g k q t keep M Ft1 Ft2 (Hd t)) as (tr' & g' & H & M' & Q1 & Q2 & Q3 & Q4 & Q5).
      exists tr', g'. do 5 (split; [assumption|]). destruct Q5 as [Q5 | ->]; [now left | right; cbn; auto].
    - destruct (mid_trim (filter (fun x => mem x (chs i)) (optimized g)) g k q M) as (g' & H & M' & Q1 & Q2 & Q3 & Q4 & Q5 & _).
      + apply NoDup_filter. unfold optimized. apply NoDup_map_filter, entries_NoDup, W.
      + intros s I. apply filter_In in I as [I _]. unfold optimized in I. apply in_map_iff in I as ([y d] & E & I). cbn in E. subst y.
        apply filter_In in I as [I C]. apply andb_true_iff in C as [C _]. apply entries_In in I; [|apply W]. exists d. auto.
      + intros t x L I. exfalso. apply filter_In in I as [_ I]. apply mem_spec in I. apply (Sp i x I).
        pose proof L as L'. apply last_id_Some in L' as (E & _); [|apply W]. now rewrite E.
      + rewrite H. cbn [bind]. exists Overlapping, g'. do 5 (split; [auto|]). right. exact I. }
  destruct One as (tr' & g1 & H & M1 & Q1 & Q2 & Q3 & Q4). rewrite H. cbn [bind fst snd].
  destruct (IH (S i) g1 M1 F' Hd) as (r & g' & H' & M' & R1 & R2 & R3).
  { intros n x I. rewrite Q1. now apply (Sp n). }
  rewrite H'. cbn [bind fst snd]. do 2 eexists. split; [reflexivity|]. split; [exact M'|]. split; [congruence|]. split; [congruence|].
  cbn [filter]. destruct (trimmer_done tr') eqn:E; cbn [negb]; [exact R3|]. constructor; [|exact R3]. destruct Q4; [discriminate | assumption].
Qed.

Lemma good_handle every_n s k res chs : good s k -> md s = Handling res -> spares_last chs (gr s) ->
  exists s', step every_n (Handle chs) s = Some s' /\ good s' k.
Proof.
  intros G M Sp. unfold step. rewrite M. pose proof G as [G1 G2 G3 G4 G5 G6 G7 G8 G9 G10 G11]. rewrite M in G11.
  destruct G11 as (S0 & Rs & Pb). unfold finish_handling.
  assert (C : forallb (fun c => c_inter c && latest_ok (c_node c) (c_sub c) (gr s) &&
                          connect_ok (fst (c_node c)) (fst (c_sub c)) (gr s)) res = true).
  { apply forallb_forall. intros c I. destruct (Rs c I) as [Ic Ii]. destruct (g_con _ G1 c Ic) as [A B].
    apply (g_osub _ G1) in A. apply (g_onode _ G1) in B. rewrite Ii. rewrite latest_ok_glob by auto. cbn. unfold connect_ok.
    rewrite (g_knows _ G1 (c_node c)) by auto. rewrite (g_knows _ G1 (c_sub c)) by auto. apply orb_true_r. }
  rewrite C.
  assert (M0 : mid (gr s) k (queue s)) by (constructor; auto).
  destruct (mid_delete_all k (queue s) (trajs (gr s)) (gr s) M0) as (g1 & H1 & M1 & Q1 & Q2 & Q3 & Q4).
  - exact (zsorted_NoDup _ G9).
  - intros t st I. unfold traj_state. now rewrite (In_zfind _ _ _ G9 I).
  - rewrite H1. cbn [bind]. rewrite Q2.
    destruct (mid_with k (queue s) chs (trimmers (gr s)) 0 g1 M1 G5 G7) as (r & g2 & H2 & M2 & R1 & R2 & R3).
    { intros n x I. rewrite Q1. now apply (Sp n). }
    rewrite H2. cbn [bind fst snd]. eexists. split; [reflexivity|]. destruct M2 as [N1 N2 N3 N4 N5 N6].
    constructor; cbn [gr queue md]; auto.
    + apply (glob_maps g2); auto using incl_refl; apply N1.
    + intros t. apply (status_same g2); [now apply same_maps | reflexivity | apply N3].
    + cbn. congruence.
    + discriminate.
Qed.
