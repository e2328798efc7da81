(* The states a well-behaved mapping session reaches can be saved: proofs. *)
From Coq Require Import List ZArith Bool Lia Sorted.
From Verif Require Import ZMap MapById_Model MapById_Spec MapById_Proofs PG_Model PG_Maps PG_Spec PG_Proofs PG_Trim
  PG_Client PG_Session PG_Session_Work PG_Session_Handle PG_Session_Main SL_Model SL_Spec SL_Write SL_Load SL_Final.
Import ListNotations.
Open Scope Z_scope.

Definition kn (g : graph) : Prop := forall t, knows t g = true -> zfind t (trajs g) <> None.
Definition both (g : graph) : Prop := intra_once g /\ kn g /\ zsorted (trajs g).
(* g' is g with fewer constraints, or more that connect different submaps *)
Record less (g g' : graph) : Prop := {
  le_added : added g' = added g;
  le_trajs : zsorted (trajs g) -> zsorted (trajs g') /\ forall t, zfind t (trajs g) <> None -> zfind t (trajs g') <> None;
  le_cons : exists P, filter (fun c => negb (c_inter c)) (constraints g') =
                      filter P (filter (fun c => negb (c_inter c)) (constraints g))
}.
Lemma filter_filter {A} (P Q : A -> bool) l : filter P (filter Q l) = filter (fun a => P a && Q a) l.
Proof. induction l as [|a l IH]; [reflexivity|]. cbn. destruct (Q a) eqn:E; cbn; rewrite ?E, ?andb_true_r, ?andb_false_r, IH; reflexivity. Qed.
Lemma filter_true {A} (l : list A) : filter (fun _ => true) l = l.
Proof. induction l; cbn; congruence. Qed.
Lemma less_eq g g' : added g' = added g -> trajs g' = trajs g -> constraints g' = constraints g -> less g g'.
Proof.
  intros A B C. split; [exact A | rewrite B; auto |]. exists (fun _ => true). now rewrite C, filter_true.
Qed.
Lemma less_refl g : less g g. Proof. now apply less_eq. Qed.
Lemma less_trans a b c : less a b -> less b c -> less a c.
Proof.
  intros [A1 A2 (P & A3)] [B1 B2 (Q & B3)]. split.
  - congruence.
  - intros S. destruct (A2 S) as [S1 M1]. destruct (B2 S1) as [S2 M2]. auto.
  - rewrite A3 in B3. rewrite B3, filter_filter. eauto.
Qed.
Lemma less_both g g' : less g g' -> both g -> both g'.
Proof.
  intros [A B (P & C)] (O & K & S). destruct (B S) as [S' M]. split; [|split; [|exact S']].
  - unfold intra_once. rewrite C. now apply NoDup_filter.
  - intros t H. apply M, K. unfold knows in *. now rewrite <- A.
Qed.
Lemma less_put t v g : less g (set_trajs (zput t v (trajs g)) g).
Proof.
  split; [reflexivity | | exists (fun _ => true); now rewrite filter_true].
  cbn. intros S. split; [now apply zput_sorted|]. intros u. rewrite zfind_zput by exact S. destruct (u =? t); congruence.
Qed.

Lemma less_remove l : forall g g', remove_nodes l g = Some g' -> less g g'.
Proof.
  induction l as [|n l IH]; intros g g' H; cbn [remove_nodes] in H; [injection H as <-; apply less_refl|].
  ob H. ob H. eapply less_trans; [|apply (IH _ _ H)]. now apply less_eq.
Qed.
Lemma less_trim s g g' : trim_submap s g = Some g' -> less g g'.
Proof.
  unfold trim_submap. intros H. ob H. ob H. ob H. ob H. eapply less_trans; [|apply (less_remove _ _ _ H)]. split; [reflexivity | auto|]. cbn.
  match goal with |- context [filter ?q (filter ?a (filter ?b ?l))] => rewrite (filter_comm q a), (filter_comm q b) end.
  rewrite filter_filter. eauto.
Qed.
Lemma less_trim_all l : forall g g', trim_all l g = Some g' -> less g g'.
Proof.
  induction l as [|s l IH]; intros g g' H; cbn [trim_all] in H; [injection H as <-; apply less_refl|].
  ob H. eapply less_trans; [eapply less_trim; exact E | now apply IH].
Qed.
Lemma less_delete l : forall g g', delete_trajectories l g = Some g' -> less g g'.
Proof.
  induction l as [|[t [st ds]] l IH]; intros g g' H; cbn [delete_trajectories] in H; [injection H as <-; apply less_refl|].
  destruct ds; auto. ob H. eapply less_trans; [eapply less_trim_all; exact E|]. eapply less_trans; [apply less_put | apply IH; exact H].
Qed.
Lemma less_trim_with chs l : forall k g r, trim_with chs k l g = Some r -> less g (snd r).
Proof.
  induction l as [|tr l IH]; intros k g r H; cbn [trim_with] in H; [injection H as <-; apply less_refl|].
  ob H. ob H. injection H as <-. cbn [snd]. eapply less_trans; [|eapply IH; exact E0].
  destruct p as [tr' g1]. cbn [snd]. destruct tr as [t keep f|]; cbn [trim_one] in E.
  - unfold trim_pure in E. ob E. injection E as E.
    match type of E with (if ?b then _ else _) = _ => destruct b end; injection E as <- <-.
    + eapply less_trans; [eapply less_trim_all; eassumption | apply less_put].
    + eapply less_trim_all; eassumption.
  - ob E. injection E as <- <-. eapply less_trim_all; eassumption.
Qed.
Lemma less_results f g : less g (set_searches [] (set_constraints (constraints g ++ results f g) g)).
Proof.
  split; [reflexivity | auto|]. exists (fun _ => true). cbn. rewrite filter_true, filter_app.
  replace (filter (fun c => negb (c_inter c)) (results f g)) with (@nil cons); [apply app_nil_r|].
  unfold results. induction (filter _ (searches g)); [reflexivity|]. cbn. assumption.
Qed.

(* ---- a node ---- *)
Lemma compute_same o l : forall g g', compute_all o l g = Some g' ->
  constraints g' = constraints g /\ added g' = added g /\ trajs g' = trajs g.
Proof.
  induction l as [|[n s] l IH]; intros g g' H; cbn [compute_all] in H; [injection H as <-; auto|].
  ob H. destruct (IH _ _ H) as (A & B & C). rewrite A, B, C. clear - E. unfold compute_constraint in E.
  destruct (get s (subs g)); [|discriminate]. ob E. destruct (v_skip (o n s)); [injection E as <-; auto|].
  ob E. ob E. injection E as <-. destruct (v_search (o n s)); auto.
Qed.
Lemma insert_same n ss : forall g g', insert_node n ss g = Some g' ->
  constraints g' = constraints g ++ map (fun s => mk_cons s n false) ss /\ added g' = added g /\ trajs g' = trajs g.
Proof.
  induction ss as [|s ss IH]; intros g g' H; cbn [insert_node] in H; [injection H as <-; cbn; rewrite app_nil_r; auto|].
  ob H. ob H. ob H. destruct (IH _ _ H) as (A & B & C). cbn in A, B, C. rewrite A, B, C. cbn. rewrite <- app_assoc. auto.
Qed.
Lemma initialize_same t objs g r : initialize_poses t objs g = Some r ->
  NoDup (fst r) /\ constraints (snd r) = constraints g /\ added (snd r) = added g /\ trajs (snd r) = trajs g /\ onodes (snd r) = onodes g.
Proof.
  intros H. destruct objs as [|o1 [|o2 [|]]]; try discriminate; cbn [initialize_poses] in H.
  - ob H. ob H. ob H. ob H. injection H as <-. cbn [fst snd]. split; [repeat constructor; auto|].
    destruct (mbi_traj_size t (osubs g) =? 0)%nat.
    + ob E. ob E. ob E. injection E as <-. cbn. auto.
    + injection E as <-. auto.
  - destruct (last_id t (osubs g)) as [x|]; [|discriminate]. ob H. destruct b.
    + ob H. injection H as <-. cbn. split; [|auto]. constructor; [|repeat constructor; auto]. intros [Q | []].
      pose proof (f_equal snd Q). cbn in *. lia.
    + ob H. ob H. ob H. ob H. injection H as <-. cbn. split; [|auto]. constructor; [|repeat constructor; auto]. intros [Q | []].
      pose proof (f_equal snd Q). cbn in *. lia.
Qed.
Lemma node_both every_n o n objs newly g r : node_item every_n o n objs newly g = Some r ->
  (forall c, In c (constraints g) -> c_node c <> n) -> both g -> both (fst r).
Proof.
  unfold node_item. intros H Nw B. ob H. ob H. destruct (initialize_same _ _ _ _ E0) as (ND & C1 & A1 & T1 & _).
  cbv zeta in H. destruct p as [ss g1]. cbn [fst snd] in *. destruct ss as [|front ss]; [discriminate|].
  ob H. ob H. ob H. ob H. ob H. ob H. ob H.
  destruct (insert_same _ _ _ _ E3) as (C2 & A2 & T2). cbn in C2, A2, T2.
  injection H as <-. cbn [fst].
  assert (S5 : constraints (fst p0) = constraints g0 /\ added (fst p0) = added g0 /\ trajs (fst p0) = trajs g0).
  { destruct newly.
    - ob E5. ob E5. ob E5. injection E5 as <-. auto.
    - injection E5 as <-. auto. }
  destruct S5 as (C3 & A3 & T3). destruct (compute_same _ _ _ _ E6) as (C4 & A4 & T4).
  assert (S7 : constraints g3 = constraints g2 /\ added g3 = added g2 /\ trajs g3 = trajs g2).
  { destruct newly; [eapply compute_same; exact E7 | injection E7 as <-; auto]. }
  destruct S7 as (C5 & A5 & T5). destruct B as (O & K & S).
  assert (Ec : constraints g3 = constraints g ++ map (fun s => mk_cons s n false) (front :: ss)) by (cbn [map]; congruence).
  split; [|split].
  - unfold intra_once. cbn [constraints set_since set_num_finished]. rewrite Ec, filter_app.
    replace (filter (fun c => negb (c_inter c)) (map (fun s => mk_cons s n false) (front :: ss))) with (map (fun s => mk_cons s n false) (front :: ss)).
    2:{ generalize (front :: ss). clear. intros l. induction l; [reflexivity|]. cbn. now rewrite <- IHl. }
    apply NoDup_join; [exact O | |].
    + apply NoDup_map_on; [|exact ND]. intros a b _ _ [= E9]. exact E9.
    + intros c I J. apply filter_In in I as [I _]. apply in_map_iff in J as (s & <- & _). now apply (Nw _ I).
  - intros t Kt. cbn [trajs set_since set_num_finished]. unfold knows in Kt. cbn [added set_since set_num_finished] in Kt.
    replace (trajs g3) with (trajs g) by congruence. apply K. unfold knows. replace (added g) with (added g3) by congruence. exact Kt.
  - cbn [trajs set_since set_num_finished]. replace (trajs g3) with (trajs g) by congruence. exact S.
Qed.

(* ---- a call ---- *)
Lemma add_both t g g' : add_trajectory t g = Some g' -> both g -> both g'.
Proof.
  intros H (O & K & S). unfold add_trajectory in H.
  assert (E : g' = set_added (t :: added g) (set_trajs (zput t (traj_state t g) (trajs g)) g)).
  { destruct (traj_state t g) as [[] []]; try discriminate; now injection H as <-. }
  subst g'. split; [exact O|]. split; [|cbn; now apply zput_sorted]. intros u Ku. cbn. rewrite zfind_zput by exact S.
  unfold knows in Ku. cbn in Ku. destruct (Z.eqb_spec u t); [discriminate|]. cbn in Ku. now apply K.
Qed.
Lemma call_both c k k' g r : allowed c k g = Some k' -> do_call c g = Some r -> both g -> both (fst r).
Proof.
  intros A H B. destruct c; cbn [allowed do_call] in A, H; try discriminate.
  - ob H. ob H. injection H as <-. unfold append_node in E0. destruct (rev objs); [discriminate|]. ob E0. pose proof (add_both _ _ _ E1 B) as B1.
    ob E0. ob E0. cbv zeta in E0. match type of E0 with (if ?b then _ else _) = _ => destruct b end.
    + ob E0. injection E0 as <-. exact B1.
    + injection E0 as <-. exact B1.
  - injection H as <-. exact B.
  - destruct (zfind t (trajs g)) as [[st ds]|]; injection H as <-; [|exact B]. exact (less_both _ _ (less_put _ _ _) B).
  - injection H as <-. exact B.
  - destruct tr; [ob H|]; injection H as <-; exact B.
  - injection H as <-. exact B.
  - injection H as <-. exact B.
  - ob H. injection H as <-. exact B.
  - ob H. injection H as <-. exact B.
Qed.

Lemma step_both every_n e s k k' s' : good s k ->
  match e with Call c => allowed c k (gr s) = Some k' | _ => True end ->
  step every_n e s = Some s' -> both (gr s) -> both (gr s').
Proof.
  intros G A H B. unfold step in H. destruct e as [c|o|found| |chs|found].
  - ob H. injection H as <-. eapply call_both; eassumption.
  - destruct (md s); try (injection H as <-; exact B). destruct (queue s) as [|i q] eqn:Q; [injection H as <-; exact B|].
    ob H. injection H as <-. cbn [gr]. pose proof (s_plain _ _ G) as Pl. rewrite Q in Pl. apply Forall_inv in Pl.
    destruct i as [n objs newly|t|t|t|t|s0|n|n s0|l|tr| |]; cbn [plain] in Pl; try contradiction; cbn [exec] in E.
    + eapply node_both; [exact E | | exact B]. intros c I Ec. apply (g_con _ (s_glob _ _ G)) in I as [_ I]. rewrite Ec in I.
      pose proof (s_status _ _ G (fst n)) as St. rewrite Q in St. cbn [filter concerns] in St. rewrite Z.eqb_refl in St.
      apply head_status in St as (_ & w & p1 & p' & [Ch _ _ _ _ _ Nx _ _ _ _] & _). cbn [pend flat_map app] in Ch.
      destruct n as [t j]. cbn [fst] in *. assert (E1 : j = p1) by (inversion Ch; congruence). subst p1. apply I.
      change (get (t, j) (onodes (gr s)) = None).
      destruct Nx as [[-> Nx] | [_ Nx]]; [apply Nx | apply Nx; lia].
    + ob E. injection E as <-. exact B.
    + destruct (zfind t (trajs (gr s))) as [[[] []]|]; try discriminate; injection E as <-; exact (less_both _ _ (less_put _ _ _) B).
    + ob E. injection E as <-. exact (less_both _ _ (less_put _ _ _) B).
    + injection E as <-. exact B.
    + injection E as <-. exact B.
    + injection E as <-. exact B.
  - destruct (md s); try (injection H as <-; exact B). injection H as <-. exact (less_both _ _ (less_results _ _) B).
  - destruct (md s); try (injection H as <-; exact B). ob H. injection H as <-. unfold run_optimization in E.
    destruct (entries (osubs (gr s))); [injection E as <-; exact B|]. ob E. ob E. ob E. injection E as <-. exact B.
  - destruct (md s); try (injection H as <-; exact B). ob H. injection H as <-. unfold finish_handling in E. ob E. ob E. ob E. injection E as <-.
    eapply less_both; [|exact B]. eapply less_trans; [eapply less_delete; eassumption|]. eapply less_trans; [eapply less_trim_with; eassumption|].
    now apply less_eq.
  - destruct (md s); try (injection H as <-; exact B). ob H. injection H as <-. exact (less_both _ _ (less_results _ _) B).
Qed.
Lemma both_run every_n es : forall s k s', good s k -> polite every_n es s k -> run every_n es s = Some s' -> both (gr s) ->
  both (gr s') /\ exists k', good s' k'.
Proof.
  induction es as [|e es IH]; intros s k s' G P H B; cbn [polite run] in *; [injection H as <-; eauto|].
  destruct P as (En & k' & A & P). destruct (good_step every_n e s k k' G En A) as (s1 & H1 & G1).
  rewrite H1 in P, H. cbn [bind] in H. eapply IH; [exact G1 | exact P | exact H|].
  apply (step_both every_n e s k k' s1 G); [destruct e; auto | exact H1 | exact B].
Qed.
Lemma both_init : both (gr init).
Proof. split; [constructor|]. split; [|constructor]. intros t K. discriminate. Qed.

(* ---- what can be said of the state ---- *)
Lemma session_listed g q k md : good (mk_sys g q md) k -> both g -> forall t, mentioned g t -> listed g t.
Proof.
  intros G (_ & K & _) t (j & M). pose proof (s_glob _ _ G) as Gl. cbn in Gl.
  assert (Kn : knows t g = true) by (apply (g_knows _ Gl (t, j)); exact M).
  apply K in Kn. destruct (zfind t (trajs g)) as [st|] eqn:Z1; [|congruence]. exists st. split; [exact Z1|]. intros D.
  pose proof (s_status _ _ G t) as St. cbn [gr] in St.
  assert (Ts : traj_state t g = st) by (unfold traj_state; now rewrite Z1).
  destruct st as [a b]. cbn in D. subst a.
  inversion St as [? ? ? ? ? T | ? ? ? ? ? T | ? T | ? T | ? T | ? ? T Ns Dn]; try congruence.
  assert (Nb : forall j, ~ stored (t, j) (subs g)) by (intros j' S; apply S; exact (Ns j')).
  destruct M as [M | M]; [exact (Nb j M)|]. apply (d_nodes _ _ Dn) in M. destruct (g_node _ Gl _ M) as (s & R).
  destruct (g_rec _ Gl _ _ R) as [_ Es]. cbn in Es. destruct R as (d & Gd & _). apply (Nb (snd s)). unfold stored. rewrite <- Es. cbn. congruence.
Qed.
Lemma session_wf g q k md : good (mk_sys g q md) k -> wfg g /\ integrity g.
Proof.
  intros G. pose proof (s_glob _ _ G) as Gl. cbn in Gl. split; [apply Gl|]. split.
  - intros c I. destruct (g_con _ Gl _ I) as [A B]. split; [now apply (g_onode _ Gl) | now apply (g_osub _ Gl)].
  - intros s n R. apply (g_onode _ Gl). now apply (g_rec _ Gl) in R.
Qed.
Lemma session_submaps g q k md : good (mk_sys g q md) k -> submap_data_ok g = true.
Proof.
  intros G. pose proof (s_glob _ _ G) as Gl. cbn in Gl. unfold submap_data_ok. apply forallb_forall. intros [x d] I. cbn [fst].
  apply orb_true_iff. right. apply entries_In in I; [|apply Gl]. unfold local_to_global_ok.
  destruct (last_id (fst x) (gposes g)) as [y|] eqn:L; [|now rewrite (g_init _ Gl)].
  apply has_stored. destruct (s_poses _ _ G _ _ L) as [S | [No Na]]; [exact S|]. exfalso. cbn [gr] in No, Na.
  pose proof (s_status _ _ G (fst x)) as St. cbn [gr] in St.
  assert (Dn : done g (fst x)).
  { inversion St as [? ? ? ? ? T | ? ? ? ? ? T | ? T | ? T | ? T | ? ? T]; try assumption; rewrite T in Na; cbn in Na; congruence. }
  destruct x as [t j]. cbn [fst] in *. apply get_stored in I. apply (d_dom _ _ Dn) in I. apply I. exact (No j).
Qed.
Lemma session_write incl g q k md p : good (mk_sys g q md) k -> sane g p ->
  (forall t, listed g t -> 0 <= t < next p) -> exists ms, write incl g p = Some ms.
Proof.
  intros G Sn Op. destruct (session_wf _ _ _ _ G) as [_ [Ig _]]. unfold write, write_two, to_proto. rewrite (session_submaps _ _ _ _ G). cbn [bind].
  assert (F : forallb (fun c => has (c_node c) (nodes g)) (constraints g) = true).
  { apply forallb_forall. intros c I. apply has_stored. now apply Ig. }
  rewrite F. cbn [bind].
  assert (Eo : forall l, (forall t, In t l -> 0 <= t < next p) -> exists os, options_of l (options p) = Some os).
  { induction l as [|t l IH]; intros H; cbn; [eauto|]. destruct (H t (or_introl eq_refl)) as [H1 H2].
    rewrite (proj2 (Z.leb_le 0 t) H1). destruct (nth_error (options p) (Z.to_nat t)) as [o|] eqn:N1.
    - cbn [bind]. destruct IH as (os & ->); [intros u I; apply H; now right|]. cbn. eauto.
    - exfalso. apply nth_error_None in N1. unfold next in H2. lia. }
  destruct (Eo (valid_ids g)) as (os & ->); [intros t I; apply Op; now apply (valid_enumerates g (SL_Spec.s_trajs _ _ Sn))|].
  cbn [bind]. eauto.
Qed.
