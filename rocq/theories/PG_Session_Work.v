From Coq Require Import List ZArith Bool Lia Sorted.
From Verif Require Import ZMap MapById_Model MapById_Spec MapById_Proofs PG_Model PG_Maps PG_Spec
  PG_Proofs PG_Trim PG_Delete PG_Client PG_Session PG_Session_Call PG_Session_Node.
Import ListNotations.
Open Scope Z_scope.

Lemma slots_front t w' nw : (match w' with P3 _ _ _ => nw = true | _ => nw = false end) -> w' <> P0 ->
  exists front rest, slots t w' = front :: rest /\ In front (slots t w') /\ (nw = true -> front = (t, idx w' - 1)) /\
    NoDup (slots t w') /\ fst front = t.
Proof.
  intros H N. destruct w'; cbn; [congruence | | |]; (eexists; eexists; (split; [reflexivity|])).
  - split; [now left|]. split; [congruence|]. split; [repeat constructor; auto|reflexivity].
  - split; [now left|]. split; [congruence|]. split; [|reflexivity]. repeat constructor; auto. intros [[= E]|[]]. lia.
  - split; [now left|]. split; [reflexivity|]. split; [|reflexivity]. repeat constructor; auto. intros [[= E]|[]]. lia.
Qed.

Lemma slots_unfin g t w' : at_phase g t (pre w') -> forall s, In s (slots t w') -> exists o, unfin g s o.
Proof.
  intros Ph s I. destruct w'; cbn in *; [contradiction | | |].
  - destruct I as [<-|[]]. eauto.
  - destruct Ph as (_ & _ & U1 & U0). destruct I as [<-|[<-|[]]]; eauto.
  - destruct Ph as (_ & _ & U1 & U0). destruct I as [<-|[<-|[]]]; eauto.
Qed.

Lemma node_item_ok every_n o g t w c p p' n objs nw r :
  glob g -> live g t w c p p' ((n, objs, nw) :: r) -> 0 <= t ->
  local_to_global_ok (gposes g) t g = true ->
  exists g' b w' ex, node_item every_n o n objs nw g = Some (g', b) /\ n = (t, p) /\
    glob g' /\ live g' t w' c (p + 1) p' r /\ (forall a, a <> t -> same_at a g g') /\
    gposes g' = gposes g /\ trajs g' = trajs g /\ trimmers g' = trimmers g /\
    searches g' = searches g ++ ex /\ num_nodes g' = num_nodes g /\ num_finished g' = num_finished g + 1 /\
    (forall x, stored x (subs g) -> stored x (subs g')) /\
    (forall x, fst x <> t -> get x (osubs g') = get x (osubs g)).
Proof.
  intros G L Ht Lg. pose proof (g_wf _ G) as W. pose proof (l_chain _ _ _ _ _ _ _ L) as C.
  inversion C as [|? ? ? ? w' ? ? ? A C1]; subst. destruct (chain_le _ _ _ _ _ _ C1) as [LE1 LE2].
  pose proof (l_fresh _ _ _ _ _ _ _ L) as Fr. cbn in Fr. rewrite A in Fr. destruct Fr as [Fr _].
  destruct (adv_idx _ _ _ _ A) as (Nw & _ & _ & _).
  destruct (init_ok _ _ _ _ _ _ _ _ _ _ G L Ht Lg A Fr) as (m & Ei & Wm & Sm & Gm & Ph & Fi).
  destruct (slots_front t w' nw (adv_newly _ _ _ _ A) Nw) as (front & rest & Es & If & Hf & Nd & Ff).
  remember (node_item every_n o (t, p) objs nw g) as X eqn:EX. unfold node_item in EX. assert (Hn : has (t, p) (nodes g) = true) by (apply has_stored, (l_nodes _ _ _ _ _ _ _ L); right; lia).
  rewrite Hn in EX. cbn [fst] in EX. rewrite Ei in EX. cbn [bind fst snd] in EX. cbv zeta in EX. rewrite Es in EX. rewrite Ff in EX.
  assert (Hfr : has front (osubs (set_osubs m g)) = true).
  { apply has_stored. unfold stored. cbn. fold (get front m). rewrite Gm. destruct (id_eqb_spec front (t, idx w')) as [|Ne]; [discriminate|].
    assert (Sf : stored front (subs g)) by (destruct (slots_unfin _ _ _ Ph _ If) as (o' & U); eapply unfin_stored; exact U).
    assert (E : front = (t, idx w' - 1)).
    { destruct w'; cbn in *; [contradiction | | |]; destruct If as [<-|If]; auto; try (destruct If as [<-|[]]; congruence); try contradiction; congruence. }
    rewrite E in Sf |- *. apply (l_dom _ _ _ _ _ _ _ L). split; [exact Sf|]. destruct (adv_idx _ _ _ _ A) as (_ & _ & Ix & _). lia. }
  rewrite Hfr in EX. change (onodes (set_osubs m g)) with (onodes g) in EX.
  pose proof (append_get (onodes g) t tt (w_onodes _ W)) as Ao. pose proof (l_shut _ _ _ _ _ _ _ L) as (_ & _ & _ & H4).
  destruct (mbi_append t tt (onodes g)) as [[x mo]|]; [|destruct Ao as [|]; [lia | congruence]].
  destruct Ao as (Wo & Fx & Nx & _ & Go & So & _). destruct x as [x1 x2]. cbn [fst snd] in *. subst x1.
  pose proof (next_of_unique _ _ _ _ (w_onodes _ W) Nx (l_next _ _ _ _ _ _ _ L)) as ->. cbn [bind snd] in EX.
  destruct (insert_node_ok (t, p) (slots t w') (set_onodes mo (set_osubs m g)) (w_subs _ W) Nd) as (mi & Em & Wi & Si & Gi).
  { intros s Is. exact (slots_unfin _ _ _ Ph s Is). }
  rewrite <- Es, Em in EX. cbn [bind] in EX.
  match type of EX with context [set_constraints ?a ?b] => set (g2 := set_constraints a b) in EX end.
  change (subs (set_onodes mo (set_osubs m g))) with (subs g) in Gi, Si.
  change (subs g2) with mi in EX.
  assert (Nn : forall s, ~ recorded g s (t, p)).
  { intros s R. destruct (g_rec _ G s (t, p) R) as [S _]. apply S. eapply next_of_above; [apply (l_next _ _ _ _ _ _ _ L) | lia]. }
  assert (Chk : forallb (fun e => negb (mem (t, p) (nids (snd e)))) (filter (fun e => fin (snd e)) (entries mi)) = true).
  { apply forallb_forall. intros [s d] I. apply filter_In in I as [I F]. cbn in *. apply negb_true_iff, mem_false. intros In_.
    apply entries_In in I; [|exact Wi]. rewrite Gi in I. destruct (mem s (slots t w')) eqn:M.
    - apply mem_spec in M. destruct (slots_unfin _ _ _ Ph s M) as (o' & d' & E & _ & F'). rewrite E in I. cbn in I. injection I as <-. cbn in F. congruence.
    - apply (Nn s). exists d. auto. }
  rewrite Chk in EX.
  set (fins := filter (fun e => fin (snd e)) (entries mi)) in EX.
  (* finishing the front submap *)
  assert (Nwl : exists ms l0, (if nw then d <- get front mi;; (if negb (fin d) then m0 <- upd front (fun d => mk_sub (obj d) true (nids d)) mi;; Some (set_subs m0 g2, nids d) else None)
                  else Some (g2, [])) = Some (set_subs ms g2, l0) /\ wf ms /\ (forall a, shut a ms = shut a (subs g)) /\
     (forall y, get y ms = option_map (fun d => mk_sub (obj d) (fin d || (nw && id_eqb y front))
                          (if mem y (slots t w') then set_add (t, p) (nids d) else nids d)) (get y (subs g)))).
  { destruct nw.
    - destruct (slots_unfin _ _ _ Ph front If) as (o' & d' & E & _ & F').
      assert (Mf : mem front (slots t w') = true) by now apply mem_spec.
      assert (E' : get front mi = Some (mk_sub (obj d') (fin d') (set_add (t, p) (nids d')))) by (rewrite Gi, Mf, E; reflexivity).
      rewrite E'. cbn [bind fin]. rewrite F'. cbn [negb].
      pose proof (upd_get mi front (fun d => mk_sub (obj d) true (nids d)) Wi) as U. destruct (upd front _ mi) as [ms|]; [|congruence].
      destruct U as (Wms & (v & Gv & Gms) & Sms). cbn [bind]. exists ms. eexists. split; [reflexivity|]. split; [exact Wms|].
      split; [intros a; now rewrite Sms|]. intros y. rewrite Gms. destruct (id_eqb_spec y front) as [->|Ny].
      + rewrite Mf, E. cbn. rewrite F'. cbn. rewrite E' in Gv. injection Gv as <-. reflexivity.
      + rewrite Gi. cbn. destruct (mem y (slots t w')); destruct (get y (subs g)) as [d|]; cbn; try reflexivity; rewrite orb_false_r; [reflexivity | now destruct d].
    - exists mi, []. split; [destruct g; reflexivity|]. split; [exact Wi|]. split; [exact Si|]. intros y. rewrite Gi. cbn.
      destruct (mem y (slots t w')); destruct (get y (subs g)) as [d|]; cbn; try reflexivity; rewrite orb_false_r; [reflexivity | now destruct d]. }
  destruct Nwl as (ms & l0 & En & Wms & Sms & Gms). rewrite En in EX. cbn [bind fst snd] in EX.
  destruct (record_ok g t w c p p' (t, p) objs nw w' r m mo ms front G L A eq_refl Wm Sm Gm Ph Fi Wo So Go If Hf Wms Sms Gms) as (G3 & L3 & O3).
  change (set_subs ms g2) with (set_constraints (constraints g ++ map (fun s => mk_cons s (t, p) false) (slots t w'))
              (set_subs ms (set_onodes mo (set_osubs m g)))) in EX.
  set (g3 := set_constraints (constraints g ++ map (fun s => mk_cons s (t, p) false) (slots t w'))
              (set_subs ms (set_onodes mo (set_osubs m g)))) in *.
  assert (Sp : stored (t, p) (onodes g3)) by (change (get (t, p) mo <> None); rewrite Go, id_eqb_refl; discriminate).
  match type of EX with context [compute_all o ?l g3] => destruct (compute_all_ok o l g3 G3) as (ex1 & Ec & G4) end.
  { intros n' s' I. apply in_map_iff in I as ([s d] & [= <- <-] & I). split; [exact Sp|]. apply filter_In in I as [I F].
    apply entries_In in I; [|exact Wi]. cbn in F. cbn [fst]. rewrite Gi in I. cbn [g3 subs set_constraints set_subs]. rewrite Gms.
    destruct (mem s (slots t w')); destruct (get s (subs g)) as [d0|]; cbn in I |- *; try discriminate; injection I as <-;
      (eexists; split; [reflexivity|]); cbn in *; now rewrite F. }
  rewrite Ec in EX. cbn [bind] in EX. set (g4 := set_searches (searches g3 ++ ex1) g3) in *.
  assert (Ne : exists ex2, (if nw then compute_all o (map (fun e => (fst e, front)) (filter (fun e => negb (mem (fst e) l0)) (entries (onodes g4)))) g4
                            else Some g4) = Some (set_searches (searches g4 ++ ex2) g4) /\ glob (set_searches (searches g4 ++ ex2) g4)).
  { destruct nw.
    - apply compute_all_ok; [exact G4|]. intros n' s' I. apply in_map_iff in I as ([x v] & [= <- <-] & I). apply filter_In in I as [I _].
      apply entries_In in I; [|apply (w_onodes _ (g_wf _ G4))]. split; [eapply get_stored; exact I|].
      cbn [g4 g3 subs set_constraints set_subs set_searches]. rewrite Gms, id_eqb_refl.
      destruct (slots_unfin _ _ _ Ph front If) as (o' & d' & E & _ & _). rewrite E. cbn. eexists. split; [reflexivity|]. cbn. apply orb_true_r.
    - exists []. rewrite app_nil_r. split; [destruct g; reflexivity|].
      assert (E : set_searches (searches g4) g4 = g4) by (destruct g; reflexivity). now rewrite E. }
  destruct Ne as (ex2 & Ed & G5). rewrite Ed in EX. cbn [bind] in EX. set (g5 := set_searches (searches g4 ++ ex2) g4) in *.
  rewrite EX.
  do 2 eexists. exists w', (ex1 ++ ex2). split; [reflexivity|]. split; [reflexivity|].
  split; [|split; [|split]].
  - eapply (glob_maps g5); try reflexivity; try apply incl_refl; try exact G5; try apply (g_wf _ G5). apply (g_init _ G5).
  - eapply live_same; [|exact L3]. now apply same_maps.
  - intros a Na. destruct (O3 a Na) as (Q1 & Q2 & Q3 & Q4 & Q5). exact (conj Q1 (conj Q2 (conj Q3 (conj Q4 Q5)))).
  - cbn. rewrite app_assoc. repeat split; auto.
    + intros x Sx. unfold stored. cbn. fold (get x ms). rewrite Gms. unfold stored in Sx. fold (get x (subs g)) in Sx.
      destruct (get x (subs g)); [discriminate | congruence].
    + intros x Fx. fold (get x m). rewrite Gm. destruct (id_eqb_spec x (t, idx w')) as [->|]; [|reflexivity]. cbn in Fx. congruence.
Qed.

Lemma active_poses g t : poses_ok g -> glob g -> fst (traj_state t g) = Active ->
  local_to_global_ok (gposes g) t g = true.
Proof.
  intros P G T. unfold local_to_global_ok. rewrite (g_init _ G). cbn.
  destruct (last_id t (gposes g)) as [x|] eqn:L; [|reflexivity].
  destruct (P t x L) as [St | [_ N]]; [now apply has_stored | contradiction].
Qed.

(* the head of the queue is the first of the items of its trajectory *)
Lemma head_status g t i q a b c : status g t (i :: q) a b c ->
  match i with
  | INode _ _ _ | IData _ =>
      traj_state t g = (Active, Normal) /\
      exists w p p', live g t w c p p' (pend (i :: q)) /\
        (forall g' w' p1, traj_state t g' = (Active, Normal) -> live g' t w' c p1 p' (pend q) -> status g' t q a b c)
  | IFinish u => u = t /\ q = [] /\ a = true /\ b = false /\ traj_state t g = (Active, Normal) /\ exists w p p', live g t w c p p' []
  | IDelete u => u = t /\ q = [] /\ a = true /\ b = true /\ traj_state t g = (Finished, Scheduled) /\ done g t
  | _ => False
  end.
Proof.
  intros S. remember (i :: q) as l eqn:El. destruct S as [its w p p' c T F L | its w p p' c T F L | | c T D | |]; try discriminate.
  - subst its. inversion F as [|? ? Hi F']; subst. destruct i; cbn in Hi; try contradiction;
      (split; [exact T|]); exists w, p, p'; (split; [exact L|]); intros; eapply st_open; eauto.
  - destruct its as [|i' its].
    + cbn in El. injection El as <- <-. do 4 (split; [reflexivity|]). split; [exact T|]. eauto.
    + cbn in El. injection El as <- <-. inversion F as [|? ? Hi F']; subst.
      assert (E : forall l, pend (l ++ [IFinish t]) = pend l) by (intros l; rewrite pend_app; cbn; apply app_nil_r).
      pose proof (E (i' :: its)) as E2. cbn [app] in E2.
      destruct i'; cbn in Hi; try contradiction; (split; [exact T|]); exists w, p, p'; (split; [cbn [app]; rewrite E2; exact L|]);
        intros g' w' p1 T' L'; rewrite E in L'; eapply st_closing; eauto.
  - injection El as <- <-. auto 6.
Qed.

Lemma finish_live g t w c p p' : wfg g -> live g t w c p p' [] ->
  let g' := set_subs (finish_submaps t (subs g)) g in done g' t.
Proof.
  intros W L g'. destruct (finish_submaps_get (subs g) t (w_subs _ W)) as (_ & Gf & _).
  destruct L as [L1 L2 L11 L3 L4 L5 L6 L7 L8 L9 L10]. inversion L1; subst.
  assert (St : forall j, stored (t, j) (finish_submaps t (subs g)) <-> stored (t, j) (subs g)).
  { intros j. rewrite !stored_get, Gf. cbn [fst]. rewrite Z.eqb_refl. apply option_map_stored. }
  constructor; cbn.
  - intros j. rewrite St, L3. split; [tauto|]. intros S. split; [exact S|].
    destruct (Z_le_dec j (idx c)); [assumption|]. exfalso. apply S. apply L5. lia.
  - intros j d. rewrite Gf. cbn [fst]. rewrite Z.eqb_refl. destruct (get (t, j) (subs g)); [|discriminate]. cbn. now intros [= <-].
  - intros j. rewrite L7. split; [intros [A|A]; [exact A | lia] | now left].
Qed.

Lemma good_work every_n o s k : good s k -> md s = Draining ->
  exists s', step every_n (Work o) s = Some s' /\ good s' k.
Proof.
  intros G M. unfold step. rewrite M. destruct (queue s) as [|i q] eqn:Q.
  { eexists. split; [reflexivity|]. destruct G. rewrite M, Q in *. constructor; cbn; auto. }
  pose proof G as [G1 G2 G3 G4 G5 G6 G7 G8 G9 G10 G11]. rewrite Q in *.
  pose proof (Forall_inv G4) as Pi. apply Forall_inv_tail in G4.
  assert (G6' : forall t kp f, In (ITrimmer (Pure t kp f)) q -> pure k t = true) by (intros t kp f I; eapply G6; right; exact I).
  (* items that leave the maps alone *)
  assert (Same : forall g' b, exec every_n o i (gr s) = Some (g', b) -> glob g' ->
     subs g' = subs (gr s) -> osubs g' = osubs (gr s) -> gposes g' = gposes (gr s) ->
     (forall t, fst (traj_state t g') = fst (traj_state t (gr s))) ->
     (forall t, status g' t (filter (concerns t) q) (closed k t) (del k t) (ph k t)) ->
     Forall (trimmer_ok k) (trimmers g') -> num_nodes g' = num_finished g' + count_nodes q -> zsorted (trajs g') ->
     exists s', (r <- exec every_n o i (gr s);; Some (mk_sys (fst r) q (if snd r : bool then Awaiting else Draining))) = Some s' /\ good s' k).
  { intros g' b -> Hg E1 E2 E3 Et St Tr Cn Zs. cbn [bind fst snd]. eexists. split; [reflexivity|].
    constructor; cbn [gr queue md]; auto.
    - intros t x Lx. rewrite E3 in Lx. rewrite E1. destruct (G2 t x Lx) as [|[A B]]; [now left|]. right. split; [now rewrite E2 | now rewrite Et].
    - destruct b; discriminate.
    - destruct b; exact I. }
  destruct i; cbn [plain] in Pi; try contradiction.
  - (* INode *)
    pose proof (G3 (fst n)) as S. cbn [filter concerns] in S. rewrite Z.eqb_refl in S.
    apply head_status in S as (T & w & p & p' & L & K). cbn [pend flat_map app] in L.
    pose proof (l_chain _ _ _ _ _ _ _ L) as C. inversion C as [|? ? ? ? w1 ? ? ? A C1]; subst. cbn [fst] in *.
    set (t := fst n) in *. rewrite H1.
    assert (Ht : 0 <= t).
    { assert (Sn : stored (t, p) (nodes (gr s))).
      { apply (l_nodes _ _ _ _ _ _ _ L). right. destruct (chain_le _ _ _ _ _ _ C1). lia. }
      apply stored_nonneg in Sn; [lia | apply G1]. }
    destruct (node_item_ok every_n o (gr s) t w (ph k t) p p' n objs newly _ G1 L Ht) as
      (g' & b & w' & ex & E & _ & Gg & L' & O & Q1 & Q2 & Q3 & Q4 & Q5 & Q6 & Q7 & Q8).
    { apply active_poses; auto. now rewrite T. }
    cbn [exec]. rewrite E. cbn [bind fst snd]. eexists. split; [reflexivity|].
    assert (Ts : forall a, traj_state a g' = traj_state a (gr s)) by (intros a; unfold traj_state; now rewrite Q2).
    constructor; cbn [gr queue md]; auto.
    + intros a x Lx. rewrite Q1 in Lx. destruct (G2 a x Lx) as [|[A1 B1]]; [left; auto|].
      right. split; [|now rewrite Ts]. intros j. rewrite Q8; [apply A1|]. cbn. intros ->. rewrite T in B1. now apply B1.
    + intros a. destruct (Z.eq_dec a t) as [->|Na].
      * eapply K; [rewrite Ts; exact T | exact L'].
      * specialize (G3 a). cbn [filter concerns] in G3. fold t in G3. destruct (Z.eqb_spec t a); [congruence|].
        eapply status_same; [apply O; exact Na | apply Ts | exact G3].
    + now rewrite Q3.
    + rewrite Q5, Q6, G8. unfold count_nodes. cbn [pend flat_map app length]. fold (pend q). lia.
    + now rewrite Q2.
    + destruct b; discriminate.
    + destruct b; exact I.
  - (* IData *)
    pose proof (G3 t) as S. cbn [filter concerns] in S. rewrite Z.eqb_refl in S.
    apply head_status in S as (T & w & p & p' & L & K).
    assert (Cm : can_modify t (gr s) = true).
    { unfold can_modify. unfold traj_state in T. destruct (zfind t (trajs (gr s))) as [[[] []]|]; congruence. }
    apply (Same (gr s) false); auto.
    + cbn [exec]. now rewrite Cm.
    + intros a. destruct (Z.eq_dec a t) as [->|Na]; [eapply K; [exact T | exact L]|].
      specialize (G3 a). cbn [filter concerns] in G3. destruct (Z.eqb_spec t a); [congruence | exact G3].
  - (* IDelete *)
    pose proof (G3 t) as S. cbn [filter concerns] in S. rewrite Z.eqb_refl in S.
    apply head_status in S as (_ & Eq & Ea & Eb & T & D).
    assert (Zf : zfind t (trajs (gr s)) = Some (Finished, Scheduled)) by (unfold traj_state in T; destruct (zfind t (trajs (gr s))); congruence).
    destruct (state_put (gr s) t (Finished, Waiting) G9 (set_trajs (zput t (Finished, Waiting) (trajs (gr s))) (gr s)) eq_refl) as [Z1 T1].
    apply (Same (set_trajs (zput t (Finished, Waiting) (trajs (gr s))) (gr s)) false); auto.
    + cbn [exec]. now rewrite Zf.
    + apply (glob_maps (gr s)); auto using incl_refl; apply G1.
    + intros a. rewrite T1. destruct (Z.eqb_spec a t) as [->|]; [now rewrite T | reflexivity].
    + intros a. destruct (Z.eq_dec a t) as [->|Na].
      * rewrite Eq, Ea, Eb. apply st_waiting; [rewrite T1, Z.eqb_refl; reflexivity|]. apply (done_same (gr s)); [now apply same_maps | exact D].
      * specialize (G3 a). cbn [filter concerns] in G3. destruct (Z.eqb_spec t a); [congruence|].
        apply (status_same (gr s)); [now apply same_maps | | exact G3]. rewrite T1. destruct (Z.eqb_spec a t); congruence.
  - (* IFinish *)
    pose proof (G3 t) as S. cbn [filter concerns] in S. rewrite Z.eqb_refl in S.
    apply head_status in S as (_ & Eq & Ea & Eb & T & w & p & p' & L).
    assert (Fn : is_finished t (gr s) = false) by (unfold is_finished; now rewrite T).
    cbn [exec]. rewrite Fn. cbn [negb bind fst snd]. rewrite T. cbn [snd]. eexists. split; [reflexivity|].
    set (g' := set_subs (finish_submaps t (subs (gr s))) (set_trajs (zput t (Finished, Normal) (trajs (gr s))) (gr s))).
    destruct (state_put (gr s) t (Finished, Normal) G9 g' eq_refl) as [Z1 T1].
    destruct (finish_submaps_get (subs (gr s)) t (w_subs _ (g_wf _ G1))) as (Wf & Gf & Sf).
    assert (St : forall x, stored x (finish_submaps t (subs (gr s))) <-> stored x (subs (gr s))).
    { intros x. rewrite !stored_get, Gf. destruct (fst x =? t); [apply option_map_stored | tauto]. }
    assert (Dn : done g' t) by (eapply done_same; [now apply (same_maps t (set_subs (finish_submaps t (subs (gr s))) (gr s))) | exact (finish_live (gr s) t _ _ _ _ (g_wf _ G1) L)]).
    assert (Rec : forall x n, recorded g' x n <-> recorded (gr s) x n).
    { intros x n. unfold recorded. cbn. fold (get x (finish_submaps t (subs (gr s)))). fold (get x (subs (gr s))). rewrite Gf.
      destruct (fst x =? t); [|reflexivity]. destruct (get x (subs (gr s))) as [d|]; cbn; [|split; intros (? & ? & _); discriminate].
      split; intros (e & [= <-] & I); eexists; (split; [reflexivity|]); exact I. }
    constructor; cbn [gr queue md].
    + pose proof G1 as [[] H2 H3 H4 H5 H6 H7 H8 H9 H10 H11]. constructor; cbn; auto.
      * constructor; cbn; auto.
      * intros x d Gd Fd. rewrite Gf in Gd. destruct (Z.eqb_spec (fst x) t) as [E|]; [|eauto]. destruct x as [x1 x2]. cbn in E. subst x1.
        apply (d_dom _ _ Dn). cbn. apply St. destruct (get (t, x2) (subs (gr s))) eqn:E'; [|discriminate]. eapply get_stored; exact E'.
      * intros x n R. apply H3. now apply Rec.
      * intros n Sn. destruct (H4 n Sn) as (x & R). exists x. now apply Rec.
      * intros x d Gd. rewrite Gf in Gd. destruct (fst x =? t); [|eauto]. destruct (get x (subs (gr s))) eqn:E'; [|discriminate].
        cbn in Gd. injection Gd as <-. cbn. eauto.
      * intros x Sx. apply St. auto.
      * intros x Hx. change (knows (fst x) g') with (knows (fst x) (gr s)). apply H10. destruct Hx as [Hx|Hx]; [left; now apply St | now right].
    + intros a x Lx. change (gposes g') with (gposes (gr s)) in Lx. destruct (G2 a x Lx) as [Sx|[A B]]; [left; now apply St|].
      right. split; [exact A|]. rewrite T1. destruct (Z.eqb_spec a t) as [->|]; [discriminate | exact B].
    + intros a. destruct (Z.eq_dec a t) as [->|Na].
      * rewrite Eq, Ea, Eb. apply st_closed; [rewrite T1, Z.eqb_refl; reflexivity | exact Dn].
      * specialize (G3 a). cbn [filter concerns] in G3. destruct (Z.eqb_spec t a); [congruence|].
        apply (status_same (gr s)); [| rewrite T1; destruct (Z.eqb_spec a t); congruence | exact G3].
        unfold same_at. cbn. rewrite Sf. repeat split. intros j. rewrite Gf. cbn. destruct (Z.eqb_spec a t); [congruence | reflexivity].
    + exact G4.
    + exact G5.
    + exact G6'.
    + exact G7.
    + exact G8.
    + exact Z1.
    + discriminate.
    + exact I.
  - (* ITrimmer *)
    eapply (Same (set_trimmers (trimmers (gr s) ++ [tr]) (gr s)) false); auto.
    + apply (glob_maps (gr s)); auto using incl_refl; apply G1.
    + intros a. specialize (G3 a). cbn in G3. apply (status_same (gr s)); [now apply same_maps | reflexivity | exact G3].
    + apply Forall_app. split; [exact G5|]. constructor; [|constructor]. destruct tr as [t keep f|]; cbn; [|exact I]. split; [apply Pi|].
      eapply G6. now left.
  - apply (Same (gr s) true); auto.
  - apply (Same (gr s) false); auto.
Qed.

(* ---- the constraint builder and the optimization ---- *)
Lemma results_stored found g c : glob g -> In c (results found g) ->
  stored (c_sub c) (osubs g) /\ stored (c_node c) (onodes g) /\ c_inter c = true.
Proof.
  intros G I. unfold results in I. apply in_map_iff in I as ([s n] & <- & I). apply filter_In in I as [I _].
  destruct (g_search _ G s n I). auto.
Qed.
Lemma glob_results g found : glob g -> glob (set_searches [] (set_constraints (constraints g ++ results found g) g)).
Proof.
  intros G. pose proof G as [[] H2 H3 H4 H5 H6 H7 H8 H9 H10 H11]. constructor; cbn; auto.
  - constructor; cbn; auto.
  - intros c I. apply in_app_or in I as [I|I]; [auto|]. destruct (results_stored found g c G I) as (A & B & _). auto.
  - contradiction.
Qed.
Lemma good_results s k found m : good s k -> (m = Idle -> queue s = []) ->
  (m = Idle \/ m = Optimizing (results found (gr s))) ->
  good (mk_sys (set_searches [] (set_constraints (constraints (gr s) ++ results found (gr s)) (gr s))) (queue s) m) k.
Proof.
  intros G Hq Hm. pose proof G as [G1 G2 G3 G4 G5 G6 G7 G8 G9 G10 G11]. constructor; cbn [gr queue md]; auto.
  - now apply glob_results.
  - intros t. apply (status_same (gr s)); [now apply same_maps | reflexivity | apply G3].
  - destruct Hm as [-> | ->]; [exact I|]. split; [reflexivity|]. intros c Ic. cbn. split; [apply in_or_app; now right|].
    now apply (results_stored found (gr s)).
Qed.

Lemma good_optimize every_n s k res : good s k -> md s = Optimizing res ->
  exists s', step every_n Optimize s = Some s' /\ good s' k.
Proof.
  intros G M. unfold step. rewrite M. pose proof G as [G1 G2 G3 G4 G5 G6 G7 G8 G9 G10 G11]. rewrite M in G11.
  destruct G11 as [S0 Rs]. set (g := gr s) in *. pose proof (g_wf _ G1) as W.
  unfold run_optimization. destruct (entries (osubs g)) as [|e0 es] eqn:En.
  - cbn [bind]. eexists. split; [reflexivity|]. constructor; cbn [gr queue md]; auto; try discriminate.
    split; [exact S0|]. split; [exact Rs|]. intros x Sx. exfalso. unfold stored in Sx. fold (get x (osubs g)) in Sx.
    destruct (get x (osubs g)) as [v|] eqn:E; [|congruence]. apply entries_In in E; [|apply W]. rewrite En in E. contradiction.
  - assert (C1 : match entries (onodes g) with [] => true | _ =>
       forallb (fun c => has (c_sub c) (osubs g) && has (c_node c) (onodes g)) (constraints g) end = true).
    { destruct (entries (onodes g)); [reflexivity|]. apply forallb_forall. intros c Ic. destruct (g_con _ G1 c Ic) as [A B].
      apply andb_true_iff. split; now apply has_stored. }
    rewrite C1.
    assert (C2 : forallb (fun e => has (fst e) (nodes g)) (entries (onodes g)) = true).
    { apply forallb_forall. intros [x v] I. apply entries_In in I; [|apply W]. apply has_stored, (g_onode _ G1). eapply get_stored; exact I. }
    rewrite C2.
    assert (C3 : forallb (fun e => local_to_global_ok (osubs g) (fst e) g && local_to_global_ok (gposes g) (fst e) g) (onodes g) = true).
    { apply forallb_forall. intros [t [cn dt]] I. cbn [fst]. destruct (traj_In _ _ _ _ (w_onodes _ W) I) as (i & v & Gi).
      apply andb_true_iff. unfold local_to_global_ok. rewrite (g_init _ G1). cbn [zfind]. split.
      - destruct (last_id t (osubs g)) as [x|] eqn:L; [|reflexivity]. apply has_stored, (g_osub _ G1).
        now apply last_id_Some in L as (_ & L & _); [|apply W].
      - destruct (last_id t (gposes g)) as [x|] eqn:L; [|reflexivity]. destruct (G2 t x L) as [Sx | [Em Na]]; [now apply has_stored|].
        exfalso. destruct (g_node _ G1 (t, i)) as (y & R); [eapply get_stored; exact Gi|].
        destruct (g_rec _ G1 y (t, i) R) as [_ Fy]. cbn in Fy. destruct y as [y1 y2]. cbn in Fy. subst y1.
        destruct R as (d & Gd & _). assert (Sy : stored (t, y2) (subs g)) by (unfold stored; congruence).
        assert (Dn : done g t) by (pose proof (G3 t) as St; inversion St as [? ? ? ? ? T|? ? ? ? ? T| | | |]; subst; auto; rewrite T in Na; now elim Na).
        apply (d_dom _ _ Dn) in Sy. apply Sy, Em. }
    rewrite C3. cbn [bind]. eexists. split; [reflexivity|]. constructor; cbn [gr queue md]; auto; try discriminate.
    + apply (glob_maps g); auto using incl_refl; try apply G1.
    + intros t x L. left. cbn in *. apply last_id_Some in L as (_ & L & _); [|apply W]. apply (g_osub _ G1). exact L.
    + intros t. apply (status_same g); [now apply same_maps | reflexivity | apply G3].
Qed.
