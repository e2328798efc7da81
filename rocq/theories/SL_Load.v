(* What LoadState does with a file: proofs. *)
From Coq Require Import List ZArith Bool Lia Sorted.
From Verif Require Import ZMap MapById_Model MapById_Spec MapById_Proofs PG_Model PG_Maps PG_Spec
  PG_Proofs PG_Session_Handle SL_Model SL_Spec SL_Run SL_Write.
Import ListNotations.
Open Scope Z_scope.

(* ---- the renaming ---- *)
Lemma remap_all_ok l : forall n m, zsorted m -> NoDup (map tp_id l) ->
  (forall q, In q l -> zfind (tp_id q) m = None) ->
  exists m', remap_all n l m = Some m' /\ zsorted m' /\
    (forall k q, nth_error l k = Some q -> zfind (tp_id q) m' = Some (n + Z.of_nat k)) /\
    (forall t, ~ In t (map tp_id l) -> zfind t m' = zfind t m).
Proof.
  induction l as [|q l IH]; intros n m S ND Nw; cbn [remap_all].
  - exists m. split; [reflexivity|]. split; [exact S|]. split; [|reflexivity]. intros [|k] q; discriminate.
  - cbn in ND. apply NoDup_cons_iff in ND as [N1 ND]. rewrite (Nw q (or_introl eq_refl)).
    destruct (IH (n + 1) (zput (tp_id q) n m)) as (m' & E & S' & A & B).
    + now apply zput_sorted.
    + exact ND.
    + intros q' I. rewrite zfind_zput by exact S. destruct (Z.eqb_spec (tp_id q') (tp_id q)) as [E|].
      * elim N1. rewrite <- E. now apply in_map.
      * apply Nw. now right.
    + exists m'. split; [exact E|]. split; [exact S'|]. split.
      * intros [|k] q' E'; cbn in E'.
        -- injection E' as <-. rewrite B by exact N1. rewrite zfind_zput, Z.eqb_refl by exact S. f_equal. lia.
        -- rewrite (A k q' E'). f_equal. lia.
      * intros t Nt. cbn in Nt. rewrite B by tauto. rewrite zfind_zput by exact S.
        destruct (Z.eqb_spec t (tp_id q)) as [->|]; [|reflexivity]. tauto.
Qed.

Lemma insert_poses_ok t l : forall m : mbi val, wf m -> 0 <= t -> NoDup (map fst l) ->
  (forall i v, In (i, v) l -> 0 <= i /\ get (t, i) m = None) ->
  exists m', insert_poses t l m = Some m' /\ wf m' /\
    (forall i v, In (i, v) l -> get (t, i) m' = Some v) /\
    (forall y, ~ (fst y = t /\ In (snd y) (map fst l)) -> get y m' = get y m).
Proof.
  induction l as [|[i v] l IH]; intros m Wm Ht ND Nw; cbn [insert_poses].
  - exists m. split; [reflexivity|]. split; [exact Wm|]. split; [contradiction|reflexivity].
  - cbn in ND. apply NoDup_cons_iff in ND as [N1 ND]. destruct (Nw i v (or_introl eq_refl)) as [Hi Gi].
    pose proof (insert_get m t i v Wm) as In1. destruct (mbi_insert t i v m) as [m1|] eqn:E1.
    2:{ exfalso. unfold mbi_insert in E1. destruct (Z.ltb_spec t 0); [lia|]. destruct (Z.ltb_spec i 0); [lia|].
        unfold get in Gi. cbn [fst snd] in Gi. destruct (slot t m) as [c d] eqn:Es.
        rewrite <- (slot_at _ _ _ _ i Es) in E1. rewrite Gi in E1. discriminate. }
    destruct In1 as (W1 & _ & _ & _ & U & _). cbn [bind].
    destruct (IH m1 W1 Ht ND) as (m' & E & W' & A & B).
    + intros j w I. split; [eapply Nw; right; exact I|]. rewrite U.
      destruct (id_eqb_spec (t, j) (t, i)) as [[= ->]|]; [|eapply Nw; right; exact I].
      elim N1. apply in_map_iff. exists (i, w). auto.
    + exists m'. split; [exact E|]. split; [exact W'|]. split.
      * intros j w [[= <- <-] | I]; [|now apply A]. rewrite B by (cbn; tauto). rewrite U.
        destruct (id_eqb_spec (t, i) (t, i)); congruence.
      * intros y Ny. cbn [map fst In] in Ny. rewrite B by tauto. rewrite U.
        destruct (id_eqb_spec y (t, i)) as [->|]; [|reflexivity]. elim Ny. cbn. auto.
Qed.
Lemma poses_ok f l : forall n (m : mbi val), wf m -> 0 <= n ->
  (forall q, In q l -> NoDup (map fst (f q))) ->
  (forall q i v, In q l -> In (i, v) (f q) -> 0 <= i) ->
  (forall t i, n <= t -> get (t, i) m = None) ->
  exists m', poses n f l m = Some m' /\ wf m' /\
    (forall k q i v, nth_error l k = Some q -> In (i, v) (f q) -> get (n + Z.of_nat k, i) m' = Some v) /\
    (forall y, fst y < n -> get y m' = get y m).
Proof.
  induction l as [|q l IH]; intros n m Wm Hn ND Ps Nw; cbn [poses].
  - exists m. split; [reflexivity|]. split; [exact Wm|]. split; [intros [|k] q; discriminate|reflexivity].
  - destruct (insert_poses_ok n (f q) m Wm Hn (ND q (or_introl eq_refl))) as (m1 & E1 & W1 & A1 & B1).
    { intros i v I. split; [eapply Ps; [now left | exact I]|]. apply Nw. lia. }
    rewrite E1. cbn [bind]. destruct (IH (n + 1) m1 W1) as (m' & E & W' & A & B).
    + lia.
    + intros q' I. apply ND. now right.
    + intros q' i v I. apply Ps. now right.
    + intros t i Ht. rewrite B1 by (cbn; lia). apply Nw. lia.
    + exists m'. split; [exact E|]. split; [exact W'|]. split.
      * intros [|k] q' i v Eq I; cbn in Eq.
        -- injection Eq as <-. rewrite B by (cbn; lia). rewrite Z.add_0_r. now apply A1.
        -- replace (n + Z.of_nat (S k)) with (n + 1 + Z.of_nat k) by lia. eapply A; eassumption.
      * intros y Hy. rewrite B by lia. apply B1. lia.
Qed.

Definition tr (m : list (Z * Z)) (t : Z) : Z := match zfind t m with Some u => u | None => t end.
Definition rn (m : list (Z * Z)) (x : id) : id := (tr m (fst x), snd x).
Definition rc (m : list (Z * Z)) (e : cons * val) : cons * val :=
  (mk_cons (rn m (c_sub (fst e))) (rn m (c_node (fst e))) (c_inter (fst e)), snd e).
Lemma tr_some m t u : zfind t m = Some u -> tr m t = u.
Proof. unfold tr. now intros ->. Qed.
Lemma re_some m x : zfind (fst x) m <> None -> re m x = Some (rn m x).
Proof. unfold re, rn, tr. destruct (zfind (fst x) m); [reflexivity | congruence]. Qed.
Lemma remap_cons_ok m l :
  (forall e, In e l -> zfind (fst (c_sub (fst e))) m <> None /\ zfind (fst (c_node (fst e))) m <> None) ->
  remap_cons m l = Some (map (rc m) l).
Proof.
  induction l as [|[c v] l IH]; intros D; [reflexivity|]. cbn [remap_cons].
  destruct (D _ (or_introl eq_refl)) as [D1 D2]. cbn [fst] in D1, D2. rewrite (re_some _ _ D1), (re_some _ _ D2). cbn [bind].
  rewrite IH by (intros e I; apply D; now right). reflexivity.
Qed.

Lemma load_msgs_app fz m a b l1 : forall l2,
  load_msgs fz m a b (l1 ++ l2) =
  match load_msgs fz m a b l1, load_msgs fz m a b l2 with Some x, Some y => Some (x ++ y) | _, _ => None end.
Proof.
  induction l1 as [|x l1 IH]; intros l2; cbn [app load_msgs].
  - destruct (load_msgs fz m a b l2); reflexivity.
  - destruct (load_msg fz m a b x) as [c|]; [|reflexivity]. cbn [bind]. rewrite IH.
    destruct (load_msgs fz m a b l1) as [d|]; [|reflexivity]. cbn [bind].
    destruct (load_msgs fz m a b l2); [cbn [bind]; now rewrite app_assoc | reflexivity].
Qed.
Lemma load_msgs_map fz m a b h l : (forall x, In x l -> load_msg fz m a b x = Some (h x)) ->
  load_msgs fz m a b l = Some (flat_map h l).
Proof.
  induction l as [|x l IH]; intros H; [reflexivity|]. cbn. rewrite (H x (or_introl eq_refl)). cbn [bind].
  rewrite IH by (intros y I; apply H; now right). reflexivity.
Qed.
Lemma load_msgs_each fz m a b l : load_msgs fz m a b l <> None -> forall x, In x l -> load_msg fz m a b x <> None.
Proof.
  induction l as [|y l IH]; intros H x I; [destruct I|]. cbn in H.
  destruct (load_msg fz m a b y) eqn:E; [|cbn in H; congruence]. cbn [bind] in H. destruct I as [<- | I].
  - congruence.
  - apply IH; [|exact I]. destruct (load_msgs fz m a b l); [congruence|]. cbn in H. congruence.
Qed.
Lemma flat_map_map {A B C} (f : A -> B) (h : B -> list C) l : flat_map h (map f l) = flat_map (fun x => h (f x)) l.
Proof. induction l; cbn; [reflexivity|]. now rewrite IHl. Qed.
Lemma flat_map_one {A B} (f : A -> B) l : flat_map (fun x => [f x]) l = map f l.
Proof. induction l; cbn; [reflexivity|]. now rewrite IHl. Qed.

(* ---- what is called ---- *)
Definition time_calls (mk : Z -> Z -> val -> lcall) (ro : list (Z * Z)) (m : list (Z * list (Z * val))) : list lcall :=
  flat_map (fun e => map (fun x => mk (tr ro (fst e)) (fst x) (snd x)) (snd e)) m.
Definition pose_calls (p : pay) : list lcall :=
  flat_map (fun e => match l_pose (snd e) with Some v => [LLandmarkPose (fst e) v] | None => [] end) (landmarks p).
Definition sub_calls incl g p ro : list lcall := map (fun s => LSubmap (rn ro s) (sp p s)) (W incl g p).
Definition node_calls g p ro : list lcall := map (fun n => LNode (rn ro n) (np p n)) (N g).
Definition origin_calls p ro : list lcall :=
  flat_map (fun e => match snd e with Some v => [LTrajectory (tr ro (fst e)) v] | None => [] end) (tdata p).
Definition obs_calls p ro : list lcall :=
  flat_map (fun e => map (fun o => LLandmark (tr ro (o_traj o)) (o_time o) (fst e) (o_val o)) (l_obs (snd e))) (landmarks p).
Definition file_cons (incl : bool) p ro : list (cons * val) :=
  map (rc ro) (filter (fun c => written incl p (c_sub (fst c))) (cons_vals p)).
Definition first_calls (fz incl : bool) (n : Z) (k : nat) g p ro : list lcall :=
  (if fz then map LFreeze (count_from n k) else []) ++ pose_calls p ++
  sub_calls incl g p ro ++ node_calls g p ro ++ origin_calls p ro ++
  (if fz then [] else time_calls LOdometry ro (odometry p)) ++
  (if fz then [] else time_calls LFixed ro (fixed p)) ++
  (if fz then [] else obs_calls p ro).
Definition last_calls (fz incl : bool) p ro : list lcall :=
  if fz then map (fun e => LNodeToSubmap (c_node (fst e)) (c_sub (fst e)))
                 (filter (fun e => negb (c_inter (fst e))) (file_cons incl p ro))
  else [LConstraints (file_cons incl p ro)].
(* trajectory number k of the list ts gets the number n + k *)
Definition numbered (n : Z) (ts : list Z) (ro : list (Z * Z)) : Prop :=
  (forall k t, nth_error ts k = Some t -> zfind t ro = Some (n + Z.of_nat k)) /\
  (forall t, ~ In t ts -> zfind t ro = None).
Lemma numbered_some n ts ro t u : numbered n ts ro -> zfind t ro = Some u ->
  exists k, nth_error ts k = Some t /\ u = n + Z.of_nat k.
Proof.
  intros [A B] Z1. destruct (in_dec Z.eq_dec t ts) as [I|I]; [|rewrite B in Z1 by exact I; discriminate].
  apply In_nth_error in I as [k E]. exists k. split; [exact E|]. rewrite (A k t E) in Z1. congruence.
Qed.
Lemma numbered_dom n ts ro t : numbered n ts ro -> zfind t ro <> None <-> In t ts.
Proof.
  intros [A B]. split; intros H.
  - destruct (in_dec Z.eq_dec t ts) as [I|I]; [exact I|]. rewrite B in H by exact I. congruence.
  - apply In_nth_error in H as [k E]. rewrite (A k t E). discriminate.
Qed.

Lemma NoDup_same_length (a b : list Z) : NoDup a -> NoDup b -> (forall x, In x a <-> In x b) -> length a = length b.
Proof.
  intros A B E. apply Nat.le_antisymm; apply NoDup_incl_length; auto; intros x I; now apply E.
Qed.
Lemma valid_enumerates g : zsorted (trajs g) -> enumerates (valid_ids g) (listed g).
Proof.
  intros S. unfold valid_ids. split.
  - apply NoDup_map_filter, zsorted_NoDup, S.
  - intros t. unfold listed. rewrite in_map_iff. split.
    + intros ([a st] & <- & I). apply filter_In in I as [I F]. exists st. split; [now apply In_zfind|]. cbn in *. destruct (fst st); congruence.
    + intros (st & F & Nd). apply zfind_In in F. exists (t, st). split; [reflexivity|]. apply filter_In. split; [exact F|].
      cbn. destruct (fst st); congruence.
Qed.
Lemma options_of_length l all os : options_of l all = Some os -> length os = length l.
Proof.
  revert os. induction l as [|t l IH]; cbn; intros os E; [now injection E as <-|].
  destruct (0 <=? t); [|discriminate]. destruct (nth_error all (Z.to_nat t)); [|discriminate]. cbn [bind] in E.
  destruct (options_of l all) as [os'|]; [|discriminate]. injection E as <-. cbn. f_equal. auto.
Qed.

Section L.
Variables (fz incl : bool) (g : graph) (p : pay) (n : Z).
Hypothesis Wg : wfg g.
Hypothesis Ig : integrity g.
Hypothesis Sn : sane g p.
Hypothesis Hn : 0 <= n.
Lemma Ws : wf (subs g). Proof. apply Wg. Qed.
Lemma Wn : wf (nodes g). Proof. apply Wg. Qed.

Lemma stored_mentioned_sub x : stored x (subs g) -> mentioned g (fst x).
Proof. intros S. exists (snd x). left. now destruct x. Qed.
Lemma stored_mentioned_node x : stored x (nodes g) -> mentioned g (fst x).
Proof. intros S. exists (snd x). right. now destruct x. Qed.

Lemma entry_keys (f : id -> Z * val) t l : (forall x, fst (f x) = snd x) -> NoDup l ->
  NoDup (map fst (map f (filter (fun s : id => fst s =? t) l))).
Proof.
  intros F ND. rewrite map_map. rewrite (map_ext (fun x => fst (f x)) snd F).
  induction ND as [|x l Nx ND IH]; cbn; [constructor|]. destruct (Z.eqb_spec (fst x) t) as [Ex|]; [|exact IH].
  cbn. constructor; [|exact IH]. intros I. apply in_map_iff in I as (y & Ey & I). apply filter_In in I as [I E].
  apply Z.eqb_eq in E. apply Nx. replace x with y; [exact I|]. destruct x, y; cbn in *; congruence.
Qed.

Lemma load_file ms : write incl g p = Some ms ->
  (load fz n ms <> None -> loadable fz g p) /\
  (loadable fz g p -> exists gp ro os, proto_ok incl g p gp /\ gp_trajs gp = trajs2 incl g p /\
     load fz n ms = Some (first_calls fz incl n (length (gp_trajs gp)) g p ro ++ last_calls fz incl p ro, ro, os) /\
     zsorted ro /\ numbered n (map tp_id (gp_trajs gp)) ro /\
     options_of (valid_ids g) (options p) = Some os /\ length os = length (gp_trajs gp)).
Proof.
  intros E. unfold write, write_two in E. destruct (to_proto incl g p) as [gp|] eqn:Ep; [|discriminate].
  cbn [bind] in E. destruct (options_of (valid_ids g) (options p)) as [os|] eqn:Eo; [|discriminate]. cbn [bind] in E.
  destruct (submap_data_ok g); [|discriminate]. injection E as <-.
  destruct (to_proto_ok incl g p Ws Wn gp Ig (s_cons _ _ Sn) Ep) as [PO ET]. pose proof PO as [P1 P2 P3 P4 P5 P6].
  pose proof (valid_enumerates g (s_trajs _ _ Sn)) as [V1 V2].
  unfold load. cbn [app deserialize]. cbn [Z.eqb current_version old_version Pos.eqb orb].
  destruct (Nat.eqb_spec (length (gp_trajs gp)) (length os)) as [El|El]; cbn [bind].
  2:{ split; [congruence|]. intros [(a & b & [A1 A2] & [B1 B2] & Ll) _]. exfalso. apply El.
      rewrite (options_of_length _ _ _ Eo). rewrite <- (map_length tp_id).
      rewrite (NoDup_same_length _ a P1 A1), (NoDup_same_length _ b V1 B1); [exact Ll | |].
      - intros x. now rewrite V2, B2.
      - intros x. now rewrite P2, A2. }
  destruct (remap_all_ok (gp_trajs gp) n [] (zsorted_nil) P1) as (ro & Er & Sr & R1 & R2); [reflexivity|].
  rewrite Er. cbn [bind].
  assert (Nb : numbered n (map tp_id (gp_trajs gp)) ro).
  { split; [|intros t Nt; now rewrite R2]. intros k t Ek. rewrite nth_error_map in Ek.
    destruct (nth_error (gp_trajs gp) k) as [q|] eqn:Eq; [|discriminate]. injection Ek as <-. now apply R1. }
  assert (Dom : forall t, zfind t ro <> None <-> mentioned g t) by (intros t; rewrite (numbered_dom _ _ _ _ Nb); apply P2).
  assert (Cm : forall e, In e (cons_vals p) -> mentioned g (fst (c_sub (fst e))) /\ mentioned g (fst (c_node (fst e)))).
  { intros e I. destruct (proj1 Ig (fst e)) as [Q1 Q2]; [rewrite <- (s_cons _ _ Sn); now apply in_map|].
    split; [now apply stored_mentioned_sub | now apply stored_mentioned_node]. }
  rewrite P5. rewrite remap_cons_ok.
  2:{ intros e I. apply filter_In in I as [I _]. destruct (Cm e I). split; now apply Dom. }
  cbn [bind]. fold (file_cons incl p ro).
  destruct (poses_ok tp_subs (gp_trajs gp) n [] wf_nil Hn) as (sps & Es & _ & Gs & _).
  { intros q I. rewrite (P3 q I). apply entry_keys; [reflexivity|]. apply W_NoDup, Ws. }
  { intros q i v I J. rewrite (P3 q I) in J. apply in_map_iff in J as (x & [= <- <-] & J). apply filter_In in J as [J _].
    apply W_In in J as [J _]; [|exact Ws]. eapply stored_pos; [exact Ws | exact J]. }
  { reflexivity. }
  rewrite Es. cbn [bind].
  destruct (poses_ok tp_nodes (gp_trajs gp) n [] wf_nil Hn) as (nps & En & _ & Gn & _).
  { intros q I. rewrite (P4 q I). apply entry_keys; [reflexivity|]. apply N_NoDup, Wn. }
  { intros q i v I J. rewrite (P4 q I) in J. apply in_map_iff in J as (x & [= <- <-] & J). apply filter_In in J as [J _].
    apply N_In in J; [|exact Wn]. eapply stored_pos; [exact Wn | exact J]. }
  { reflexivity. }
  rewrite En. cbn [bind].
  assert (Cls : forall t, mentioned g t -> exists k q, nth_error (gp_trajs gp) k = Some q /\ In q (gp_trajs gp) /\ tp_id q = t /\ zfind t ro = Some (n + Z.of_nat k)).
  { intros t Mt. apply P2 in Mt. apply in_map_iff in Mt as (q & Eq & I). pose proof I as I'. apply In_nth_error in I as [k Ek].
    exists k, q. repeat split; auto. rewrite <- Eq. now apply R1. }
  assert (Ms : load_msgs fz ro sps nps (submap_msgs incl g p) = Some (sub_calls incl g p ro)).
  { unfold submap_msgs, sub_calls. fold (ids_of (subs g)). fold (W incl g p).
    rewrite (load_msgs_map _ _ _ _ (fun x => match x with MSubmap s _ _ => [LSubmap (rn ro s) (sp p s)] | _ => [] end)).
    - now rewrite flat_map_map, flat_map_one.
    - intros x I. apply in_map_iff in I as (s & <- & I). cbn [load_msg].
      assert (Mn : mentioned g (fst s)) by (apply stored_mentioned_sub; now apply W_In in I as [I _]; [|exact Ws]).
      rewrite re_some by now apply Dom. cbn [bind]. destruct (Cls _ Mn) as (k & q & Ek & Iq & Eq & Zt).
      assert (G : get (rn ro s) sps = Some (s_pose (sp p s))).
      { unfold rn. rewrite (tr_some _ _ _ Zt). apply (Gs k q _ _ Ek). rewrite (P3 q Iq). apply in_map_iff. exists s.
        split; [reflexivity|]. apply filter_In. split; [exact I|]. apply Z.eqb_eq. auto. }
      rewrite G. cbn [bind]. destruct (sp p s); reflexivity. }
  assert (Mn : load_msgs fz ro sps nps (node_msgs g p) = Some (node_calls g p ro)).
  { unfold node_msgs, node_calls, N, ids_of. rewrite map_map.
    rewrite (load_msgs_map _ _ _ _ (fun x => match x with MNode s _ => [LNode (rn ro s) (np p s)] | _ => [] end)).
    - now rewrite flat_map_map, flat_map_one.
    - intros x I. apply in_map_iff in I as (e & <- & I). cbn [load_msg].
      assert (I' : In (fst e) (N g)) by (unfold N, ids_of; now apply in_map).
      assert (Mn : mentioned g (fst (fst e))) by (apply stored_mentioned_node; now apply N_In in I'; [|exact Wn]).
      rewrite re_some by now apply Dom. cbn [bind]. destruct (Cls _ Mn) as (k & q & Ek & Iq & Eq & Zt).
      assert (G : get (rn ro (fst e)) nps = Some (n_pose (np p (fst e)))).
      { unfold rn. rewrite (tr_some _ _ _ Zt). apply (Gn k q _ _ Ek). rewrite (P4 q Iq). apply in_map_iff. exists (fst e).
        split; [reflexivity|]. apply filter_In. split; [exact I'|]. apply Z.eqb_eq. auto. }
      rewrite G. cbn [bind]. destruct (np p (fst e)); reflexivity. }
  split.
  - (* nothing of an unknown trajectory *)
    intros Ld. split.
    { exists (map tp_id (gp_trajs gp)), (valid_ids g). split; [split; assumption|]. split; [split; assumption|].
      rewrite map_length. rewrite El. now apply options_of_length in Eo. }
    match type of Ld with context [load_msgs ?a ?b ?c ?d ?l] => assert (Ok : load_msgs a b c d l <> None) by (destruct (load_msgs a b c d l); [discriminate|]; cbn [bind] in Ld; congruence) end.
    pose proof (load_msgs_each _ _ _ _ _ Ok) as Each. clear Ld Ok.
    intros t [D | [Ef [D | [D | D]]]]; apply Dom.
    + destruct (zfind t (tdata p)) as [o|] eqn:F; [|congruence]. apply zfind_In in F.
      specialize (Each (MTrajectory t o)). cbn [load_msg] in Each. intros Zn. rewrite Zn in Each. apply Each; [|reflexivity].
      rewrite !in_app_iff. right. right. left. unfold tdata_msgs. apply in_map_iff. exists (t, o). auto.
    + destruct (zfind t (odometry p)) as [l|] eqn:F; [|congruence]. destruct (proj2 (s_odometry _ _ Sn) _ _ F) as [_ Ne].
      destruct l as [|[ti v] l]; [congruence|]. apply zfind_In in F.
      specialize (Each (MOdometry t ti v)). cbn [load_msg] in Each. rewrite Ef in Each. intros Zn. rewrite Zn in Each.
      apply Each; [|reflexivity]. rewrite !in_app_iff. do 3 right. left. unfold time_msgs. apply in_flat_map.
      eexists. split; [exact F|]. cbn. now left.
    + destruct (zfind t (fixed p)) as [l|] eqn:F; [|congruence]. destruct (proj2 (s_fixed _ _ Sn) _ _ F) as [_ Ne].
      destruct l as [|[ti v] l]; [congruence|]. apply zfind_In in F.
      specialize (Each (MFixed t ti v)). cbn [load_msg] in Each. rewrite Ef in Each. intros Zn. rewrite Zn in Each.
      apply Each; [|reflexivity]. rewrite !in_app_iff. do 4 right. left. unfold time_msgs. apply in_flat_map.
      eexists. split; [exact F|]. cbn. now left.
    + destruct D as (lm & l & o & F & I & <-). apply zfind_In in F.
      specialize (Each (MLandmark (o_traj o) (o_time o) lm (o_val o))). cbn [load_msg] in Each. rewrite Ef in Each. intros Zn. rewrite Zn in Each.
      apply Each; [|reflexivity]. rewrite !in_app_iff. do 5 right. unfold landmark_msgs. apply in_flat_map.
      eexists. split; [exact F|]. cbn. apply in_map_iff. exists o. auto.
  - intros [_ Da].
    assert (Mt : load_msgs fz ro sps nps (tdata_msgs p) = Some (origin_calls p ro)).
    { unfold tdata_msgs, origin_calls.
      rewrite (load_msgs_map _ _ _ _ (fun x => match x with MTrajectory t (Some v) => [LTrajectory (tr ro t) v] | _ => [] end)).
      - rewrite flat_map_map. reflexivity.
      - intros x I. apply in_map_iff in I as ([t o] & <- & I). cbn [load_msg fst snd].
        assert (Z1 : zfind t ro <> None). { apply Dom, Da. left. rewrite (In_zfind _ _ _ (s_tdata _ _ Sn) I). discriminate. }
        unfold tr. destruct (zfind t ro); [|congruence]. cbn [bind]. destruct o; reflexivity. }
    assert (Mo : load_msgs fz ro sps nps (time_msgs MOdometry (odometry p)) = Some (if fz then [] else time_calls LOdometry ro (odometry p))).
    { unfold time_msgs, time_calls.
      rewrite (load_msgs_map _ _ _ _ (fun x => match x with MOdometry t ti v => if fz then [] else [LOdometry (tr ro t) ti v] | _ => [] end)).
      - f_equal. destruct fz.
        + clear. induction (odometry p) as [|[t l] r IH]; [reflexivity|]. cbn [flat_map fst snd]. rewrite app_flat, IH, app_nil_r.
          rewrite flat_map_map. clear. induction l; cbn; auto.
        + clear. induction (odometry p) as [|[t l] r IH]; [reflexivity|]. cbn [flat_map fst snd]. rewrite app_flat, IH. f_equal.
          rewrite flat_map_map. apply flat_map_one.
      - intros x I. apply in_flat_map in I as ([t l] & I & J). apply in_map_iff in J as ([ti v] & <- & J). cbn [load_msg fst snd].
        destruct fz eqn:Ef; [reflexivity|].
        assert (Z1 : zfind t ro <> None). { apply Dom, Da. right. split; [reflexivity|]. left. rewrite (In_zfind _ _ _ (proj1 (s_odometry _ _ Sn)) I). discriminate. }
        unfold tr. destruct (zfind t ro); [|congruence]. reflexivity. }
    assert (Mf : load_msgs fz ro sps nps (time_msgs MFixed (fixed p)) = Some (if fz then [] else time_calls LFixed ro (fixed p))).
    { unfold time_msgs, time_calls.
      rewrite (load_msgs_map _ _ _ _ (fun x => match x with MFixed t ti v => if fz then [] else [LFixed (tr ro t) ti v] | _ => [] end)).
      - f_equal. destruct fz.
        + clear. induction (fixed p) as [|[t l] r IH]; [reflexivity|]. cbn [flat_map fst snd]. rewrite app_flat, IH, app_nil_r.
          rewrite flat_map_map. clear. induction l; cbn; auto.
        + clear. induction (fixed p) as [|[t l] r IH]; [reflexivity|]. cbn [flat_map fst snd]. rewrite app_flat, IH. f_equal.
          rewrite flat_map_map. apply flat_map_one.
      - intros x I. apply in_flat_map in I as ([t l] & I & J). apply in_map_iff in J as ([ti v] & <- & J). cbn [load_msg fst snd].
        destruct fz eqn:Ef; [reflexivity|].
        assert (Z1 : zfind t ro <> None). { apply Dom, Da. right. split; [reflexivity|]. right. left. rewrite (In_zfind _ _ _ (proj1 (s_fixed _ _ Sn)) I). discriminate. }
        unfold tr. destruct (zfind t ro); [|congruence]. reflexivity. }
    assert (Ml : load_msgs fz ro sps nps (landmark_msgs p) = Some (if fz then [] else obs_calls p ro)).
    { unfold landmark_msgs, obs_calls.
      rewrite (load_msgs_map _ _ _ _ (fun x => match x with MLandmark t ti lm v => if fz then [] else [LLandmark (tr ro t) ti lm v] | _ => [] end)).
      - f_equal. destruct fz.
        + clear. induction (landmarks p) as [|[lm l] r IH]; [reflexivity|]. cbn [flat_map fst snd]. rewrite app_flat, IH, app_nil_r.
          rewrite flat_map_map. clear. induction (l_obs l); cbn; auto.
        + clear. induction (landmarks p) as [|[lm l] r IH]; [reflexivity|]. cbn [flat_map fst snd]. rewrite app_flat, IH. f_equal.
          rewrite flat_map_map. apply (flat_map_one (fun o => LLandmark (tr ro (o_traj o)) (o_time o) lm (o_val o))).
      - intros x I. apply in_flat_map in I as ([lm l] & I & J). apply in_map_iff in J as (o & <- & J). cbn [load_msg fst snd] in *.
        destruct fz eqn:Ef; [reflexivity|].
        assert (Z1 : zfind (o_traj o) ro <> None). { apply Dom, Da. right. split; [reflexivity|]. do 2 right. exists lm, l, o.
          split; [exact (In_zfind _ _ _ (s_landmarks _ _ Sn) I) | auto]. }
        unfold tr. destruct (zfind (o_traj o) ro); [|congruence]. reflexivity. }
    exists gp, ro, os. split; [exact PO|]. split; [exact ET|]. split; [|split; [exact Sr|]; split; [exact Nb|]; split; [reflexivity|]; now symmetry].
    rewrite !load_msgs_app, Ms, Mn, Mt, Mo, Mf, Ml. cbn [bind]. unfold first_calls, last_calls. rewrite P6.
    assert (Pc : map (fun e => LLandmarkPose (fst e) (snd e)) (flat_map (fun e => match l_pose (snd e) with Some v => [(fst e, v)] | None => [] end) (landmarks p)) = pose_calls p).
    { unfold pose_calls. clear. induction (landmarks p) as [|[lm l] r IH]; [reflexivity|]. cbn [flat_map fst snd]. rewrite map_app, IH.
      destruct (l_pose l); reflexivity. }
    rewrite Pc. rewrite <- !app_assoc. reflexivity.
Qed.
End L.
