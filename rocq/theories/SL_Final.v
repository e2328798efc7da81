(* Loading a saved file: the calls are in order and do what they should. *)
From Coq Require Import List ZArith Bool Lia Sorted.
From Verif Require Import ZMap MapById_Model MapById_Spec MapById_Proofs PG_Model PG_Maps PG_Spec
  PG_Proofs PG_Session_Handle SL_Model SL_Spec SL_Run SL_Write SL_Load SL_Pay.
Import ListNotations.
Open Scope Z_scope.

Lemma flat_nil {A B} (f : A -> list B) l : (forall c, In c l -> f c = []) -> flat_map f l = [].
Proof.
  induction l as [|a l IH]; intros H; [reflexivity|]. cbn. rewrite H by now left. apply IH. intros c I. apply H. now right.
Qed.
Lemma NoDup_map_on {A B} (f : A -> B) l : (forall a b, In a l -> In b l -> f a = f b -> a = b) -> NoDup l -> NoDup (map f l).
Proof.
  intros Inj ND. induction ND as [|a l Na ND IH]; [constructor|]. cbn. constructor.
  - intros I. apply in_map_iff in I as (b & E & I). apply Na. rewrite (Inj a b); auto; [now left | now right].
  - apply IH. intros x y Ix Iy. apply Inj; now right.
Qed.
Lemma split_late {A} (D : list A) : forall E pre c post, D ++ E = pre ++ c :: post -> ~ In c D ->
  exists e, pre = D ++ e /\ E = e ++ c :: post.
Proof.
  induction D as [|d D IH]; intros E pre c post Eq Nc; [now exists pre|].
  destruct pre as [|a pre]; cbn in Eq.
  - injection Eq as -> _. elim Nc. now left.
  - injection Eq as -> Eq. destruct (IH _ _ _ _ Eq) as (e & -> & ->); [intros I; apply Nc; now right|]. exists e. auto.
Qed.
Lemma filter_map_fst {A B} (P : A -> bool) (l : list (A * B)) : map fst (filter (fun e => P (fst e)) l) = filter P (map fst l).
Proof. induction l as [|[a b] l IH]; [reflexivity|]. cbn. destruct (P a); cbn; now rewrite IH. Qed.
Lemma intra_map l : intra l = map (fun c => (c_sub c, c_node c)) (filter (fun c => negb (c_inter c)) l).
Proof. unfold intra. induction l as [|c l IH]; [reflexivity|]. cbn. destruct (c_inter c); cbn; now rewrite IH. Qed.
Lemma filter_comm {A} (P Q : A -> bool) l : filter P (filter Q l) = filter Q (filter P l).
Proof. induction l as [|a l IH]; [reflexivity|]. cbn. destruct (P a) eqn:EP, (Q a) eqn:EQ; cbn; rewrite ?EP, ?EQ, ?IH; reflexivity. Qed.
Lemma In_count k : forall n t, In t (count_from n k) <-> n <= t < n + Z.of_nat k.
Proof.
  induction k as [|k IH]; intros n t; cbn [count_from In]; [lia|]. rewrite IH. lia.
Qed.
Lemma NoDup_count k : forall n, NoDup (count_from n k).
Proof. induction k as [|k IH]; intros n; cbn; constructor; auto. rewrite In_count. lia. Qed.
Lemma kept_filter {A} (P : A -> Prop) (b : A -> bool) l : (forall a, b a = true <-> P a) -> kept P l (filter b l).
Proof.
  intros H. induction l as [|a l IH]; cbn; [constructor|]. destruct (b a) eqn:E.
  - constructor; [now apply H | exact IH].
  - constructor; [|exact IH]. intros Pa. apply H in Pa. congruence.
Qed.

Section F.
Variables (fz incl : bool) (g : graph) (p : pay) (g0 : graph) (p0 : pay).
Hypothesis Wg : wfg g.
Hypothesis Ig : integrity g.
Hypothesis Sn : sane g p.
Hypothesis Once : intra_once g.
Hypothesis Ld : loadable fz g p.
Hypothesis Wg0 : wfg g0.
Hypothesis Sn0 : sane g0 p0.
Hypothesis Rc : receiver g0 p0.
Variables (ts : list Z) (ro : list (Z * Z)) (os : list val).
Let n := next p0.
Hypothesis Tn : NoDup ts.
Hypothesis Ti : forall t, In t ts <-> mentioned g t.
Hypothesis Nb : numbered n ts ro.
Hypothesis Lo : length os = length ts.
Let D := first_calls fz incl n (length ts) g p ro.
Let E := last_calls fz incl p ro.
Let C := D ++ E.

Lemma n_pos : 0 <= n. Proof. unfold n, next. lia. Qed.
Lemma tr_new t : mentioned g t -> zfind t ro = Some (tr ro t) /\ n <= tr ro t < n + Z.of_nat (length ts).
Proof.
  intros M. apply Ti in M. apply (numbered_dom _ _ _ _ Nb) in M. unfold tr. destruct (zfind t ro) as [u|] eqn:Z1; [|congruence].
  split; [reflexivity|]. destruct (numbered_some _ _ _ _ _ Nb Z1) as (k & Ek & ->).
  assert (k < length ts)%nat by (apply nth_error_Some; congruence). lia.
Qed.
Lemma ro_inj t u t' : zfind t ro = Some t' -> zfind u ro = Some t' -> t = u.
Proof.
  intros A B. destruct (numbered_some _ _ _ _ _ Nb A) as (k & Ek & E1). destruct (numbered_some _ _ _ _ _ Nb B) as (k' & Ek' & E2).
  assert (k = k') by lia. subst k'. congruence.
Qed.
Lemma tr_inj t u : mentioned g t -> mentioned g u -> tr ro t = tr ro u -> t = u.
Proof.
  intros A B Et. destruct (tr_new t A) as [A1 _]. destruct (tr_new u B) as [B1 _]. rewrite Et in A1. eapply ro_inj; eassumption.
Qed.
Lemma rn_inj x y : mentioned g (fst x) -> mentioned g (fst y) -> rn ro x = rn ro y -> x = y.
Proof.
  intros A B Ex. unfold rn in Ex. injection Ex as E1 E2. apply tr_inj in E1; auto. destruct x, y; cbn in *; congruence.
Qed.
Lemma rn_renamed x : mentioned g (fst x) -> renamed ro x (rn ro x).
Proof. intros M. split; [|reflexivity]. apply tr_new, M. Qed.
Lemma renamed_rn x y : renamed ro x y -> y = rn ro x /\ mentioned g (fst x).
Proof.
  intros [A B]. unfold rn. rewrite (tr_some _ _ _ A), <- B. split; [now destruct y|].
  apply Ti. apply (numbered_dom _ _ _ _ Nb). congruence.
Qed.
Lemma W_mentioned x : In x (W incl g p) -> mentioned g (fst x).
Proof. intros I. apply W_In in I as [I _]; [|apply Wg]. now apply (stored_mentioned_sub g). Qed.
Lemma N_mentioned x : In x (N g) -> mentioned g (fst x).
Proof. intros I. apply N_In in I; [|apply Wg]. now apply (stored_mentioned_node g). Qed.

(* the parts of the calls *)
Lemma In_freezes c : In c (if fz then map LFreeze (count_from n (length ts)) else []) -> exists t, c = LFreeze t /\ n <= t.
Proof. destruct fz; [|intros []]. intros I. apply in_map_iff in I as (t & <- & I). exists t. split; [reflexivity|]. apply In_count in I. lia. Qed.
Lemma In_pose c : In c (pose_calls p) -> exists lm v, c = LLandmarkPose lm v.
Proof. intros I. apply in_flat_map in I as ([lm l] & _ & I). cbn in I. destruct (l_pose l); [|destruct I]. destruct I as [<- | []]. eauto. Qed.
Lemma In_sub c : In c (sub_calls incl g p ro) -> exists s, c = LSubmap (rn ro s) (sp p s) /\ In s (W incl g p).
Proof. intros I. apply in_map_iff in I as (s & <- & I). eauto. Qed.
Lemma In_node c : In c (node_calls g p ro) -> exists s, c = LNode (rn ro s) (np p s) /\ In s (N g).
Proof. intros I. apply in_map_iff in I as (s & <- & I). eauto. Qed.
Lemma In_origin c : In c (origin_calls p ro) -> exists t v, c = LTrajectory (tr ro t) v /\ mentioned g t.
Proof.
  intros I. apply in_flat_map in I as ([t o] & I & J). cbn in J. destruct o as [v|]; [|destruct J]. destruct J as [<- | []].
  exists t, v. split; [reflexivity|]. apply (proj2 Ld). left. rewrite (In_zfind _ _ _ (s_tdata _ _ Sn) I). discriminate.
Qed.
Lemma In_odo c : In c (if fz then [] else time_calls LOdometry ro (odometry p)) -> exists t ti v, c = LOdometry (tr ro t) ti v /\ mentioned g t.
Proof.
  destruct fz eqn:Ef; [intros []|]. intros I. apply in_flat_map in I as ([t l] & I & J). apply in_map_iff in J as ([ti v] & <- & J).
  exists t, ti, v. split; [reflexivity|]. apply (proj2 Ld). right. split; [reflexivity|]. left. rewrite (In_zfind _ _ _ (proj1 (s_odometry _ _ Sn)) I). discriminate.
Qed.
Lemma In_fix c : In c (if fz then [] else time_calls LFixed ro (fixed p)) -> exists t ti v, c = LFixed (tr ro t) ti v /\ mentioned g t.
Proof.
  destruct fz eqn:Ef; [intros []|]. intros I. apply in_flat_map in I as ([t l] & I & J). apply in_map_iff in J as ([ti v] & <- & J).
  exists t, ti, v. split; [reflexivity|]. apply (proj2 Ld). right. split; [reflexivity|]. right. left. rewrite (In_zfind _ _ _ (proj1 (s_fixed _ _ Sn)) I). discriminate.
Qed.
Lemma obs_mentioned lm o : fz = false -> In o (l_obs (get_landmark lm (landmarks p))) -> mentioned g (o_traj o).
Proof.
  intros Ef I. unfold get_landmark in I. destruct (zfind lm (landmarks p)) as [l|] eqn:F; [|destruct I].
  apply (proj2 Ld). right. split; [exact Ef|]. do 2 right. exists lm, l, o. auto.
Qed.
Lemma In_obs c : In c (if fz then [] else obs_calls p ro) -> exists t ti lm v, c = LLandmark (tr ro t) ti lm v /\ mentioned g t.
Proof.
  intros I. assert (Ef : fz = false) by (destruct fz; [destruct I | reflexivity]). rewrite Ef in I.
  apply in_flat_map in I as ([lm l] & I & J). apply in_map_iff in J as (o & <- & J).
  exists (o_traj o), (o_time o), lm, (o_val o). split; [reflexivity|]. apply (obs_mentioned lm); [exact Ef|].
  unfold get_landmark. now rewrite (In_zfind _ _ _ (s_landmarks _ _ Sn) I).
Qed.
Lemma file_In e : In e (file_cons incl p ro) -> exists e0, e = rc ro e0 /\ In e0 (cons_vals p) /\
  In (c_sub (fst e0)) (W incl g p) /\ In (c_node (fst e0)) (N g).
Proof.
  intros I. apply in_map_iff in I as (e0 & <- & I). apply filter_In in I as [I Wr]. exists e0. split; [reflexivity|]. split; [exact I|].
  destruct (proj1 Ig (fst e0)) as [Q1 Q2]; [rewrite <- (s_cons _ _ Sn); now apply in_map|]. split.
  - apply W_In; [apply Wg|]. split; [exact Q2|]. unfold written in Wr. now apply orb_true_iff in Wr.
  - apply N_In; [apply Wg | exact Q1].
Qed.
Lemma In_last c : In c E -> (exists e, c = LNodeToSubmap (c_node (fst e)) (c_sub (fst e)) /\ In e (file_cons incl p ro)) \/
  (fz = false /\ c = LConstraints (file_cons incl p ro)).
Proof.
  unfold E, last_calls. destruct fz.
  - intros I. apply in_map_iff in I as (e & <- & I). apply filter_In in I as [I _]. left. eauto.
  - intros [<- | []]. right. auto.
Qed.

Ltac parts := repeat match goal with
  | H : In _ (_ ++ _) |- _ => apply in_app_or in H as [H | H]
  end.
Ltac shape := match goal with
  | H : In ?c (if fz then map LFreeze _ else []) |- _ => apply In_freezes in H as (? & -> & ?)
  | H : In ?c (pose_calls p) |- _ => apply In_pose in H as (? & ? & ->)
  | H : In ?c (sub_calls incl g p ro) |- _ => apply In_sub in H as (? & -> & ?)
  | H : In ?c (node_calls g p ro) |- _ => apply In_node in H as (? & -> & ?)
  | H : In ?c (origin_calls p ro) |- _ => apply In_origin in H as (? & ? & -> & ?)
  | H : In ?c (if fz then [] else time_calls LOdometry _ _) |- _ => apply In_odo in H as (? & ? & ? & -> & ?)
  | H : In ?c (if fz then [] else time_calls LFixed _ _) |- _ => apply In_fix in H as (? & ? & ? & -> & ?)
  | H : In ?c (if fz then [] else obs_calls p ro) |- _ => apply In_obs in H as (? & ? & ? & ? & -> & ?)
  | H : In ?c E |- _ => apply In_last in H as [(? & -> & ?) | (? & ->)]
  end.

Lemma sub_ids_D : sub_ids D = map (rn ro) (W incl g p).
Proof.
  unfold D, first_calls. rewrite !sub_ids_app. unfold sub_ids.
  rewrite (flat_nil _ (if fz then map _ _ else [])) by (intros c I; shape; reflexivity).
  rewrite (flat_nil _ (pose_calls p)) by (intros c I; shape; reflexivity).
  rewrite (flat_nil _ (node_calls g p ro)) by (intros c I; shape; reflexivity).
  rewrite (flat_nil _ (origin_calls p ro)) by (intros c I; shape; reflexivity).
  rewrite (flat_nil _ (if fz then [] else time_calls LOdometry _ _)) by (intros c I; shape; reflexivity).
  rewrite (flat_nil _ (if fz then [] else time_calls LFixed _ _)) by (intros c I; shape; reflexivity).
  rewrite (flat_nil _ (if fz then [] else obs_calls p ro)) by (intros c I; shape; reflexivity).
  cbn [app]. rewrite ?app_nil_r. unfold sub_calls. rewrite flat_map_map. apply flat_map_one.
Qed.
Lemma node_ids_D : node_ids D = map (rn ro) (N g).
Proof.
  unfold D, first_calls. rewrite !node_ids_app. unfold node_ids.
  rewrite (flat_nil _ (if fz then map _ _ else [])) by (intros c I; shape; reflexivity).
  rewrite (flat_nil _ (pose_calls p)) by (intros c I; shape; reflexivity).
  rewrite (flat_nil _ (sub_calls incl g p ro)) by (intros c I; shape; reflexivity).
  rewrite (flat_nil _ (origin_calls p ro)) by (intros c I; shape; reflexivity).
  rewrite (flat_nil _ (if fz then [] else time_calls LOdometry _ _)) by (intros c I; shape; reflexivity).
  rewrite (flat_nil _ (if fz then [] else time_calls LFixed _ _)) by (intros c I; shape; reflexivity).
  rewrite (flat_nil _ (if fz then [] else obs_calls p ro)) by (intros c I; shape; reflexivity).
  cbn [app]. rewrite ?app_nil_r. unfold node_calls. rewrite flat_map_map. apply flat_map_one.
Qed.
Lemma freeze_ids_D : freeze_ids D = if fz then count_from n (length ts) else [].
Proof.
  unfold D, first_calls. rewrite !freeze_ids_app. unfold freeze_ids.
  rewrite (flat_nil _ (pose_calls p)) by (intros c I; shape; reflexivity).
  rewrite (flat_nil _ (sub_calls incl g p ro)) by (intros c I; shape; reflexivity).
  rewrite (flat_nil _ (node_calls g p ro)) by (intros c I; shape; reflexivity).
  rewrite (flat_nil _ (origin_calls p ro)) by (intros c I; shape; reflexivity).
  rewrite (flat_nil _ (if fz then [] else time_calls LOdometry _ _)) by (intros c I; shape; reflexivity).
  rewrite (flat_nil _ (if fz then [] else time_calls LFixed _ _)) by (intros c I; shape; reflexivity).
  rewrite (flat_nil _ (if fz then [] else obs_calls p ro)) by (intros c I; shape; reflexivity).
  cbn [app]. rewrite ?app_nil_r. destruct fz; [|reflexivity]. rewrite flat_map_map, flat_map_one. apply map_id.
Qed.
Lemma D_first c : In c D -> match c with LNodeToSubmap _ _ | LConstraints _ => False | _ => True end.
Proof. unfold D, first_calls. intros I. parts; shape; exact I. Qed.
Lemma recs_D : recs D = [].
Proof. apply flat_nil. intros c I. apply D_first in I. now destruct c. Qed.
Lemma loaded_D : loaded_cons D = [].
Proof. apply flat_nil. intros c I. apply D_first in I. now destruct c. Qed.
Lemma sub_ids_E : sub_ids E = []. Proof. apply flat_nil. intros c I. shape; reflexivity. Qed.
Lemma node_ids_E : node_ids E = []. Proof. apply flat_nil. intros c I. shape; reflexivity. Qed.
Lemma freeze_ids_E : freeze_ids E = []. Proof. apply flat_nil. intros c I. shape; reflexivity. Qed.
Lemma sub_ids_C : sub_ids C = map (rn ro) (W incl g p).
Proof. unfold C. now rewrite sub_ids_app, sub_ids_D, sub_ids_E, app_nil_r. Qed.
Lemma node_ids_C : node_ids C = map (rn ro) (N g).
Proof. unfold C. now rewrite node_ids_app, node_ids_D, node_ids_E, app_nil_r. Qed.
Lemma freeze_ids_C : freeze_ids C = if fz then count_from n (length ts) else [].
Proof. unfold C. now rewrite freeze_ids_app, freeze_ids_D, freeze_ids_E, app_nil_r. Qed.

Lemma intra_file : intra (map fst (file_cons incl p ro)) =
  map (fun c => (rn ro (c_sub c), rn ro (c_node c)))
      (filter (fun c => written incl p (c_sub c)) (filter (fun c => negb (c_inter c)) (constraints g))).
Proof.
  rewrite filter_comm, <- (s_cons _ _ Sn), <- (filter_map_fst (fun c => written incl p (c_sub c))).
  unfold file_cons, intra. clear. induction (filter _ (cons_vals p)) as [|[c v] l IH]; [reflexivity|].
  cbn. rewrite IH. destruct (c_inter c); reflexivity.
Qed.
Lemma intra_nodup : NoDup (intra (map fst (file_cons incl p ro))).
Proof.
  rewrite intra_file. apply NoDup_map_on; [|apply NoDup_filter, Once].
  intros a b Ia Ib Eab. apply filter_In in Ia as [Ia _], Ib as [Ib _]. apply filter_In in Ia as [Ia Fa], Ib as [Ib Fb].
  injection Eab as E1 E2 E3 E4. destruct (proj1 Ig a Ia) as [A1 A2]. destruct (proj1 Ig b Ib) as [B1 B2].
  assert (c_sub a = c_sub b) by (apply rn_inj; [now apply (stored_mentioned_sub g) | now apply (stored_mentioned_sub g) | unfold rn; congruence]).
  assert (c_node a = c_node b) by (apply rn_inj; [now apply (stored_mentioned_node g) | now apply (stored_mentioned_node g) | unfold rn; congruence]).
  destruct a, b. cbn in *. destruct c_inter, c_inter0; try discriminate. congruence.
Qed.
Lemma recs_E x y : In (x, y) (recs E) <-> In (x, y) (intra (map fst (file_cons incl p ro))).
Proof.
  unfold E, last_calls, recs. destruct fz.
  - rewrite flat_map_map. rewrite intra_map. generalize (file_cons incl p ro). intros l. rewrite in_flat_map, in_map_iff. split.
    + intros (e & I & [[= <- <-] | []]). apply filter_In in I as [I F]. exists (fst e). split; [reflexivity|]. apply filter_In. split; [now apply in_map | exact F].
    + intros (c & [= <- <-] & I). apply filter_In in I as [I F]. apply in_map_iff in I as (e & <- & I). exists e. split; [now apply filter_In | now left].
  - cbn. now rewrite app_nil_r.
Qed.
Lemma recs_C s n' : In s (W incl g p) -> In (rn ro s, n') (recs C) <->
  exists n0, n' = rn ro n0 /\ mentioned g (fst n0) /\ In (mk_cons s n0 false) (constraints g).
Proof.
  intros Is. unfold C. rewrite recs_app, recs_D. cbn [app]. rewrite recs_E, intra_file, in_map_iff. split.
  - intros (c & [= E1 E2 <-] & I). apply filter_In in I as [I _]. apply filter_In in I as [I F]. destruct (proj1 Ig c I) as [A1 A2].
    assert (c_sub c = s) by (apply rn_inj; [now apply (stored_mentioned_sub g) | now apply W_mentioned | unfold rn; congruence]).
    exists (c_node c). split; [reflexivity|]. split; [now apply (stored_mentioned_node g)|]. destruct c. cbn in *. destruct c_inter; [discriminate|]. congruence.
  - intros (n0 & -> & _ & I). exists (mk_cons s n0 false). split; [reflexivity|]. apply filter_In. split.
    + apply filter_In. auto.
    + cbn. unfold W in Is. now apply filter_In in Is as [_ Is].
Qed.
Lemma loaded_C : loaded_cons C = if fz then [] else file_cons incl p ro.
Proof.
  unfold C. rewrite loaded_app, loaded_D. cbn [app]. unfold E, last_calls. destruct fz.
  - apply flat_nil. intros c I. apply in_map_iff in I as (e & <- & _). reflexivity.
  - cbn. apply app_nil_r.
Qed.

Lemma calls_orderly : orderly n C.
Proof.
  split.
  - rewrite sub_ids_C. apply NoDup_map_on; [|apply W_NoDup, Wg]. intros a b Ia Ib. apply rn_inj; now apply W_mentioned.
  - rewrite node_ids_C. apply NoDup_map_on; [|apply N_NoDup, Wg]. intros a b Ia Ib. apply rn_inj; now apply N_mentioned.
  - rewrite freeze_ids_C. destruct fz; [apply NoDup_count | constructor].
  - intros c t I. unfold C, D, first_calls in I.
    assert (Q : forall u, mentioned g u -> n <= tr ro u) by (intros u M; apply tr_new in M; lia).
    parts; shape; cbn; intros [= <-]; auto; try (apply Q; first [now apply W_mentioned | now apply N_mentioned]).
    match goal with H : In _ (file_cons _ _ _) |- _ => apply file_In in H as (e0 & -> & _ & H & _) end. cbn. apply Q, W_mentioned, H.
  - intros x [I | I].
    + rewrite sub_ids_C in I. apply in_map_iff in I as (y & <- & I). apply W_In in I as [I _]; [|apply Wg]. cbn. eapply stored_pos; [|exact I]; apply Wg.
    + rewrite node_ids_C in I. apply in_map_iff in I as (y & <- & I). apply N_In in I; [|apply Wg]. cbn. eapply stored_pos; [|exact I]; apply Wg.
  - intros pre c post Ec. unfold need.
    assert (Late : match c with LNodeToSubmap _ _ | LConstraints _ => exists e, pre = D ++ e /\ E = e ++ c :: post | _ => True end).
    { destruct c; auto; (apply split_late; [exact Ec|]; intros I; now apply D_first in I). }
    destruct c; auto.
    + destruct Late as (e & -> & Ee). assert (I : In (LNodeToSubmap n0 s) E) by (rewrite Ee; apply in_app_iff; right; now left).
      apply In_last in I as [(e1 & [= -> ->] & I) | (_ & [=])]. rewrite node_ids_app, sub_ids_app, node_ids_D, sub_ids_D.
      apply file_In in I as (e0 & -> & _ & I1 & I2). cbn. rewrite !in_app_iff. split; left; now apply in_map.
    + destruct Late as (e & -> & Ee). assert (I : In (LConstraints l) E) by (rewrite Ee; apply in_app_iff; right; now left).
      apply In_last in I as [(e1 & [=] & I) | (Ef & [= ->])]. split; [|split].
      * intros e1 I. rewrite node_ids_app, sub_ids_app, node_ids_D, sub_ids_D.
        apply file_In in I as (e0 & -> & _ & I1 & I2). cbn. rewrite !in_app_iff. split; left; now apply in_map.
      * apply intra_nodup.
      * unfold E, last_calls in Ee. rewrite Ef in Ee. destruct e as [|a e]; [now rewrite app_nil_r, recs_D|].
        cbn in Ee. injection Ee as _ Ee. destruct e; discriminate.
Qed.

Lemma host_ok : host n g0.
Proof.
  destruct Rc as [R1 R2 R3 R4 R5]. split.
  - apply n_pos.
  - exact Wg0.
  - exact (s_trajs _ _ Sn0).
  - intros t Ht. destruct (zfind t (trajs g0)) eqn:F; [|reflexivity]. assert (t < next p0) by (apply R3; congruence). unfold n in Ht. lia.
  - intros t j Ht. assert (Q : forall (P : Prop), (P -> fst (t, j) < next p0) -> P -> False) by (cbn; intros P H H'; apply H in H'; unfold n in Ht; lia).
    unfold stored in R1, R2. repeat split.
    + destruct (get (t, j) (subs g0)) eqn:G; [|reflexivity]. exfalso. apply (Q _ (R1 (t, j))). left. unfold get in G. congruence.
    + destruct (get (t, j) (nodes g0)) eqn:G; [|reflexivity]. exfalso. apply (Q _ (R2 (t, j))). left. unfold get in G. congruence.
    + destruct (get (t, j) (osubs g0)) eqn:G; [|reflexivity]. exfalso. apply (Q _ (R1 (t, j))). right. left. unfold get in G. congruence.
    + destruct (get (t, j) (onodes g0)) eqn:G; [|reflexivity]. exfalso. apply (Q _ (R2 (t, j))). right. unfold get in G. congruence.
    + destruct (get (t, j) (gposes g0)) eqn:G; [|reflexivity]. exfalso. apply (Q _ (R1 (t, j))). right. right. unfold get in G. congruence.
  - intros t Ft. apply existsb_exists. exists t. split; [now apply R5 | apply Z.eqb_refl].
Qed.

(* ---- the data ---- *)
Let q0 := set_options (options p0 ++ os) p0.
Record data_ok (p1 : pay) : Prop := {
  da_cons : cons_vals p1 = cons_vals p0 ++ (if fz then [] else file_cons incl p ro);
  da_land : zsorted (landmarks p1) /\ forall lm,
    l_obs (get_landmark lm (landmarks p1)) = l_obs (get_landmark lm (landmarks p0)) ++
       (if fz then [] else map (ro_obs ro) (l_obs (get_landmark lm (landmarks p)))) /\
    l_pose (get_landmark lm (landmarks p1)) = match l_pose (get_landmark lm (landmarks p)) with
      Some v => Some v | None => l_pose (get_landmark lm (landmarks p0)) end;
  da_odo : zsorted (odometry p1) /\
    (forall t x, fz = false -> In (t, x) (odometry p) -> zfind (tr ro t) (odometry p1) = Some x) /\
    (forall u, (forall t x, fz = false -> In (t, x) (odometry p) -> tr ro t <> u) -> zfind u (odometry p1) = zfind u (odometry p0));
  da_fix : zsorted (fixed p1) /\
    (forall t x, fz = false -> In (t, x) (fixed p) -> zfind (tr ro t) (fixed p1) = Some x) /\
    (forall u, (forall t x, fz = false -> In (t, x) (fixed p) -> tr ro t <> u) -> zfind u (fixed p1) = zfind u (fixed p0));
  da_origin : zsorted (tdata p1) /\
    (forall t v, In (t, Some v) (tdata p) -> zfind (tr ro t) (tdata p1) = Some (Some v)) /\
    (forall u, (forall t v, In (t, Some v) (tdata p) -> tr ro t <> u) ->
       zfind u (tdata p1) = zfind u (tdata p0) \/
       (zfind u (tdata p1) = Some None /\ exists n0, In n0 (N g) /\ u = tr ro (fst n0)));
  da_options : options p1 = options p0 ++ os
}.
Lemma data_run : exists p1, run_items C q0 = Some p1 /\ data_ok p1.
Proof.
  assert (Mt : forall t o, In (t, o) (tdata p) -> mentioned g t).
  { intros t o I. apply (proj2 Ld). left. rewrite (In_zfind _ _ _ (s_tdata _ _ Sn) I). discriminate. }
  assert (Mo : forall t x, fz = false -> In (t, x) (odometry p) -> mentioned g t).
  { intros t x Ef I. apply (proj2 Ld). right. split; [exact Ef|]. left. rewrite (In_zfind _ _ _ (proj1 (s_odometry _ _ Sn)) I). discriminate. }
  assert (Mf : forall t x, fz = false -> In (t, x) (fixed p) -> mentioned g t).
  { intros t x Ef I. apply (proj2 Ld). right. split; [exact Ef|]. right. left. rewrite (In_zfind _ _ _ (proj1 (s_fixed _ _ Sn)) I). discriminate. }
  unfold C, D, first_calls. rewrite !run_items_app.
  rewrite (run_items_none (if fz then map _ _ else [])) by (intros c q I; shape; reflexivity). cbv beta iota.
  destruct (run_poses (landmarks p) (s_landmarks _ _ Sn) q0 (s_landmarks _ _ Sn0)) as (L & E1 & SL & GL).
  fold (pose_calls p) in E1. rewrite run_items_app, E1. cbv beta iota.
  rewrite run_items_app.
  rewrite (run_items_none (sub_calls incl g p ro)) by (intros c q I; shape; reflexivity). cbv beta iota.
  destruct (run_nodes (np p) ro (N g) (set_landmarks L q0) (s_tdata _ _ Sn0)) as (T1 & E2 & S2 & G2).
  fold (node_calls g p ro) in E2. rewrite run_items_app, E2. cbv beta iota.
  destruct (run_origins ro (tdata p)) with (q := set_tdata T1 (set_landmarks L q0)) as (T & E3 & S3 & G3 & H3).
  { intros [t o] [t' o'] Ia Ib. cbn. apply tr_inj; eapply Mt; eassumption. }
  { apply Sn. }
  { exact S2. }
  change (flat_map (origin_call ro) (tdata p)) with (origin_calls p ro) in E3. rewrite run_items_app, E3. cbv beta iota. clear E1 E2 E3.
  assert (Hod : forall q, odometry q = odometry p0 -> exists M, run_items (if fz then [] else time_calls LOdometry ro (odometry p)) q = Some (set_odometry M q) /\
     zsorted M /\ (forall t x, fz = false -> In (t, x) (odometry p) -> zfind (tr ro t) M = Some x) /\
     (forall u, (forall t x, fz = false -> In (t, x) (odometry p) -> tr ro t <> u) -> zfind u M = zfind u (odometry p0))).
  { intros q Eq. destruct fz eqn:Ef.
    - exists (odometry p0). cbn. rewrite <- Eq, set_odometry_id. split; [reflexivity|]. rewrite Eq. split; [apply (s_odometry _ _ Sn0)|]. split; [discriminate | reflexivity].
    - destruct (run_time LOdometry odometry set_odometry) with (ro := ro) (l := odometry p) (q := q) as (M & EM & SM & GM & HM).
      + intros t ti v q'. cbn. destruct (mbt_append t ti v (odometry q')); reflexivity.
      + apply set_odometry_id.
      + reflexivity.
      + reflexivity.
      + apply (s_odometry _ _ Sn).
      + intros t x I. pose proof (proj2 (s_odometry _ _ Sn) t x (In_zfind _ _ _ (proj1 (s_odometry _ _ Sn)) I)) as [A B].
        split; [exact A|]. split; [exact B|]. pose proof (tr_new t (Mo t x eq_refl I)). pose proof n_pos. lia.
      + intros [t x] [t' x'] Ia Ib. cbn. apply tr_inj; eapply Mo; eauto.
      + rewrite Eq. apply (s_odometry _ _ Sn0).
      + intros t x I. rewrite Eq. destruct (zfind (tr ro t) (odometry p0)) eqn:F; [|reflexivity].
        assert (tr ro t < next p0) by (apply (r_data _ _ Rc); right; left; congruence).
        pose proof (tr_new t (Mo t x eq_refl I)). unfold n in *. lia.
      + exists M. split; [exact EM|]. split; [exact SM|]. split; [intros t x _; apply GM|].
        intros u Nu. rewrite HM by (intros t x I; now apply (Nu t x)). now rewrite Eq. }
  assert (Hfi : forall q, fixed q = fixed p0 -> exists M, run_items (if fz then [] else time_calls LFixed ro (fixed p)) q = Some (set_fixed M q) /\
     zsorted M /\ (forall t x, fz = false -> In (t, x) (fixed p) -> zfind (tr ro t) M = Some x) /\
     (forall u, (forall t x, fz = false -> In (t, x) (fixed p) -> tr ro t <> u) -> zfind u M = zfind u (fixed p0))).
  { intros q Eq. destruct fz eqn:Ef.
    - exists (fixed p0). cbn. rewrite <- Eq, set_fixed_id. split; [reflexivity|]. rewrite Eq. split; [apply (s_fixed _ _ Sn0)|]. split; [discriminate | reflexivity].
    - destruct (run_time LFixed fixed set_fixed) with (ro := ro) (l := fixed p) (q := q) as (M & EM & SM & GM & HM).
      + intros t ti v q'. cbn. destruct (mbt_append t ti v (fixed q')); reflexivity.
      + apply set_fixed_id.
      + reflexivity.
      + reflexivity.
      + apply (s_fixed _ _ Sn).
      + intros t x I. pose proof (proj2 (s_fixed _ _ Sn) t x (In_zfind _ _ _ (proj1 (s_fixed _ _ Sn)) I)) as [A B].
        split; [exact A|]. split; [exact B|]. pose proof (tr_new t (Mf t x eq_refl I)). pose proof n_pos. lia.
      + intros [t x] [t' x'] Ia Ib. cbn. apply tr_inj; eapply Mf; eauto.
      + rewrite Eq. apply (s_fixed _ _ Sn0).
      + intros t x I. rewrite Eq. destruct (zfind (tr ro t) (fixed p0)) eqn:F; [|reflexivity].
        assert (tr ro t < next p0) by (apply (r_data _ _ Rc); right; right; congruence).
        pose proof (tr_new t (Mf t x eq_refl I)). unfold n in *. lia.
      + exists M. split; [exact EM|]. split; [exact SM|]. split; [intros t x _; apply GM|].
        intros u Nu. rewrite HM by (intros t x I; now apply (Nu t x)). now rewrite Eq. }
  rewrite run_items_app.
  match goal with |- context [run_items (if fz then [] else time_calls LOdometry _ _) ?q] => destruct (Hod q eq_refl) as (MO & EO & SO & GO & HO) end.
  rewrite EO. cbv beta iota. clear EO Hod.
  rewrite run_items_app.
  match goal with |- context [run_items (if fz then [] else time_calls LFixed _ _) ?q] => destruct (Hfi q eq_refl) as (MF & EF & SF & GF & HF) end.
  rewrite EF. cbv beta iota. clear EF Hfi.
  assert (Hob : forall q, landmarks q = L -> exists L', run_items (if fz then [] else obs_calls p ro) q = Some (set_landmarks L' q) /\ zsorted L' /\
     forall lm, l_obs (get_landmark lm L') = l_obs (get_landmark lm L) ++ (if fz then [] else map (ro_obs ro) (l_obs (get_landmark lm (landmarks p)))) /\
                l_pose (get_landmark lm L') = l_pose (get_landmark lm L)).
  { intros q Eq. destruct fz.
    - exists L. cbn. rewrite <- Eq, set_landmarks_id. split; [reflexivity|]. rewrite Eq. split; [exact SL|]. intros lm. now rewrite app_nil_r.
    - destruct (run_obs ro (landmarks p) (s_landmarks _ _ Sn) q) as (L' & E' & S' & G'); [now rewrite Eq|].
      exists L'. split; [exact E'|]. split; [exact S'|]. rewrite <- Eq. exact G'. }
  match goal with |- context [run_items (if fz then [] else obs_calls _ _) ?q] => destruct (Hob q eq_refl) as (L' & EL & SL' & GL') end.
  rewrite EL. cbv beta iota. clear EL Hob.
  assert (Hla : forall q, run_items E q = Some (set_cons_vals (cons_vals q ++ (if fz then [] else file_cons incl p ro)) q)).
  { intros q. unfold E, last_calls. destruct fz.
    - rewrite app_nil_r. rewrite run_items_none by (intros c q' I; apply in_map_iff in I as (e & <- & _); reflexivity). now destruct q.
    - reflexivity. }
  rewrite Hla. eexists. split; [reflexivity|].
  split; cbn [cons_vals landmarks odometry fixed tdata options set_cons_vals set_landmarks set_odometry set_fixed set_tdata].
  - reflexivity.
  - split; [exact SL'|]. intros lm. destruct (GL' lm) as [A B]. rewrite A, B, GL. unfold q0. cbn [landmarks set_options].
    destruct (l_pose (get_landmark lm (landmarks p))); auto.
  - auto.
  - auto.
  - split; [exact S3|]. split; [exact G3|]. intros u Nu. rewrite (H3 u Nu). cbn [tdata set_tdata].
    destruct (G2 u) as [(o & A & B) | (A & [B | (B & n0 & I & Eu)])].
    + left. rewrite B. symmetry. exact A.
    + left. rewrite B. symmetry. exact A.
    + right. split; [exact B|]. eauto.
  - reflexivity.
Qed.

Variables (ob : id -> Z) (every_n : Z).
Lemma loaded es rest : C = calls_of es ++ rest -> lfair ob every_n es (load_start g0 p0 os) ->
  exists s, lrun ob every_n es (load_start g0 p0 os) = Some s /\
    (lq s <> [] -> md (ls s) = Draining) /\
    (rest = [] -> lq s = [] -> same_map incl fz ro g p g0 p0 (gr (ls s)) (lp s) /\ wfg (gr (ls s))).
Proof.
  intros Ec Fa. destruct data_run as (p1 & Ep & Da).
  destruct (run_ok ob every_n n g0 q0 C p1 calls_orderly host_ok Ep es [] [] [] (load_start g0 p0 os) rest) as (s & B & q & R & V).
  { eapply start; first [exact calls_orderly | exact host_ok | exact Ep]. }
  { exact Ec. }
  { exact Fa. }
  exists s. split; [exact R|]. split.
  { intros Nq. destruct (j_md _ _ _ _ _ _ _ _ V) as [H | [_ H]]; [exact H|]. rewrite (j_lq _ _ _ _ _ _ _ _ V) in Nq. congruence. }
  intros -> Lq. rewrite app_nil_r in Ec. cbn [app] in V. rewrite <- Ec in V.
  assert (Eq : q = []) by (rewrite <- (j_lq _ _ _ _ _ _ _ _ V); exact Lq). subst q.
  assert (EB : B = C) by (pose proof (j_split _ _ _ _ _ _ _ _ V) as H; now rewrite app_nil_r in H). subst B.
  clear Fa Ec R.
  assert (Pp : exists f h, lp s = set_sp f (set_np h p1)).
  { destruct (j_pay _ _ _ _ _ _ _ _ V) as (p1' & E1 & E2). rewrite Ep in E1. injection E1 as <-. eauto. }
  assert (Pf : cons_vals (lp s) = cons_vals p1 /\ landmarks (lp s) = landmarks p1 /\ odometry (lp s) = odometry p1 /\
               fixed (lp s) = fixed p1 /\ tdata (lp s) = tdata p1 /\ options (lp s) = options p1).
  { destruct Pp as (f & h & ->). repeat split; reflexivity. }
  destruct Pf as (F1 & F2 & F3 & F4 & F5 & F6). clear Pp.
  pose proof V as [_ _ _ _ Vwf Vso Vno Von Vgp Vos Vsu Vnew Vold _ Vcons _ _ [Vsp1 Vsp2] [Vnp1 Vnp2]].
  rewrite sub_ids_C in *. rewrite node_ids_C in *. rewrite freeze_ids_C in *. rewrite loaded_C in Vcons.
  pose proof Da as [D1 [_ D2] (_ & D3a & D3b) (_ & D4a & D4b) (_ & D5a & D5b) D6].
  pose proof host_ok as [_ _ _ Htr Hnone _].
  assert (Mem : forall l x, (forall y, In y l -> mentioned g (fst y)) -> mentioned g (fst x) ->
            mem (rn ro x) (map (rn ro) l) = true <-> In x l).
  { intros l x Ml Mx. rewrite mem_spec, in_map_iff. split; [|eauto]. intros (y & E1 & I). apply rn_inj in E1; auto. now subst. }
  assert (Old : forall l x, (forall y, In y l -> mentioned g (fst y)) -> fst x < n -> mem x (map (rn ro) l) = false).
  { intros l x Ml Hx. apply mem_false. intros I. apply in_map_iff in I as (y & <- & I). cbn in Hx. pose proof (tr_new _ (Ml y I)). lia. }
  split; [|exact Vwf]. split.
  - intros t. rewrite <- Ti. rewrite <- (numbered_dom _ _ _ _ Nb). split; [intros (t' & ->); discriminate|].
    destruct (zfind t ro); [eauto | congruence].
  - intros t u t' A B. exact (ro_inj t u t' A B).
  - intros t t' Zt. assert (M : mentioned g t) by (apply Ti; apply (numbered_dom _ _ _ _ Nb); congruence).
    destruct (tr_new t M) as [Z2 Hr]. assert (t' = tr ro t) by congruence. subst t'. unfold next at 2. rewrite F6, D6, app_length, Lo.
    unfold n, next in Hr |- *. lia.
  - intros t t' Zt. assert (M : mentioned g t) by (apply Ti; apply (numbered_dom _ _ _ _ Nb); congruence).
    destruct (tr_new t M) as [Z2 Hr]. assert (t' = tr ro t) by congruence. subst t'. rewrite Vnew by lia.
    destruct fz; [|reflexivity]. rewrite (proj2 (existsb_In _ _)); [reflexivity|]. now apply In_count.
  - intros x Hx. specialize (Vsu x). split.
    + intros St. destruct (mem x (map (rn ro) (W incl g p))) eqn:Me.
      * apply mem_spec, in_map_iff in Me as (y & <- & I). exists y. pose proof (W_mentioned y I). apply W_In in I; [|apply Wg].
        split; [now apply rn_renamed | exact I].
      * exfalso. unfold stored in St. apply St. fold (get x (subs (gr (ls s)))). rewrite Vsu. destruct x as [t j]. now apply Hnone.
    + intros (y & Ry & Sy). apply renamed_rn in Ry as [-> My]. apply W_In in Sy; [|apply Wg].
      rewrite (proj2 (Mem (W incl g p) y W_mentioned My) Sy) in Vsu. destruct Vsu as (d & G & _). eapply get_stored. exact G.
  - intros y x Ry Sy Iy. apply renamed_rn in Ry as [-> My]. assert (I : In y (W incl g p)) by (apply W_In; [apply Wg | auto]).
    pose proof (proj2 (Mem (W incl g p) y W_mentioned My) I) as Me.
    specialize (Vsu (rn ro y)). specialize (Vgp (rn ro y)). specialize (Vos (rn ro y)). rewrite Me in Vsu, Vgp, Vos.
    split; [|split; [eapply get_stored; exact Vos|split; [eapply get_stored; exact Vgp|]]].
    + apply Vsp1. unfold C, D, first_calls. rewrite !in_app_iff. left. right. right. left. unfold sub_calls. apply in_map_iff. eauto.
    + destruct Vsu as (d & G & _ & Fi & Ni). exists d. split; [exact G|]. split; [now rewrite Fi|]. intros z. rewrite Ni, (recs_C y z I). split.
      * intros (n0 & -> & M0 & Ic). exists n0. split; [now apply rn_renamed | exact Ic].
      * intros (n0 & Rn & Ic). apply renamed_rn in Rn as [-> M0]. eauto.
  - intros x Hx. specialize (Vno x). split.
    + intros St. destruct (mem x (map (rn ro) (N g))) eqn:Me.
      * apply mem_spec, in_map_iff in Me as (y & <- & I). exists y. pose proof (N_mentioned y I). apply N_In in I; [|apply Wg].
        split; [now apply rn_renamed | exact I].
      * exfalso. unfold stored in St. apply St. fold (get x (nodes (gr (ls s)))). rewrite Vno. destruct x as [t j]. now apply Hnone.
    + intros (y & Ry & Sy). apply renamed_rn in Ry as [-> My]. apply N_In in Sy; [|apply Wg].
      rewrite (proj2 (Mem (N g) y N_mentioned My) Sy) in Vno. eapply get_stored. exact Vno.
  - intros y x Ry Sy. apply renamed_rn in Ry as [-> My]. assert (I : In y (N g)) by (apply N_In; [apply Wg | auto]).
    pose proof (proj2 (Mem (N g) y N_mentioned My) I) as Me. specialize (Von (rn ro y)). rewrite Me in Von.
    split; [|eapply get_stored; exact Von].
    apply Vnp1. unfold C, D, first_calls. rewrite !in_app_iff. left. do 3 right. left. unfold node_calls. apply in_map_iff. eauto.
  - split.
    + rewrite F1, D1, Vcons, map_app, (s_cons _ _ Sn0). reflexivity.
    + exists (filter (fun c => written incl p (c_sub (fst c))) (cons_vals p)), (if fz then [] else file_cons incl p ro).
      rewrite F1. split; [exact D1|]. destruct fz; [reflexivity|]. split.
      * apply kept_filter. intros e. unfold written. apply orb_true_iff.
      * assert (A : forall e, In e (filter (fun c => written incl p (c_sub (fst c))) (cons_vals p)) -> mentioned g (fst (c_sub (fst e))) /\ mentioned g (fst (c_node (fst e)))).
        { intros e I. apply filter_In in I as [I _]. destruct (proj1 Ig (fst e)) as [Q1 Q2]; [rewrite <- (s_cons _ _ Sn); now apply in_map|].
          split; [now apply (stored_mentioned_sub g) | now apply (stored_mentioned_node g)]. }
        unfold file_cons. induction (filter _ (cons_vals p)) as [|e l IHl]; [constructor|]. cbn [map]. constructor.
        -- destruct (A e (or_introl eq_refl)). unfold renamed_cons, rc. cbn. repeat split; try reflexivity; now apply tr_new.
        -- apply IHl. intros e' I. apply A. now right.
  - intros lm. rewrite F2. apply D2.
  - intros lm. rewrite F2. destruct (D2 lm) as [A _]. rewrite A. eexists. split; [reflexivity|].
    assert (Mo : fz = false -> forall o, In o (l_obs (get_landmark lm (landmarks p))) -> mentioned g (o_traj o)) by (intros Ef o; now apply obs_mentioned).
    clear A. destruct fz; [reflexivity|]. specialize (Mo eq_refl). induction (l_obs (get_landmark lm (landmarks p))) as [|o l IHl]; [constructor|]. cbn [map]. constructor.
    + unfold renamed_obs, ro_obs. cbn. repeat split; try reflexivity. apply tr_new, Mo. now left.
    + apply IHl. intros o' I. apply Mo. now right.
  - intros t t' Zt. rewrite F3. assert (M : mentioned g t) by (apply Ti; apply (numbered_dom _ _ _ _ Nb); congruence).
    destruct (tr_new t M) as [Z2 Hr]. assert (t' = tr ro t) by congruence. subst t'.
    assert (No : zfind (tr ro t) (odometry p0) = None).
    { destruct (zfind (tr ro t) (odometry p0)) eqn:F; [|reflexivity]. assert (tr ro t < next p0) by (apply (r_data _ _ Rc); right; left; congruence). unfold n in Hr. lia. }
    destruct fz eqn:Ef; [rewrite D3b by discriminate; exact No|].
    destruct (zfind t (odometry p)) as [l|] eqn:F; [apply D3a; [reflexivity | now apply zfind_In]|].
    rewrite D3b; [exact No|]. intros u x _ I Et. assert (u = t).
    { apply tr_inj; [|exact M|exact Et]. apply (proj2 Ld). right. split; [reflexivity|]. left. rewrite (In_zfind _ _ _ (proj1 (s_odometry _ _ Sn)) I). discriminate. }
    subst u. rewrite (In_zfind _ _ _ (proj1 (s_odometry _ _ Sn)) I) in F. discriminate.
  - intros t t' Zt. rewrite F4. assert (M : mentioned g t) by (apply Ti; apply (numbered_dom _ _ _ _ Nb); congruence).
    destruct (tr_new t M) as [Z2 Hr]. assert (t' = tr ro t) by congruence. subst t'.
    assert (No : zfind (tr ro t) (fixed p0) = None).
    { destruct (zfind (tr ro t) (fixed p0)) eqn:F; [|reflexivity]. assert (tr ro t < next p0) by (apply (r_data _ _ Rc); right; right; congruence). unfold n in Hr. lia. }
    destruct fz eqn:Ef; [rewrite D4b by discriminate; exact No|].
    destruct (zfind t (fixed p)) as [l|] eqn:F; [apply D4a; [reflexivity | now apply zfind_In]|].
    rewrite D4b; [exact No|]. intros u x _ I Et. assert (u = t).
    { apply tr_inj; [|exact M|exact Et]. apply (proj2 Ld). right. split; [reflexivity|]. right. left. rewrite (In_zfind _ _ _ (proj1 (s_fixed _ _ Sn)) I). discriminate. }
    subst u. rewrite (In_zfind _ _ _ (proj1 (s_fixed _ _ Sn)) I) in F. discriminate.
  - intros t t' v Zt. rewrite F5. assert (M : mentioned g t) by (apply Ti; apply (numbered_dom _ _ _ _ Nb); congruence).
    destruct (tr_new t M) as [Z2 Hr]. assert (t' = tr ro t) by congruence. subst t'.
    assert (No : zfind (tr ro t) (tdata p0) = None).
    { destruct (zfind (tr ro t) (tdata p0)) eqn:F; [|reflexivity]. assert (tr ro t < next p0) by (apply (r_data _ _ Rc); left; congruence). unfold n in Hr. lia. }
    split.
    + intros Zv. destruct (zfind t (tdata p)) as [[w|]|] eqn:F.
      * apply zfind_In in F. rewrite (D5a t w F) in Zv. congruence.
      * exfalso. destruct (D5b (tr ro t)) as [A | [A _]]; [|congruence|congruence]. intros u w I Et. assert (u = t).
        { apply tr_inj; [|exact M|exact Et]. apply (proj2 Ld). left. rewrite (In_zfind _ _ _ (s_tdata _ _ Sn) I). discriminate. }
        subst u. rewrite (In_zfind _ _ _ (s_tdata _ _ Sn) I) in F. discriminate.
      * exfalso. destruct (D5b (tr ro t)) as [A | [A _]]; [|congruence|congruence]. intros u w I Et. assert (u = t).
        { apply tr_inj; [|exact M|exact Et]. apply (proj2 Ld). left. rewrite (In_zfind _ _ _ (s_tdata _ _ Sn) I). discriminate. }
        subst u. rewrite (In_zfind _ _ _ (s_tdata _ _ Sn) I) in F. discriminate.
    + intros F. apply D5a. now apply zfind_In.
  - intros x Hx. specialize (Vsu x). specialize (Vno x). rewrite (Old _ x W_mentioned Hx) in Vsu. rewrite (Old _ x N_mentioned Hx) in Vno.
    split; [exact Vsu|]. split; [exact Vno|]. split.
    + apply Vsp2. intros I. apply mem_spec in I. rewrite (Old _ x W_mentioned Hx) in I. discriminate.
    + apply Vnp2. intros I. apply mem_spec in I. rewrite (Old _ x N_mentioned Hx) in I. discriminate.
  - intros t Ht. fold n in Ht. split; [now apply Vold|]. split; [|split; [|split]].
    + rewrite F3. apply D3b. intros u x Ef I. assert (M : mentioned g u).
      { apply (proj2 Ld). right. split; [exact Ef|]. left. rewrite (In_zfind _ _ _ (proj1 (s_odometry _ _ Sn)) I). discriminate. }
      apply tr_new in M. lia.
    + rewrite F4. apply D4b. intros u x Ef I. assert (M : mentioned g u).
      { apply (proj2 Ld). right. split; [exact Ef|]. right. left. rewrite (In_zfind _ _ _ (proj1 (s_fixed _ _ Sn)) I). discriminate. }
      apply tr_new in M. lia.
    + rewrite F5. destruct (D5b t) as [A | (_ & n0 & I & ->)]; [|exact A|].
      * intros u w I. assert (M : mentioned g u).
        { apply (proj2 Ld). left. rewrite (In_zfind _ _ _ (s_tdata _ _ Sn) I). discriminate. }
        apply tr_new in M. lia.
      * apply N_mentioned, tr_new in I. lia.
    + intros Pt. rewrite F6, D6. apply nth_error_app1. unfold n, next in Ht. lia.
Qed.
End F.
