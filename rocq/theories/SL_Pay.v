(* The data of a loaded file that is not in the graph: proofs. *)
From Coq Require Import List ZArith Bool Lia Sorted.
From Verif Require Import ZMap MapById_Model MapById_Spec MapById_Proofs PG_Model PG_Maps PG_Spec
  PG_Proofs PG_Session_Handle SL_Model SL_Spec SL_Run SL_Write SL_Load.
Import ListNotations.
Open Scope Z_scope.

Lemma run_items_none l : (forall c q, In c l -> in_item c q = Some q) -> forall q, run_items l q = Some q.
Proof.
  induction l as [|c l IH]; intros H q; [reflexivity|]. cbn. rewrite H by now left. apply IH. intros. apply H. now right.
Qed.

Lemma get_put lm k x L : zsorted L -> get_landmark lm (zput k x L) = if lm =? k then x else get_landmark lm L.
Proof. intros S. unfold get_landmark. rewrite zfind_zput by exact S. destruct (lm =? k); reflexivity. Qed.
Lemma get_cons lm k x l : get_landmark lm ((k, x) :: l) = if lm =? k then x else get_landmark lm l.
Proof. unfold get_landmark. cbn [zfind]. destruct (lm =? k); reflexivity. Qed.
Lemma set_landmarks_id q : set_landmarks (landmarks q) q = q. Proof. now destruct q. Qed.
Lemma set_tdata_id q : set_tdata (tdata q) q = q. Proof. now destruct q. Qed.
Lemma set_odometry_id q : set_odometry (odometry q) q = q. Proof. now destruct q. Qed.
Lemma set_fixed_id q : set_fixed (fixed q) q = q. Proof. now destruct q. Qed.

Lemma run_poses l : zsorted l -> forall q, zsorted (landmarks q) ->
  exists L, run_items (flat_map (fun e => match l_pose (snd e) with Some v => [LLandmarkPose (fst e) v] | None => [] end) l) q
            = Some (set_landmarks L q) /\ zsorted L /\
    forall lm, get_landmark lm L =
      match l_pose (get_landmark lm l) with
      | Some v => mk_landmark (l_obs (get_landmark lm (landmarks q))) (Some v) true
      | None => get_landmark lm (landmarks q)
      end.
Proof.
  induction l as [|[k x] l IH]; intros S q Sq.
  - exists (landmarks q). rewrite set_landmarks_id. auto.
  - apply zsorted_inv in S as [S Lt]. cbn [flat_map fst snd].
    assert (Nk : get_landmark k l = mk_landmark [] None false).
    { unfold get_landmark. rewrite (proj2 (zfind_None k l)); [reflexivity|]. intros v I. specialize (Lt _ I). cbn in Lt. lia. }
    destruct (l_pose x) as [v|] eqn:Ex; cbn [app run_items in_item].
    + match goal with |- context [run_items _ (set_landmarks ?z _)] => set (L1 := z) end.
      assert (S1 : zsorted L1) by now apply zput_sorted.
      destruct (IH S (set_landmarks L1 q) S1) as (L & E & SL & G). exists L. split; [exact E|]. split; [exact SL|].
      intros lm. rewrite G. cbn [landmarks set_landmarks]. unfold L1. rewrite get_put by exact Sq.
      rewrite get_cons. destruct (Z.eqb_spec lm k) as [->|].
      * rewrite Nk. cbn. rewrite Ex. reflexivity.
      * reflexivity.
    + destruct (IH S q Sq) as (L & E & SL & G). exists L. split; [exact E|]. split; [exact SL|].
      intros lm. rewrite G. rewrite get_cons. destruct (Z.eqb_spec lm k) as [->|].
      * rewrite Nk, Ex. reflexivity.
      * reflexivity.
Qed.

Lemma run_obs1 ro k l : forall q, zsorted (landmarks q) ->
  exists L, run_items (map (fun o => LLandmark (tr ro (o_traj o)) (o_time o) k (o_val o)) l) q = Some (set_landmarks L q) /\ zsorted L /\
    forall lm, get_landmark lm L =
      if lm =? k then mk_landmark (l_obs (get_landmark k (landmarks q)) ++ map (fun o => mk_obs (tr ro (o_traj o)) (o_time o) (o_val o)) l)
                                  (l_pose (get_landmark k (landmarks q))) (l_frozen (get_landmark k (landmarks q)))
      else get_landmark lm (landmarks q).
Proof.
  induction l as [|o l IH]; intros q Sq.
  - exists (landmarks q). rewrite set_landmarks_id. cbn. split; [reflexivity|]. split; [exact Sq|]. intros lm.
    rewrite app_nil_r. destruct (Z.eqb_spec lm k) as [->|]; [|reflexivity]. now destruct (get_landmark k _).
  - cbn [map run_items in_item].
    match goal with |- context [run_items _ (set_landmarks ?z _)] => set (L1 := z) end.
    assert (S1 : zsorted L1) by now apply zput_sorted.
    destruct (IH (set_landmarks L1 q) S1) as (L & E & SL & G). exists L. split; [exact E|]. split; [exact SL|].
    intros lm. rewrite G. cbn [landmarks set_landmarks]. unfold L1. rewrite !get_put by exact Sq. rewrite Z.eqb_refl.
    destruct (lm =? k); [|reflexivity]. cbn [l_obs l_pose l_frozen]. now rewrite <- app_assoc.
Qed.
Definition ro_obs ro (o : obs) : obs := mk_obs (tr ro (o_traj o)) (o_time o) (o_val o).
Lemma run_obs ro l : zsorted l -> forall q, zsorted (landmarks q) ->
  exists L, run_items (flat_map (fun e => map (fun o => LLandmark (tr ro (o_traj o)) (o_time o) (fst e) (o_val o)) (l_obs (snd e))) l) q
            = Some (set_landmarks L q) /\ zsorted L /\
    forall lm, l_obs (get_landmark lm L) = l_obs (get_landmark lm (landmarks q)) ++ map (ro_obs ro) (l_obs (get_landmark lm l)) /\
               l_pose (get_landmark lm L) = l_pose (get_landmark lm (landmarks q)).
Proof.
  induction l as [|[k x] l IH]; intros S q Sq.
  - exists (landmarks q). rewrite set_landmarks_id. split; [reflexivity|]. split; [exact Sq|]. intros lm. cbn. now rewrite app_nil_r.
  - apply zsorted_inv in S as [S Lt]. cbn [flat_map fst snd]. rewrite run_items_app.
    destruct (run_obs1 ro k (l_obs x) q Sq) as (L1 & E1 & S1 & G1). rewrite E1.
    destruct (IH S (set_landmarks L1 q) S1) as (L & E & SL & G). exists L. split; [exact E|]. split; [exact SL|].
    assert (Nk : get_landmark k l = mk_landmark [] None false).
    { unfold get_landmark. rewrite (proj2 (zfind_None k l)); [reflexivity|]. intros v I. specialize (Lt _ I). cbn in Lt. lia. }
    intros lm. destruct (G lm) as [Ga Gb]. rewrite Ga, Gb. cbn [landmarks set_landmarks]. rewrite G1.
    rewrite get_cons. destruct (Z.eqb_spec lm k) as [->|].
    + rewrite Nk. cbn. now rewrite app_nil_r.
    + auto.
Qed.

Lemma run_nodes (f : id -> nodeval) ro l : forall q, zsorted (tdata q) ->
  exists T, run_items (map (fun n => LNode (rn ro n) (f n)) l) q = Some (set_tdata T q) /\ zsorted T /\
    forall t, (exists o, zfind t (tdata q) = Some o /\ zfind t T = Some o) \/
              (zfind t (tdata q) = None /\ (zfind t T = None \/ (zfind t T = Some None /\ exists n, In n l /\ t = tr ro (fst n)))).
Proof.
  induction l as [|n l IH]; intros q Sq.
  - exists (tdata q). rewrite set_tdata_id. split; [reflexivity|]. split; [exact Sq|]. intros t.
    destruct (zfind t (tdata q)); eauto.
  - cbn [map run_items in_item rn fst]. destruct (zfind (tr ro (fst n)) (tdata q)) as [o|] eqn:Eo.
    + destruct (IH q Sq) as (T & E & ST & G). exists T. split; [exact E|]. split; [exact ST|]. intros t.
      destruct (G t) as [H | (H1 & [H2 | (H2 & n' & I & En)])]; [left; exact H | right; auto |].
      right. split; [exact H1|]. right. split; [exact H2|]. exists n'. split; [now right | exact En].
    + assert (S1 : zsorted (zput (tr ro (fst n)) (@None val) (tdata q))) by now apply zput_sorted.
      destruct (IH (set_tdata (zput (tr ro (fst n)) None (tdata q)) q) S1) as (T & E & ST & G).
      exists T. split; [exact E|]. split; [exact ST|]. intros t. specialize (G t). cbn [tdata set_tdata] in G.
      rewrite zfind_zput in G by exact Sq. destruct (Z.eqb_spec t (tr ro (fst n))) as [Et|].
      * right. rewrite Et, Eo. split; [reflexivity|]. right. rewrite <- Et. destruct G as [(o & [= <-] & H) | (H & _)]; [|discriminate].
        split; [exact H|]. exists n. split; [now left | exact Et].
      * destruct G as [H | (H1 & [H2 | (H2 & n' & I & En)])]; [left; exact H | right; auto |].
        right. split; [exact H1|]. right. split; [exact H2|]. exists n'. split; [now right | exact En].
Qed.
Definition origin_call ro (e : Z * option val) : list lcall :=
  match snd e with Some v => [LTrajectory (tr ro (fst e)) v] | None => [] end.
Lemma run_origins ro l : (forall a b, In a l -> In b l -> tr ro (fst a) = tr ro (fst b) -> fst a = fst b) ->
  zsorted l -> forall q, zsorted (tdata q) ->
  exists T, run_items (flat_map (origin_call ro) l) q = Some (set_tdata T q) /\ zsorted T /\
    (forall t v, In (t, Some v) l -> zfind (tr ro t) T = Some (Some v)) /\
    (forall u, (forall t v, In (t, Some v) l -> tr ro t <> u) -> zfind u T = zfind u (tdata q)).
Proof.
  induction l as [|[t o] l IH]; intros Inj S q Sq.
  - exists (tdata q). rewrite set_tdata_id. split; [reflexivity|]. split; [exact Sq|]. split; [intros ? ? []|reflexivity].
  - apply zsorted_inv in S as [S Lt]. cbn [flat_map]. unfold origin_call at 1. cbn [fst snd].
    assert (Inj' : forall a b, In a l -> In b l -> tr ro (fst a) = tr ro (fst b) -> fst a = fst b)
      by (intros a b Ia Ib; apply Inj; now right).
    destruct o as [v|]; cbn [app run_items in_item].
    + match goal with |- context [run_items _ (set_tdata ?z _)] => set (L1 := z) end.
      assert (S1 : zsorted L1) by now apply zput_sorted.
      destruct (IH Inj' S (set_tdata L1 q) S1) as (T & E & ST & G1 & G2). exists T. split; [exact E|]. split; [exact ST|]. split.
      * intros t' v' [[= <- <-] | I]; [|now apply G1]. rewrite G2.
        -- cbn [tdata set_tdata]. unfold L1. now rewrite zfind_zput, Z.eqb_refl by exact Sq.
        -- intros t' w I Et. pose proof (Inj (t', Some w) (t, Some v) (or_intror I) (or_introl eq_refl) Et) as H.
           specialize (Lt _ I). cbn in *. lia.
      * intros u Nu. rewrite G2 by (intros t' w I; eapply Nu; right; exact I). cbn [tdata set_tdata]. unfold L1.
        rewrite zfind_zput by exact Sq. destruct (Z.eqb_spec u (tr ro t)) as [->|]; [|reflexivity].
        elim (Nu t v); [now left | reflexivity].
    + destruct (IH Inj' S q Sq) as (T & E & ST & G1 & G2). exists T. split; [exact E|]. split; [exact ST|]. split.
      * intros t' v' [[=] | I]. now apply G1.
      * intros u Nu. apply G2. intros t' w I. eapply Nu. right. exact I.
Qed.

(* ---- data by time ---- *)
Lemma zput_end {V} k (v : V) a : (forall e, In e a -> fst e < k) -> zput k v a = a ++ [(k, v)].
Proof.
  induction a as [|[k' v'] a IH]; cbn; intros H; [reflexivity|].
  pose proof (H _ (or_introl eq_refl)) as Hk. cbn in Hk. destruct (Z.ltb_spec k k'); [lia|]. destruct (Z.eqb_spec k k'); [lia|].
  f_equal. apply IH. intros e I. apply H. now right.
Qed.
Definition appends (t : Z) (l : list (Z * val)) (m : list (Z * list (Z * val))) : option (list (Z * list (Z * val))) :=
  fold_left (fun o x => match o with Some m => mbt_append t (fst x) (snd x) m | None => None end) l (Some m).
Lemma appends_none t l : fold_left (fun o x => match o with Some m => mbt_append t (fst x) (snd x) m | None => None end) l (@None (list (Z * list (Z * val)))) = None.
Proof. induction l; auto. Qed.
Lemma appends_ok t l : forall a m, 0 <= t -> zsorted m -> zsorted (a ++ l) ->
  match zfind t m with Some x => x | None => [] end = a ->
  exists m', appends t l m = Some m' /\ zsorted m' /\
    (l = [] -> m' = m) /\
    (l <> [] -> zfind t m' = Some (a ++ l)) /\ (forall u, u <> t -> zfind u m' = zfind u m).
Proof.
  induction l as [|[ti v] l IH]; intros a m Ht Sm Sa Ea; unfold appends in *; cbn [fold_left fst snd].
  - exists m. repeat split; auto. congruence.
  - assert (B : forall e, In e a -> fst e < ti).
    { intros e I. apply zsorted_app in Sa as (_ & _ & H). apply (H e (ti, v) I). now left. }
    assert (Ap : mbt_append t ti v m = Some (zput t (a ++ [(ti, v)]) m)).
    { unfold mbt_append. destruct (Z.ltb_spec t 0); [lia|]. rewrite Ea, (zput_end ti v a) by exact B.
      destruct (zlast a) as [[lt w]|] eqn:El; [|reflexivity]. apply zlast_In, B in El. cbn in El.
      destruct (Z.ltb_spec lt ti); [reflexivity | lia]. }
    rewrite Ap. destruct (IH (a ++ [(ti, v)]) (zput t (a ++ [(ti, v)]) m) Ht) as (m' & E & S' & Q1 & Q2 & Q3).
    + now apply zput_sorted.
    + now rewrite <- app_assoc.
    + now rewrite zfind_zput, Z.eqb_refl by exact Sm.
    + exists m'. split; [exact E|]. split; [exact S'|]. split; [discriminate|]. split.
      * intros _. destruct l as [|b l].
        -- rewrite (Q1 eq_refl). now rewrite zfind_zput, Z.eqb_refl by exact Sm.
        -- rewrite Q2 by discriminate. now rewrite <- app_assoc.
      * intros u Nu. rewrite Q3 by exact Nu. rewrite zfind_zput by exact Sm. destruct (Z.eqb_spec u t); congruence.
Qed.

Section T.
Variables (mk : Z -> Z -> val -> lcall) (gt : pay -> list (Z * list (Z * val)))
          (st : list (Z * list (Z * val)) -> pay -> pay).
Hypothesis Hmk : forall t ti v q, in_item (mk t ti v) q =
  match mbt_append t ti v (gt q) with Some m => Some (st m q) | None => None end.
Hypothesis Hid : forall q, st (gt q) q = q.
Hypothesis Hgs : forall m q, gt (st m q) = m.
Hypothesis Hss : forall m m' q, st m (st m' q) = st m q.
Lemma run_time1 t l : forall q, run_items (map (fun x => mk t (fst x) (snd x)) l) q =
  match appends t l (gt q) with Some m => Some (st m q) | None => None end.
Proof.
  unfold appends. induction l as [|[ti v] l IH]; intros q; cbn [map run_items fold_left fst snd].
  - now rewrite Hid.
  - rewrite Hmk. destruct (mbt_append t ti v (gt q)) as [m|].
    + rewrite IH, Hgs. unfold mbt. match goal with |- match ?x with _ => _ end = _ => destruct x end; [now rewrite Hss | reflexivity].
    + now rewrite appends_none.
Qed.
Lemma run_time ro l : zsorted l -> (forall t x, In (t, x) l -> zsorted x /\ x <> [] /\ 0 <= tr ro t) ->
  (forall a b, In a l -> In b l -> tr ro (fst a) = tr ro (fst b) -> fst a = fst b) ->
  forall q, zsorted (gt q) -> (forall t x, In (t, x) l -> zfind (tr ro t) (gt q) = None) ->
  exists M, run_items (time_calls mk ro l) q = Some (st M q) /\ zsorted M /\
    (forall t x, In (t, x) l -> zfind (tr ro t) M = Some x) /\
    (forall u, (forall t x, In (t, x) l -> tr ro t <> u) -> zfind u M = zfind u (gt q)).
Proof.
  unfold time_calls. induction l as [|[t x] l IH]; intros S Ok Inj q Sq Nw.
  - exists (gt q). rewrite Hid. split; [reflexivity|]. split; [exact Sq|]. split; [intros ? ? []|reflexivity].
  - apply zsorted_inv in S as [S Lt]. cbn [flat_map fst snd]. rewrite run_items_app, run_time1.
    destruct (Ok t x (or_introl eq_refl)) as (Sx & Nx & Pt).
    destruct (appends_ok (tr ro t) x [] (gt q) Pt Sq Sx) as (m1 & E1 & S1 & _ & Q1 & Q2).
    { now rewrite (Nw t x (or_introl eq_refl)). }
    rewrite E1. specialize (Q1 Nx). cbn [app] in Q1.
    assert (Df : forall t' x', In (t', x') l -> tr ro t' <> tr ro t).
    { intros t' x' I Et. pose proof (Inj (t', x') (t, x) (or_intror I) (or_introl eq_refl) Et) as H.
      specialize (Lt _ I). cbn in *. lia. }
    destruct (IH S) with (q := st m1 q) as (M & E & SM & G1 & G2).
    + intros t' x' I. apply Ok. now right.
    + intros a b Ia Ib. apply Inj; now right.
    + now rewrite Hgs.
    + intros t' x' I. rewrite Hgs, Q2 by (eapply Df; exact I). eapply Nw. right. exact I.
    + exists M. rewrite E, Hss. split; [reflexivity|]. split; [exact SM|]. split.
      * intros t' x' [[= <- <-] | I]; [|now apply G1]. rewrite G2 by exact Df. now rewrite Hgs.
      * intros u Nu. rewrite G2 by (intros t' x' I; eapply Nu; right; exact I). rewrite Hgs. apply Q2.
        intros ->. elim (Nu t x); [now left | reflexivity].
Qed.
End T.
