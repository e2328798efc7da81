(* HybridGrid: the update protocol, SetProbability and serialization. *)
From Coq Require Import List ZArith Bool Lia.
From Verif Require Import Vec Float32 PV_Model PV_Proofs G2_Model G2_Spec G2_Grow HG_Model HG_Spec HG_Wrap HG_Dyn.
Import ListNotations.
Open Scope Z_scope.

(* what DynamicGrid wraps is a map of 64 x 64 x 64 voxels *)
Section Base.
Variable V : Type.
Variable dflt : V.
Variable is_default : V -> bool.
Hypothesis default_ok : forall v, is_default v = true <-> v = dflt.
Definition leaf_wf (c : list V) : Prop := vsize c = 2 ^ (3 * 3).
Definition base_wf : list (option (list V)) -> Prop := cells_wf leaf_wf 3.
Lemma base_ok : ops_ok dflt (grid_ops V dflt is_default) base_wf.
Proof.
  unfold grid_ops, base_wf. apply (nested_ok dflt _ leaf_wf); [|lia].
  apply (flat_ok V dflt is_default default_ok 3). lia.
Qed.
Lemma base_size : o_size (grid_ops V dflt is_default) = 64.
Proof. reflexivity. Qed.
End Base.

Lemma z_default v : (v =? 0) = true <-> v = 0.
Proof. apply Z.eqb_eq. Qed.
Definition hdwf (d : dynamic node) : Prop := dwf (base_wf Z) d.
Definition nok := base_ok Z 0 (fun v => v =? 0) z_default.
Definition nsz := base_size Z 0 (fun v => v =? 0).

Lemma rep_int i : representable i -> int_index i.
Proof. unfold representable, int_index, within. lia. Qed.
Lemma rep_dec i : {representable i} + {~ representable i}.
Proof. apply within_dec. Qed.

Lemma hy_value_some h i : hdwf (h_grid h) -> int_index i -> exists v, hy_value h i = Some v.
Proof. intros D I. exact (dyn_value_some 0 node_ops _ nok nsz _ _ D I). Qed.
Lemma hy_value_out h i : hdwf (h_grid h) -> int_index i -> ~ representable i -> hy_value h i = Some 0.
Proof.
  intros D I N. apply (dyn_value_out 0 node_ops _ nsz _ _ D I).
  intros Q. apply N. pose proof (half_bound _ _ D). unfold representable, within in *. lia.
Qed.

Lemma hy_modify_ok A (f : Z -> option (A * Z)) h i v a w : hdwf (h_grid h) -> representable i ->
  hy_value h i = Some v -> f v = Some (a, w) ->
  exists h', hy_modify f h i = Some (a, h') /\ hdwf (h_grid h') /\ h_res h' = h_res h /\ h_upd h' = h_upd h /\
    forall j, int_index j -> hy_value h' j = if same3 j i then Some w else hy_value h j.
Proof.
  intros D R E F.
  destruct (dyn_modify_ok 0 node_ops _ nok nsz A f i v a w R F grow_fuel (h_grid h) D E) as [d' [Em [D' V]]].
  { destruct D as [B _]. unfold grow_fuel. lia. }
  unfold hy_modify. rewrite Em. eexists. split; [reflexivity|]. cbn [h_grid h_res h_upd].
  do 3 (split; [assumption || reflexivity|]). exact V.
Qed.
Lemma hy_modify_out A (f : Z -> option (A * Z)) h i : hdwf (h_grid h) -> ~ representable i ->
  hy_modify f h i = None.
Proof.
  intros D R. unfold hy_modify.
  rewrite (dyn_modify_out 0 node_ops _ nok nsz A f i R grow_fuel (h_grid h) D); [reflexivity|].
  destruct D as [B _]. unfold grow_fuel. lia.
Qed.
Lemma hy_modify_fail A (f : Z -> option (A * Z)) h i v : hdwf (h_grid h) -> representable i ->
  hy_value h i = Some v -> f v = None -> hy_modify f h i = None.
Proof.
  intros D R E F. unfold hy_modify.
  rewrite (dyn_modify_fail 0 node_ops _ nok nsz A f i v R F grow_fuel (h_grid h) D E); [reflexivity|].
  destruct D as [B _]. unfold grow_fuel. lia.
Qed.

(* the invariant *)
Record hwf (h : hybrid) : Prop := {
  hw_grid : hdwf (h_grid h);
  hw_nodup : NoDup (h_upd h);
  hw_upd : forall i, In i (h_upd h) -> representable i;
  hw_marked : forall i v, In i (h_upd h) -> hy_value h i = Some v -> 32768 < v < 65536;
  hw_plain : forall i v, int_index i -> ~ In i (h_upd h) -> hy_value h i = Some v -> 0 <= v < 32768
}.

Lemma hy_new_wf r : hwf (hy_new r).
Proof.
  constructor; cbn [hy_new h_upd h_grid].
  - exact (dyn_new_wf 0 node_ops _ nok).
  - constructor.
  - intros i [].
  - intros i v [].
  - intros i v I _ E. unfold hy_value in E. cbn [hy_new h_grid] in E.
    assert (E2 : Some 0 = Some v) by (rewrite <- E; symmetry; exact (dyn_new_value 0 node_ops _ nok nsz i I)).
    injection E2 as <-. lia.
Qed.

Lemma set_ok h i p w : hwf h -> h_upd h = [] -> representable i -> prob_to_value p = Some w -> 1 <= w <= 32767 ->
  exists h', hy_set_probability h i p = Some h' /\ hwf h' /\ h_res h' = h_res h /\ h_upd h' = [] /\
    forall j, int_index j -> hy_value h' j = if same3 j i then Some w else hy_value h j.
Proof.
  intros Wf U R P B. destruct (hy_value_some h i (hw_grid _ Wf) (rep_int _ R)) as [v Ev].
  destruct (hy_modify_ok unit (fun _ => match prob_to_value p with Some w => Some (tt, w) | None => None end)
              h i v tt w (hw_grid _ Wf) R Ev) as [h' [E [D [Rs [Us V]]]]]; [now rewrite P|].
  unfold hy_set_probability. rewrite E. exists h'. split; [reflexivity|]. rewrite U in Us.
  split; [|auto]. constructor; rewrite ?Us.
  - exact D.
  - constructor.
  - intros j [].
  - intros j x [].
  - intros j x J _ Ej. rewrite V in Ej by exact J. destruct (same3 j i).
    + injection Ej as <-. lia.
    + apply (hw_plain _ Wf j); [exact J | rewrite U; auto | exact Ej].
Qed.

(* ApplyLookupTable *)
Lemma apply_ok h i t : hwf h -> representable i -> good_table t ->
  exists h' b, hy_apply h i t = Some (h', b) /\ hwf h' /\ h_res h' = h_res h /\
    if existsb (same3 i) (h_upd h)
    then b = false /\ h_upd h' = h_upd h /\ (forall j, int_index j -> hy_value h' j = hy_value h j)
    else b = true /\ h_upd h' = i :: h_upd h /\
         exists v w, hy_value h i = Some v /\ 0 <= v < 32768 /\ vget t v = Some w /\ 32768 < w < 65536 /\
           forall j, int_index j -> hy_value h' j = if same3 j i then Some w else hy_value h j.
Proof.
  intros Wf R T. pose proof (rep_int _ R) as I.
  destruct (hy_value_some h i (hw_grid _ Wf) I) as [v Ev].
  set (f := fun v => if kUpdateMarker <=? v then Some (false, v)
                     else match vget t v with Some w => Some (true, w) | None => None end).
  unfold hy_apply. fold f. destruct (existsb (same3 i) (h_upd h)) eqn:X.
  - apply existsb_exists in X. destruct X as [k [Ik Q]]. apply same3_iff in Q. subst k.
    pose proof (hw_marked _ Wf i v Ik Ev) as M.
    assert (F : f v = Some (false, v)).
    { unfold f, kUpdateMarker. destruct (Z.leb_spec 32768 v); [reflexivity | lia]. }
    destruct (hy_modify_ok bool f h i v false v (hw_grid _ Wf) R Ev F) as [h' [E [D [Rs [Us V]]]]].
    rewrite E. eexists _, false. split; [reflexivity|]. cbn [h_res h_upd].
    assert (V' : forall j, int_index j -> hy_value (mk_hybrid (h_res h') (h_grid h') (h_upd h')) j = hy_value h j).
    { intros j J. change (hy_value (mk_hybrid (h_res h') (h_grid h') (h_upd h')) j) with (hy_value h' j).
      rewrite V by exact J. destruct (same3_spec j i) as [-> |]; congruence. }
    split; [|auto]. rewrite Us in V'. constructor; cbn [h_upd h_grid]; rewrite ?Us; try apply Wf.
    + exact D.
    + intros j x Hj Ej. rewrite V' in Ej by (apply rep_int; now apply (hw_upd _ Wf)).
      exact (hw_marked _ Wf j x Hj Ej).
    + intros j x J Hj Ej. rewrite V' in Ej by exact J. exact (hw_plain _ Wf j x J Hj Ej).
  - assert (Ni : ~ In i (h_upd h)).
    { intros Hi. assert (Y : existsb (same3 i) (h_upd h) = true); [|congruence].
      apply existsb_exists. exists i. split; [exact Hi | apply same3_refl]. }
    pose proof (hw_plain _ Wf i v I Ni Ev) as M. destruct (T v M) as [w [Ew Bw]].
    assert (F : f v = Some (true, w)).
    { unfold f, kUpdateMarker. destruct (Z.leb_spec 32768 v); [lia | now rewrite Ew]. }
    destruct (hy_modify_ok bool f h i v true w (hw_grid _ Wf) R Ev F) as [h' [E [D [Rs [Us V]]]]].
    rewrite E. eexists _, true. split; [reflexivity|]. cbn [h_res h_upd]. rewrite Us.
    split; [|split; [exact Rs|]; split; [reflexivity|]; split; [reflexivity|]; exists v, w; auto].
    constructor; cbn [h_upd h_grid].
    + exact D.
    + constructor; [exact Ni | apply Wf].
    + intros j [<- | Hj]; [exact R | now apply (hw_upd _ Wf)].
    + intros j x Hj Ej.
      change (hy_value (mk_hybrid (h_res h') (h_grid h') (i :: h_upd h)) j) with (hy_value h' j) in Ej.
      assert (J : representable j) by (destruct Hj as [<- | Hj]; [exact R | now apply (hw_upd _ Wf)]).
      rewrite V in Ej by now apply rep_int. destruct (same3_spec j i) as [-> | Nj]; [injection Ej as <-; lia|].
      destruct Hj as [<- | Hj]; [congruence | exact (hw_marked _ Wf j x Hj Ej)].
    + intros j x J Hj Ej.
      change (hy_value (mk_hybrid (h_res h') (h_grid h') (i :: h_upd h)) j) with (hy_value h' j) in Ej.
      rewrite V in Ej by exact J. destruct (same3_spec j i) as [-> | Nj]; [elim Hj; now left|].
      apply (hw_plain _ Wf j x J); [|exact Ej]. intros Q. apply Hj. now right.
Qed.

(* FinishUpdate *)
Lemma finish_loop_ok upd : forall h, hdwf (h_grid h) -> NoDup upd -> (forall i, In i upd -> representable i) ->
  exists h', hy_finish_loop h upd = Some h' /\ hdwf (h_grid h') /\ h_res h' = h_res h /\
    forall j, int_index j -> hy_value h' j =
      if existsb (same3 j) upd then option_map (fun v => (v - kUpdateMarker) mod 65536) (hy_value h j)
      else hy_value h j.
Proof.
  induction upd as [|i r IH]; intros h D N R; cbn [hy_finish_loop existsb].
  - exists h. auto.
  - inversion N as [|? ? Ni Nr]. subst.
    assert (Ri : representable i) by (apply R; now left).
    destruct (hy_value_some h i D (rep_int _ Ri)) as [v Ev].
    destruct (hy_modify_ok unit (fun v => Some (tt, (v - kUpdateMarker) mod 65536)) h i v tt _ D Ri Ev eq_refl)
      as [h1 [E1 [D1 [R1 [U1 V1]]]]].
    rewrite E1. destruct (IH h1 D1 Nr) as [h' [E [D' [R' V']]]]; [intros k K; apply R; now right|].
    exists h'. split; [exact E|]. split; [exact D'|]. split; [congruence|]. intros j J.
    rewrite V' by exact J. rewrite !V1 by exact J. destruct (same3_spec j i) as [-> | Nj]; cbn [orb].
    + destruct (existsb (same3 i) r) eqn:X.
      * exfalso. apply existsb_exists in X. destruct X as [k [K Q]]. apply same3_iff in Q. subst k. contradiction.
      * now rewrite Ev.
    + reflexivity.
Qed.
Lemma finish_ok3 h : hwf h -> exists h', hy_finish h = Some h' /\ hwf h' /\ h_res h' = h_res h /\ h_upd h' = [] /\
  forall j, int_index j -> hy_value h' j =
    if existsb (same3 j) (h_upd h) then option_map (fun v => v - kUpdateMarker) (hy_value h j) else hy_value h j.
Proof.
  intros Wf. destruct (finish_loop_ok (h_upd h) h (hw_grid _ Wf) (hw_nodup _ Wf) (hw_upd _ Wf)) as [h1 [E [D [R V]]]].
  unfold hy_finish. rewrite E. eexists. split; [reflexivity|]. cbn [h_res h_upd].
  assert (V' : forall j, int_index j -> hy_value (mk_hybrid (h_res h1) (h_grid h1) []) j =
    if existsb (same3 j) (h_upd h) then option_map (fun v => v - kUpdateMarker) (hy_value h j) else hy_value h j).
  { intros j J. change (hy_value (mk_hybrid (h_res h1) (h_grid h1) []) j) with (hy_value h1 j).
    rewrite V by exact J. destruct (existsb (same3 j) (h_upd h)) eqn:X; [|reflexivity].
    apply existsb_exists in X. destruct X as [k [K Q]]. apply same3_iff in Q. subst k.
    destruct (hy_value h j) as [v|] eqn:Ev; [|reflexivity]. cbn [option_map]. f_equal.
    pose proof (hw_marked _ Wf j v K Ev). unfold kUpdateMarker. apply Z.mod_small. lia. }
  split; [|auto]. constructor; cbn [h_grid h_upd].
  - exact D.
  - constructor.
  - intros i [].
  - intros i v [].
  - intros i v I _ Ei. rewrite V' in Ei by exact I. destruct (existsb (same3 i) (h_upd h)) eqn:X.
    + apply existsb_exists in X. destruct X as [k [K Q]]. apply same3_iff in Q. subst k.
      destruct (hy_value h i) as [u|] eqn:Eu; [|discriminate]. injection Ei as <-.
      pose proof (hw_marked _ Wf i u K Eu). unfold kUpdateMarker. lia.
    + apply (hw_plain _ Wf i v I); [|exact Ei]. intros K.
      assert (existsb (same3 i) (h_upd h) = true); [|congruence]. apply existsb_exists. exists i.
      split; [exact K | apply same3_refl].
Qed.

(* a sequence of accesses between two FinishUpdate calls *)
Record hmid (h0 : hybrid) (before : list vaccess) (h : hybrid) : Prop := {
  hm_wf : hwf h;
  hm_res : h_res h = h_res h0;
  hm_upd : forall i, In i (h_upd h) <-> In i (map fst before);
  hm_val : forall i, int_index i -> hy_value h i =
    match vfirst i before with
    | None => hy_value h0 i
    | Some t => match hy_value h0 i with Some v => vget t v | None => None end
    end
}.
Lemma vfirst_snoc i before a : vfirst i (before ++ [a]) =
  match vfirst i before with
  | Some t => Some t
  | None => if same3 (fst a) i then Some (snd a) else None
  end.
Proof.
  unfold vfirst. induction before as [|b r IH]; cbn [app find].
  - destruct (same3 (fst a) i); reflexivity.
  - destruct (same3 (fst b) i); [reflexivity | exact IH].
Qed.
Lemma vfirst_none i acc : vfirst i acc = None <-> ~ In i (map fst acc).
Proof.
  unfold vfirst. induction acc as [|b r IH]; cbn [find map]; [split; auto|].
  destruct (same3_spec (fst b) i) as [E | E].
  - split; [discriminate|]. intros N. elim N. now left.
  - rewrite IH. cbn [In]. tauto.
Qed.
Lemma vseen i (l : list vaccess) : existsb (fun b => same3 (fst b) i) l = true <-> In i (map fst l).
Proof.
  rewrite existsb_exists, in_map_iff. split.
  - intros [b [I Q]]. apply same3_iff in Q. eauto.
  - intros [b [Q I]]. exists b. split; [exact I|]. now apply same3_iff.
Qed.
Lemma upd_seen i l : existsb (same3 i) l = true <-> In i l.
Proof.
  rewrite existsb_exists. split.
  - intros [b [I Q]]. apply same3_iff in Q. congruence.
  - intros I. exists i. split; [exact I | apply same3_refl].
Qed.

Lemma vapply_all_mid h0 acc : forall before h, hmid h0 before h ->
  (forall i t, In (i, t) acc -> representable i /\ good_table t) ->
  exists h', vapply_all h acc = Some (h', vflags before acc) /\ hmid h0 (before ++ acc) h'.
Proof.
  induction acc as [|[i t] r IH]; intros before h M H; cbn [vapply_all vflags fst].
  - exists h. rewrite app_nil_r. auto.
  - destruct (H i t (or_introl eq_refl)) as [R T]. pose proof (rep_int _ R) as I.
    destruct (apply_ok h i t (hm_wf _ _ _ M) R T) as [h1 [b [E [W1 [R1 C]]]]]. rewrite E.
    assert (Bf : b = negb (existsb (fun c : vaccess => same3 (fst c) i) before) /\ hmid h0 (before ++ [(i, t)]) h1).
    { destruct (existsb (same3 i) (h_upd h)) eqn:X.
      - apply upd_seen in X. apply (hm_upd _ _ _ M) in X. destruct C as [-> [U V]].
        split; [symmetry; apply negb_false_iff; now apply vseen|].
        constructor; [assumption | rewrite R1; apply M | |].
        + intros k. rewrite U, (hm_upd _ _ _ M), map_app, in_app_iff. cbn [map fst In]. intuition congruence.
        + intros k K. rewrite V, (hm_val _ _ _ M), vfirst_snoc by exact K. cbn [fst snd].
          destruct (vfirst k before) as [u|] eqn:Fk; [reflexivity|].
          destruct (same3_spec i k) as [-> |]; [|reflexivity]. apply vfirst_none in Fk. contradiction.
      - assert (N : ~ In i (map fst before)).
        { intros Q. apply (hm_upd _ _ _ M) in Q. apply upd_seen in Q. congruence. }
        destruct C as [-> [U [v [w [Ev [Bv [Ew [Bw V]]]]]]]].
        split; [symmetry; apply negb_true_iff; destruct (existsb _ before) eqn:Y; [apply vseen in Y; contradiction | reflexivity]|].
        constructor; [assumption | rewrite R1; apply M | |].
        + intros k. rewrite U, map_app, in_app_iff. cbn [map fst In]. rewrite (hm_upd _ _ _ M). tauto.
        + intros k K. rewrite V, vfirst_snoc by exact K. cbn [fst snd].
          pose proof (proj2 (vfirst_none i before) N) as Fi.
          destruct (same3_spec k i) as [-> | Nk].
          * rewrite Fi, same3_refl. rewrite (hm_val _ _ _ M), Fi in Ev by exact I. now rewrite Ev.
          * rewrite (hm_val _ _ _ M) by exact K. destruct (vfirst k before) as [u|] eqn:Fk; [reflexivity|].
            destruct (same3_spec i k); [congruence | reflexivity]. }
    destruct Bf as [-> M1]. destruct (IH _ h1 M1) as [h' [E' M']].
    { intros k u K. apply H. now right. }
    rewrite E'. exists h'. rewrite <- app_assoc in M'. auto.
Qed.

(* serialization *)
Definition proto_of (h : hybrid) (l : list (Z3 * Z)) : hybrid_proto :=
  mk_hybrid_proto (h_res h) (map (fun p => vx (fst p)) l) (map (fun p => vy (fst p)) l)
    (map (fun p => vz (fst p)) l) (map snd l).
Lemma iter_ok h : hdwf (h_grid h) -> exists l,
  (forall n, (length l <= n)%nat -> dyn_iterate node_ops n (h_grid h) (dyn_begin node_ops (h_grid h)) = Done l) /\
  visits 0 (hy_value h) l.
Proof.
  intros D. destruct (dyn_iter_ok 0 node_ops _ nok nsz (h_grid h) D) as [l [E [N V]]].
  exists l. split; [exact E|]. split; [exact N|]. intros i v. rewrite V.
  pose proof (half_bound _ _ D) as Hb. split.
  - intros [Wi H]. split; [|exact H]. unfold representable, within in *. lia.
  - intros [R [E1 N1]]. split; [|auto]. destruct (within_dec (- half (h_grid h)) (half (h_grid h)) i) as [Q | Q]; [exact Q|].
    exfalso. unfold hy_value in E1. rewrite (dyn_value_out 0 node_ops _ nsz (h_grid h) i D (rep_int _ R) Q) in E1. congruence.
Qed.

Lemma load_ok l : forall h, hwf h -> h_upd h = [] -> NoDup (map fst l) ->
  (forall i v, In (i, v) l -> representable i /\ 1 <= v <= 32767) ->
  exists h', hy_load h (map (fun p => vx (fst p)) l) (map (fun p => vy (fst p)) l)
               (map (fun p => vz (fst p)) l) (map snd l) = Some h' /\
    hwf h' /\ h_res h' = h_res h /\ h_upd h' = [] /\
    (forall i v, In (i, v) l -> hy_value h' i = Some v) /\
    (forall i, int_index i -> ~ In i (map fst l) -> hy_value h' i = hy_value h i).
Proof.
  induction l as [|[i v] r IH]; intros h W U N H; cbn [map fst snd hy_load].
  - exists h. do 4 (split; [assumption || reflexivity|]). split; [intros i v [] | auto].
  - inversion N as [|? ? Ni Nr]. subst. destruct (H i v (or_introl eq_refl)) as [R B].
    rewrite (Z.mod_small v 65536) by lia.
    assert (Ei : (vx i, vy i, vz i) = i) by (now apply ext3). rewrite Ei.
    destruct (set_ok h i (value_to_prob v) v W U R (prob_round v B) B) as [h1 [E1 [W1 [R1 [U1 V1]]]]].
    rewrite E1. destruct (IH h1 W1 U1 Nr) as [h' [E [W' [R' [U' [Vi Vo]]]]]].
    { intros k u K. apply H. now right. }
    exists h'. split; [exact E|]. split; [exact W'|]. split; [congruence|]. split; [exact U'|]. split.
    + intros k u [Q | Q]; [|now apply Vi]. injection Q as <- <-.
      rewrite Vo by (exact Ni || now apply rep_int). rewrite V1 by now apply rep_int. now rewrite same3_refl.
    + intros k K Q. cbn [In] in Q. rewrite Vo by (exact K || tauto). rewrite V1 by exact K.
      destruct (same3_spec k i) as [-> |]; [elim Q; now left | reflexivity].
Qed.
