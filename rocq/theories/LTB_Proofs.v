(* Proofs for the local trajectory builder. *)
From Coq Require Import ZArith List Bool Permutation Sorted Lia.
From Verif Require Import RDC_Model RDC_Spec RDC_Proofs PE_Model PE_Proofs LTB_Model LTB_Spec.
Import ListNotations.
Open Scope Z_scope.

Section Ext.
Context {K : kit}.
Hypothesis CALM : forall d v a, observe K d v a <> None.
Notation pose := (Vec K * Rot K)%type.
Notation reading := (Z * (Vec K * Vec K))%type.

Lemma update_total l a (k : tracker K) : exists k', imu_update l a k = Some k' /\ k_time k' = k_time k.
Proof.
  unfold imu_update, accelerate. destruct (observe K _ _ _) eqn:E; [|now apply CALM in E]. eexists. split; reflexivity.
Qed.
Lemma advance_total t (k : tracker K) : k_time k <= t -> exists k', advance t k = Some k' /\ k_time k' = t.
Proof. intros L. unfold advance. apply Z.leb_le in L. rewrite L. eexists. split; reflexivity. Qed.
Lemma feed_total t : forall (l : list reading) (k : tracker K), StronglySorted le_t l -> Forall (fun r => k_time k <= fst r) l -> k_time k <= t ->
  exists k', feed t l k = Some k' /\ k_time k' <= t.
Proof.
  induction l as [|[s [lin ang]] l IH]; intros k S Fk L; cbn [feed]; [now exists k|].
  apply StronglySorted_inv in S as [S G]. apply Forall_cons_iff in Fk as [F1 _]. cbn [fst] in F1.
  destruct (Z.ltb_spec s t) as [L'|L']; [|now exists k].
  destruct (advance_total s k F1) as (k1 & -> & T1). destruct (update_total lin ang k1) as (k2 & -> & T2).
  apply IH; [exact S| |lia]. eapply Forall_impl; [|exact G]. unfold le_t. cbn [fst]. intros. lia.
Qed.
Lemma lower_bound_sorted t : forall l : list reading, StronglySorted le_t l ->
  StronglySorted le_t (lower_bound t l) /\ Forall (fun r => t <= fst r) (lower_bound t l).
Proof.
  induction l as [|[s a] l IH]; intros S; cbn [lower_bound]; [split; constructor|]. destruct (Z.ltb_spec s t) as [L|L].
  - apply StronglySorted_inv in S as [S _]. now apply IH.
  - split; [exact S|]. apply StronglySorted_inv in S as [S G]. constructor; [exact L|].
    eapply Forall_impl; [|exact G]. unfold le_t. cbn [fst]. intros. lia.
Qed.
Lemma track_total' (x : ext K) t k : StronglySorted le_t (x_imu x) -> k_time k <= t ->
  exists k', advance_tracker x t k = Some k' /\ k_time k' = t.
Proof.
  intros S L. unfold advance_tracker. replace (t <? k_time k) with false by (symmetry; apply Z.ltb_ge; lia).
  assert (U : forall v, exists k', match advance t k with Some k1 => imu_update (unit_z K) v k1 | None => None end = Some k' /\ k_time k' = t).
  { intros v. destruct (advance_total t k L) as (k1 & -> & T). destruct (update_total (unit_z K) v k1) as (k2 & -> & T2).
    exists k2. split; [reflexivity | congruence]. }
  destruct (x_imu x) as [|[s v] l] eqn:E; [apply U|]. rewrite <- E in *. destruct (Z.ltb_spec t s) as [L'|L']; [apply U|].
  assert (exists k1, (if k_time k <? s then advance s k else Some k) = Some k1 /\ k_time k1 <= t) as (k1 & -> & T1).
  { destruct (Z.ltb_spec (k_time k) s) as [A|A]; [|now exists k]. destruct (advance_total s k) as (k1 & -> & T); [lia|]. exists k1. split; [reflexivity | lia]. }
  destruct (lower_bound_sorted (k_time k1) (x_imu x) S) as (S1 & F1).
  destruct (feed_total t _ k1 S1 F1 T1) as (k2 & -> & T2). apply advance_total, T2.
Qed.

(* newest pose at p, last prediction at e, nothing after now *)
Definition ready (p e now : Z) (x : ext K) : Prop :=
  StronglySorted le_t (x_imu x) /\ Forall (fun r => fst r <= now) (x_imu x) /\
  (exists q, back (x_poses x) = Some (p, q)) /\
  (exists k, x_tracker x = Some k /\ k_time k = p) /\
  (exists k, x_otracker x = Some k /\ k_time k <= now) /\
  (exists k, x_etracker x = Some k /\ k_time k = e) /\ fst (x_cached x) <= e /\ p <= e /\ p <= now.

Lemma ready_later p e now now' x : ready p e now x -> now <= now' -> ready p e now' x.
Proof.
  intros (A & B & C & D & (k & E & T) & G) L. repeat split; try tauto; try lia.
  - eapply Forall_impl; [|exact B]. cbv beta. intros. lia.
  - exists k. split; [exact E | lia].
Qed.
Lemma ready_pose p e now x : ready p e now x -> last_pose_time x = p.
Proof. intros (_ & _ & (q & E) & _). unfold last_pose_time. now rewrite E. Qed.
Lemma ready_predicted p e now x : ready p e now x -> last_extrapolated_time x = e.
Proof. intros (_ & _ & _ & _ & _ & (k & E & T) & _). unfold last_extrapolated_time. now rewrite E. Qed.

Lemma trim_sorted keep t (l : list reading) now : StronglySorted le_t l -> Forall (fun r => fst r <= now) l ->
  StronglySorted le_t (trim keep t l) /\ Forall (fun r => fst r <= now) (trim keep t l).
Proof.
  intros S F. destruct (trim_suffix keep t l) as (pre & E). rewrite E in S, F. apply sorted_app in S as (_ & S & _).
  apply Forall_app in F as [_ F]. now split.
Qed.

Lemma add_pose_core dur t q (x : ext K) k now : StronglySorted le_t (x_imu x) -> Forall (fun r => fst r <= now) (x_imu x) ->
  match x_tracker x with Some k => k | None => new_tracker (match x_imu x with (s, _) :: _ => Z.min t s | [] => t end) end = k ->
  k_time k <= t -> t <= now -> fst (x_cached x) <= t ->
  exists x', add_pose dur t q x = Some x' /\ ready t t now x'.
Proof.
  intros S Fn E L N C. unfold add_pose. rewrite E.
  rewrite update_velocities_eq. cbn [x_poses x_vel x_imu x_tracker x_otracker x_etracker x_cached x_odo x_ovel].
  set (x1 := mk_ext _ _ _ _ _ _ _ _ _).
  destruct (track_total' x1 t k) as (k' & -> & T); [exact S | exact L |].
  assert (B : back (x_poses x1) = Some (t, q)) by (subst x1; cbn [x_poses]; rewrite trim_back; apply back_app).
  eexists. split; [reflexivity|]. unfold ready. cbn [x_poses x_vel x_imu x_tracker x_otracker x_etracker x_cached x_odo x_ovel].
  unfold trim_data. rewrite B. destruct (trim_sorted 1 t (x_imu x) now S Fn) as (S' & F').
  repeat split; try lia; eauto.
  exists k'. split; [reflexivity|lia].
Qed.
Lemma new_ready dur t q now : t <= now -> tmin <= t -> exists x, add_pose dur t q (@new_ext K) = Some x /\ ready t t now x.
Proof.
  intros L M. eapply add_pose_core; cbn [x_imu x_tracker new_ext x_cached fst]; [constructor | constructor | reflexivity | cbn; lia | exact L | exact M].
Qed.
Lemma add_pose_ready dur p e now t q x : ready p e now x -> e <= t -> t <= now ->
  exists x', add_pose dur t q x = Some x' /\ ready t t now x'.
Proof.
  intros (A & B & C & (k & D & T) & E & G & H1 & H2 & H3) L N. eapply add_pose_core; [exact A | exact B | now rewrite D | lia | exact N | lia].
Qed.
Lemma extrapolate_ready p e now t x : ready p e now x -> e <= t -> t <= now ->
  exists q x', extrapolate t x = Some (q, x') /\ ready p t now x'.
Proof.
  intros R L N. pose proof R as (A & B & ([tra rot] & C) & (k & D & T) & E & (ke & G & TE) & H1 & H2 & H3). unfold extrapolate. rewrite C.
  replace (t <? p) with false by (symmetry; apply Z.ltb_ge; lia).
  destruct (Z.eqb_spec (fst (x_cached x)) t) as [EQ|NE].
  - exists (snd (x_cached x)), x. split; [reflexivity|]. replace t with e by lia. exact R.
  - unfold extrapolate_rotation. rewrite D, G. destruct (track_total' x t ke A) as (k' & -> & T'); [lia|].
    eexists _, _. split; [reflexivity|]. unfold ready. cbn [x_poses x_vel x_imu x_tracker x_otracker x_etracker x_cached x_odo x_ovel fst].
    repeat split; try tauto; try lia; eauto.
Qed.
Lemma gravity_ready p e now t x : ready p e now x -> p <= t -> exists g, gravity_orientation t x = Some g.
Proof.
  intros (A & B & C & (k & D & T) & _) L. unfold gravity_orientation. rewrite D.
  destruct (track_total' x t k A) as (k' & -> & T'); [lia|]. eexists. reflexivity.
Qed.
Lemma add_imu_ready p e now r x : ready p e now x -> now <= fst r -> exists x', add_imu r x = Some x' /\ ready p e (fst r) x'.
Proof.
  intros (A & B & (q & C) & D & (ko & E & T) & G & H1 & H2 & H3) L. unfold add_imu, after_pose. rewrite C. cbn [fst].
  replace (p <=? fst r) with true by (symmetry; apply Z.leb_le; lia). eexists. split; [reflexivity|].
  unfold ready. cbn [x_poses x_vel x_imu x_tracker x_otracker x_etracker x_cached x_odo x_ovel fst].
  unfold trim_data. rewrite C. cbn [fst].
  destruct (trim_sorted 1 p (x_imu x ++ [r]) (fst r)) as (S' & F').
  { apply sorted_snoc; [exact A|]. eapply Forall_impl; [|exact B]. unfold le_t. cbv beta. intros. lia. }
  { apply Forall_app. split; [|repeat constructor; lia]. eapply Forall_impl; [|exact B]. cbv beta. intros. lia. }
  repeat split; auto; try lia; eauto. exists ko. split; [exact E | lia].
Qed.
Lemma add_odometry_ready p e now o x : ready p e now x -> now <= fst o -> exists x', add_odometry o x = Some x' /\ ready p e (fst o) x'.
Proof.
  intros R L. pose proof (ready_later _ _ _ _ _ R L) as (A & B & ([tra rot] & C) & (k & D & T) & (ko & E & TO) & G & H1 & H2 & H3).
  destruct R as (_ & _ & _ & _ & (ko' & E' & TO') & _). rewrite E in E'. injection E' as <-.
  unfold add_odometry, after_pose. rewrite C. cbn [fst].
  replace (p <=? fst o) with true by (symmetry; apply Z.leb_le; lia).
  unfold trim_data. rewrite C. cbn [fst]. set (odo := trim 2 p (x_odo x ++ [o])).
  assert (Bo : back odo = Some o) by (subst odo; rewrite trim_back; apply back_app).
  clearbody odo. cbv zeta.
  assert (Q : forall od, exists x', Some (mk_ext (x_poses x) (x_vel x) (x_imu x) (x_tracker x) (x_otracker x) (x_etracker x)
                (x_cached x) od (x_ovel x)) = Some x' /\ ready p e (fst o) x').
  { intros od. eexists. split; [reflexivity|]. unfold ready. cbn [x_poses x_vel x_imu x_tracker x_otracker x_etracker x_cached x_odo x_ovel fst].
    repeat split; auto; try lia; eauto. }
  destruct odo as [|[t0 p0] [|e1 odo]]; [apply Q | apply Q|]. rewrite Bo. destruct o as [t1 p1]. cbn [fst] in *.
  destruct (odometry_velocity K (t0 - t1) p1 p0) as [lin ang]. rewrite ?C.
  unfold extrapolate_rotation. cbn [x_tracker x_otracker]. rewrite D, E.
  match goal with |- context [advance_tracker ?y t1 ko] => destruct (track_total' y t1 ko) as (k' & -> & T'); [exact A | lia |] end.
  eexists. split; [reflexivity|]. unfold ready. cbn [x_poses x_vel x_imu x_tracker x_otracker x_etracker x_cached x_odo x_ovel fst].
  repeat split; auto; try lia; eauto. exists k'. split; [reflexivity | lia].
Qed.
End Ext.

Section Builder.
Context {K : kit} {F : parts K}.
Notation pose := (Vec K * Rot K)%type.
Notation point := (Pnt F * Tim F * Int F * nat)%type.
Notation merge := (merged (Pnt F) (Org F) (Int F) (Tim F)).
Definition ptick (q : point) : Z := tick_of F (snd (fst (fst q))).

Lemma point_poses_length t : forall (l : list point) x ps x', point_poses F t l x = Some (ps, x') -> length ps = length l.
Proof.
  induction l as [|[[[q s] i] n] l IH]; intros x ps x' H; cbn [point_poses] in H; [now injection H as <- _|].
  destruct (extrapolate _ x) as [[p x1]|]; [|discriminate]. destruct (point_poses F t l x1) as [[ps1 x2]|] eqn:E; [|discriminate].
  injection H as <- _. cbn [length]. f_equal. eapply IH, E.
Qed.
Lemma sort_out_hits (m : merge) : forall (l : list point) ps rs ms, sort_out F (m_origins m) l ps = Some (rs, ms) ->
  let hs := flat_map (fun e => match e with (q, _, _, n, p) =>
      match nth_error (m_origins m) n with
      | Some o => match place F p o q with Some h => [h] | None => [] end
      | None => [] end end) (combine l ps) in
  rs = of_kind true hs /\ ms = of_kind false hs.
Proof.
  induction l as [|[[[q s] i] n] l IH]; intros ps rs ms H; cbn [sort_out] in H; [injection H as <- <-; split; reflexivity|].
  destruct ps as [|p ps]; [discriminate|]. cbn [combine flat_map]. destruct (nth_error (m_origins m) n) as [o|]; [|discriminate].
  destruct (sort_out F (m_origins m) l ps) as [[rs1 ms1]|] eqn:E; [|discriminate].
  destruct (IH ps rs1 ms1 E) as (-> & ->). unfold of_kind. rewrite !filter_app, !map_app.
  destruct (place F p o q) as [[[|] h]|]; injection H as <- <-; split; reflexivity.
Qed.
Lemma sort_out_total (os : list (Org F)) : forall (l : list point) ps, length ps = length l ->
  Forall (fun q : point => nth_error os (snd q) <> None) l -> exists r, sort_out F os l ps = Some r.
Proof.
  induction l as [|[[[q s] i] n] l IH]; intros ps L A; cbn [sort_out]; [eexists; reflexivity|].
  destruct ps as [|p ps]; [discriminate|]. apply Forall_cons_iff in A as [A1 A]. cbn [snd] in A1.
  destruct (nth_error os n) as [o|]; [|now destruct A1]. destruct (IH ps) as ([rs ms] & ->); [cbn [length] in L; lia | exact A|].
  eexists. reflexivity.
Qed.

Variable opt : options.
(* Grouping: how the accumulated points relate to the merges placed since the last scan *)
Definition open_ok (b : builder F) (open : list (list (bool * Hit F))) : Prop :=
  b_num b = Z.of_nat (length open) /\
  (open <> [] -> b_returns b = of_kind true (concat open) /\ b_misses b = of_kind false (concat open)).
Lemma of_kind_app k (a b : list (bool * Hit F)) : of_kind k (a ++ b) = of_kind k a ++ of_kind k b.
Proof. unfold of_kind. now rewrite filter_app, map_app. Qed.

Lemma initialize_keeps t (b b1 : builder F) : initialize F opt t b = Some b1 ->
  b_num b1 = b_num b /\ b_returns b1 = b_returns b /\ b_misses b1 = b_misses b /\ b_filter b1 = b_filter b /\ b_maps b1 = b_maps b /\
  b_collator b1 = b_collator b.
Proof.
  unfold initialize. destruct (b_ext b); [intros [= <-]; auto 10|]. destruct (add_pose _ _ _ _); [|discriminate].
  intros H. injection H as <-. cbn. auto 10.
Qed.
Lemma accumulated_keeps t s g x (b b1 : builder F) r : add_accumulated F opt t s g x b = Some (r, b1) ->
  b_num b1 = b_num b /\ b_collator b1 = b_collator b /\
  match r with
  | None => b_filter b1 = b_filter b
  | Some r => r_time r = t /\
      r_inserted r = match b_filter b with Some (t0, p0) => negb (near F (t - t0) (r_pose r) p0) | None => true end /\
      b_filter b1 = if r_inserted r then Some (t, r_pose r) else b_filter b
  end.
Proof.
  unfold add_accumulated. destruct (no_returns F s); [intros [= <- <-]; cbn; auto|].
  destruct (extrapolate t x) as [[p x1]|]; [|discriminate]. destruct (is_empty F (thin F s)); [intros [= <- <-]; cbn; auto|].
  destruct (scan_match F (b_maps b) (project F p g) (thin F s)) as [flat|]; [|discriminate].
  destruct (add_pose _ t (embed F flat g) x1) as [x2|]; [|discriminate].
  unfold is_similar. destruct (b_filter b) as [[t0 p0]|] eqn:Fb.
  - destruct (near F (t - t0) (embed F flat g) p0) eqn:N.
    + intros [= <- <-]. cbn. rewrite N. auto.
    + destruct (insert F (b_maps b) s flat) as [mp|]; [|discriminate]. intros [= <- <-]. cbn. rewrite N. auto.
  - destruct (insert F (b_maps b) s flat) as [mp|]; [|discriminate]. intros [= <- <-]. cbn. auto.
Qed.

Definition keeps (b b1 : builder F) : Prop :=
  b_num b1 = b_num b /\ b_returns b1 = b_returns b /\ b_misses b1 = b_misses b /\ b_filter b1 = b_filter b.
Definition filters (b : builder F) (r : option (result F)) (b1 : builder F) : Prop :=
  match r with
  | None => b_filter b1 = b_filter b
  | Some r =>
      r_inserted r = match b_filter b with Some (t0, p0) => negb (near F (r_time r - t0) (r_pose r) p0) | None => true end /\
      b_filter b1 = if r_inserted r then Some (r_time r, r_pose r) else b_filter b
  end.
Lemma add_merged_shape (m : merge) (b b' : builder F) e : add_merged F opt m b = Some (e, b') ->
  match e with
  | EPlaced m' ps s =>
      m' = m /\ length ps = length (m_ranges m) /\
      filters b (result_of e) b' /\
      let rs := (if b_num b =? 0 then [] else b_returns b) ++ of_kind true (hits m ps) in
      let ms := (if b_num b =? 0 then [] else b_misses b) ++ of_kind false (hits m ps) in
      if num_accumulated_range_data opt <=? b_num b + 1
      then b_num b' = 0 /\ exists r, s = Some (rs, ms, r)
      else b_num b' = b_num b + 1 /\ b_returns b' = rs /\ b_misses b' = ms /\ s = None
  | EData => False
  | _ => keeps b b'
  end /\ b_collator b' = b_collator b.
Proof.
  unfold add_merged. destruct (m_ranges m) as [|[[[q0 s0] i0] n0] l] eqn:ML; [intros [= <- <-]; cbn; unfold keeps; auto|]. rewrite <- ML.
  destruct (back (m_ranges m)) as [[[[q1 s1] i1] n1]|] eqn:MB; [|intros [= <- <-]; cbn; unfold keeps; auto].
  assert (I : forall b1, (if use_imu opt then Some b else initialize F opt (m_time m) b) = Some b1 ->
      b_num b1 = b_num b /\ b_returns b1 = b_returns b /\ b_misses b1 = b_misses b /\ b_filter b1 = b_filter b /\ b_maps b1 = b_maps b /\
      b_collator b1 = b_collator b).
  { destruct (use_imu opt); [intros b1 [= <-]; auto 10 | intros b1; apply initialize_keeps]. }
  destruct (if use_imu opt then Some b else initialize F opt (m_time m) b) as [b1|]; [|discriminate].
  destruct (I b1 eq_refl) as (I1 & I2 & I3 & I4 & I5 & I6). clear I.
  destruct (b_ext b1) as [x|]; [|intros [= <- <-]; unfold keeps; auto].
  destruct (negb (past F s1)); [discriminate|]. destruct (_ <? last_pose_time x); [intros [= <- <-]; unfold keeps; auto|].
  destruct (point_poses F (m_time m) (m_ranges m) x) as [[ps x1]|] eqn:PP; [|discriminate].
  destruct (sort_out F (m_origins m) (m_ranges m) ps) as [[rs ms]|] eqn:SO; [|discriminate].
  destruct (back ps) as [lastp|]; [|discriminate]. cbv zeta.
  pose proof (sort_out_hits m _ _ _ _ SO) as HH. cbv zeta in HH. change (flat_map _ (combine (m_ranges m) ps)) with (hits m ps) in HH.
  destruct HH as (-> & ->). pose proof (point_poses_length _ _ _ _ _ PP) as PL. rewrite I1, I2, I3.
  destruct (num_accumulated_range_data opt <=? b_num b + 1).
  - destruct (gravity_orientation (m_time m) x1) as [g|]; [|discriminate].
    match goal with |- context [add_accumulated F opt ?t ?s g x1 ?b2] => destruct (add_accumulated F opt t s g x1 b2) as [[r b3]|] eqn:AA; [|discriminate] end.
    intros [= <- <-]. apply accumulated_keeps in AA as (A1 & A2 & A3). cbn [b_num b_collator b_filter] in A1, A2, A3.
    split; [|congruence]. split; [reflexivity|]. split; [exact PL|]. split; [|split; [exact A1 | eexists; reflexivity]].
    cbn [result_of]. unfold filters. rewrite I4 in A3. destruct r as [r|]; [|exact A3]. destruct A3 as (-> & A3 & A4). auto.
  - intros [= <- <-]. cbn [b_num b_returns b_misses b_filter b_collator result_of filters]. rewrite I4. auto 10.
Qed.

(* the same for a step *)
Lemma step_shape m (b b' : builder F) e : step F opt m b = Some (e, b') ->
  match e with
  | EPlaced m' ps s =>
      length ps = length (m_ranges m') /\
      filters b (result_of e) b' /\
      let rs := (if b_num b =? 0 then [] else b_returns b) ++ of_kind true (hits m' ps) in
      let ms := (if b_num b =? 0 then [] else b_misses b) ++ of_kind false (hits m' ps) in
      if num_accumulated_range_data opt <=? b_num b + 1
      then b_num b' = 0 /\ exists r, s = Some (rs, ms, r)
      else b_num b' = b_num b + 1 /\ b_returns b' = rs /\ b_misses b' = ms /\ s = None
  | _ => keeps b b'
  end.
Proof.
  destruct m as [k d|r|o]; cbn [step].
  - unfold add_range. destruct (RDC_Model.add _ _ _ _ _ _ k d) as [[[mg|] c]|]; [| |discriminate].
    + intros H. apply add_merged_shape in H as (H & _). destruct e; try exact H; try contradiction.
      destruct H as (-> & H1 & H2 & H3). cbn [b_num b_returns b_misses b_filter set_collator] in *. auto.
    + intros [= <- <-]. cbn. unfold keeps. auto.
  - unfold add_imu_data. destruct (use_imu opt); [|discriminate]. destruct (initialize F opt (fst r) b) as [b1|] eqn:I; [|discriminate].
    apply initialize_keeps in I as (I1 & I2 & I3 & I4 & _). destruct (b_ext b1) as [x|]; [|discriminate].
    destruct (add_imu r x); [|discriminate]. intros [= <- <-]. unfold keeps. cbn. auto.
  - unfold add_odometry_data. destruct (b_ext b) as [x|]; [|intros [= <- <-]; unfold keeps; auto].
    destruct (add_odometry o x); [|discriminate]. intros [= <- <-]. unfold keeps. cbn. auto.
Qed.

Lemma run_grouped : forall ms (b b' : builder F) es open, open_ok b open -> run F opt ms b = Some (es, b') ->
  grouped (num_accumulated_range_data opt) open es.
Proof.
  induction ms as [|m ms IH]; intros b b' es open (O1 & O2) H; cbn [run] in H; [injection H as <- _; exact I|].
  destruct (step F opt m b) as [[e b1]|] eqn:S; [|discriminate]. destruct (run F opt ms b1) as [[es1 b2]|] eqn:R; [|discriminate].
  injection H as <- _. apply step_shape in S.
  assert (KE : keeps b b1 -> grouped (num_accumulated_range_data opt) open es1).
  { intros (K1 & K2 & K3 & _). apply (IH b1 b2 es1); [|exact R]. split; [congruence|]. rewrite K2, K3. exact O2. }
  destruct e as [| | | |mg ps s]; cbn [grouped]; try (now apply KE).
  destruct S as (S1 & _ & S3). split; [exact S1|]. cbv zeta in S3. rewrite app_length. cbn [length].
  assert (RS : forall k (acc : list (Hit F)), (open <> [] -> acc = of_kind k (concat open)) ->
      (if b_num b =? 0 then [] else acc) ++ of_kind k (hits mg ps) = of_kind k (concat (open ++ [hits mg ps]))).
  { intros k acc A. rewrite concat_app, of_kind_app. cbn [concat]. rewrite app_nil_r. f_equal.
    destruct open as [|o open]; [rewrite O1; reflexivity|]. replace (b_num b =? 0) with false; [apply A; discriminate|].
    symmetry. apply Z.eqb_neq. rewrite O1. cbn [length]. lia. }
  rewrite (RS true (b_returns b)), (RS false (b_misses b)) in S3 by (intros; now apply O2). clear RS.
  replace (Z.of_nat (length open + 1)) with (b_num b + 1) by lia. rewrite Z.ltb_antisym.
  destruct (num_accumulated_range_data opt <=? b_num b + 1); cbn [negb].
  - destruct S3 as (N & r & E). split; [now exists r|]. apply (IH b1 b2 es1); [|exact R]. split; [exact N | now intros []].
  - destruct S3 as (N & E1 & E2 & E3). split; [exact E3|]. apply (IH b1 b2 es1); [|exact R].
    split; [rewrite N, app_length; cbn [length]; lia | auto].
Qed.

Definition inserted_pair (rs : list (result F)) : option (Z * pose) :=
  option_map (fun r => (r_time r, r_pose r)) (last_inserted rs).
Lemma last_inserted_snoc (rs : list (result F)) r : last_inserted (rs ++ [r]) = if r_inserted r then Some r else last_inserted rs.
Proof. unfold last_inserted. rewrite rev_app_distr. reflexivity. Qed.
Lemma run_filter : forall ms (b b' : builder F) es done, b_filter b = inserted_pair done -> run F opt ms b = Some (es, b') ->
  forall pre r post, results es = pre ++ r :: post ->
  r_inserted r = match last_inserted (done ++ pre) with
                 | Some q => negb (near F (r_time r - r_time q) (r_pose r) (r_pose q))
                 | None => true
                 end.
Proof.
  induction ms as [|m ms IH]; intros b b' es done D H pre r post E; cbn [run] in H.
  { injection H as <- _. destruct pre; discriminate. }
  destruct (step F opt m b) as [[e b1]|] eqn:S; [|discriminate]. destruct (run F opt ms b1) as [[es1 b2]|] eqn:R; [|discriminate].
  injection H as <- _. apply step_shape in S. unfold results in E. cbn [flat_map] in E. fold (results es1) in E.
  assert (FI : filters b (result_of e) b1).
  { destruct e; cbn [result_of filters]; try (now destruct S as (_ & _ & _ & ->)). now destruct S as (_ & S & _). }
  destruct (result_of e) as [r0|]; cbn [filters] in FI; cbn [app] in E.
  - destruct FI as (F1 & F2). destruct pre as [|p pre]; cbn [app] in E.
    + injection E as -> _. rewrite app_nil_r, F1, D. unfold inserted_pair. destruct (last_inserted done); reflexivity.
    + injection E as -> E. replace (done ++ p :: pre) with ((done ++ [p]) ++ pre) by (now rewrite <- app_assoc).
      apply (IH b1 b2 es1 (done ++ [p])) with (post := post); [|exact R | exact E].
      rewrite F2, D. unfold inserted_pair. rewrite last_inserted_snoc. destruct (r_inserted p); reflexivity.
  - apply (IH b1 b2 es1 done) with (post := post); [congruence | exact R | exact E].
Qed.
End Builder.
