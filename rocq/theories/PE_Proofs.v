(* The extrapolator that trims its queues answers as the one that keeps everything. *)
From Coq Require Import ZArith List Bool Sorted Lia.
From Verif Require Import PE_Model PE_Spec.
Import ListNotations.
Open Scope Z_scope.

Section Lists.
Context {A : Type}.
Implicit Types l r : list (Z * A).
Definition le_t (a b : Z * A) := fst a <= fst b.
Definition lt_t (a b : Z * A) := fst a < fst b.

Lemma back_app B (l : list B) x : back (l ++ [x]) = Some x.
Proof. unfold back. rewrite rev_app_distr. reflexivity. Qed.
Lemma back_cons B (a b : B) (l : list B) : back (a :: b :: l) = back (b :: l).
Proof.
  unfold back. cbn [rev]. rewrite <- app_assoc. destruct (rev l) as [|x y]; reflexivity.
Qed.
Lemma back_none B (l : list B) : back l = None -> l = [].
Proof. unfold back. intros H. apply nth_error_None in H. rewrite rev_length in H. destruct l; [reflexivity | simpl in H; lia]. Qed.
Lemma back_some B (l : list B) x : back l = Some x -> exists l' : list B, l = l' ++ [x].
Proof.
  destruct l as [|y l] using rev_ind; [discriminate|]. rewrite back_app. intros [= ->]. now exists l.
Qed.

Lemma trim_step k t a b l : trim k t (a :: b :: l) =
  if (k <? length (a :: b :: l))%nat && (fst b <=? t) then trim k t (b :: l) else a :: b :: l.
Proof. destruct b as [tb vb]. reflexivity. Qed.
Lemma trim_app k p q : p <= q -> forall l r, trim k q (trim k p l ++ r) = trim k q (l ++ r).
Proof.
  intros L. induction l as [|a l IH]; intros r; [reflexivity|]. destruct l as [|b l]; [reflexivity|].
  rewrite trim_step. destruct (Nat.ltb_spec k (length (a :: b :: l))) as [K|K]; [|reflexivity]. cbn [andb].
  destruct (Z.leb_spec (fst b) p) as [T|T]; [|reflexivity].
  rewrite IH. cbn [app]. rewrite trim_step.
  replace (k <? length (a :: b :: l ++ r))%nat with true; [|symmetry; apply Nat.ltb_lt; cbn [length] in *; rewrite app_length; lia].
  replace (fst b <=? q) with true by (symmetry; apply Z.leb_le; lia). reflexivity.
Qed.
Lemma trim_trim k p q l : p <= q -> trim k q (trim k p l) = trim k q l.
Proof. intros L. pose proof (trim_app k p q L l []) as H. rewrite !app_nil_r in H. exact H. Qed.
Lemma trim_suffix k t : forall l, exists pre, l = pre ++ trim k t l.
Proof.
  induction l as [|a l [pre IH]]; [now exists []|]. destruct l as [|b l]; [now exists []|].
  rewrite trim_step. destruct (_ && _); [exists (a :: pre); cbn [app]; now rewrite <- IH | now exists []].
Qed.
Lemma trim_length t : forall l, (length (trim 2 t l) <? 2)%nat = (length l <? 2)%nat.
Proof.
  induction l as [|a l IH]; [reflexivity|]. destruct l as [|b l]; [reflexivity|]. rewrite trim_step.
  destruct (Nat.ltb_spec 2 (length (a :: b :: l))) as [K|K]; [|reflexivity]. cbn [andb].
  destruct (fst b <=? t); [|reflexivity]. rewrite IH. cbn [length] in *.
  transitivity false; [|symmetry]; apply Nat.ltb_ge; lia.
Qed.
Lemma trim_back k t : forall l, back (trim k t l) = back l.
Proof.
  induction l as [|a l IH]; [reflexivity|]. destruct l as [|b l]; [reflexivity|]. rewrite trim_step.
  destruct (_ && _); [rewrite IH; symmetry; apply back_cons | reflexivity].
Qed.
(* either nothing was dropped or the front is not after t *)
Lemma trim_front k t : forall l, trim k t l = l \/ exists a r, trim k t l = a :: r /\ fst a <= t.
Proof.
  induction l as [|a l IH]; [now left|]. destruct l as [|b l]; [now left|]. rewrite trim_step.
  destruct ((k <? _)%nat && (fst b <=? t)) eqn:E; [|now left]. apply andb_prop in E as [_ E]. apply Z.leb_le in E.
  right. destruct IH as [-> | H]; [exists b, l; auto | exact H].
Qed.

Lemma sorted_app l r (R : Z * A -> Z * A -> Prop) : StronglySorted R (l ++ r) ->
  StronglySorted R l /\ StronglySorted R r /\ forall a b, In a l -> In b r -> R a b.
Proof.
  induction l as [|x l IH]; cbn [app]; intros H.
  - split; [constructor|]. split; [exact H|]. intros a b [].
  - apply StronglySorted_inv in H as [H F]. destruct (IH H) as (S1 & S2 & S3). rewrite Forall_forall in F.
    split; [constructor; [exact S1|]; apply Forall_forall; intros y Y; apply F; apply in_or_app; now left|].
    split; [exact S2|]. intros a b [<- | Ia] Ib; [apply F; apply in_or_app; now right | now apply S3].
Qed.
Lemma sorted_snoc l x (R : Z * A -> Z * A -> Prop) : StronglySorted R l -> Forall (fun a => R a x) l -> StronglySorted R (l ++ [x]).
Proof.
  induction l as [|y l IH]; intros S F; cbn [app]; [repeat constructor|].
  apply StronglySorted_inv in S as [S G]. apply Forall_cons_iff in F as [F1 F2].
  constructor; [now apply IH|]. apply Forall_app. split; [exact G | now repeat constructor].
Qed.

(* the front of a trimmed sorted queue *)
Lemma trim_base t : forall l, StronglySorted le_t l -> hd_error (trim 2 t l) = base t l.
Proof.
  induction l as [|a l IH]; intros S; [reflexivity|]. destruct l as [|b l].
  { unfold base. cbn [removelast filter]. reflexivity. }
  destruct l as [|c l].
  { unfold base. cbn [removelast filter trim length Nat.ltb Nat.leb andb hd_error].
    destruct b as [tb vb]. cbn [hd_error]. destruct (fst a <=? t); reflexivity. }
  rewrite trim_step. replace (2 <? length (a :: b :: c :: l))%nat with true by reflexivity. cbn [andb].
  apply StronglySorted_inv in S as [S F]. destruct (Z.leb_spec (fst b) t) as [T|T].
  - rewrite (IH S). unfold base.
    change (removelast (a :: b :: c :: l)) with (a :: b :: removelast (c :: l)).
    change (removelast (b :: c :: l)) with (b :: removelast (c :: l)).
    cbn [filter]. replace (fst b <=? t) with true by (symmetry; apply Z.leb_le; lia).
    destruct (fst a <=? t); [rewrite back_cons|];
      (destruct (back (b :: filter _ (removelast (c :: l)))) eqn:E; [reflexivity|]; apply back_none in E; discriminate).
  - cbn [hd_error]. unfold base.
    assert (N : filter (fun e : Z * A => fst e <=? t) (removelast (b :: c :: l)) = []).
    { apply StronglySorted_inv in S as [S F']. rewrite Forall_forall in F'.
      assert (W : forall e, In e (removelast (b :: c :: l)) -> t < fst e).
      { intros e I. assert (I' : In e (b :: c :: l)).
        { rewrite (app_removelast_last b) by discriminate. apply in_or_app. now left. }
        destruct I' as [<- | I']; [lia|]. specialize (F' e I'). unfold le_t in F'. lia. }
      induction (removelast (b :: c :: l)) as [|e m IHm]; [reflexivity|]. cbn [filter].
      replace (fst e <=? t) with false by (symmetry; apply Z.leb_gt; apply W; now left).
      apply IHm. intros e' I'. apply W. now right. }
    change (removelast (a :: b :: c :: l)) with (a :: removelast (b :: c :: l)). cbn [filter]. rewrite N.
    destruct (fst a <=? t); reflexivity.
Qed.

Lemma lower_bound_filter t : forall l, StronglySorted le_t l -> lower_bound t l = filter (fun e => t <=? fst e) l.
Proof.
  induction l as [|[s a] l IH]; intros S; [reflexivity|]. apply StronglySorted_inv in S as [S F]. cbn [lower_bound filter fst].
  destruct (Z.ltb_spec s t) as [L|L].
  - replace (t <=? s) with false by (symmetry; apply Z.leb_gt; lia). now apply IH.
  - replace (t <=? s) with true by (symmetry; apply Z.leb_le; lia). f_equal.
    clear IH S. induction l as [|e l IHl]; [reflexivity|]. apply Forall_cons_iff in F as [F1 F]. cbn [filter].
    unfold le_t in F1. cbn [fst] in F1. replace (t <=? fst e) with true by (symmetry; apply Z.leb_le; lia). f_equal. now apply IHl.
Qed.
Lemma lower_bound_skip t pre : forall l, Forall (fun e => fst e < t) pre -> lower_bound t (pre ++ l) = lower_bound t l.
Proof.
  induction pre as [|[s a] pre IH]; intros l F; [reflexivity|]. apply Forall_cons_iff in F as [F1 F]. cbn [app lower_bound fst] in *.
  replace (s <? t) with true by (symmetry; apply Z.ltb_lt; lia). now apply IH.
Qed.
Lemma sorted_le l : StronglySorted lt_t l -> StronglySorted le_t l.
Proof.
  induction l as [|x l IH]; intros S; [constructor|]. apply StronglySorted_inv in S as [S F].
  constructor; [now apply IH|]. eapply Forall_impl; [|exact F]. unfold le_t, lt_t. intros. lia.
Qed.
(* what trimming drops from a strictly sorted queue is before the time *)
Lemma trim_dropped t l : StronglySorted lt_t l -> exists pre, l = pre ++ trim 1 t l /\ Forall (fun e => fst e < t) pre.
Proof.
  induction l as [|a l IH]; intros S; [now exists []|]. destruct l as [|b l]; [now exists []|].
  apply StronglySorted_inv in S as [S F]. rewrite trim_step.
  destruct ((1 <? _)%nat && (fst b <=? t)) eqn:E; [|exists []; split; [reflexivity | constructor]].
  apply andb_prop in E as [_ E]. apply Z.leb_le in E. destruct (IH S) as (pre & E' & F').
  exists (a :: pre). split; [cbn [app]; now rewrite <- E'|]. constructor; [|exact F'].
  apply Forall_cons_iff in F as [F _]. unfold lt_t in F. lia.
Qed.
End Lists.

Section Proofs.
Context {K : kit}.
Notation pose := (Vec K * Rot K)%type.
Hypothesis short_far : forall d dur, dur <= d -> too_short K d dur = false.
Hypothesis short_mono : forall d d' dur, d <= d' -> too_short K d dur = false -> too_short K d' dur = false.

Lemma advance_time t (k k' : tracker K) : advance t k = Some k' -> k_time k' = t.
Proof. unfold advance. destruct (_ <=? _); intros H; [|discriminate]. injection H as <-. reflexivity. Qed.
Lemma update_time l a (k k' : tracker K) : imu_update l a k = Some k' -> k_time k' = k_time k.
Proof.
  unfold imu_update, accelerate. destruct (observe K _ _ _); intros H; [|discriminate]. injection H as <-. reflexivity.
Qed.
Lemma track_time dur (h : hist K) t k k' : track dur h t k = Some k' -> k_time k' = t /\ k_time k <= t.
Proof.
  unfold track. destruct (Z.ltb_spec t (k_time k)) as [L|L]; [discriminate|]. intros H. split; [|exact L].
  assert (U : match advance t k with
      | Some k1 => imu_update (unit_z K) (current h (snd (velocity dur (h_poses h))) (snd (h_ovel h))) k1
      | None => None end = Some k' -> k_time k' = t).
  { destruct (advance t k) as [k1|] eqn:E; [|discriminate]. intros H'. apply update_time in H'. rewrite H'. now apply advance_time in E. }
  destruct (h_imu h) as [|[s v] r]; [now apply U|]. destruct (s <=? t); [|now apply U].
  destruct (if k_time k <? s then _ else _) as [k1|]; [|discriminate]. destruct (apply_all _ _) as [k2|]; [|discriminate].
  now apply advance_time in H.
Qed.

Lemma feed_apply t : forall l (k : tracker K), StronglySorted le_t l ->
  feed t l k = apply_all (filter (fun r => fst r <? t) l) k.
Proof.
  induction l as [|[s [lin ang]] l IH]; intros k S; [reflexivity|]. apply StronglySorted_inv in S as [S F].
  cbn [feed filter fst]. destruct (Z.ltb_spec s t) as [L|L].
  - cbn [apply_all]. destruct (advance s k) as [k1|]; [|reflexivity]. destruct (imu_update lin ang k1) as [k2|]; [|reflexivity]. now apply IH.
  - replace (filter (fun r : Z * (Vec K * Vec K) => fst r <? t) l) with (@nil (Z * (Vec K * Vec K))); [reflexivity|].
    clear IH S. symmetry. induction l as [|e l IHl]; [reflexivity|]. apply Forall_cons_iff in F as [F1 F]. cbn [filter].
    unfold le_t in F1. cbn [fst] in F1. replace (fst e <? t) with false by (symmetry; apply Z.ltb_ge; lia). now apply IHl.
Qed.
Lemma filter_filter A (f g : A -> bool) l : filter f (filter g l) = filter (fun x => g x && f x) l.
Proof.
  induction l as [|x l IH]; [reflexivity|]. cbn [filter]. destruct (g x); cbn [andb filter]; [destruct (f x); now rewrite IH | exact IH].
Qed.
Lemma sorted_filter A (R : A -> A -> Prop) f l : StronglySorted R l -> StronglySorted R (filter f l).
Proof.
  induction l as [|x l IH]; intros S; [constructor|]. apply StronglySorted_inv in S as [S F]. cbn [filter].
  destruct (f x); [|now apply IH]. constructor; [now apply IH|]. rewrite Forall_forall in *. intros y Y.
  apply filter_In in Y as [Y _]. now apply F.
Qed.

(* tracking with a trimmed queue *)
Lemma track_eq dur (x : ext K) (h : hist K) t k :
  StronglySorted lt_t (h_imu h) ->
  x_imu x = h_imu h \/ (exists p, x_imu x = trim 1 p (h_imu h) /\ p <= k_time k) ->
  (length (x_odo x) <? 2)%nat = (length (h_odo h) <? 2)%nat ->
  x_vel x = velocity dur (h_poses h) -> x_ovel x = h_ovel h ->
  advance_tracker x t k = track dur h t k.
Proof.
  intros S I O V W. unfold advance_tracker, track. destruct (Z.ltb_spec t (k_time k)) as [L|L]; [reflexivity|].
  rewrite O, V, W. fold (current h (snd (velocity dur (h_poses h))) (snd (h_ovel h))).
  destruct I as [I | (p & I & P)].
  - rewrite I. destruct (h_imu h) as [|[s v] r] eqn:H; [reflexivity|].
    rewrite Z.leb_antisym. destruct (t <? s); [reflexivity|]. cbn [negb].
    destruct (if k_time k <? s then _ else _) as [k1|]; [|reflexivity].
    rewrite lower_bound_filter by now apply sorted_le. rewrite feed_apply by now apply sorted_filter, sorted_le.
    now rewrite filter_filter.
  - destruct (trim_front 1 p (h_imu h)) as [E | (a & r & E & A)].
    { rewrite I, E. destruct (h_imu h) as [|[s v] r] eqn:H; [reflexivity|].
      rewrite Z.leb_antisym. destruct (t <? s); [reflexivity|]. cbn [negb].
      destruct (if k_time k <? s then _ else _) as [k1|]; [|reflexivity].
      rewrite lower_bound_filter by now apply sorted_le. rewrite feed_apply by now apply sorted_filter, sorted_le.
      now rewrite filter_filter. }
    destruct (trim_dropped p (h_imu h) S) as (pre & D & F). rewrite I, E. destruct a as [s v]. cbn [fst] in A.
    replace (t <? s) with false by (symmetry; apply Z.ltb_ge; lia).
    replace (k_time k <? s) with false by (symmetry; apply Z.ltb_ge; lia).
    rewrite <- E, <- I. rewrite <- (lower_bound_skip (k_time k) pre) by (eapply Forall_impl; [|exact F]; cbv beta; intros; lia).
    rewrite I. rewrite <- D. rewrite lower_bound_filter by now apply sorted_le. rewrite feed_apply by now apply sorted_filter, sorted_le.
    rewrite filter_filter. destruct (h_imu h) as [|[s0 v0] r0] eqn:H.
    { destruct pre; [|discriminate]. cbn [app] in D. rewrite E in D. discriminate. }
    assert (S0 : s0 <= p).
    { rewrite E in D. destruct pre as [|[q w] pre]; cbn [app] in D; injection D as -> ->; [lia|].
      apply Forall_cons_iff in F as [F _]. cbn [fst] in F. lia. }
    replace (s0 <=? t) with true by (symmetry; apply Z.leb_le; lia).
    replace (k_time k <? s0) with false by (symmetry; apply Z.ltb_ge; lia). reflexivity.
Qed.

Definition vel_of (dur : Z) (q : list (Z * pose)) (b : option (Z * pose)) (v : Vec K * Vec K) : Vec K * Vec K :=
  match q, b with
  | (t0, p0) :: _ :: _, Some (t1, p1) => if too_short K (t1 - t0) dur then v else pose_velocity K (t1 - t0) p1 p0
  | _, _ => v
  end.
(* the velocity that add_pose leaves *)
Lemma velocity_step dur l t p :
  StronglySorted le_t l -> Forall (fun e => fst e <= t) l ->
  forall q, q = trim 2 (t - dur) (l ++ [(t, p)]) -> forall v, v = velocity dur l ->
  vel_of dur q (back q) v = velocity dur (l ++ [(t, p)]).
Proof.
  intros S F q Q v V. assert (S' : StronglySorted le_t (l ++ [(t, p)])) by now apply sorted_snoc.
  unfold velocity at 1. rewrite back_app.
  assert (B : back q = Some (t, p)) by (subst q; now rewrite trim_back, back_app).
  assert (H : hd_error q = base (t - dur) (l ++ [(t, p)])) by (subst q; now apply trim_base).
  assert (N : (length q <? 2)%nat = (length (l ++ [(t, p)]) <? 2)%nat) by (subst q; apply trim_length).
  rewrite B, <- H, <- N. unfold vel_of. clear Q. destruct q as [|[t0 p0] q]; [discriminate|]. cbn [hd_error].
  destruct q as [|e q].
  { change (length [(t0, p0)] <? 2)%nat with true. cbn [orb]. subst v.
    change (length [(t0, p0)] <? 2)%nat with true in N. symmetry in N. apply Nat.ltb_lt in N. rewrite app_length in N. cbn [length] in N.
    destruct l; [reflexivity | cbn [length] in N; lia]. }
  change (length ((t0, p0) :: e :: q) <? 2)%nat with false. cbn [orb].
  destruct (too_short K (t - t0) dur) eqn:T; [|reflexivity]. subst v.
  (* the velocity was zero before, too *)
  unfold velocity. destruct (back l) as [[t1 p1]|] eqn:BL; [|reflexivity].
  destruct (base (t1 - dur) l) as [[s0 q0]|] eqn:BS; [|reflexivity].
  destruct (length l <? 2)%nat eqn:LN; [reflexivity|]. cbn [orb].
  destruct (too_short K (t1 - s0) dur) eqn:T1; [reflexivity|]. exfalso.
  assert (L1 : t1 <= t).
  { rewrite Forall_forall in F. apply (F (t1, p1)). destruct (back_some _ _ _ BL) as [l' ->]. apply in_or_app. right. now left. }
  cbn [hd_error] in H. symmetry in H. unfold base in H, BS. rewrite removelast_last in H.
  destruct (back (filter (fun e : Z * pose => fst e <=? t - dur) l)) as [[u w]|] eqn:BF.
  { injection H as -> ->. destruct (back_some _ _ _ BF) as [l' E].
    assert (I : In (t0, p0) (filter (fun e : Z * pose => fst e <=? t - dur) l)) by (rewrite E; apply in_or_app; right; now left).
    apply filter_In in I as [_ I]. apply Z.leb_le in I. cbn [fst] in I. rewrite short_far in T by lia. discriminate. }
  apply back_none in BF.
  assert (NF : filter (fun e : Z * pose => fst e <=? t1 - dur) (removelast l) = []).
  { destruct (filter _ (removelast l)) as [|e' m] eqn:E; [reflexivity|]. exfalso.
    assert (I : In e' (filter (fun e : Z * pose => fst e <=? t1 - dur) (removelast l))) by (rewrite E; now left).
    apply filter_In in I as [I1 I2].
    assert (I3 : In e' (filter (fun e : Z * pose => fst e <=? t - dur) l)).
    { apply filter_In. split; [|apply Z.leb_le in I2; apply Z.leb_le; lia].
      destruct l as [|y l]; [destruct I1|]. rewrite (app_removelast_last y) by discriminate. apply in_or_app. now left. }
    rewrite BF in I3. destruct I3. }
  rewrite NF in BS. change (back (@nil (Z * pose))) with (@None (Z * pose)) in BS. cbv iota in BS.
  destruct l as [|y l]; [discriminate|]. cbn [app hd_error] in *. injection BS as ->. injection H as -> ->.
  rewrite (short_mono (t1 - t0) (t - t0)) in T; [discriminate | lia | exact T1].
Qed.

(* trackers of a state with a newest pose at p *)
Definition tracked (p : Z) (h : hist K) : Prop :=
  (exists k, h_tracker h = Some k /\ k_time k = p) /\
  (exists k, h_otracker h = Some k /\ p <= k_time k) /\
  (exists k, h_etracker h = Some k /\ p <= k_time k).
Record agree (dur : Z) (x : ext K) (h : hist K) : Prop := {
  a_sorted : StronglySorted le_t (h_poses h);
  a_imu : StronglySorted lt_t (h_imu h);
  a_odo : StronglySorted le_t (h_odo h);
  a_tr : x_tracker x = h_tracker h /\ x_otracker x = h_otracker h /\ x_etracker x = h_etracker h;
  a_rest : x_cached x = h_cached h /\ x_ovel x = h_ovel h /\ x_vel x = velocity dur (h_poses h);
  a_pose : match back (h_poses h) with
           | Some (p, _) =>
               x_poses x = trim 2 (p - dur) (h_poses h) /\ x_imu x = trim 1 p (h_imu h) /\
               x_odo x = trim 2 p (h_odo h) /\ tracked p h
           | None => x_poses x = [] /\ x_imu x = h_imu h /\ x_odo x = h_odo h /\ h_tracker h = None
           end }.

Lemma agree_back dur x h : agree dur x h -> back (x_poses x) = back (h_poses h).
Proof.
  intros A. pose proof (a_pose _ _ _ A) as P. destruct (back (h_poses h)) as [[p q]|] eqn:B.
  - destruct P as (-> & _). now rewrite trim_back.
  - destruct P as (-> & _). reflexivity.
Qed.
Lemma agree_len dur x h : agree dur x h -> (length (x_odo x) <? 2)%nat = (length (h_odo h) <? 2)%nat.
Proof.
  intros A. pose proof (a_pose _ _ _ A) as P. destruct (back (h_poses h)) as [[p q]|]; destruct P as (_ & _ & -> & _); [apply trim_length | reflexivity].
Qed.
(* tracking from a tracker not before the newest pose *)
Lemma agree_track dur x h t k : agree dur x h ->
  match back (h_poses h) with Some (p, _) => p <= k_time k | None => True end ->
  advance_tracker x t k = track dur h t k.
Proof.
  intros A L. apply track_eq.
  - apply (a_imu _ _ _ A).
  - pose proof (a_pose _ _ _ A) as P. destruct (back (h_poses h)) as [[p q]|]; destruct P as (_ & -> & _); [right; now exists p | now left].
  - now apply (agree_len dur).
  - apply (a_rest _ _ _ A).
  - apply (a_rest _ _ _ A).
Qed.

Definition ans {S} (r : option (answer K * S)) : option (answer K) := option_map fst r.
Definition both (dur : Z) (r : option (answer K * ext K)) (s : option (answer K * hist K)) : Prop :=
  match r, s with
  | None, None => True
  | Some (a, x), Some (b, h) => a = b /\ agree dur x h
  | _, _ => False
  end.

Lemma update_velocities_eq dur (x : ext K) : update_velocities dur x =
  mk_ext (x_poses x)
    (vel_of dur (x_poses x) (back (x_poses x)) (x_vel x)) (x_imu x) (x_tracker x) (x_otracker x) (x_etracker x) (x_cached x) (x_odo x) (x_ovel x).
Proof.
  unfold update_velocities, vel_of. destruct x as [ps v i k1 k2 k3 c o w]; cbn [x_poses x_vel x_imu x_tracker x_otracker x_etracker x_cached x_odo x_ovel].
  destruct ps as [|[t0 p0] [|e ps]]; [reflexivity..|]. destruct (back _) as [[t1 p1]|]; [|reflexivity].
  destruct (too_short K (t1 - t0) dur); reflexivity.
Qed.

Lemma poses_before h t q p0 : StronglySorted le_t (h_poses h) -> back (h_poses h) = Some (p0, q) -> p0 <= t ->
  Forall (fun e : Z * pose => fst e <= t) (h_poses h).
Proof.
  intros S B L. destruct (back_some _ _ _ B) as [l E]. rewrite E in S |- *. apply sorted_app in S as (_ & _ & S).
  apply Forall_app. split; [|repeat constructor; exact L]. apply Forall_forall. intros e I.
  specialize (S e (p0, q) I (or_introl eq_refl)). unfold le_t in S. cbn [fst] in S. lia.
Qed.

Lemma step_pose dur t p x h : agree dur x h -> both dur (step dur (CPose t p) x) (h_step dur (CPose t p) h).
Proof.
  intros A. cbn [step h_step]. unfold add_pose. destruct (a_tr _ _ _ A) as (T1 & T2 & T3). destruct (a_rest _ _ _ A) as (R1 & R2 & R3).
  rewrite T1. pose proof (a_pose _ _ _ A) as P.
  assert (KK : match h_tracker h with
      | Some k => k | None => new_tracker (match x_imu x with (s, _) :: _ => Z.min t s | [] => t end) end =
      match h_tracker h with
      | Some k => k | None => new_tracker (match h_imu h with (s, _) :: _ => Z.min t s | [] => t end) end).
  { destruct (h_tracker h) as [k|] eqn:HT; [reflexivity|]. destruct (back (h_poses h)) as [[p0 q0]|].
    - destruct P as (_ & _ & _ & (k & E & _) & _). rewrite HT in E. discriminate.
    - destruct P as (_ & -> & _). reflexivity. }
  rewrite KK. clear KK.
  set (k := match h_tracker h with Some k => k | None => _ end).
  set (h1 := mk_hist (h_poses h ++ [(t, p)]) _ _ _ _ _ _ _).
  destruct (Z.ltb_spec t (k_time k)) as [L|L].
  { assert (E1 : forall y, advance_tracker y t k = None) by (intros y; unfold advance_tracker; now rewrite (proj2 (Z.ltb_lt _ _) L)).
    rewrite E1. assert (E2 : track dur h1 t k = None) by (unfold track; now rewrite (proj2 (Z.ltb_lt _ _) L)).
    rewrite E2. exact I. }
  assert (F : Forall (fun e : Z * pose => fst e <= t) (h_poses h)).
  { destruct (back (h_poses h)) as [[p0 q0]|] eqn:B.
    - destruct P as (_ & _ & _ & (k0 & E & KT) & _). apply (poses_before h t q0 p0); [apply (a_sorted _ _ _ A) | exact B|].
      subst k. rewrite E in L. lia.
    - apply back_none in B. rewrite B. constructor. }
  assert (TP : trim 2 (t - dur) (x_poses x ++ [(t, p)]) = trim 2 (t - dur) (h_poses h ++ [(t, p)])).
  { destruct (back (h_poses h)) as [[p0 q0]|] eqn:B.
    - destruct P as (-> & _ & _ & (k0 & E & KT) & _). apply trim_app. subst k. rewrite E in L. lia.
    - destruct P as (-> & _). apply back_none in B. now rewrite B. }
  rewrite TP, update_velocities_eq. cbn [x_poses x_vel x_imu x_tracker x_otracker x_etracker x_cached x_odo x_ovel].
  rewrite (velocity_step dur (h_poses h) t p (a_sorted _ _ _ A) F _ eq_refl _ R3).
  set (y := mk_ext _ _ _ _ _ _ _ _ _).
  assert (E : advance_tracker y t k = track dur h1 t k).
  { apply track_eq.
    - apply (a_imu _ _ _ A).
    - subst y. cbn [x_imu]. change (h_imu h1) with (h_imu h). destruct (back (h_poses h)) as [[p0 q0]|].
      + destruct P as (_ & -> & _ & (k0 & E & KT) & _). right. exists p0. split; [reflexivity|]. subst k. rewrite E. lia.
      + destruct P as (_ & -> & _). now left.
    - apply (agree_len dur x h A).
    - reflexivity.
    - exact R2. }
  rewrite E. destruct (track dur h1 t k) as [k1|] eqn:TK; [|exact I]. cbn [option_map both]. split; [reflexivity|].
  apply track_time in TK as [TK _].
  assert (BX : back (x_poses y) = Some (t, p)) by (subst y; cbn [x_poses]; now rewrite trim_back, back_app).
  split; cbn [h_poses h_imu h_odo h_tracker h_otracker h_etracker h_cached h_ovel x_poses x_vel x_imu x_tracker x_otracker x_etracker x_cached x_odo x_ovel].
  - apply sorted_snoc; [apply (a_sorted _ _ _ A) | exact F].
  - apply (a_imu _ _ _ A).
  - apply (a_odo _ _ _ A).
  - auto.
  - split; [exact R1|]. split; [exact R2|]. reflexivity.
  - change (h_poses h1) with (h_poses h ++ [(t, p)]). rewrite back_app. unfold trim_data. rewrite BX. cbn [fst].
    split; [reflexivity|].
    assert (TT : forall n (B : Type) (l m : list (Z * B)), m = l \/ (exists p0, m = trim n p0 l /\ p0 <= t) -> trim n t m = trim n t l).
    { intros n B l m [-> | (p0 & -> & LL)]; [reflexivity | now apply trim_trim]. }
    split; [|split].
    + apply TT. destruct (back (h_poses h)) as [[p0 q0]|].
      * destruct P as (_ & EI & _ & (k0 & E0 & KT) & _). right. exists p0. split; [exact EI|]. subst k. rewrite E0 in L. lia.
      * destruct P as (_ & EI & _). now left.
    + apply TT. destruct (back (h_poses h)) as [[p0 q0]|].
      * destruct P as (_ & _ & EI & (k0 & E0 & KT) & _). right. exists p0. split; [exact EI|]. subst k. rewrite E0 in L. lia.
      * destruct P as (_ & _ & EI & _). now left.
    + split; [|split]; exists k1; (split; [reflexivity | cbn; lia]).
Qed.

Lemma not_before_eq dur t x h : agree dur x h -> after_pose t x = not_before_pose t h.
Proof. intros A. unfold after_pose, not_before_pose. now rewrite (agree_back dur x h A). Qed.

Lemma step_imu dur r x h : agree dur x h -> Forall (fun e => fst e < fst r) (h_imu h) ->
  both dur (step dur (CImu r) x) (h_step dur (CImu r) h).
Proof.
  intros A F. cbn [step h_step]. unfold add_imu. rewrite (not_before_eq dur _ x h A).
  destruct (not_before_pose (fst r) h); [|exact I]. cbn [option_map both]. split; [reflexivity|].
  pose proof (a_pose _ _ _ A) as P.
  split; cbn [h_poses h_imu h_odo h_tracker h_otracker h_etracker h_cached h_ovel x_poses x_vel x_imu x_tracker x_otracker x_etracker x_cached x_odo x_ovel];
    try apply A.
  - apply sorted_snoc; [apply (a_imu _ _ _ A) | exact F].
  - unfold trim_data. rewrite (agree_back dur x h A). destruct (back (h_poses h)) as [[p0 q0]|].
    + destruct P as (E1 & E2 & E3 & E4). rewrite E2. cbn [fst]. split; [exact E1|].
      split; [apply trim_app; lia|]. split; [exact E3 | exact E4].
    + destruct P as (E1 & E2 & E3 & E4). rewrite E2. auto.
Qed.

Lemma rotation_eq dur x h t k : agree dur x h ->
  match back (h_poses h), k with Some (p, _), Some k => p <= k_time k | _, _ => True end ->
  extrapolate_rotation x t k = rotation_since dur h t k.
Proof.
  intros A L. unfold extrapolate_rotation, rotation_since. destruct (a_tr _ _ _ A) as (-> & _ & _).
  destruct (h_tracker h) as [k0|]; [|reflexivity]. destruct k as [k|]; [|reflexivity].
  rewrite (agree_track dur x h t k A) by (destruct (back (h_poses h)) as [[? ?]|]; auto).
  destruct (track dur h t k); reflexivity.
Qed.

Lemma step_odometry dur o x h : agree dur x h -> Forall (fun e => fst e <= fst o) (h_odo h) ->
  both dur (step dur (COdometry o) x) (h_step dur (COdometry o) h).
Proof.
  intros A F. cbn [step h_step]. unfold add_odometry. rewrite (not_before_eq dur _ x h A).
  destruct (not_before_pose (fst o) h); [|exact I]. cbv zeta.
  destruct (a_tr _ _ _ A) as (T1 & T2 & T3). destruct (a_rest _ _ _ A) as (R1 & R2 & R3).
  pose proof (a_pose _ _ _ A) as P.
  assert (S' : StronglySorted le_t (h_odo h ++ [o])) by (apply sorted_snoc; [apply (a_odo _ _ _ A) | exact F]).
  set (odo := trim_data 2 x (x_odo x ++ [o])).
  set (full := h_odo h ++ [o]).
  assert (EO : odo = match back (h_poses h) with Some p => trim 2 (fst p) full | None => full end).
  { subst odo full. unfold trim_data. rewrite (agree_back dur x h A). destruct (back (h_poses h)) as [[p0 q0]|].
    - destruct P as (_ & _ & -> & _). cbn [fst]. apply trim_app. lia.
    - destruct P as (_ & _ & -> & _). reflexivity. }
  assert (EB : back odo = Some o).
  { rewrite EO. destruct (back (h_poses h)) as [p0|]; [rewrite trim_back|]; apply back_app. }
  assert (EH : match back (h_poses h) with Some p => base (fst p) full | None => hd_error full end = hd_error odo).
  { rewrite EO. destruct (back (h_poses h)) as [p0|]; [symmetry; now apply trim_base | reflexivity]. }
  assert (EL : (length full <? 2)%nat = (length odo <? 2)%nat).
  { rewrite EO. destruct (back (h_poses h)) as [p0|]; [now rewrite trim_length | reflexivity]. }
  rewrite EH, EL. clear EH EL.
  (* the states after the odometry pose is queued *)
  assert (AG : forall ok v, match back (h_poses h) with Some (p, _) => exists k, ok = Some k /\ p <= k_time k | None => True end ->
    agree dur (mk_ext (x_poses x) (x_vel x) (x_imu x) (x_tracker x) ok (x_etracker x) (x_cached x) odo v)
      (mk_hist (h_poses h) (h_imu h) full (h_tracker h) ok (h_etracker h) (h_cached h) v)).
  { intros ok v OK. split; cbn [h_poses h_imu h_odo h_tracker h_otracker h_etracker h_cached h_ovel x_poses x_vel x_imu x_tracker x_otracker x_etracker x_cached x_odo x_ovel]; try apply A; try exact S'.
    - auto.
    - auto.
    - destruct (back (h_poses h)) as [[p0 q0]|].
      + destruct P as (E1 & E2 & E3 & E4). split; [exact E1|]. split; [exact E2|]. split; [exact EO|].
        destruct E4 as (E4 & _ & E6). split; [exact E4|]. split; [exact OK | exact E6].
      + destruct P as (E1 & E2 & E3 & E4). auto. }
  assert (OK0 : match back (h_poses h) with Some (p, _) => exists k, h_otracker h = Some k /\ p <= k_time k | None => True end).
  { destruct (back (h_poses h)) as [[p0 q0]|]; [|exact I]. apply P. }
  clearbody odo. clear EO. destruct odo as [|[t0 p0] odo']; [discriminate EB|]. cbn [hd_error].
  destruct odo' as [|e odo'].
  { change (length [(t0, p0)] <? 2)%nat with true. cbv iota. cbn [option_map both]. split; [reflexivity|].
    rewrite T2, R2. now apply AG. }
  rewrite EB. change (length ((t0, p0) :: e :: odo') <? 2)%nat with false. cbv iota.
  destruct o as [t1 p1]. cbn [fst snd] in *.
  destruct (odometry_velocity K (t0 - t1) p1 p0) as [lin ang].
  rewrite (agree_back dur x h A).
  destruct (back (h_poses h)) as [[np [ntr nrot]]|] eqn:B.
  - rewrite T2, R2. cbn [x_otracker].
    specialize (AG (h_otracker h) (fst (h_ovel h), ang) OK0) as AG1.
    rewrite (rotation_eq dur _ _ t1 (h_otracker h) AG1).
    2: { cbn [h_poses]. rewrite B. destruct OK0 as (k & -> & LK). exact LK. }
    destruct (rotation_since dur _ t1 (h_otracker h)) as [[r k]|] eqn:RS; [|exact I].
    cbn [option_map both fst snd]. split; [reflexivity|]. apply AG.
    exists k. split; [reflexivity|]. unfold rotation_since in RS. destruct (h_tracker _) as [k0|] eqn:HT0; [|discriminate].
    destruct OK0 as (ko & EK & LK). rewrite EK in RS.
    destruct (track dur _ t1 ko) as [k1|] eqn:TK; [|discriminate]. injection RS as <- <-. apply track_time in TK as [TK TL]. lia.
  - cbn [option_map both]. split; [reflexivity|]. rewrite T2, R2. now apply AG.
Qed.

Lemma step_extrapolate dur t x h : agree dur x h -> both dur (step dur (CExtrapolate t) x) (h_step dur (CExtrapolate t) h).
Proof.
  intros A. cbn [step h_step]. unfold extrapolate. rewrite (agree_back dur x h A).
  destruct (a_tr _ _ _ A) as (T1 & T2 & T3). destruct (a_rest _ _ _ A) as (R1 & R2 & R3).
  pose proof (a_pose _ _ _ A) as P.
  destruct (back (h_poses h)) as [[np [ntr nrot]]|] eqn:B; [|exact I].
  destruct (t <? np); [exact I|]. rewrite R1. destruct (fst (h_cached h) =? t); [split; [reflexivity | exact A]|].
  rewrite T3. rewrite (rotation_eq dur x h t (h_etracker h) A).
  2: { rewrite B. destruct P as (_ & _ & _ & _ & _ & (k & -> & LK)). exact LK. }
  destruct (rotation_since dur h t (h_etracker h)) as [[r k]|] eqn:RS; [|exact I].
  cbn [option_map both fst snd].
  assert (E : extrapolate_translation x t np = scale K (t - np) (current h (fst (velocity dur (h_poses h))) (fst (h_ovel h)))).
  { unfold extrapolate_translation, current. now rewrite (agree_len dur x h A), R2, R3. }
  rewrite E. split; [reflexivity|].
  split; cbn [h_poses h_imu h_odo h_tracker h_otracker h_etracker h_cached h_ovel x_poses x_vel x_imu x_tracker x_otracker x_etracker x_cached x_odo x_ovel]; try apply A.
  - auto.
  - auto.
  - rewrite B. destruct P as (E1 & E2 & E3 & E4). split; [exact E1|]. split; [exact E2|]. split; [exact E3|].
    destruct E4 as (E4 & E5 & (ke & EK & LK)). split; [exact E4|]. split; [exact E5|]. exists k. split; [reflexivity|].
    unfold rotation_since in RS. destruct (h_tracker h) as [k0|]; [|discriminate]. rewrite EK in RS.
    destruct (track dur h t ke) as [k1|] eqn:TK; [|discriminate]. injection RS as <- <-. apply track_time in TK as [TK TL]. lia.
Qed.

Lemma step_gravity dur t x h : agree dur x h -> both dur (step dur (CGravity t) x) (h_step dur (CGravity t) h).
Proof.
  intros A. cbn [step h_step]. unfold gravity_orientation. destruct (a_tr _ _ _ A) as (-> & _ & _).
  pose proof (a_pose _ _ _ A) as P. destruct (h_tracker h) as [k|] eqn:HT; [|exact I].
  rewrite (agree_track dur x h t k A).
  2: { destruct (back (h_poses h)) as [[np q]|]; [|exact I]. destruct P as (_ & _ & _ & (k0 & E & LK) & _). rewrite HT in E. injection E as <-. lia. }
  destruct (track dur h t k); [|exact I]. split; [reflexivity | exact A].
Qed.

(* what a call adds to the history *)
Lemma h_step_data dur c (h h' : hist K) a : h_step dur c h = Some (a, h') ->
  h_imu h' = h_imu h ++ match c with CImu r => [r] | _ => [] end /\
  h_odo h' = h_odo h ++ match c with COdometry o => [o] | _ => [] end.
Proof.
  destruct c as [t p | r | o | t | t]; cbn [h_step]; rewrite ?app_nil_r.
  - destruct (track _ _ _ _) as [k|]; [|discriminate]. cbn [option_map]. intros [= <- <-]. split; reflexivity.
  - destruct (not_before_pose _ _); [|discriminate]. intros [= <- <-]. split; reflexivity.
  - destruct (not_before_pose _ _); [|discriminate]. cbv zeta.
    destruct (match back (h_poses h) with Some p => base (fst p) (h_odo h ++ [o]) | None => hd_error (h_odo h ++ [o]) end) as [[t0 p0]|]; [|discriminate].
    destruct (_ <? 2)%nat; [intros [= <- <-]; split; reflexivity|].
    destruct (odometry_velocity _ _ _ _) as [lin ang]. destruct (back (h_poses h)) as [[np [ntr nrot]]|].
    + destruct (rotation_since _ _ _ _) as [[r k]|]; [|discriminate]. cbn [option_map]. intros [= <- <-]. split; reflexivity.
    + intros [= <- <-]. split; reflexivity.
  - destruct (back (h_poses h)) as [[np [ntr nrot]]|]; [|discriminate]. destruct (_ <? _); [discriminate|].
    destruct (_ =? _); [intros [= <- <-]; auto|].
    destruct (rotation_since _ _ _ _) as [[r k]|]; [|discriminate]. cbn [option_map]. intros [= <- <-]. split; reflexivity.
  - destruct (h_tracker h) as [k|]; [|discriminate]. destruct (track _ _ _ _); [|discriminate]. cbn [option_map]. intros [= <- <-]. auto.
Qed.

Lemma step_both dur c cs x h : agree dur x h ->
  StronglySorted Z.lt (map fst (h_imu h) ++ imu_times (c :: cs)) ->
  StronglySorted Z.le (map fst (h_odo h) ++ odometry_times (c :: cs)) ->
  both dur (step dur c x) (h_step dur c h).
Proof.
  intros A SI SO. destruct c as [t p | r | o | t | t].
  - now apply step_pose.
  - apply step_imu; [exact A|]. apply Forall_forall. intros e I. cbn [imu_times flat_map app] in SI.
    clear - SI I. induction (h_imu h) as [|y l IH]; [destruct I|]. cbn [map app] in SI. apply StronglySorted_inv in SI as [SI F].
    destruct I as [<- | I]; [|now apply IH]. rewrite Forall_forall in F. apply F. apply in_or_app. right. now left.
  - apply step_odometry; [exact A|]. apply Forall_forall. intros e I. cbn [odometry_times flat_map app] in SO.
    clear - SO I. induction (h_odo h) as [|y l IH]; [destruct I|]. cbn [map app] in SO. apply StronglySorted_inv in SO as [SO F].
    destruct I as [<- | I]; [|now apply IH]. rewrite Forall_forall in F. apply F. apply in_or_app. right. now left.
  - now apply step_extrapolate.
  - now apply step_gravity.
Qed.
Lemma run_both dur : forall cs x h, agree dur x h ->
  StronglySorted Z.lt (map fst (h_imu h) ++ imu_times cs) ->
  StronglySorted Z.le (map fst (h_odo h) ++ odometry_times cs) ->
  option_map fst (run dur cs x) = h_run dur cs h.
Proof.
  induction cs as [|c cs IH]; intros x h A SI SO; [reflexivity|]. cbn [run h_run].
  pose proof (step_both dur c cs x h A SI SO) as B. unfold both in B.
  destruct (step dur c x) as [[a x']|]; destruct (h_step dur c h) as [[b h']|] eqn:E; try contradiction; [|reflexivity].
  destruct B as [<- A']. destruct (h_step_data dur c h h' a E) as [DI DO].
  rewrite <- (IH x' h' A').
  - destruct (run dur cs x') as [[l y]|]; reflexivity.
  - rewrite DI, map_app, <- app_assoc. unfold imu_times in SI |- *. cbn [flat_map] in SI.
    destruct c; cbn [map app] in *; exact SI.
  - rewrite DO, map_app, <- app_assoc. unfold odometry_times in SO |- *. cbn [flat_map] in SO.
    destruct c; cbn [map app] in *; exact SO.
Qed.
Lemma agree_new dur : agree dur (new_ext (K := K)) hist0.
Proof.
  split; cbn; try constructor; auto; try (repeat split; reflexivity).
Qed.

(* a state after InitializeWithImu *)
Lemma agree_init dur r x : initialize_with_imu dur r = Some x ->
  exists h, agree dur x h /\ h_imu h = [r] /\ h_odo h = [] /\ map fst (h_poses h) = [fst r] /\
    fst (h_cached h) = tmin.
Proof.
  destruct r as [t [lin ang]]. unfold initialize_with_imu. cbn [add_imu after_pose new_ext x_poses back rev nth_error].
  unfold add_imu, after_pose. cbn [new_ext x_poses x_imu app back rev nth_error trim_data x_vel x_tracker x_otracker x_etracker x_cached x_odo x_ovel].
  destruct (imu_update lin ang (new_tracker t)) as [k|] eqn:U; [|discriminate].
  destruct (advance t k) as [k1|] eqn:E; [|discriminate]. intros H.
  apply advance_time in E.
  unfold add_pose in H. cbn [x_tracker x_imu x_poses x_vel x_otracker x_etracker x_cached x_odo x_ovel app] in H.
  rewrite update_velocities_eq in H. cbn [trim x_poses x_vel x_imu x_tracker x_otracker x_etracker x_cached x_odo x_ovel vel_of] in H.
  set (y := mk_ext _ _ _ _ _ _ _ _ _) in H.
  destruct (advance_tracker y t k1) as [k2|] eqn:AT; [|discriminate].
  assert (K2 : k_time k2 = t).
  { unfold advance_tracker in AT. destruct (t <? k_time k1); [discriminate|]. subst y. cbn [x_imu] in AT.
    rewrite Z.ltb_irrefl in AT. destruct (if k_time k1 <? t then _ else _) as [k3|]; [|discriminate].
    destruct (feed _ _ _) as [k4|]; [|discriminate]. now apply advance_time in AT. }
  injection H as <-. subst y. cbn [x_poses x_vel x_imu x_tracker x_otracker x_etracker x_cached x_odo x_ovel].
  exists (mk_hist [(t, (zero K, orientation K (k_att k1)))] [(t, (lin, ang))] [] (Some k2) (Some k2) (Some k2)
            (tmin, (zero K, identity K)) (zero K, zero K)).
  split; [|repeat split; reflexivity].
  split; cbn [h_poses h_imu h_odo h_tracker h_otracker h_etracker h_cached h_ovel x_poses x_vel x_imu x_tracker x_otracker x_etracker x_cached x_odo x_ovel];
    try (repeat constructor; fail).
  split; [reflexivity|]. split; [reflexivity|]. split; [reflexivity|].
  split; [|split]; exists k2; (split; [reflexivity | cbn; lia]).
Qed.

(* clocks *)
Hypothesis calm : forall d v a, observe K d v a <> None.
Lemma update_total l a (k : tracker K) : exists k', imu_update l a k = Some k'.
Proof.
  unfold imu_update, accelerate. destruct (observe K _ _ _) eqn:E; [eexists; reflexivity|]. now apply calm in E.
Qed.
Lemma advance_total t (k : tracker K) : k_time k <= t -> exists k', advance t k = Some k'.
Proof. intros L. unfold advance. rewrite (proj2 (Z.leb_le _ _) L). eexists. reflexivity. Qed.
Lemma apply_total t : forall l (k : tracker K), StronglySorted lt_t l -> Forall (fun e => k_time k <= fst e < t) l -> k_time k <= t ->
  exists k', apply_all l k = Some k' /\ k_time k' <= t.
Proof.
  induction l as [|[s [lin ang]] l IH]; intros k S F L; [now exists k|]. cbn [apply_all].
  apply StronglySorted_inv in S as [S G]. apply Forall_cons_iff in F as [F1 F]. cbn [fst] in F1.
  destruct (advance_total s k) as [k1 E1]; [lia|]. rewrite E1. apply advance_time in E1.
  destruct (update_total lin ang k1) as [k2 E2]. rewrite E2. apply update_time in E2.
  apply IH; [exact S | | lia]. rewrite Forall_forall in *. intros e I. specialize (F e I). specialize (G e I). unfold lt_t in G. cbn [fst] in G. lia.
Qed.
Lemma track_total dur (h : hist K) t k : StronglySorted lt_t (h_imu h) ->
  match track dur h t k with Some _ => k_time k <= t | None => t < k_time k end.
Proof.
  intros S. unfold track. destruct (Z.ltb_spec t (k_time k)) as [L|L]; [exact L|].
  assert (U : match (match advance t k with
      | Some k1 => imu_update (unit_z K) (current h (snd (velocity dur (h_poses h))) (snd (h_ovel h))) k1
      | None => None end) with Some _ => k_time k <= t | None => t < k_time k end).
  { destruct (advance_total t k L) as [k1 ->]. destruct (update_total (unit_z K) (current h (snd (velocity dur (h_poses h))) (snd (h_ovel h))) k1) as [k2 ->]. exact L. }
  destruct (h_imu h) as [|[s v] r] eqn:H; [exact U|]. destruct (Z.leb_spec s t) as [Q|Q]; [|exact U].
  assert (exists k1, (if k_time k <? s then advance s k else Some k) = Some k1 /\ k_time k1 <= t) as (k1 & E1 & L1).
  { destruct (Z.ltb_spec (k_time k) s) as [W|W]; [|now exists k]. destruct (advance_total s k) as [k1 E]; [lia|]. exists k1. split; [exact E|].
    apply advance_time in E. lia. }
  rewrite E1.
  destruct (apply_total t (filter (fun r => (k_time k1 <=? fst r) && (fst r <? t)) ((s, v) :: r)) k1) as (k2 & E2 & L2).
  - now apply sorted_filter.
  - apply Forall_forall. intros e I. apply filter_In in I as [_ I]. apply andb_prop in I as [I1 I2]. apply Z.leb_le in I1. apply Z.ltb_lt in I2. lia.
  - exact L1.
  - rewrite E2. destruct (advance_total t k2 L2) as [k3 ->]. exact L.
Qed.

Definition clocked (h : hist K) (c : clocks) : Prop :=
  c_count c = length (h_odo h) /\ c_last c = fst (h_cached h) /\
  match back (h_poses h) with
  | Some (p, _) =>
      c_pose c = Some p /\
      (exists k, h_tracker h = Some k /\ k_time k = p) /\
      (exists k, h_otracker h = Some k /\ k_time k = c_odometry c) /\
      (exists k, h_etracker h = Some k /\ k_time k = c_predicted c)
  | None => c_pose c = None /\ h_tracker h = None
  end.
Lemma tick_step dur c (h : hist K) w : clocked h w -> StronglySorted lt_t (h_imu h) ->
  match h_step dur c h, tick c w with
  | Some (_, h'), Some w' => clocked h' w'
  | None, None => True
  | _, _ => False
  end.
Proof.
  intros (C1 & C2 & C3) S. destruct c as [t p | r | o | t | t]; cbn [h_step tick].
  - set (k := match h_tracker h with Some k => k | None => _ end). set (h1 := mk_hist (h_poses h ++ [(t, p)]) _ _ _ _ _ _ _).
    pose proof (track_total dur h1 t k S) as T.
    assert (W : forall k1, track dur h1 t k = Some k1 -> clocked (mk_hist (h_poses h1) (h_imu h) (h_odo h) (Some k1) (Some k1) (Some k1)
                                      (h_cached h) (h_ovel h)) (mk_clocks (Some t) t t (c_last w) (c_count w))).
    { intros k1 E. apply track_time in E as [E _]. split; [exact C1|]. split; [exact C2|].
      cbn [h_poses]. change (h_poses h1) with (h_poses h ++ [(t, p)]). rewrite back_app.
      split; [reflexivity|]. split; [|split]; exists k1; split; try reflexivity; exact E. }
    destruct (back (h_poses h)) as [[p0 q0]|].
    + destruct C3 as (-> & (k0 & E & KT) & _). subst k. rewrite E in *. destruct (track dur h1 t k0) as [k1|] eqn:TK; cbn [option_map].
      * replace (p0 <=? t) with true by (symmetry; apply Z.leb_le; lia). now apply W.
      * replace (p0 <=? t) with false by (symmetry; apply Z.leb_gt; lia). exact I.
    + destruct C3 as (-> & E). destruct (track dur h1 t k) as [k1|] eqn:TK; cbn [option_map]; [now apply W|].
      subst k. rewrite E in T. cbn [new_tracker k_time] in T. destruct (h_imu h) as [|[s v] r]; lia.
  - unfold not_before_pose. destruct (back (h_poses h)) as [[p0 q0]|] eqn:B.
    + destruct C3 as (E & C3). rewrite E. cbn [fst]. destruct (p0 <=? fst r); [|exact I].
      split; [exact C1|]. split; [exact C2|]. cbn [h_poses]. rewrite B. split; [exact E | exact C3].
    + destruct C3 as (E & C3). rewrite E. split; [exact C1|]. split; [exact C2|]. cbn [h_poses]. rewrite B. auto.
  - unfold not_before_pose. cbv zeta.
    assert (HB : forall t, exists e, base t (h_odo h ++ [o]) = Some e).
    { intros t. unfold base. destruct (back (filter (fun e : Z * pose => fst e <=? t) (removelast (h_odo h ++ [o])))) as [e|].
      - exists e. reflexivity.
      - destruct (h_odo h) as [|e l]; eexists; reflexivity. }
    destruct (back (h_poses h)) as [[p0 [tr rot]]|] eqn:B.
    + destruct C3 as (-> & CT & CO & CE). cbn [fst].
      rewrite Z.leb_antisym. destruct (Z.ltb_spec (fst o) p0) as [L|L]; [exact I|]. cbn [negb].
      destruct (HB p0) as ([t0 q0] & ->). rewrite app_length. cbn [length].
      destruct (Nat.eqb_spec (c_count w) 0) as [Z0|Z0].
      * replace (length (h_odo h) + 1 <? 2)%nat with true by (symmetry; apply Nat.ltb_lt; lia).
        split; [cbn [c_count h_odo]; rewrite app_length; cbn [length]; lia|]. split; [exact C2|]. cbn [h_poses]. rewrite B. auto.
      * replace (length (h_odo h) + 1 <? 2)%nat with false by (symmetry; apply Nat.ltb_ge; lia).
        destruct (odometry_velocity K _ _ _) as [lin ang]. unfold rotation_since. cbn [h_tracker].
        destruct CT as (k0 & -> & CT). destruct CO as (ko & -> & CO). set (h1 := mk_hist _ _ _ _ _ _ _ _).
        pose proof (track_total dur h1 (fst o) ko S) as T. destruct (track dur h1 (fst o) ko) as [k1|] eqn:TK; cbn [option_map].
        { replace (fst o <? c_odometry w) with false by (symmetry; apply Z.ltb_ge; lia).
          split; [cbn [c_count h_odo]; rewrite app_length; cbn [length]; lia|]. split; [exact C2|]. cbn [h_poses]. rewrite B.
          split; [reflexivity|]. split; [now exists k0|]. split; [|exact CE]. exists k1. split; [reflexivity|].
          apply track_time in TK as [TK _]. exact TK. }
        { replace (fst o <? c_odometry w) with true by (symmetry; apply Z.ltb_lt; lia). exact I. }
    + destruct C3 as (-> & E). cbn [negb].
      assert (HE : exists e, hd_error (h_odo h ++ [o]) = Some e) by (destruct (h_odo h) as [|e l]; eexists; reflexivity).
      destruct HE as ([t0 q0] & ->).
      assert (W : forall k v, clocked (mk_hist (h_poses h) (h_imu h) (h_odo h ++ [o]) (h_tracker h) k (h_etracker h) (h_cached h) v)
                 (mk_clocks None (c_odometry w) (c_predicted w) (c_last w) (Datatypes.S (c_count w)))).
      { intros k v. split; [cbn [c_count h_odo]; rewrite app_length; cbn [length]; lia|]. split; [exact C2|].
        cbn [h_poses]. rewrite B. auto. }
      destruct (_ <? 2)%nat; [apply W|]. destruct (odometry_velocity K _ _ _) as [lin ang]. apply W.
  - destruct (back (h_poses h)) as [[p0 [tr rot]]|] eqn:B; [|destruct C3 as (-> & _); exact I].
    destruct C3 as (CP & CT & CO & CE). rewrite CP. destruct (Z.ltb_spec t p0) as [L|L]; [exact I|].
    rewrite C2. destruct (fst (h_cached h) =? t) eqn:EC.
    { split; [exact C1|]. split; [exact C2|]. rewrite B. auto. }
    unfold rotation_since. destruct CT as (k0 & ET & CT). rewrite ET. destruct CE as (ke & -> & CE).
    pose proof (track_total dur h t ke S) as T. destruct (track dur h t ke) as [k1|] eqn:TK; cbn [option_map].
    + replace (t <? c_predicted w) with false by (symmetry; apply Z.ltb_ge; lia).
      split; [exact C1|]. split; [reflexivity|]. cbn [h_poses]. rewrite B. split; [reflexivity|].
      split; [now exists k0|]. split; [exact CO|]. exists k1. split; [reflexivity|]. apply track_time in TK as [TK _]. exact TK.
    + replace (t <? c_predicted w) with true by (symmetry; apply Z.ltb_lt; lia). exact I.
  - destruct (back (h_poses h)) as [[p0 q0]|] eqn:B.
    + destruct C3 as (CP & (k0 & ET & CT) & C3). rewrite CP, ET. pose proof (track_total dur h t k0 S) as T.
      destruct (track dur h t k0) as [k1|]; cbn [option_map].
      * replace (p0 <=? t) with true by (symmetry; apply Z.leb_le; lia). split; [exact C1|]. split; [exact C2|]. rewrite B.
        split; [exact CP|]. split; [now exists k0 | exact C3].
      * replace (p0 <=? t) with false by (symmetry; apply Z.leb_gt; lia). exact I.
    + destruct C3 as (-> & ->). exact I.
Qed.
Lemma tick_run dur : forall cs (h : hist K) w, clocked h w ->
  StronglySorted Z.lt (map fst (h_imu h) ++ imu_times cs) ->
  h_run dur cs h = None <-> tick_all cs w = None.
Proof.
  induction cs as [|c cs IH]; intros h w C S; [split; discriminate|]. cbn [h_run tick_all].
  assert (SI : StronglySorted lt_t (h_imu h)).
  { clear - S. induction (h_imu h) as [|y l IHl]; [constructor|]. cbn [map app] in S. apply StronglySorted_inv in S as [S F].
    constructor; [now apply IHl|]. rewrite Forall_forall in *. intros z I. apply F. apply in_or_app. left. now apply in_map. }
  pose proof (tick_step dur c h w C SI) as T.
  destruct (h_step dur c h) as [[a h']|] eqn:E, (tick c w) as [w'|]; try contradiction; [|tauto].
  destruct (h_step_data dur c h h' a E) as [DI _].
  rewrite <- (IH h' w' T).
  - destruct (h_run dur cs h'); cbn [option_map]; split; intros H; try discriminate; reflexivity.
  - rewrite DI, map_app, <- app_assoc. unfold imu_times in S |- *. cbn [flat_map] in S.
    destruct c; cbn [map app] in *; exact S.
Qed.
Lemma clocked_new : clocked (hist0 (K := K)) clocks0.
Proof. split; [reflexivity|]. split; [reflexivity|]. cbn. auto. Qed.
End Proofs.
