(* Properties of the pose extrapolator (C56). *)
From Coq Require Import ZArith List Bool Sorted Lia.
From Verif Require Import PE_Model PE_Spec PE_Proofs.
Import ListNotations.
Open Scope Z_scope.

(* ToSeconds is monotone *)
Definition sane (K : kit) : Prop :=
  (forall d dur, dur <= d -> too_short K d dur = false) /\
  (forall d d' dur, d <= d' -> too_short K d dur = false -> too_short K d' dur = false).

(* Dropping old data loses nothing: with IMU readings in strict and odometry in order of time, every
   sequence of calls gets the answers of the extrapolator that keeps everything, or both abort. *)
Theorem C56_history : forall (K : kit) dur (cs : list (call K)), sane K ->
  StronglySorted Z.lt (imu_times cs) -> StronglySorted Z.le (odometry_times cs) ->
  option_map fst (run dur cs new_ext) = h_run dur cs hist0.
Proof.
  intros K dur cs (S1 & S2) SI SO. apply run_both; [exact S1 | exact S2 | apply agree_new | exact SI | exact SO].
Qed.

(* The same after InitializeWithImu. *)
Theorem C56_initialized : forall (K : kit) dur r (cs : list (call K)) x, sane K ->
  StronglySorted Z.lt (fst r :: imu_times cs) -> StronglySorted Z.le (odometry_times cs) ->
  initialize_with_imu dur r = Some x ->
  exists h, h_imu h = [r] /\ h_odo h = [] /\ map fst (h_poses h) = [fst r] /\
    option_map fst (run dur cs x) = h_run dur cs h.
Proof.
  intros K dur r cs x (S1 & S2) SI SO E. destruct (agree_init dur r x E) as (h & A & H1 & H2 & H3 & _).
  exists h. split; [exact H1|]. split; [exact H2|]. split; [exact H3|].
  apply run_both; [exact S1 | exact S2 | exact A | now rewrite H1 | now rewrite H2].
Qed.

(* If the checks on the gravity vector hold, calls abort exactly if the clocks say so. *)
Theorem C56_aborts : forall (K : kit) dur (cs : list (call K)), sane K ->
  (forall d v a, observe K d v a <> None) ->
  StronglySorted Z.lt (imu_times cs) -> StronglySorted Z.le (odometry_times cs) ->
  run dur cs new_ext = None <-> tick_all cs clocks0 = None.
Proof.
  intros K dur cs SK CALM SI SO. rewrite <- (tick_run CALM dur cs hist0 clocks0 clocked_new SI).
  rewrite <- (C56_history K dur cs SK SI SO). destruct (run dur cs new_ext); cbn [option_map]; split; intros H; try discriminate; reflexivity.
Qed.

(* the time of a call *)
Definition call_time {K} (c : call K) : Z :=
  match c with CPose t _ => t | CImu r => fst r | COdometry o => fst o | CExtrapolate t => t | CGravity t => t end.
(* In particular calls in order of time never abort once there is a pose. *)
Theorem C56_in_order : forall (K : kit) dur t p (cs : list (call K)), sane K ->
  (forall d v a, observe K d v a <> None) ->
  StronglySorted Z.lt (imu_times cs) ->
  StronglySorted Z.le (t :: map call_time cs) ->
  run dur (CPose t p :: cs) new_ext <> None.
Proof.
  intros K dur t p cs SK CALM SI S.
  assert (SO : StronglySorted Z.le (odometry_times cs)).
  { apply StronglySorted_inv in S as [S _]. clear - S. induction cs as [|c cs IH]; [constructor|]. cbn [map] in S.
    apply StronglySorted_inv in S as [S F]. unfold odometry_times. cbn [flat_map]. fold (odometry_times cs).
    destruct c; cbn [app]; try (now apply IH). constructor; [now apply IH|]. rewrite Forall_forall in *. intros z I.
    apply F. unfold odometry_times in I. apply in_flat_map in I as (c & I1 & I2). destruct c; try contradiction.
    destruct I2 as [<- | []]. apply in_map_iff. eexists. split; [|exact I1]. reflexivity. }
  rewrite (C56_aborts K dur (CPose t p :: cs) SK CALM SI SO). cbn [tick_all tick clocks0 c_pose].
  set (w := mk_clocks _ _ _ _ _).
  assert (G : forall (l : list (call K)) m w, StronglySorted Z.le (m :: map call_time l) ->
    (exists q, c_pose w = Some q /\ q <= m) -> c_odometry w <= m -> c_predicted w <= m -> tick_all l w <> None).
  { clear. induction l as [|c l IH]; intros m w S (q & P & Q) O E; [discriminate|]. cbn [map] in S.
    apply StronglySorted_inv in S as [S F]. pose proof S as S'. apply Forall_cons_iff in F as [F _].
    assert (N : forall w', (exists q, c_pose w' = Some q /\ q <= call_time c) -> c_odometry w' <= call_time c -> c_predicted w' <= call_time c ->
      tick_all l w' <> None) by (intros w'; now apply IH).
    cbn [tick_all]. destruct c as [u p | r | o | u | u]; cbn [tick call_time] in *; rewrite P.
    - replace (q <=? u) with true by (symmetry; apply Z.leb_le; lia). apply N; cbn; [exists u; split; [reflexivity | lia] | lia | lia].
    - replace (q <=? fst r) with true by (symmetry; apply Z.leb_le; lia). apply N; [exists q; split; [exact P | lia] | lia | lia].
    - replace (fst o <? q) with false by (symmetry; apply Z.ltb_ge; lia).
      destruct (c_count w =? 0)%nat; [apply N; cbn; [exists q; split; [reflexivity | lia] | lia | lia]|].
      replace (fst o <? c_odometry w) with false by (symmetry; apply Z.ltb_ge; lia).
      apply N; cbn; [exists q; split; [reflexivity | lia] | lia | lia].
    - replace (u <? q) with false by (symmetry; apply Z.ltb_ge; lia).
      destruct (c_last w =? u); [apply N; [exists q; split; [exact P | lia] | lia | lia]|].
      replace (u <? c_predicted w) with false by (symmetry; apply Z.ltb_ge; lia).
      apply N; cbn; [exists q; split; [reflexivity | lia] | lia | lia].
    - replace (q <=? u) with true by (symmetry; apply Z.leb_le; lia). apply N; [exists q; split; [exact P | lia] | lia | lia]. }
  apply (G cs t w S); subst w; cbn; [exists t; split; [reflexivity | lia] | lia | lia].
Qed.

(* A robot on a line that turns about one axis, in integers: translation and rotation are
   numbers, gravity is ignored. *)
Definition line : kit := {|
  Rot := Z; Vec := Z; Att := Z; att0 := 0; orientation := fun a => a;
  turn := fun d v a => a + d * v; observe := fun _ _ a => Some a;
  zero := 0; unit_z := 1; identity := 0; mul := Z.add; inv := Z.opp;
  rotate := fun _ v => v; add := Z.add; scale := Z.mul; too_short := Z.ltb;
  pose_velocity := fun d p q => ((fst p - fst q) / d, (snd p - snd q) / d);
  odometry_velocity := fun d p q => ((fst q - fst p) / d, (snd q - snd p) / d) |}.
Lemma line_sane : sane line.
Proof.
  split; cbn [line too_short]; intros *; rewrite ?Z.ltb_ge; [|intros * A B; apply Z.ltb_ge in B]; try apply Z.ltb_ge; lia.
Qed.

(* Velocity 2 per tick from poses; with the IMU the rotation follows its readings, with odometry
   the translation follows the odometry. *)
Example C56_example :
  option_map fst (run 10
    ([@CPose line 0 (0, 0); @CPose line 10 (20, 0); CExtrapolate 15; CGravity 12;
      @CImu line (16, (1, 3)); CExtrapolate 18; @CImu line (20, (1, 5)); @CPose line 20 (40, 7); @CImu line (26, (1, 0));
      CExtrapolate 28; @COdometry line (29, (100, 0)); @COdometry line (30, (101, 0)); CExtrapolate 34] : list (call line)) new_ext) =
  Some ([ADone; ADone; @APose line (30, 0); @ARotation line 0; ADone; @APose line (36, 6); ADone; ADone; ADone;
         @APose line (56, 37); ADone; ADone; @APose line (54, 37)] : list (answer line)).
Proof. vm_compute. reflexivity. Qed.

(* The answer for the time of the newest pose is not that pose if the last prediction was for the
   same time: it is kept over the new pose. *)
Theorem C56_newest_pose_refuted : exists (cs : list (call line)) t p l x,
  option_map fst (run 10 (cs ++ [CPose t p; CExtrapolate t]) new_ext) = Some (l ++ [APose x]) /\
  StronglySorted Z.le (map call_time cs ++ [t]) /\ x <> p.
Proof.
  exists [@CPose line 0 (0, 0); @CPose line 10 (20, 0); CExtrapolate 20], 20, (39, 1), [ADone; ADone; @APose line (40, 0); ADone], (40, 0).
  split; [vm_compute; reflexivity|]. split; [repeat constructor; cbn; lia | discriminate].
Qed.

(* Of two IMU readings at the time of a pose the first is dropped.  Here the newer reading counts
   as usual and the older one is missed: the kit sums up what it observes. *)
Definition sums : kit := {|
  Rot := Z; Vec := Z; Att := Z; att0 := 0; orientation := fun a => a;
  turn := fun _ _ a => a; observe := fun _ v a => Some (a + v);
  zero := 0; unit_z := 1; identity := 0; mul := Z.add; inv := Z.opp;
  rotate := fun _ v => v; add := Z.add; scale := Z.mul; too_short := Z.ltb;
  pose_velocity := fun d p q => (0, 0); odometry_velocity := fun d p q => (0, 0) |}.
Theorem C56_equal_imu_times_refuted : exists (cs : list (call sums)),
  StronglySorted Z.le (map call_time cs) /\
  option_map fst (run 10 cs new_ext) <> h_run 10 cs hist0.
Proof.
  exists [@CImu sums (0, (1, 0)); @CImu sums (10, (100, 0)); @CPose sums 10 (0, 0); @CImu sums (10, (1000, 0)); CGravity 20].
  split; [repeat constructor; cbn; lia | vm_compute; discriminate].
Qed.

(* Two odometry poses of the same time: the velocity is a quotient by zero.  Here None is a number
   that is not a number, which the check on the gravity vector does not accept: calls in order of
   time abort. *)
Definition nan_line : kit := {|
  Rot := option Z; Vec := option Z; Att := option Z; att0 := Some 0; orientation := fun a => a;
  turn := fun d v a => match v, a with Some v, Some a => Some (a + d * v) | _, _ => None end;
  observe := fun _ _ a => match a with Some _ => Some a | None => None end;
  zero := Some 0; unit_z := Some 1; identity := Some 0;
  mul := fun a b => match a, b with Some a, Some b => Some (a + b) | _, _ => None end;
  inv := option_map Z.opp; rotate := fun _ v => v;
  add := fun a b => match a, b with Some a, Some b => Some (a + b) | _, _ => None end;
  scale := fun d => option_map (Z.mul d); too_short := Z.ltb;
  pose_velocity := fun d p q =>
    if d =? 0 then (None, None)
    else (match fst p, fst q with Some a, Some b => Some ((a - b) / d) | _, _ => None end,
          match snd p, snd q with Some a, Some b => Some ((a - b) / d) | _, _ => None end);
  odometry_velocity := fun d p q =>
    if d =? 0 then (None, None)
    else (match fst p, fst q with Some a, Some b => Some ((b - a) / d) | _, _ => None end,
          match snd p, snd q with Some a, Some b => Some ((b - a) / d) | _, _ => None end) |}.
Theorem C56_equal_odometry_times_refuted : exists (cs : list (call nan_line)),
  StronglySorted Z.le (map call_time cs) /\
  run 10 cs new_ext = None.
Proof.
  exists [@CPose nan_line 0 (Some 0, Some 0); @COdometry nan_line (5, (Some 0, Some 0)); @COdometry nan_line (5, (Some 0, Some 0)); @CPose nan_line 10 (Some 0, Some 0);
          @CPose nan_line 20 (Some 0, Some 0)].
  split; [repeat constructor; cbn; lia | vm_compute; reflexivity].
Qed.

(* The IMU tracker itself: it turns by the last rate for the time since the last event, and weighs an
   acceleration by the time since the one before. *)
Definition track {K} (e : event K) (k : tracker K) : option (tracker K) :=
  match e with EAdvance t => advance t k | EAcceleration v => accelerate v k | ERate v => Some (set_angular v k) end.
Fixpoint track_all {K} (past : list (event K)) (k : tracker K) : option (tracker K) :=
  match past with [] => Some k | e :: r => match track_all r k with Some k' => track e k' | None => None end end.
Theorem C56_tracker : forall (K : kit) t0 (past : list (event K)), tmin < t0 ->
  option_map (fun k => (k_att k, k_time k, k_ang k)) (track_all past (new_tracker t0)) =
  option_map (fun a => (a, now t0 past, rate past)) (attitude t0 past).
Proof.
  intros K t0 past T.
  assert (S : match track_all past (new_tracker t0) with
              | Some k => attitude t0 past = Some (k_att k) /\ k_time k = now t0 past /\ k_ang k = rate past /\
                  t0 <= k_time k /\ match measured t0 past with Some q => k_last k = q /\ t0 <= q | None => k_last k = tmin end
              | None => attitude t0 past = None
              end).
  { induction past as [|e r IH].
    - cbn [track_all attitude now rate measured new_tracker k_att k_time k_ang k_last]. split; [reflexivity|]. split; [reflexivity|]. split; [reflexivity|]. split; [lia | reflexivity].
    - cbn [track_all attitude]. destruct (track_all r (new_tracker t0)) as [k|]; [|now rewrite IH].
      destruct IH as (A & N & R & L & M). rewrite A. destruct e as [t|v|v]; cbn [track now rate measured].
      + unfold advance. rewrite <- N, <- R. destruct (Z.leb_spec (k_time k) t) as [I|I]; [|reflexivity].
        cbn [k_att k_time k_ang k_last]. split; [reflexivity|]. split; [reflexivity|]. split; [reflexivity|]. split; [lia | exact M].
      + unfold accelerate. rewrite <- N.
        assert (E : (if tmin <? k_last k then Some (k_time k - k_last k) else None) = option_map (fun q => k_time k - q) (measured t0 r)).
        { destruct (measured t0 r) as [q|]; cbn [option_map].
          - destruct M as [-> M]. destruct (Z.ltb_spec tmin q); [reflexivity | lia].
          - rewrite M, Z.ltb_irrefl. reflexivity. }
        rewrite E. destruct (observe K _ v (k_att k)); [|reflexivity].
        cbn [k_att k_time k_ang k_last]. split; [reflexivity|]. split; [reflexivity|]. split; [exact R|]. split; [exact L|]. split; [reflexivity | exact L].
      + cbn [set_angular k_att k_time k_ang k_last]. split; [reflexivity|]. split; [exact N|]. split; [reflexivity|]. split; [exact L | exact M]. }
  destruct (track_all past (new_tracker t0)) as [k|].
  - destruct S as (-> & <- & <- & _). reflexivity.
  - now rewrite S.
Qed.
(* durations add up: two accelerations, 3 and 7 after the start *)
Definition durations : kit := {|
  Rot := Z; Vec := Z; Att := list (option Z); att0 := []; orientation := fun _ => 0;
  turn := fun _ _ a => a; observe := fun d _ a => Some (d :: a); zero := 0; unit_z := 1; identity := 0;
  mul := Z.add; inv := Z.opp; rotate := Z.add; add := Z.add; scale := Z.mul; too_short := Z.ltb;
  pose_velocity := fun _ _ _ => (0, 0); odometry_velocity := fun _ _ _ => (0, 0) |}.
Example tracker_durations :
  option_map k_att (track_all (K := durations) [EAcceleration (9 : Vec durations); EAdvance 7; EAcceleration (9 : Vec durations); EAdvance 3] (new_tracker 0)) =
  Some ([Some 4; None] : Att durations).
Proof. reflexivity. Qed.

Print Assumptions C56_tracker.
Print Assumptions C56_history.
Print Assumptions C56_initialized.
Print Assumptions C56_aborts.
Print Assumptions C56_in_order.
Print Assumptions C56_newest_pose_refuted.
Print Assumptions C56_equal_imu_times_refuted.
Print Assumptions C56_equal_odometry_times_refuted.
