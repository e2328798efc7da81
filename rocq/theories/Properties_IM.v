(* The IMU tracker (C79) and the integration of IMU data (C80). *)
From Coq Require Import Reals ZArith List Lia Lra.
From Verif Require Import CF_Model CF_Spec RG_Model RG_Spec RG_Proofs RG_Angle IM_Model IM_Spec IM_Proofs IM_Integrate.
Import ListNotations.
Open Scope R_scope.

(* an SVD as assumed below exists *)
Theorem C79_svd : exists svd, svd_ok svd.
Proof. exists some_svd. apply some_svd_ok. Qed.

(* whatever calls a tracker gets, its orientation is a rotation and its time does not run back *)
Theorem C79_unit : forall svd constant time os k, svd_ok svd -> (time_min <= time)%Z ->
  run svd (tracker_init constant time) os = Some k ->
  unit_rotation (t_orientation k) /\ (t_last k <= t_time k)%Z /\ t_constant k = constant.
Proof.
  intros svd constant time os k S T E. destruct (run_inv svd S os _ k (init_inv constant time T) E) as [[U L] C].
  split; [exact U | split; [exact L | exact C]].
Qed.

(* turning the robot leaves gravity where it is in the world: exactly if the turn is zero or more than
   10^-4 radians, and to within 5e-9 of its length otherwise *)
Theorem C79_advance : forall k t, unit_rotation (t_orientation k) -> (t_time k <= t)%Z ->
  exists k', advance k t = Some k' /\ t_time k' = t /\ unit_rotation (t_orientation k') /\
    length (minus (world_gravity k') (world_gravity k)) <= 5 / 10 ^ 9 * length (t_gravity k) /\
    (resolved (scaled (seconds (t - t_time k)) (t_omega k)) ->
     world_gravity k' = world_gravity k /\ length (t_gravity k') = length (t_gravity k)).
Proof.
  intros k t U T. destruct (advance_gravity k t U T) as (k' & E & A & B & C). exists k'.
  split; [exact E|]. split; [exact A|]. split; [exact (advance_unit k t k' U E)|]. split.
  - replace (minus (world_gravity k') (world_gravity k)) with (vsub (world_gravity k') (world_gravity k)); [exact B|].
    generalize (world_gravity k') (world_gravity k). intros x y. unfold minus, plus, scaled. apply vec_eq; qcbn; ring.
  - intros R. apply C. rewrite secs. exact R.
Qed.
Theorem C79_backwards : forall k t, advance k t = None <-> (t < t_time k)%Z.
Proof.
  intros k t. unfold advance. destruct (Z.ltb_spec t (t_time k)); split; intros H0; try reflexivity; try lia; discriminate.
Qed.

(* advancing in two steps is advancing in one *)
Theorem C79_advance_twice : forall k s t, unit_rotation (t_orientation k) -> (t_time k <= s <= t)%Z ->
  resolved (scaled (seconds (s - t_time k)) (t_omega k)) -> resolved (scaled (seconds (t - s)) (t_omega k)) ->
  match advance k s with Some k1 => advance k1 t | None => None end = advance k t.
Proof. intros k s t U T A B. apply advance_twice; [exact U | exact T | rewrite secs; exact A | rewrite secs; exact B]. Qed.

(* an angular velocity turns about itself, by the elapsed time times its length *)
Theorem C79_rate : forall svd k w t k' p, unit_rotation (t_orientation k) -> run svd k [AngularVelocity w; Advance t] = Some k' ->
  let v := scaled (seconds (t - t_time k)) w in
  1 / 10 ^ 8 < dot v v ->
  qrot (t_orientation k') p = qrot (t_orientation k) (turned (scaled (/ length v) v) (length v) p).
Proof.
  intros svd k w t k' p U E v B. cbn [run step] in E. unfold advance, add_angular_velocity in E. cbn [t_time t_omega t_orientation] in E.
  destruct (Z.ltb_spec t (t_time k)); [discriminate|]. injection E as <-.
  cbn [t_orientation]. rewrite secs. change (vscale (seconds (t - t_time k)) w) with v.
  change (dot v v) with (vdot v v) in B.
  assert (B' : 1 / 100000000 < vdot v v) by lra. pose proof (of_unit v B') as UV.
  rewrite normalized_unit by (apply unit_mul; assumption). rewrite qrot_mul by assumption.
  rewrite (of_turned v p B'). reflexivity.
Qed.

(* the averaged gravity: between the old one and the acceleration *)
Theorem C79_average : forall svd k a k', svd_ok svd -> unit_rotation (t_orientation k) -> (t_last k <= t_time k)%Z -> 0 < t_constant k ->
  add_acceleration svd k a = Some k' ->
  exists w, 0 <= w <= 1 /\ t_gravity k' = plus (scaled w (t_gravity k)) (scaled (1 - w) a) /\
    w = (if (time_min <? t_last k)%Z then exp (- seconds (t_time k - t_last k) / t_constant k) else 0).
Proof.
  intros svd k a k' S U L C E.
  assert (N : ~ null (averaged k a)) by (intros N; rewrite (acceleration_null svd k a N) in E; discriminate).
  destruct (acceleration_ok svd S k a U N) as (k2 & E2 & G & _). rewrite E2 in E. injection E as <-.
  pose proof (alpha_range k (conj U L) C) as A. exists (1 - alpha k). split; [lra|]. split.
  - rewrite G. unfold averaged. change plus with vadd; change scaled with vscale.
    replace (1 - (1 - alpha k)) with (alpha k) by ring. reflexivity.
  - unfold alpha. rewrite <- secs. destruct (time_min <? t_last k)%Z; ring.
Qed.

(* an acceleration levels the tracker: gravity then points up in the world, and the correction has a
   horizontal axis, so it does not turn the heading. Gravity pointing straight down before the
   correction (to within 10^-12) is the one case where it is up to within 4e-12 only. *)
Theorem C79_level : forall svd k a k', svd_ok svd -> unit_rotation (t_orientation k) ->
  add_acceleration svd k a = Some k' ->
  unit_rotation (t_orientation k') /\ t_time k' = t_time k /\ t_last k' = t_time k /\ t_omega k' = t_omega k /\
  (1 - 4 / 10 ^ 12) * length (t_gravity k') <= v2 (world_gravity k') /\
  (- (1 - 1 / 10 ^ 12) * length (t_gravity k') <= v2 (qrot (t_orientation k) (t_gravity k')) ->
   world_gravity k' = mk_vec3 0 0 (length (t_gravity k'))) /\
  (let c := qmul (t_orientation k') (qconj (t_orientation k)) in qz c = 0 /\ 0 <= qw c).
Proof.
  intros svd k a k' S U E.
  assert (N : ~ null (averaged k a)) by (intros N; rewrite (acceleration_null svd k a N) in E; discriminate).
  destruct (acceleration_ok svd S k a U N) as (k2 & E2 & G & T & L & C & W & U2 & Z & X & H & HW). rewrite E2 in E. injection E as <-.
  change (length (t_gravity k2)) with (vnorm (t_gravity k2)).
  repeat split; try assumption.
  - pose proof (vnorm_pos (t_gravity k2)). lra.
  - intros V. apply X. pose proof (vnorm_pos (t_gravity k2)). lra.
Qed.

(* the CHECKs fail exactly if the average is the null vector *)
Theorem C79_checks : forall svd k a, svd_ok svd -> unit_rotation (t_orientation k) ->
  (add_acceleration svd k a = None <->
   null (plus (scaled (1 - alpha k) (t_gravity k)) (scaled (alpha k) a))).
Proof. intros svd k a S U. apply (acceleration_none svd S k a U). Qed.

(* the first acceleration replaces the initial gravity *)
Theorem C79_first : forall svd constant time a, svd_ok svd -> ~ null a ->
  exists k, add_acceleration svd (tracker_init constant time) a = Some k /\ t_gravity k = a /\
    (- (1 - 1 / 10 ^ 12) * length a <= v2 a -> world_gravity k = mk_vec3 0 0 (length a)).
Proof.
  intros svd constant time a S N.
  assert (A : averaged (tracker_init constant time) a = a).
  { unfold averaged, alpha, tracker_init. cbn [t_last t_gravity]. rewrite Z.ltb_irrefl. apply vec_eq; qcbn; ring. }
  destruct (acceleration_ok svd S (tracker_init constant time) a) as (k & E & G & T & L & C & W & U2 & Z & X & H).
  - apply unit_one.
  - now rewrite A.
  - exists k. rewrite A in G. split; [exact E|]. split; [exact G|]. rewrite G in X. intros V. apply X.
    unfold tracker_init. cbn [t_orientation]. rewrite qrot_one. change (length a) with (vnorm a) in V.
    pose proof (vnorm_pos a). lra.
Qed.

(* without rotation a constant acceleration is approached exponentially in time, however often it is sampled *)
Theorem C79_still : forall svd a ts k k', svd_ok svd -> unit_rotation (t_orientation k) -> null (t_omega k) -> 0 < t_constant k ->
  (time_min < t_last k)%Z -> t_last k = t_time k ->
  run svd k (flat_map (fun t => [Advance t; Acceleration a]) ts) = Some k' ->
  minus (t_gravity k') a = scaled (exp (- seconds (t_time k' - t_time k) / t_constant k)) (minus (t_gravity k) a).
Proof.
  intros svd a ts k k' S U W C L T E. pose proof (still_average svd S a ts k k' U W C L T E) as X. rewrite secs in X.
  assert (M : forall x y, minus x y = vsub x y) by (intros; unfold minus, plus, scaled; apply vec_eq; qcbn; ring).
  rewrite !M. exact X.
Qed.

(* "an acceleration is always accepted" is false: a first acceleration of zero (free fall) and, later, the
   one that cancels the average end in a failed CHECK *)
Theorem C79_accepted_refuted : forall svd, svd_ok svd -> forall constant, 0 < constant ->
  add_acceleration svd (tracker_init constant 0) (mk_vec3 0 0 0) = None /\
  exists k a, run svd (tracker_init constant 0) [Acceleration (mk_vec3 0 0 9); Advance 100000] = Some k /\
    ~ null a /\ add_acceleration svd k a = None.
Proof.
  intros svd S constant C. split.
  - apply acceleration_null. unfold averaged, alpha, tracker_init. cbn [t_last t_gravity]. rewrite Z.ltb_irrefl.
    repeat split; unfold unit_z; qcbn; ring.
  - destruct (C79_first svd constant 0 (mk_vec3 0 0 9) S) as (k1 & E1 & G1 & _).
    { intros (_ & _ & H). cbn in H. lra. }
    destruct (acceleration_ok svd S (tracker_init constant 0) (mk_vec3 0 0 9)) as (k1' & E1' & _ & T & L & CC & W & U & _).
    { apply unit_one. }
    { intros H. rewrite (acceleration_null svd _ _ H) in E1. discriminate. }
    rewrite E1' in E1. injection E1 as ->. cbn [tracker_init t_time t_constant t_omega] in T, L, CC, W.
    destruct (advance k1 100000) as [k2|] eqn:E2.
    2:{ apply C79_backwards in E2. rewrite T in E2. lia. }
    assert (N : null (t_omega k1)) by (rewrite W; repeat split).
    destruct (still_advance k1 100000 k2 N E2) as (G2 & T2 & L2 & W2 & C2 & _).
    pose proof (advance_unit k1 100000 k2 U E2) as U2.
    assert (AL : alpha k2 = 1 - exp (- to_seconds 100000 / constant)).
    { unfold alpha. rewrite L2, T2, C2, L, CC. reflexivity. }
    assert (X : 0 < exp (- to_seconds 100000 / constant) < 1).
    { split; [apply exp_pos|]. rewrite <- exp_0. apply exp_increasing. unfold to_seconds.
      assert (0 < 100000 / 10000000 / constant) by (apply Rdiv_lt_0_compat; lra). unfold Rdiv in *. lra. }
    exists k2, (vscale (- (1 - alpha k2) / alpha k2) (mk_vec3 0 0 9)). split.
    { cbn [run step]. rewrite E1'. rewrite E2. reflexivity. }
    split.
    + intros (_ & _ & H). unfold vscale in H. cbn [v2] in H. rewrite AL in H.
      apply Rmult_integral in H. destruct H as [H|H]; [|lra].
      apply (f_equal (fun x => x * (1 - exp (- to_seconds 100000 / constant)))) in H.
      unfold Rdiv in H at 1. rewrite Rmult_assoc, Rinv_l in H by lra. lra.
    + apply acceleration_null. unfold averaged. rewrite G2, G1.
      repeat split; unfold vadd, vscale; cbn [v0 v1 v2]; field; lra.
Qed.

(* a tilted first acceleration: (3, 0, 4) becomes (0, 0, 5) in the world *)
Example C79_example : exists k, add_acceleration some_svd (tracker_init 10 0) (mk_vec3 3 0 4) = Some k /\
  t_gravity k = mk_vec3 3 0 4 /\ world_gravity k = mk_vec3 0 0 5.
Proof.
  destruct (C79_first some_svd 10 0 (mk_vec3 3 0 4) some_svd_ok) as (k & E & G & X).
  { intros (H & _). cbn in H. lra. }
  exists k. split; [exact E|]. split; [exact G|].
  assert (N : length (mk_vec3 3 0 4) = 5).
  { unfold length, dot. cbn [v0 v1 v2]. replace (3 * 3 + 0 * 0 + 4 * 4) with (5 * 5) by ring. apply sqrt_square. lra. }
  rewrite X; rewrite N; [reflexivity|]. cbn [v2]. lra.
Qed.

(* C80 *)
(* the readings are used one after the other, each from its time to the next one's: what is returned is
   the motion composed of these pieces, and the iterator is at the reading that holds at the end *)
Theorem C80_motion : forall ca cw data s e it, ordered data -> holds_at data it s -> (s <= e)%Z -> (e < time_max)%Z ->
  all_resolved cw (pieces data s e) ->
  exists it', integrate ca cw data s e it = Some (travel ca cw (pieces data s e), it') /\ holds_at data it' e.
Proof.
  intros ca cw data s e it O H T M A. destruct (integrate_pieces ca cw data s e it O H T M) as [it' [E H']].
  exists it'. rewrite E, play_zero by exact A. split; [reflexivity | exact H'].
Qed.
Theorem C80_duration : forall data s e it, ordered data -> holds_at data it s -> (s <= e)%Z -> duration (pieces data s e) = (e - s)%Z.
Proof. intros data s e it O H T. apply pieces_duration; [exact O | exact T | exact (first_holds data it s O H)]. Qed.
(* a CHECK fails exactly if the end is before the start or the iterator is not at the reading that holds at the start *)
Theorem C80_checks : forall ca cw data s e it, ordered data -> (e < time_max)%Z ->
  (integrate ca cw data s e it = None <-> (e < s)%Z \/ ~ holds_at data it s).
Proof. intros. now apply integrate_none. Qed.
Theorem C80_chain : forall ca cw data s m e it r it', ordered data -> (s <= m <= e)%Z -> (e < time_max)%Z ->
  integrate ca cw data s m it = Some (r, it') ->
  holds_at data it' m /\ integrate ca cw data m e it' <> None.
Proof.
  intros ca cw data s m e it r it' O T M E.
  assert (H : holds_at data it s).
  { destruct (nth_error data it) as [d|] eqn:N.
    - unfold integrate in E. destruct (Z.ltb_spec m s); [lia|]. rewrite N in E.
      destruct (Z.ltb_spec s (i_time d)); [discriminate|].
      destruct (match nth_error data (S it) with Some n => (i_time n <=? s)%Z | None => false end) eqn:B; [discriminate|].
      destruct (nth_error_split _ _ N) as (pre & rest & -> & <-). apply holds_mid; [exact O | lia |].
      rewrite nth_mid_S in B. destruct rest as [|n rest]; [exact I|]. cbn in B. apply Z.leb_gt in B. exact B.
    - unfold integrate in E. rewrite N in E. destruct (m <? s)%Z; discriminate. }
  destruct (integrate_pieces ca cw data s m it O H ltac:(lia) ltac:(lia)) as [it2 [E2 H2]].
  rewrite E2 in E. injection E as _ <-. split; [exact H2|]. rewrite integrate_none by assumption. intros [X|X]; [lia | tauto].
Qed.

(* cutting the interval at the time of a reading: the motions compose *)
Theorem C80_cut : forall ca cw data s m e it, ordered data -> holds_at data it s -> (s <= m <= e)%Z -> (e < time_max)%Z ->
  (exists d, In d data /\ i_time d = m) -> all_resolved cw (pieces data s e) ->
  exists a b c it1 it2, integrate ca cw data s m it = Some (a, it1) /\ integrate ca cw data m e it1 = Some (b, it2) /\
    integrate ca cw data s e it = Some (c, it2) /\ c = then_move a (seconds (e - m)) b.
Proof.
  intros ca cw data s m e it O H T M X A. destruct (cut_resolved cw data s m e O T X A) as [A1 A2].
  destruct (C80_motion ca cw data s m it O H ltac:(lia) ltac:(lia) A1) as [it1 [E1 H1]].
  destruct (C80_motion ca cw data m e it1 O H1 ltac:(lia) ltac:(lia) A2) as [it2 [E2 H2]].
  destruct (C80_motion ca cw data s e it O H ltac:(lia) ltac:(lia) A) as [it3 [E3 H3]].
  assert (EQ : it3 = it2).
  { destruct (holds_split data it2 e O H2) as (p2 & d2 & r2 & E & -> & L2 & N2).
    destruct H2 as (x & Nx & Lx & Ax). destruct H3 as (y & Ny & Ly & Ay).
    destruct (Nat.lt_trichotomy it3 (Datatypes.length p2)) as [C|[C|C]]; [|exact C|].
    - specialize (Ay _ _ C Nx). lia.
    - specialize (Ax _ _ C Ny). lia. }
  subst it3. exists (travel ca cw (pieces data s m)), (travel ca cw (pieces data m e)), (travel ca cw (pieces data s e)), it1, it2.
  repeat split; try assumption. rewrite (pieces_cut data s m e O T X), travel_app by assumption.
  rewrite (pieces_duration data m e O ltac:(lia) (first_holds data it1 m O H1)). reflexivity.
Qed.
(* cutting it anywhere: the rotations compose *)
Theorem C80_cut_rotation : forall ca cw data s m e it, ordered data -> holds_at data it s -> (s <= m <= e)%Z -> (e < time_max)%Z ->
  all_resolved cw (pieces data s m) -> all_resolved cw (pieces data m e) ->
  exists a b c it1 it2 it3, integrate ca cw data s m it = Some (a, it1) /\ integrate ca cw data m e it1 = Some (b, it2) /\
    integrate ca cw data s e it = Some (c, it3) /\ d_rot c = qmul (d_rot a) (d_rot b) /\ unit_rotation (d_rot c).
Proof.
  intros ca cw data s m e it O H T M A1 A2. destruct (turn_cut ca cw data s m e O T A1 A2) as [E A].
  destruct (C80_motion ca cw data s m it O H ltac:(lia) ltac:(lia) A1) as [it1 [E1 H1]].
  destruct (C80_motion ca cw data m e it1 O H1 ltac:(lia) ltac:(lia) A2) as [it2 [E2 H2]].
  destruct (C80_motion ca cw data s e it O H ltac:(lia) ltac:(lia) A) as [it3 [E3 H3]].
  exists (travel ca cw (pieces data s m)), (travel ca cw (pieces data m e)), (travel ca cw (pieces data s e)), it1, it2, it3.
  repeat split; try assumption. exact (travel_unit ca cw _ A).
Qed.
(* cutting it anywhere does not compose the translations *)
Theorem C80_cut_refuted : exists data s m e a b c it1 it2, ordered data /\ holds_at data 0 s /\ (s < m < e)%Z /\
  integrate same same data s m 0 = Some (a, it1) /\ integrate same same data m e it1 = Some (b, it2) /\
  integrate same same data s e 0 = Some (c, it2) /\ d_trans c <> d_trans (then_move a (seconds (e - m)) b).
Proof.
  set (d := mk_imu 0 (mk_vec3 1 0 0) (mk_vec3 0 0 0)).
  assert (P : forall s e, (0 <= s <= e)%Z -> pieces [d] s e = part d s e).
  { intros s e H. cbn [pieces]. rewrite app_nil_r. unfold d. cbn [i_time]. rewrite Z.max_l by lia. reflexivity. }
  assert (HH : forall s, (0 <= s)%Z -> holds_at [d] 0 s).
  { intros s H. apply (holds_mid [] d [] s); [cbn; tauto | exact H | exact I]. }
  assert (TT : forall s e, (0 <= s)%Z -> (s < e)%Z -> (e < time_max)%Z -> integrate same same [d] s e 0 =
    Some (mk_motion (scaled (seconds (e - s)) (i_acc d)) (scaled (seconds (e - s) * seconds (e - s)) (i_acc d)) (mk_quat 1 0 0 0), 0%nat)).
  { intros s e A B C.
    assert (F : Forall (fun p => null (i_omega (fst p)) /\ i_acc (fst p) = i_acc d) (pieces [d] s e)).
    { rewrite P by lia. unfold part. destruct (s <? e)%Z; [|constructor]. constructor; [|constructor]. repeat split. }
    destruct (still_travel _ _ F) as [E R].
    destruct (C80_motion same same [d] s e 0 ltac:(cbn; tauto) (HH s A) ltac:(lia) C R) as [it' [E' H']].
    assert (it' = 0%nat).
    { destruct H' as (x & N & _). destruct it' as [|[|]]; [reflexivity | discriminate | discriminate]. }
    subst it'. rewrite E', E. rewrite P by lia. unfold part. destruct (Z.ltb_spec s e); [|lia].
    cbn [duration squares fold_right snd]. rewrite Z.add_0_r. f_equal. f_equal. f_equal.
    f_equal. field. }
  exists [d], 0%Z, 10000000%Z, 20000000%Z. rewrite !TT by (unfold time_max; lia).
  do 3 eexists. exists 0%nat, 0%nat. split; [cbn; tauto|]. split; [apply HH; lia|]. split; [lia|].
  split; [reflexivity|]. split; [rewrite TT by (unfold time_max; lia); reflexivity|]. split; [reflexivity|].
  intros X. apply (f_equal v0) in X. unfold then_move, d in X. cbn [d_vel d_trans d_rot i_acc] in X.
  change (mk_quat 1 0 0 0) with q_one in X. rewrite !qrot_one in X.
  unfold plus, scaled, seconds in X. cbn [v0 v1 v2] in X.
  replace (IZR (20000000 - 0)) with 20000000 in X by reflexivity. replace (IZR (10000000 - 0)) with 10000000 in X by reflexivity.
  replace (IZR (20000000 - 10000000)) with 10000000 in X by reflexivity. lra.
Qed.

(* a pose with a velocity is moved on by the integrated motion, and falls *)
Theorem C80_extrapolate : forall prev v s e g data it, ordered data -> holds_at data it s -> (s <= e)%Z -> (e < time_max)%Z ->
  all_resolved same (pieces data s e) ->
  let t := seconds (e - s) in
  let m := then_move (mk_motion (qrot (rot prev) v) (trans prev) (rot prev)) t (travel same same (pieces data s e)) in
  exists it', extrapolate prev v s g e data it =
    Some (mk_rigid3 (minus (d_trans m) (scaled (t * t / 2) g)) (d_rot m), minus (d_vel m) (scaled t g), it') /\ holds_at data it' e.
Proof.
  intros prev v s e g data it O H T M A t m. destruct (C80_motion same same data s e it O H T M A) as [it' [E H']].
  exists it'. split; [|exact H']. unfold extrapolate, integrate_plain. rewrite E. rewrite secs. fold t.
  unfold m, then_move. cbn [d_vel d_trans d_rot]. rewrite !qrot_add, qrot_scale.
  generalize (qrot (rot prev) (d_trans (travel same same (pieces data s e)))) (qrot (rot prev) (d_vel (travel same same (pieces data s e))))
    (qrot (rot prev) v) (trans prev) t. clear. intros x y z u t.
  f_equal. f_equal. f_equal; [f_equal|]; apply vec_eq; unfold minus, plus, scaled; qcbn; field.
Qed.

(* a robot that does not turn, with readings that just balance gravity: the velocity stays what it was, but the
   translation is off by g/2 times the sum of the squared lengths of the pieces, since the velocity at the end
   of every piece is used for all of it *)
Theorem C80_rest : forall prev v s e g data it, unit_rotation (rot prev) -> ordered data -> holds_at data it s -> (s <= e)%Z -> (e < time_max)%Z ->
  Forall (fun d => null (i_omega d) /\ qrot (rot prev) (i_acc d) = g) data ->
  exists it', extrapolate prev v s g e data it =
    Some (mk_rigid3 (plus (plus (trans prev) (scaled (seconds (e - s)) (qrot (rot prev) v))) (scaled (squares (pieces data s e) / 2) g)) (rot prev),
          qrot (rot prev) v, it') /\ holds_at data it' e.
Proof. intros. now apply extrapolate_still. Qed.
(* that error is at most g/2 times the duration times the longest piece *)
Theorem C80_rest_error : forall data s e it h, ordered data -> holds_at data it s -> (s <= e)%Z ->
  Forall (fun p => (snd p <= h)%Z) (pieces data s e) ->
  0 <= squares (pieces data s e) <= seconds h * seconds (e - s).
Proof.
  intros data s e it h O H T F. rewrite <- (C80_duration data s e it O H T). apply squares_range.
  apply Forall_forall. intros p I. rewrite Forall_forall in F. specialize (F p I). apply pieces_In in I. lia.
Qed.
(* "a robot at rest is extrapolated to where it is" is false *)
Theorem C80_rest_refuted : exists data s e g it', ordered data /\
  Forall (fun d => null (i_omega d) /\ i_acc d = g) data /\ ~ null g /\
  extrapolate r3_id v_zero s g e data 0 = Some (mk_rigid3 (mk_vec3 0 0 (1 / 2)) (mk_quat 1 0 0 0), v_zero, it').
Proof.
  set (g := mk_vec3 0 0 10). set (d := mk_imu 0 g (mk_vec3 0 0 0)). set (n := mk_imu 1000000 g (mk_vec3 0 0 0)).
  set (data := [d; n; mk_imu 2000000 g (mk_vec3 0 0 0); mk_imu 3000000 g (mk_vec3 0 0 0); mk_imu 4000000 g (mk_vec3 0 0 0);
    mk_imu 5000000 g (mk_vec3 0 0 0); mk_imu 6000000 g (mk_vec3 0 0 0); mk_imu 7000000 g (mk_vec3 0 0 0);
    mk_imu 8000000 g (mk_vec3 0 0 0); mk_imu 9000000 g (mk_vec3 0 0 0)]).
  assert (O : ordered data) by (cbn; lia).
  assert (H : holds_at data 0 0).
  { unfold data, d. apply (holds_mid [] (mk_imu 0 g (mk_vec3 0 0 0))); [exact O | cbn; lia | cbn; lia]. }
  destruct (C80_rest r3_id v_zero 0 10000000 g data 0) as [it' [E _]].
  - apply unit_one.
  - exact O.
  - exact H.
  - lia.
  - unfold time_max. lia.
  - unfold data. repeat (constructor; [split; [repeat split; reflexivity | unfold r3_id; cbn [rot i_acc]; apply qrot_one]|]). constructor.
  - exists data, 0%Z, 10000000%Z, g, it'. split; [exact O|]. split.
    { unfold data. repeat (constructor; [split; [repeat split; reflexivity | reflexivity]|]). constructor. }
    split; [intros (_ & _ & X); cbn in X; lra|]. rewrite E. unfold r3_id. cbn [rot trans]. rewrite !qrot_one.
    f_equal. f_equal. f_equal. f_equal.
    assert (S : squares (pieces data 0 10000000) = 1 / 10).
    { replace (pieces data 0 10000000) with (map (fun d => (d, 1000000%Z)) data) by reflexivity.
      unfold squares, seconds, data. cbn [map fold_right snd]. lra. }
    rewrite S. unfold plus, scaled, g. apply vec_eq; qcbn; lra.
Qed.

(* the last two poses: the velocity is their difference in time; equal times divide by zero *)
Theorem C80_two_poses : forall prev t0 pp tp g t data it v, unit_rotation (rot prev) -> tp <> t0 ->
  qrot (rot prev) v = scaled (/ seconds (t0 - tp)) (minus (trans prev) (trans pp)) ->
  extrapolate_two prev t0 pp tp g t data it = extrapolate prev v t0 g t data it.
Proof.
  intros prev t0 pp tp g t data it v U N E. unfold extrapolate_two. destruct (Z.eqb_spec t0 tp); [congruence|].
  f_equal. unfold r3_inv. cbn [rot]. rewrite secs, <- qrot_scale.
  rewrite <- (qrot_inv_l (rot prev) v U), E. f_equal. change scaled with vscale. f_equal.
  unfold minus, plus, scaled. apply vec_eq; qcbn; ring.
Qed.
Theorem C80_two_poses_same_time : forall prev t0 pp g t data it, extrapolate_two prev t0 pp t0 g t data it = None.
Proof. intros. unfold extrapolate_two. now rewrite Z.eqb_refl. Qed.

(* with two readings of the same time the returned iterator need not be usable for the next interval *)
Theorem C80_duplicate_refuted : exists data r it', Forall (fun d => null (i_omega d)) data /\
  integrate same same data 0 10 0 = Some (r, it') /\ integrate same same data 10 20 it' = None.
Proof.
  exists [mk_imu 0 (mk_vec3 0 0 0) (mk_vec3 0 0 0); mk_imu 10 (mk_vec3 0 0 0) (mk_vec3 0 0 0); mk_imu 10 (mk_vec3 0 0 0) (mk_vec3 0 0 0)].
  eexists. exists 1%nat. split; [repeat (constructor; [repeat split|]); constructor|]. split; reflexivity.
Qed.

Print Assumptions C79_svd.
Print Assumptions C79_unit.
Print Assumptions C79_advance.
Print Assumptions C79_backwards.
Print Assumptions C79_advance_twice.
Print Assumptions C79_rate.
Print Assumptions C79_average.
Print Assumptions C79_level.
Print Assumptions C79_checks.
Print Assumptions C79_first.
Print Assumptions C79_still.
Print Assumptions C79_accepted_refuted.
Print Assumptions C80_motion.
Print Assumptions C80_duration.
Print Assumptions C80_checks.
Print Assumptions C80_chain.
Print Assumptions C80_cut.
Print Assumptions C80_cut_rotation.
Print Assumptions C80_cut_refuted.
Print Assumptions C80_extrapolate.
Print Assumptions C80_rest.
Print Assumptions C80_rest_error.
Print Assumptions C80_rest_refuted.
Print Assumptions C80_two_poses.
Print Assumptions C80_two_poses_same_time.
Print Assumptions C80_duplicate_refuted.
