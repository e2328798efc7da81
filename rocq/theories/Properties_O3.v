(* The terms from IMU data in the 3D optimization problem (C85). *)
From Coq Require Import Reals ZArith Lia Lra Bool.
From Verif Require Import CF_Model CF_Spec CF_Proofs RG_Model RG_Spec RG_Proofs RG_Angle IM_Model IM_Spec IM_Proofs IM_Integrate
  C3_Model C3_Spec C3_Proofs O3_Model O3_Spec O3_Proofs.
From Coq Require Import List.
Import ListNotations.
Open Scope R_scope.

(* exactly when the terms of a trajectory can be added: it is known, the readings start before the
   first node of every pair of consecutive nodes, and there are three consecutive nodes *)
Theorem C85_succeeds : forall w online known data nodes, nodes <> [] -> in_time nodes ->
  match data with Some d => ordered d | None => True end ->
  (imu_trajectory w online known data nodes <> None <->
   known = true /\ (exists d, data = Some d /\ covered d nodes) /\ exists a b c, triple_of nodes a b c).
Proof.
  intros w online known data nodes NE T O. rewrite <- (proj1 (trajectory_some w online known data nodes T NE O)).
  destruct (imu_trajectory w online known data nodes) as [x|]; split.
  - intros _. now exists x.
  - intros _. discriminate.
  - intros H. now destruct H.
  - intros [x E]. discriminate.
Qed.

(* the terms: for every two consecutive nodes the rotation between them, and for every three the
   change of velocity between the middles as seen from the second node *)
Theorem C85_terms : forall w online known data nodes x, nodes <> [] -> in_time nodes -> ordered data -> turns_resolved data nodes ->
  imu_trajectory w online known (Some data) nodes = Some x -> x = (negb online, expected w data nodes).
Proof.
  intros w online known data nodes x NE T O R E.
  destruct (proj2 (trajectory_some w online known (Some data) nodes T NE O) x E) as (d & X & ->). injection X as <-.
  now rewrite raw_expected.
Qed.
Theorem C85_which : forall w data nodes t, In t (expected w data nodes) <->
  (exists a b, pair_of nodes a b /\ t = rotation_of w data a b) \/
  (exists a b c, triple_of nodes a b c /\ t = acceleration_of w data a b c).
Proof. exact in_expected. Qed.

(* frozen trajectories contribute nothing; one other trajectory that cannot be handled ends it *)
Theorem C85_trajectories : forall w online ts xs, imu_problem w online ts = Some xs <->
  Forall2 (fun t x => fst x = t_id t /\ imu_trajectory w online (t_known t) (t_imu t) (t_nodes t) = Some (snd x))
    (filter (fun t => negb (t_frozen t)) ts) xs.
Proof.
  intros w online ts. induction ts as [|t ts IH]; intros xs; cbn [imu_problem filter].
  - split; [intros E; injection E as <-; constructor | intros F; inversion F; reflexivity].
  - destruct (t_frozen t); cbn [negb]; [apply IH|].
    destruct (imu_trajectory w online (t_known t) (t_imu t) (t_nodes t)) as [x|] eqn:E.
    + destruct (imu_problem w online ts) as [ys|].
      * split.
        -- intros X. injection X as <-. constructor; [split; [reflexivity | exact E] | now apply IH].
        -- intros F. inversion F as [|? y ? ys' [A B] F']; subst. rewrite E in B. injection B as ->. apply IH in F'. injection F' as ->.
           f_equal. destruct y. cbn in A. now subst.
      * split; [discriminate|]. intros F. inversion F as [|? y ? ys' [A B] F']; subst. apply IH in F'. discriminate.
    + split; [discriminate|]. intros F. inversion F as [|? y ? ys' [A B] F']; subst. congruence.
Qed.

(* consistency: a robot that does not turn and moves with constant acceleration, with readings of
   exactly that, has no residual *)
Lemma moved_still data s e f : ordered data -> Forall (fun d => null (i_omega d) /\ i_acc d = f) data ->
  match data with [] => False | d :: _ => (i_time d <= s)%Z end -> (s <= e)%Z ->
  d_vel (moved data s e) = scaled (seconds (e - s)) f /\ d_rot (moved data s e) = mk_quat 1 0 0 0 /\ all_resolved same (pieces data s e).
Proof.
  intros O F H T.
  assert (P : Forall (fun p => null (i_omega (fst p)) /\ i_acc (fst p) = f) (pieces data s e)).
  { apply Forall_forall. intros p I. apply pieces_In in I. rewrite Forall_forall in F. exact (F _ (proj1 I)). }
  destruct (still_travel _ _ P) as [E R]. unfold moved. rewrite E. cbn [d_vel d_rot].
  rewrite (pieces_duration data s e O T H). split; [reflexivity|]. split; [reflexivity | exact R].
Qed.
Lemma seconds_sub a b : seconds (a - b) = seconds a - seconds b.
Proof. unfold seconds. rewrite minus_IZR. lra. Qed.
Lemma even_middle a b : Z.even (n_time b - n_time a) = true -> 2 * seconds (middle a b) = seconds (n_time a) + seconds (n_time b).
Proof.
  intros E. assert (X : (2 * middle a b = n_time a + n_time b)%Z).
  { unfold middle. replace (n_time b - n_time a)%Z with (n_time a + n_time b + 2 * - n_time a)%Z in E by lia.
    rewrite Z.even_add_mul_2 in E. apply Zeven_bool_iff, Zeven_div2 in E. rewrite Z.div2_div in E. lia. }
  unfold seconds. apply (f_equal IZR) in X. rewrite mult_IZR, plus_IZR in X. lra.
Qed.
Theorem C85_constant : forall w data nodes rotation translation q c f p v g,
  ordered data -> in_time nodes -> covered data nodes ->
  unit_rotation q -> unit_rotation c ->
  Forall (fun d => null (i_omega d) /\ i_acc d = f) data ->
  (forall a b, pair_of nodes a b -> (n_time a < n_time b)%Z /\ Z.even (n_time b - n_time a) = true) ->
  (forall n, In n nodes -> rotation (n_index n) = q /\
     translation (n_index n) = at_time p v (minus (qrot (qmul q c) f) (mk_vec3 0 0 g)) (seconds (n_time n))) ->
  turns_resolved data nodes /\
  Forall (fun t => residual rotation translation g c t = mk_vec3 0 0 0) (expected w data nodes).
Proof.
  intros w data nodes rotation translation q c f p v g O T (d & l & DE & C) Uq Uc F D N.
  assert (M : forall s e a b, pair_of nodes a b -> (n_time a <= s <= e)%Z ->
    d_vel (moved data s e) = scaled (seconds (e - s)) f /\ d_rot (moved data s e) = mk_quat 1 0 0 0 /\ all_resolved same (pieces data s e)).
  { intros s e a b P H. apply moved_still; [exact O | exact F | | lia]. rewrite DE. specialize (C a b P). lia. }
  assert (I2 : forall a b, pair_of nodes a b -> In a nodes /\ In b nodes).
  { intros a b (_ & l1 & l2 & ->). rewrite !in_app_iff. cbn. tauto. }
  split.
  - intros a b P. pose proof (proj1 (D a b P)) as L. pose proof (middle_range (n_time a) (n_time b) ltac:(lia)) as R.
    fold (middle a b) in R. split; [|split].
    + apply (M (n_time a) (middle a b) a b P); lia.
    + apply (M (middle a b) (n_time b) a b P); lia.
    + intros x Q. pose proof (proj2 (triple_pair _ _ _ _ Q)) as P2. pose proof (proj1 (D b x P2)) as L2.
      pose proof (middle_range (n_time b) (n_time x) ltac:(lia)) as R2. fold (middle b x) in R2.
      apply (M (middle a b) (middle b x) a b P); lia.
  - apply Forall_forall. intros t I. apply in_expected in I. destruct I as [(a & b & P & ->)|(a & b & x & Q & ->)].
    + cbn [residual rotation_of]. destruct (I2 a b P) as [Ia Ib]. rewrite (proj1 (N a Ia)), (proj1 (N b Ib)).
      pose proof (proj1 (D a b P)) as L.
      destruct (M (n_time a) (n_time b) a b P ltac:(lia)) as (_ & -> & _).
      unfold rotation_cost3. change (mk_quat 1 0 0 0) with q_one. rewrite qmul_conj_l, qmul_1_l, qmul_1_r by exact Uq.
      replace (qmul c (qconj c)) with q_one by (symmetry; now apply qmul_conj_r). unfold q_one. cbn [qx qy qz]. f_equal; ring.
    + pose proof (proj1 (triple_pair _ _ _ _ Q)) as P1. pose proof (proj2 (triple_pair _ _ _ _ Q)) as P2.
      destruct (I2 a b P1) as [Ia Ib]. destruct (I2 b x P2) as [_ Ix].
      destruct (D a b P1) as [L1 V1]. destruct (D b x P2) as [L2 V2].
      pose proof (middle_range (n_time a) (n_time b) ltac:(lia)) as R1. fold (middle a b) in R1.
      pose proof (middle_range (n_time b) (n_time x) ltac:(lia)) as R2. fold (middle b x) in R2.
      cbn [residual acceleration_of].
      destruct (M (middle a b) (n_time b) a b P1 ltac:(lia)) as (_ & -> & _).
      destruct (M (middle a b) (middle b x) a b P1 ltac:(lia)) as (-> & _ & _).
      rewrite (proj1 (N b Ib)), (proj2 (N a Ia)), (proj2 (N b Ib)), (proj2 (N x Ix)).
      pose proof (even_middle a b V1) as E1. pose proof (even_middle b x V2) as E2.
      assert (S1 : 0 < seconds (n_time b - n_time a)) by (unfold seconds; apply Rdiv_lt_0_compat; [apply IZR_lt; lia | lra]).
      assert (S2 : 0 < seconds (n_time x - n_time b)) by (unfold seconds; apply Rdiv_lt_0_compat; [apply IZR_lt; lia | lra]).
      rewrite !seconds_sub in *. change scaled with vscale.
      replace (qconj (mk_quat 1 0 0 0)) with q_one by (apply quat_eq; qcbn; ring). rewrite qrot_one.
      unfold acceleration_cost3. rewrite qrot_scale. generalize (qrot (qmul q c) f). intros u.
      set (ta := seconds (n_time a)) in *. set (tb := seconds (n_time b)) in *. set (tx := seconds (n_time x)) in *.
      set (k := w_acceleration w / (tx - ta)). clearbody k.
      replace (seconds (middle a b)) with ((ta + tb) / 2) by lra. replace (seconds (middle b x)) with ((tb + tx) / 2) by lra.
      clearbody ta tb tx. apply vec_eq; unfold at_time, minus, plus; qcbn; unfold scaled; cbn [v0 v1 v2]; field; lra.
Qed.

(* turning robots: a rotation term vanishes exactly if the orientations differ by the turn of the IMU,
   and an acceleration term compares the change of velocity in the world frame with that of the
   positions; `at_middle` is the orientation of the IMU in the world at the middle of a and b *)
Theorem C85_turning : forall w data rotation translation g cal a b c at_middle,
  (forall n, unit_rotation (rotation n)) -> unit_rotation cal -> unit_rotation at_middle ->
  w_rotation w <> 0 -> (n_time a < n_time b < n_time c)%Z ->
  all_resolved same (pieces data (n_time a) (n_time b)) -> all_resolved same (pieces data (middle a b) (n_time b)) ->
  qmul (rotation (n_index b)) cal = qmul at_middle (d_rot (moved data (middle a b) (n_time b))) ->
  let position n := translation (n_index n) in
  let elapsed x y := seconds (n_time y - n_time x) in
  (residual rotation translation g cal (rotation_of w data a b) = mk_vec3 0 0 0 <->
   same_rotation (rotation (n_index b))
     (qmul (rotation (n_index a)) (qmul (qmul cal (d_rot (moved data (n_time a) (n_time b)))) (qconj cal)))) /\
  residual rotation translation g cal (acceleration_of w data a b c) =
    scaled (w_acceleration w / elapsed a c)
      (minus (minus (qrot at_middle (d_vel (moved data (middle a b) (middle b c)))) (scaled (elapsed a c / 2) (mk_vec3 0 0 g)))
             (minus (scaled (/ elapsed b c) (minus (position c) (position b)))
                    (scaled (/ elapsed a b) (minus (position b) (position a))))).
Proof.
  intros w data rotation translation g cal a b c at_middle U Uc Um W T A1 A2 E position elapsed.
  pose proof (travel_unit same same _ A1) as U1. fold (moved data (n_time a) (n_time b)) in U1.
  pose proof (travel_unit same same _ A2) as U2. fold (moved data (middle a b) (n_time b)) in U2.
  split.
  - cbn [residual rotation_of]. apply rotation_zero; [|exact U1 | exact (U _) | exact (U _) | exact Uc].
    assert (0 < seconds (n_time b - n_time a)) by (unfold seconds; apply Rdiv_lt_0_compat; [apply IZR_lt; lia | lra]).
    intros Z. apply W. unfold Rdiv in Z. apply Rmult_integral in Z. destruct Z as [Z|Z]; [exact Z|].
    apply Rinv_neq_0_compat in Z; [destruct Z | lra].
  - cbn [residual acceleration_of]. unfold acceleration_cost3. rewrite E, <- qrot_mul; [|exact (unit_mul _ _ Um U2) | exact (unit_conj _ U2)].
    rewrite <- qmul_assoc. replace (qmul (d_rot (moved data (middle a b) (n_time b))) (qconj (d_rot (moved data (middle a b) (n_time b))))) with q_one
      by (symmetry; now apply qmul_conj_r). rewrite qmul_1_r.
    assert (S : elapsed a c = elapsed a b + elapsed b c) by (unfold elapsed; rewrite !seconds_sub; ring).
    fold (elapsed a c) (elapsed a b) (elapsed b c). fold (position a) (position b) (position c). rewrite S.
    set (k := w_acceleration w / (elapsed a b + elapsed b c)). set (i1 := / elapsed a b). set (i2 := / elapsed b c). clearbody k i1 i2.
    generalize (elapsed a b) (elapsed b c) (qrot at_middle (d_vel (moved data (middle a b) (middle b c)))) (position a) (position b) (position c).
    intros e1 e2 dv pa pb pc. apply vec_eq; unfold minus, plus; qcbn; unfold scaled; cbn [v0 v1 v2]; field.
Qed.

(* examples *)
Definition reading (t : Z) (z : R) : imu := mk_imu t (mk_vec3 0 0 z) (mk_vec3 0 0 0).
Definition two_readings : list imu := [reading 0 10; reading 15000000 12].
Definition some_nodes : list node3 := [mk_node3 0 0; mk_node3 1 10000000; mk_node3 2 20000000; mk_node3 7 30000000; mk_node3 8 40000000].
Example some_nodes_ok : in_time some_nodes /\ covered two_readings some_nodes /\ ordered two_readings /\
  triple_of some_nodes (mk_node3 0 0) (mk_node3 1 10000000) (mk_node3 2 20000000).
Proof.
  split; [|split; [|split]].
  - cbn. unfold time_max. lia.
  - exists (reading 0 10), [reading 15000000 12]. split; [reflexivity|]. intros a b (_ & l1 & l2 & E).
    assert (I : In a some_nodes) by (rewrite E; apply in_app_iff; right; now left).
    cbn in I. destruct I as [<-|[<-|[<-|[<-|[<-|[]]]]]]; cbn; lia.
  - cbn. lia.
  - split; [reflexivity|]. split; [reflexivity|]. exists [], [mk_node3 7 30000000; mk_node3 8 40000000]. reflexivity.
Qed.
(* the velocity changes by 10 between the middles 0.5 s and 1.5 s *)
Example some_terms : exists r1 r2 r3, imu_trajectory (mk_weights 6 5) false true (Some two_readings) some_nodes =
  Some (true, [AccelerationTerm 0 1 2 3 (mk_vec3 0 0 10) 1 1; RotationTerm 0 1 5 r1; RotationTerm 1 2 5 r2; RotationTerm 7 8 5 r3]).
Proof.
  destruct some_nodes_ok as (T & C & O & Q).
  assert (R : forall s e, all_resolved same (pieces two_readings s e)).
  { intros s e. apply Forall_forall. intros p I. apply pieces_In in I. destruct I as [[E|[E|[]]] _]; rewrite <- E; left; repeat split; cbn; unfold same; cbn; ring. }
  assert (X : imu_trajectory (mk_weights 6 5) false true (Some two_readings) some_nodes <> None).
  { apply C85_succeeds; [discriminate | exact T | exact O|]. split; [reflexivity|]. split; [now exists two_readings|]. eauto. }
  destruct (imu_trajectory (mk_weights 6 5) false true (Some two_readings) some_nodes) as [x|] eqn:E; [|now destruct X].
  apply C85_terms in E; [|discriminate | exact T | exact O | intros a b P; repeat split; auto]. subst x.
  assert (S : forall a b, seconds (a - b) = IZR (a - b) / 10 ^ 7) by reflexivity.
  set (da := two_readings). cbn [expected some_nodes is_follows n_index]. unfold is_follows; cbn [n_index Z.eqb Z.add Pos.add Pos.succ Pos.eqb app].
  unfold rotation_of, acceleration_of. cbn [n_index n_time w_rotation w_acceleration]. do 3 eexists. f_equal. f_equal.
  set (m1 := moved da (middle (mk_node3 0 0) (mk_node3 1 10000000)) 10000000).
  set (m2 := moved da _ (middle _ _)).
  assert (E1 : d_rot m1 = mk_quat 1 0 0 0 /\ d_vel m2 = mk_vec3 0 0 10).
  { unfold m1, m2, moved, middle. cbn [n_time]. change ((0 + 10000000) / 2)%Z with 5000000%Z. change ((10000000 + 20000000) / 2)%Z with 15000000%Z.
    replace (pieces da 5000000 10000000) with [(reading 0 10, 5000000%Z)] by reflexivity.
    replace (pieces da 5000000 15000000) with [(reading 0 10, 10000000%Z)] by reflexivity.
    assert (H : forall n, travel same same [(reading 0 10, n)] = mk_motion (scaled (seconds n) (mk_vec3 0 0 10)) (scaled ((seconds n * seconds n + squares [(reading 0 10, n)]) / 2) (mk_vec3 0 0 10)) (mk_quat 1 0 0 0)).
    { intros n. destruct (still_travel (mk_vec3 0 0 10) [(reading 0 10, n)]) as [H _].
      - constructor; [|constructor]. split; [repeat split | reflexivity].
      - rewrite H. cbn [duration fold_right snd]. rewrite Z.add_0_r. reflexivity. }
    rewrite !H. split; [reflexivity|]. cbn [d_vel]. unfold scaled, seconds. cbn [v0 v1 v2]. apply vec_eq; cbn [v0 v1 v2]; lra. }
  destruct E1 as [-> ->]. 
  replace (qrot (qconj (mk_quat 1 0 0 0)) (mk_vec3 0 0 10)) with (mk_vec3 0 0 10).
  2:{ replace (qconj (mk_quat 1 0 0 0)) with q_one by (apply quat_eq; qcbn; ring). now rewrite qrot_one. }
  f_equal; [f_equal; unfold seconds; cbn [Z.sub Z.add Z.opp Z.pos_sub Pos.pred_double]; cbn; lra|].
  repeat (f_equal; try (unfold seconds; cbn; lra)).
Qed.

(* "every trajectory with nodes and readings can be handled" is false *)
Theorem C85_short_refuted : exists w online data nodes, ordered data /\ in_time nodes /\ covered data nodes /\ List.length nodes = 2%nat /\
  imu_trajectory w online true (Some data) nodes = None.
Proof.
  exists (mk_weights 1 1), false, two_readings, [mk_node3 0 0; mk_node3 1 10000000].
  destruct some_nodes_ok as (_ & _ & O & _).
  assert (T : in_time [mk_node3 0 0; mk_node3 1 10000000]) by (cbn; unfold time_max; lia).
  assert (C : covered two_readings [mk_node3 0 0; mk_node3 1 10000000]).
  { exists (reading 0 10), [reading 15000000 12]. split; [reflexivity|]. intros a b (_ & l1 & l2 & E).
    assert (I : In a [mk_node3 0 0; mk_node3 1 10000000]) by (rewrite E; apply in_app_iff; right; now left).
    cbn in I. destruct I as [<-|[<-|[]]]; cbn; lia. }
  split; [exact O|]. split; [exact T|]. split; [exact C|]. split; [reflexivity|].
  destruct (imu_trajectory (mk_weights 1 1) false true (Some two_readings) [mk_node3 0 0; mk_node3 1 10000000]) as [x|] eqn:E; [|reflexivity].
  exfalso. assert (X : imu_trajectory (mk_weights 1 1) false true (Some two_readings) [mk_node3 0 0; mk_node3 1 10000000] <> None) by congruence.
  apply C85_succeeds in X; [|discriminate | exact T | exact O]. destruct X as (_ & _ & a & b & c & _ & _ & l1 & l2 & Y).
  destruct l1 as [|? [|? [|]]]; discriminate.
Qed.
Print Assumptions C85_succeeds.
Print Assumptions C85_terms.
Print Assumptions C85_which.
Print Assumptions C85_trajectories.
Print Assumptions C85_constant.
Print Assumptions C85_turning.
Print Assumptions C85_short_refuted.
