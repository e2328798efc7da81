(* Properties of the generation of ground truth and of the metrics computed from it: C83, C84. *)
From Coq Require Import Reals ZArith Lra Lia Psatz.
From Verif Require Import CF_Model RG_Model RG_Spec RG_Proofs RG_Angle TIB_Model GT_Model GT_Spec GT_Proofs GT_Generate GT_Metrics.
From Coq Require Import List Bool.
Import ListNotations.
Open Scope R_scope.

(* the covered distances: differences are the lengths of the paths driven, whatever the
   orientations *)
Theorem C83_covered : forall t,
  (covered_distance t = None <-> tr_nodes t = []) /\
  (unit_trajectory t -> forall cov, covered_distance t = Some cov ->
     length cov = length (tr_nodes t) /\ hd_error cov = Some 0 /\
     forall i j x y, is_at cov i x -> is_at cov j y -> Rabs (y - x) = travelled (positions (tr_nodes t)) i j).
Proof.
  intros t. split.
  - unfold covered_distance. destruct (tr_nodes t); split; congruence.
  - intros U cov C. split; [apply (covered_ok t cov U C)|]. split.
    + unfold covered_distance in C. destruct (tr_nodes t); [discriminate|]. injection C as <-. reflexivity.
    + intros i j x y X Y. apply (between t cov); auto; now apply at_is.
Qed.
(* they are never shorter than the straight line *)
Theorem C83_straight : forall t i j a b, is_at (tr_nodes t) i a -> is_at (tr_nodes t) j b ->
  distance (trans (tn_pose a)) (trans (tn_pose b)) <= travelled (positions (tr_nodes t)) i j.
Proof.
  intros t i j a b [I A] [J B].
  assert (G : forall i j a b, (i <= j)%nat -> nth_error (tr_nodes t) i = Some a -> nth_error (tr_nodes t) j = Some b ->
     distance (trans (tn_pose a)) (trans (tn_pose b)) <= path_length (firstn (S j - i) (skipn i (positions (tr_nodes t))))).
  { clear. intros i j a b L A B. pose proof (map_nth_error (fun n => trans (tn_pose n)) _ _ A) as A'.
    pose proof (map_nth_error (fun n => trans (tn_pose n)) _ _ B) as B'. fold (positions (tr_nodes t)) in A', B'.
    destruct (nth_error_split _ _ A') as [l1 [l2 [E1 <-]]]. rewrite E1 in *.
    rewrite skipn_app, skipn_all, Nat.sub_diag. cbn [skipn app].
    apply path_straight.
    - replace (S j - length l1)%nat with (S (j - length l1)) by lia. reflexivity.
    - rewrite nth_error_app2 in B' by lia. destruct (nth_error_split _ _ B') as [m1 [m2 [-> Lm]]].
      rewrite firstn_app, firstn_all2 by lia. replace (S j - length l1 - length m1)%nat with 1%nat by lia.
      cbn [firstn]. now rewrite rev_app_distr. }
  unfold travelled, segment. destruct (Z.leb_spec i j) as [O | O].
  - replace (Z.to_nat (j - i + 1)) with (S (Z.to_nat j) - Z.to_nat i)%nat by lia. apply G; auto. lia.
  - replace (Z.to_nat (i - j + 1)) with (S (Z.to_nat i) - Z.to_nat j)%nat by lia. rewrite distance_sym. apply G; auto. lia.
Qed.
(* every submap is represented by the first node of the next one; the CHECKs hold exactly if all
   INTRA constraints belong to trajectory 0 and no submap is left out *)
Theorem C83_representatives : forall g l, representatives g = Some l <->
  (Forall of_trajectory_0 (intra_of (g_constraints g)) /\ one_by_one (intra_of (g_constraints g))) /\
  forall s n, is_at l s n <-> represented_by (g_constraints g) s n.
Proof.
  intros g l. unfold representatives. rewrite reps_spec. split; intros [A H]; (split; [exact A|]).
  - intros s n. unfold is_at, represented_by. split; intros [P Q]; (split; [exact P|]);
      specialize (H (Z.to_nat s) n); rewrite Z2Nat.id in H by exact P; now apply H.
  - intros k n. specialize (H (Z.of_nat k) n). unfold is_at, represented_by in H. rewrite Nat2Z.id in H.
    assert (0 <= Z.of_nat k)%Z by lia. tauto.
Qed.
(* the relations are exactly those of the loop closures that cover enough distance and agree with
   the solution, and it aborts exactly if that is not defined *)
Theorem C83_relations : forall g t ts min_covered meters radians rs k, g_trajectories g = t :: ts ->
  unit_trajectory t -> unit_constraints (g_constraints g) ->
  (generate g min_covered meters radians = Some (rs, k) <->
   tr_nodes t <> [] /\ Forall of_trajectory_0 (intra_of (g_constraints g)) /\ one_by_one (intra_of (g_constraints g)) /\
   chosen t (g_constraints g) min_covered meters radians (g_constraints g) rs k).
Proof.
  intros g t ts mc me ra rs k G U UC. unfold generate. rewrite G.
  destruct (covered_distance t) as [cov|] eqn:C.
  2: { apply C83_covered in C. split; [discriminate|]. intros [H _]. contradiction. }
  assert (NE : tr_nodes t <> []) by (intros E; apply C83_covered in E; congruence).
  destruct (representatives g) as [reps|] eqn:Rp.
  - pose proof Rp as Rp'. unfold representatives in Rp'. split.
    + intros E. apply (generate_chosen t (g_constraints g) cov reps mc me ra U C Rp') in E; [|exact UC].
      apply C83_representatives in Rp. destruct Rp as [[A B] _]. auto.
    + intros [_ [_ [_ H]]]. now apply (chosen_generate t (g_constraints g) cov reps mc me ra U C Rp').
  - split; [discriminate|]. intros [_ [A [B _]]].
    pose proof (reps_run (g_constraints g) [] [] inv_nil) as H. unfold representatives in Rp. rewrite Rp in H. cbn in H. tauto.
Qed.
(* a loop closure that agrees with the solution is never an outlier, and for thresholds of zero
   no other is accepted *)
Theorem C83_agreement : forall n1 n2 sm c meters radians,
  unit_rotation (rot (tn_pose n2)) -> unit_rotation (rot (ts_pose sm)) -> unit_rotation (rot (gc_pose c)) ->
  ((forall p, r3_apply (tn_pose n2) p = r3_apply (predicted sm c) p) -> 0 <= meters -> 0 <= radians ->
     ~ bad n1 n2 sm c meters radians) /\
  (~ bad n1 n2 sm c 0 0 -> forall p, r3_apply (tn_pose n2) p = r3_apply (predicted sm c) p).
Proof.
  intros n1 n2 sm c me ra U2 U3 U4.
  assert (UX : unit3 (predicted sm c)) by (apply r3_mul_unit; assumption).
  assert (IX : unit3 (r3_inv (predicted sm c))) by (apply r3_inv_unit; assumption).
  assert (UD : unit3 (discrepancy n2 sm c)) by (apply r3_mul_unit; assumption).
  assert (P2 : unit3 (tn_pose n2)) by assumption.
  split.
  - intros H M N. assert (S : forall p, r3_apply (discrepancy n2 sm c) p = p).
    { intros p. unfold discrepancy. rewrite r3_action by auto. rewrite H, <- r3_action, r3_inv_r by auto. apply r3_id_apply. }
    unfold bad. rewrite S. apply still in S; [|exact UD]. destruct S as [_ S].
    assert (get_angle (discrepancy n2 sm c) = 0) as -> by nra.
    assert (Z : distance (trans (tn_pose n1)) (trans (tn_pose n1)) = 0).
    { unfold distance, dist2. rewrite <- sqrt_0. f_equal. ring. }
    rewrite Z. lra.
  - intros NB. unfold bad in NB. cbv zeta in NB.
    destruct (angle_ok _ UD) as [[AP _] _].
    assert (A0 : get_angle (discrepancy n2 sm c) = 0) by lra.
    pose proof (distance_pos (r3_apply (discrepancy n2 sm c) (trans (tn_pose n1))) (trans (tn_pose n1))) as DP.
    assert (D0 : distance (r3_apply (discrepancy n2 sm c) (trans (tn_pose n1))) (trans (tn_pose n1)) = 0) by lra.
    pose proof (proj1 (angle_zero_rot _ UD) A0) as RI.
    assert (T0 : trans (discrepancy n2 sm c) = v_zero).
    { unfold r3_apply in D0. rewrite RI in D0. clear - D0. revert D0. generalize (trans (discrepancy n2 sm c)) (trans (tn_pose n1)).
      intros w v D0. unfold distance in D0. apply sqrt_eq_0 in D0.
      - unfold dist2, vadd in D0. cbn in D0. apply vec_eq; cbn; nra.
      - unfold dist2. pose proof (Rle_0_sqr (v0 (vadd v w) - v0 v)). pose proof (Rle_0_sqr (v1 (vadd v w) - v1 v)).
        pose proof (Rle_0_sqr (v2 (vadd v w) - v2 v)). unfold Rsqr in *. lra. }
    intros p. assert (S : r3_apply (discrepancy n2 sm c) (r3_apply (predicted sm c) p) = r3_apply (predicted sm c) p).
    { unfold r3_apply at 1. rewrite RI, T0. apply vec_eq; cbn; ring. }
    rewrite <- S. unfold discrepancy. rewrite <- r3_action by auto. rewrite <- r3_assoc, r3_inv_l, r3_id_r by auto. reflexivity.
Qed.

(* a small map: three nodes on a line, submap 0 at the origin *)
Definition shift (x : R) : rigid3 := mk_rigid3 (mk_vec3 x 0 0) q_one.
Lemma shift_unit x : unit3 (shift x).
Proof. apply unit_one. Qed.
Lemma shift_mul x y : r3_mul (shift x) (shift y) = shift (x + y).
Proof.
  apply rigid_eq.
  - unfold r3_mul. cbn [trans rot shift]. rewrite qrot_one. apply vec_eq; cbn; ring.
  - rewrite r3_mul_rot by apply shift_unit. apply qmul_1_l.
Qed.
Lemma shift_inv x : r3_inv (shift x) = shift (- x).
Proof.
  rewrite <- (r3_id_r (r3_inv (shift x))) by (apply r3_inv_unit, shift_unit).
  assert (E : r3_id = r3_mul (shift x) (shift (- x))).
  { rewrite shift_mul. unfold shift, r3_id. f_equal. apply vec_eq; cbn; ring. }
  rewrite E, r3_assoc, r3_inv_l, r3_id_l by (try apply r3_inv_unit; apply shift_unit). reflexivity.
Qed.
Lemma path_shift x y z : x <= y <= z -> path_length [trans (shift x); trans (shift y); trans (shift z)] = z - x.
Proof.
  intros H. unfold path_length, distance, dist2. cbn.
  replace ((x - y) * (x - y) + (0 - 0) * (0 - 0) + (0 - 0) * (0 - 0)) with ((y - x) * (y - x)) by ring.
  replace ((y - z) * (y - z) + (0 - 0) * (0 - 0) + (0 - 0) * (0 - 0)) with ((z - y) * (z - y)) by ring.
  rewrite !sqrt_square by lra. ring.
Qed.
Definition ex_nodes (i t : Z) : list tnode :=
  [mk_tnode i 10 (shift 0); mk_tnode (i + 1) 20 (shift 1); mk_tnode (i + 2) t (shift 3)].
Definition ex_intra : gconstraint := mk_gconstraint true (0, 1)%Z (0, 0)%Z (shift 0).
Definition ex_loop (n : Z) (x : R) : gconstraint := mk_gconstraint false (0, 0)%Z (0%Z, n) (shift x).
Definition ex_graph (i t : Z) (loops : list gconstraint) : graph :=
  mk_graph [mk_trajectory (ex_nodes i t) [mk_tsubmap 0 (shift 0)]] (ex_intra :: loops).
Lemma ex_reps loops : Forall (fun c => gc_intra c = false) loops ->
  intra_of (ex_intra :: loops) = [ex_intra].
Proof.
  intros F. unfold intra_of. cbn. f_equal. induction F as [|c l H F IH]; cbn; [reflexivity|]. now rewrite H.
Qed.
Lemma ex_represented loops : Forall (fun c => gc_intra c = false) loops -> represented_by (ex_intra :: loops) 0 0.
Proof.
  intros F. split; [lia|]. rewrite ex_reps by exact F. exists [], ex_intra, []. repeat split; auto.
Qed.
Lemma ex_unit i t l : unit_trajectory (mk_trajectory (ex_nodes i t) l) <-> Forall (fun s => unit_rotation (rot (ts_pose s))) l.
Proof.
  unfold unit_trajectory. cbn [tr_nodes tr_submaps]. split; [tauto|]. intros H. split; [|exact H].
  unfold ex_nodes. repeat (constructor; [apply unit_one|]). constructor.
Qed.
Lemma ex_generate i t mc : mc <= 3 ->
  generate (ex_graph i t [ex_loop 2 3]) mc 0 0 = Some ([mk_relation 10 t (shift 3) 3], 0%nat).
Proof.
  intros M. rewrite C83_relations; [|reflexivity|..].
  2: { apply ex_unit. constructor; [apply unit_one|constructor]. }
  2: { repeat (constructor; [apply unit_one|]). constructor. }
  cbn [g_constraints ex_graph tr_nodes]. assert (F : Forall (fun c => gc_intra c = false) [ex_loop 2 3]) by (repeat constructor).
  rewrite ex_reps by exact F. split; [discriminate|]. split; [repeat constructor|]. split.
  { intros p c q E. destruct p as [|a p]; cbn in E; [injection E as <- _; left; cbn; lia|]. injection E as _ E. destruct p; discriminate. }
  apply ch_intra; [reflexivity|].
  assert (E : mk_relation 10 t (shift 3) 3 = mk_relation (tn_time (mk_tnode i 10 (shift 0))) (tn_time (mk_tnode (i + 2) t (shift 3)))
     (r3_mul (r3_inv (tn_pose (mk_tnode i 10 (shift 0)))) (predicted (mk_tsubmap 0 (shift 0)) (ex_loop 2 3))) 3).
  { cbn [tn_time tn_pose]. unfold predicted. cbn [ts_pose gc_pose ex_loop]. rewrite shift_inv, !shift_mul. do 2 f_equal. lra. }
  rewrite E. apply (ch_keep _ _ _ _ _ _ _ _ _ 0%Z 0%Z).
  - split; [reflexivity|]. split; [split; reflexivity|]. split; [reflexivity|]. split; [now apply ex_represented|].
    split; [split; [lia|reflexivity]|]. split; [split; [cbn; lia|reflexivity]|].
    change (3 = path_length [trans (shift 0); trans (shift 1); trans (shift 3)]). rewrite path_shift by lra. ring.
  - exact M.
  - split; [lia|reflexivity].
  - apply C83_agreement; try apply unit_one; try lra. intros p. cbn [tn_pose]. unfold predicted. cbn [ts_pose gc_pose ex_loop].
    rewrite shift_mul. now rewrite Rplus_0_l.
  - constructor.
Qed.
Example C83_example : generate (ex_graph 0 30 [ex_loop 2 3]) 3 0 0 = Some ([mk_relation 10 30 (shift 3) 3], 0%nat).
Proof. apply ex_generate. lra. Qed.
(* the node in the middle is skipped for lack of distance, a wrong loop closure is an outlier *)
Example C83_example_near : generate (ex_graph 0 30 [ex_loop 1 1]) 3 0 0 = Some ([], 0%nat).
Proof.
  rewrite C83_relations; [|reflexivity|..].
  2: { apply ex_unit. constructor; [apply unit_one|constructor]. }
  2: { repeat (constructor; [apply unit_one|]). constructor. }
  cbn [g_constraints ex_graph tr_nodes]. assert (F : Forall (fun c => gc_intra c = false) [ex_loop 1 1]) by (repeat constructor).
  rewrite ex_reps by exact F. split; [discriminate|]. split; [repeat constructor|]. split.
  { intros p c q E. destruct p as [|a p]; cbn in E; [injection E as <- _; left; cbn; lia|]. injection E as _ E. destruct p; discriminate. }
  apply ch_intra; [reflexivity|]. apply (ch_near _ _ _ _ _ _ _ _ _ 0%Z 0%Z 1 (mk_tnode 0 10 (shift 0)) (mk_tnode 1 20 (shift 1))).
  - split; [reflexivity|]. split; [split; reflexivity|]. split; [reflexivity|]. split; [now apply ex_represented|].
    split; [split; [lia|reflexivity]|]. split; [split; [cbn; lia|reflexivity]|].
    change (1 = distance (trans (shift 0)) (trans (shift 1)) + 0). unfold distance, dist2. cbn.
    replace ((0 - 1) * (0 - 1) + (0 - 0) * (0 - 0) + (0 - 0) * (0 - 0)) with 1 by ring. rewrite sqrt_1. ring.
  - lra.
  - constructor.
Qed.
Example C83_example_outlier : bad (mk_tnode 0 10 (shift 0)) (mk_tnode 2 30 (shift 3)) (mk_tsubmap 0 (shift 0)) (ex_loop 2 5) 1 1.
Proof.
  left. unfold discrepancy, predicted. cbn [tn_pose ts_pose gc_pose ex_loop]. rewrite shift_mul, shift_inv, shift_mul.
  unfold r3_apply. cbn [shift rot trans]. rewrite qrot_one. unfold distance, dist2. cbn.
  match goal with |- _ < sqrt ?x => replace x with (2 * 2) by ring end. rewrite sqrt_square; lra.
Qed.
(* nodes are looked up by their position: once a node has been trimmed, the index in a constraint
   and the position differ, and relations name the wrong nodes *)
Theorem C83_trimmed_refuted : exists g t rs k c r n,
  g_trajectories g = [t] /\ unit_trajectory t /\ unit_constraints (g_constraints g) /\
  (forall i m, nth_error (tr_nodes t) i = Some m -> tn_index m = (Z.of_nat i + 1)%Z) /\
  generate g 3 0 0 = Some (rs, k) /\ rs = [r] /\ filter (fun c => negb (gc_intra c)) (g_constraints g) = [c] /\
  In n (tr_nodes t) /\ tn_index n = snd (gc_node c) /\ tn_time n <> r_time2 r.
Proof.
  exists (ex_graph 1 30 [ex_loop 2 3]), (mk_trajectory (ex_nodes 1 30) [mk_tsubmap 0 (shift 0)]),
    [mk_relation 10 30 (shift 3) 3], 0%nat, (ex_loop 2 3), (mk_relation 10 30 (shift 3) 3), (mk_tnode 2 20 (shift 1)).
  split; [reflexivity|]. split; [apply ex_unit; constructor; [apply unit_one|constructor]|].
  split; [repeat (constructor; [apply unit_one|]); constructor|].
  split; [intros [|[|[|i]]] m H; cbn in H; try (injection H as <-; reflexivity); destruct i; discriminate|].
  split; [apply ex_generate; lra|]. split; [reflexivity|]. split; [reflexivity|]. split; [right; left; reflexivity|].
  split; [reflexivity|]. discriminate.
Qed.

(* the errors do not depend on the frame of the map *)
Theorem C84_frame : forall w p1 p2 x, unit_rotation (rot w) -> unit_rotation (rot p1) -> unit_rotation (rot p2) ->
  compute_error (r3_mul w p1) (r3_mul w p2) x = compute_error p1 p2 x.
Proof. intros w p1 p2 x W A B. unfold compute_error. now rewrite error_frame. Qed.
(* they vanish exactly if the second pose is where the relation says *)
Theorem C84_zero : forall p1 p2 x, unit_rotation (rot p1) -> unit_rotation (rot p2) -> unit_rotation (rot x) ->
  0 <= e_trans2 (compute_error p1 p2 x) /\ 0 <= e_rot2 (compute_error p1 p2 x) /\
  ((e_trans2 (compute_error p1 p2 x) = 0 /\ e_rot2 (compute_error p1 p2 x) = 0) <->
   forall p, r3_apply p2 p = r3_apply (r3_mul p1 x) p).
Proof.
  intros p1 p2 x A B X. split; [apply vdot_pos|]. split; [apply (Rle_0_sqr (get_angle _))|]. now apply error_zero.
Qed.
(* the rotational error is how much the two rotations differ, in either direction; the
   translational error is how far apart the second pose and its expectation are, seen from the
   first pose, after turning the expectation onto the second pose *)
Theorem C84_swap : forall p1 p2 x, unit_rotation (rot p1) -> unit_rotation (rot p2) -> unit_rotation (rot x) ->
  e_rot2 (compute_error p2 p1 (r3_inv x)) = e_rot2 (compute_error p1 p2 x).
Proof. intros p1 p2 x A B X. now apply swap_angle. Qed.
(* the translational error changes (as the comment in the code says) *)
Theorem C84_swap_refuted : exists p1 p2 x, unit_rotation (rot p1) /\ unit_rotation (rot p2) /\ unit_rotation (rot x) /\
  e_trans2 (compute_error p2 p1 (r3_inv x)) <> e_trans2 (compute_error p1 p2 x).
Proof.
  (* the second pose is turned by a half turn about z where the relation says it is not turned *)
  exists r3_id, (mk_rigid3 (mk_vec3 1 0 0) (mk_quat 0 0 0 1)), (shift 1).
  assert (H : is_unit (mk_quat 0 0 0 1)) by (unfold is_unit, qnorm2; cbn; ring).
  split; [apply unit_one|]. split; [exact H|]. split; [apply unit_one|].
  unfold compute_error. cbn [e_trans2]. rewrite r3_inv_inv by apply shift_unit.
  assert (I : r3_inv r3_id = r3_id).
  { rewrite <- (r3_id_r (r3_inv r3_id)) by (apply r3_inv_unit, unit_one). apply r3_inv_l, unit_one. }
  rewrite I, r3_id_l, r3_id_r by (try exact H; apply r3_inv_unit; exact H).
  rewrite shift_inv. unfold r3_mul, r3_inv. cbn [trans rot shift]. unfold vdot. cbn. lra.
Qed.
(* poses are looked up between the nodes; before the first and after the last node these are taken *)
Theorem C84_lookup : forall blend nodes b, increasing_times nodes -> (Z.of_nat (length nodes) < 2 ^ 64)%Z ->
  from_trajectory (map (fun n => (tn_time n, tn_pose n)) nodes) = Some b -> forall t n,
  (lookup_transform blend b t = None <-> nodes = []) /\
  (has b t = true -> lookup_transform blend b t = lookup blend b t) /\
  (In n nodes -> (forall m, In m nodes -> (tn_time n <= tn_time m)%Z) -> (t <= tn_time n)%Z ->
    lookup_transform blend b t = Some (tn_pose n)) /\
  (In n nodes -> (forall m, In m nodes -> (tn_time m <= tn_time n)%Z) -> (tn_time n <= t)%Z ->
    lookup_transform blend b t = Some (tn_pose n)).
Proof. exact lookup_any. Qed.
(* one error per relation, of the looked up poses *)
Theorem C84_errors : forall blend g t ts rs es lines, g_trajectories g = t :: ts -> metrics blend g rs = Some (es, lines) ->
  statistics es = Some lines /\
  exists b, from_trajectory (map (fun n => (tn_time n, tn_pose n)) (tr_nodes t)) = Some b /\
    Forall2 (fun r e => exists p1 p2, lookup_transform blend b (r_time1 r) = Some p1 /\ lookup_transform blend b (r_time2 r) = Some p2 /\
      e = compute_error p1 p2 (r_expected r)) rs es.
Proof.
  intros blend g t ts rs es lines G M. unfold metrics in M. rewrite G in M.
  destruct (from_trajectory _) as [b|]; [|discriminate].
  destruct (errors_of blend b rs) as [es'|] eqn:E; [|discriminate].
  destruct (statistics es') as [s|] eqn:S; [|discriminate]. injection M as <- <-. split; [exact S|].
  exists b. split; [reflexivity|]. clear S. revert es' E. induction rs as [|r rs IH]; intros es E; cbn [errors_of] in E.
  - injection E as <-. constructor.
  - destruct (lookup_transform blend b (r_time1 r)) as [p1|] eqn:P1; [|discriminate].
    destruct (lookup_transform blend b (r_time2 r)) as [p2|] eqn:P2; [|discriminate].
    destruct (errors_of blend b rs) as [es'|]; [|discriminate]. injection E as <-.
    constructor; [exists p1, p2; auto|auto].
Qed.
(* mean and standard deviation of at least two values *)
Theorem C84_statistics : forall l m s, mean_and_std_dev l = Some (m, s) <->
  (2 <= length l)%nat /\ m * INR (length l) = total (fun x => x) l /\
  0 <= s /\ s * s * (INR (length l) - 1) = total (fun x => (x - m) * (x - m)) l.
Proof. exact mean_spec. Qed.
(* the four lines *)
Theorem C84_lines : forall es a b c d, statistics es = Some [a; b; c; d] <->
  mean_and_std_dev (map (fun e => sqrt (e_trans2 e)) es) = Some a /\
  mean_and_std_dev (map e_trans2 es) = Some b /\
  mean_and_std_dev (map (fun e => sqrt (e_rot2 e) * (180 / PI)) es) = Some c /\
  mean_and_std_dev (map (fun e => Rsqr (sqrt (e_rot2 e) * (180 / PI))) es) = Some d.
Proof.
  intros es a b c d.
  assert (E : forall x, rad_to_deg x = x * (180 / PI)) by (intros; unfold rad_to_deg; field; apply PI_neq0).
  assert (M1 : map (fun e => rad_to_deg (sqrt (e_rot2 e))) es = map (fun e => sqrt (e_rot2 e) * (180 / PI)) es)
    by (apply map_ext; intros; apply E).
  assert (M2 : map (fun e => rad_to_deg (sqrt (e_rot2 e)) * rad_to_deg (sqrt (e_rot2 e))) es =
               map (fun e => Rsqr (sqrt (e_rot2 e) * (180 / PI))) es)
    by (apply map_ext; intros; rewrite E; reflexivity).
  unfold statistics. rewrite M1, M2.
  destruct (mean_and_std_dev _) as [u|]; [|split; [discriminate|intros [H _]; discriminate]].
  destruct (mean_and_std_dev _) as [v|]; [|split; [discriminate|intros [_ [H _]]; discriminate]].
  destruct (mean_and_std_dev _) as [w|]; [|split; [discriminate|intros [_ [_ [H _]]]; discriminate]].
  destruct (mean_and_std_dev _) as [z|]; [|split; [discriminate|intros [_ [_ [_ H]]]; discriminate]].
  split; [intros H; injection H; intros; subst; auto|]. intros [H1 [H2 [H3 H4]]]. congruence.
Qed.
(* there is no result for less than two relations *)
Theorem C84_few : forall es, statistics es = None <-> (length es < 2)%nat.
Proof.
  intros es. unfold statistics, mean_and_std_dev. rewrite !map_length.
  destruct (Nat.leb_spec 2 (length es)) as [L | L]; split; intros H; try discriminate; try reflexivity; try lia.
Qed.
(* relations generated from a map have, in this map, errors within the thresholds *)
Theorem C84_self : forall blend g t ts min_covered meters radians rs k, g_trajectories g = t :: ts ->
  unit_trajectory t -> unit_constraints (g_constraints g) ->
  increasing_times (tr_nodes t) -> (Z.of_nat (length (tr_nodes t)) < 2 ^ 64)%Z ->
  generate g min_covered meters radians = Some (rs, k) -> (2 <= length rs)%nat ->
  exists es lines, metrics blend g rs = Some (es, lines) /\ length es = length rs /\
    Forall (fun e => sqrt (e_trans2 e) <= meters /\ sqrt (e_rot2 e) <= radians) es.
Proof.
  intros blend g t ts mc me ra rs k G U UC I L E N.
  apply (C83_relations g t ts mc me ra rs k G U UC) in E. destruct E as [_ [_ [_ H]]].
  apply kept_small in H; auto. unfold metrics. rewrite G.
  destruct (Properties_TIB.C13_trajectory _ (stamped (tr_nodes t)) (increasing_order _ I)) as [b [B _]];
    [unfold stamped; now rewrite map_length|].
  fold (stamped (tr_nodes t)). rewrite B.
  assert (X : exists es, errors_of blend b rs = Some es /\ length es = length rs /\
    Forall (fun e => sqrt (e_trans2 e) <= me /\ sqrt (e_rot2 e) <= ra) es).
  { clear N. induction H as [|r rs [n1 [n2 [I1 [I2 [T1 [T2 S]]]]]] H IH]; [exists []; repeat split; auto|].
    destruct IH as [es [E [Q F]]]. exists (compute_error (tn_pose n1) (tn_pose n2) (r_expected r) :: es).
    cbn [errors_of length]. rewrite T1, T2, (lookup_node blend _ b n1 I L B I1), (lookup_node blend _ b n2 I L B I2), E, Q.
    repeat split; auto. }
  destruct X as [es [E [Q F]]]. rewrite E. destruct (statistics es) as [s|] eqn:S.
  - exists es, s. auto.
  - apply C84_few in S. lia.
Qed.
(* with two nodes of the same time that is false *)
Theorem C84_self_refuted : forall blend, exists g t rs b es,
  g_trajectories g = [t] /\ unit_trajectory t /\ unit_constraints (g_constraints g) /\
  (forall i j m n, (i < j)%nat -> nth_error (tr_nodes t) i = Some m -> nth_error (tr_nodes t) j = Some n -> (tn_time m <= tn_time n)%Z) /\
  generate g 0 0 0 = Some (rs, 0%nat) /\ from_trajectory (stamped (tr_nodes t)) = Some b /\
  errors_of blend b rs = Some es /\ exists e, In e es /\ 1 <= e_trans2 e.
Proof.
  intros blend. exists (ex_graph 0 20 [ex_loop 2 3]), (mk_trajectory (ex_nodes 0 20) [mk_tsubmap 0 (shift 0)]),
    [mk_relation 10 20 (shift 3) 3], (mk_buffer (stamped (ex_nodes 0 20)) (2 ^ 64 - 1)), [compute_error (shift 0) (shift 1) (shift 3)].
  split; [reflexivity|]. split; [apply ex_unit; constructor; [apply unit_one|constructor]|].
  split; [repeat (constructor; [apply unit_one|]); constructor|].
  split.
  { intros [|[|[|i]]] [|[|[|j]]] m n O M N; try lia; cbn in M, N; try (injection M as <-); try (injection N as <-); cbn; try lia;
      try (destruct i; discriminate); destruct j; discriminate. }
  split; [apply ex_generate; lra|]. split; [reflexivity|]. split; [reflexivity|].
  eexists. split; [left; reflexivity|]. unfold compute_error. cbn [e_trans2].
  rewrite !shift_inv, !shift_mul. unfold vdot. cbn. lra.
Qed.
Example C84_example : mean_and_std_dev [1; 3] = Some (2, sqrt 2).
Proof.
  apply C84_statistics. cbn. split; [lia|]. split; [lra|]. split; [apply sqrt_pos|]. rewrite sqrt_def; lra.
Qed.
Example C84_example_error : compute_error (shift 1) (shift 3) (shift 5) = mk_error 9 0.
Proof.
  unfold compute_error. rewrite !shift_inv, !shift_mul. f_equal.
  - unfold vdot. cbn. ring.
  - assert (get_angle (shift (- (1) + 3 + - (5))) = 0) as ->; [|ring]. apply angle_zero_rot; [apply shift_unit|]. apply qrot_one.
Qed.

Print Assumptions C83_covered.
Print Assumptions C83_straight.
Print Assumptions C83_representatives.
Print Assumptions C83_relations.
Print Assumptions C83_agreement.
Print Assumptions C83_trimmed_refuted.
Print Assumptions C84_frame.
Print Assumptions C84_zero.
Print Assumptions C84_swap.
Print Assumptions C84_swap_refuted.
Print Assumptions C84_lookup.
Print Assumptions C84_errors.
Print Assumptions C84_statistics.
Print Assumptions C84_lines.
Print Assumptions C84_few.
Print Assumptions C84_self.
Print Assumptions C84_self_refuted.
