(* C89: the migration of submap histograms. *)
From Coq Require Import ZArith Reals List Bool Lra Lia Permutation.
From Verif Require Import CF_Model RG_Model RG_Proofs RH_Model RH_Spec RH_Turn MG_Model MG_Spec MG_Proofs.
Import ListNotations.
Open Scope R_scope.

Lemma migrate_is size submaps nodes cs : NoDup (map fst submaps) -> Forall empty3 submaps -> good_nodes size nodes -> Forall (good_constraint submaps nodes) cs ->
  migrate submaps nodes cs = Some (map (moved nodes cs) submaps).
Proof.
  intros N E G C. rewrite Forall_forall in E, C.
  assert (F : fold_left (migrate_step nodes) cs (Some submaps) = Some (map (moved nodes cs) submaps)).
  { apply (migrate_fold size); try assumption. intros s I. destruct (E s I) as [p ->]. exists p, []. auto. }
  unfold migrate. destruct submaps as [|[i s] l]; [reflexivity|]. destruct (E (i, s) (or_introl eq_refl)) as [p Q]. cbn [snd] in Q. subst s. exact F.
Qed.

(* each submap gets the sum of the histograms of its nodes, turned into its frame: what InsertData
   computes while the map is built *)
Theorem C89_sum : forall size submaps nodes cs,
  NoDup (map fst submaps) -> Forall empty3 submaps -> good_nodes size nodes -> Forall (good_constraint submaps nodes) cs ->
  exists out, migrate submaps nodes cs = Some out /\ map fst out = map fst submaps /\
    forall i pose, In (i, m_3d pose []) submaps -> exists h, In (i, m_3d pose h) out /\
      (inserted nodes i cs = [] -> h = []) /\
      (inserted nodes i cs <> [] -> length h = size /\ live_histogram pose size (inserted nodes i cs) = Some h) /\
      (forall k, bin_at h k = total (fun n => bin_at (rotate_histogram (mn_histogram n) (turn_into pose n)) k) (inserted nodes i cs)) /\
      mass h = total (fun n => mass (mn_histogram n)) (inserted nodes i cs).
Proof.
  intros size submaps nodes cs N E G C. exists (map (moved nodes cs) submaps). split; [now apply (migrate_is size)|]. split; [rewrite map_map; reflexivity|].
  intros i pose I. exists (fold_left (acc pose) (inserted nodes i cs) []). split; [apply in_map_iff; exists (i, m_3d pose []); split; [reflexivity | exact I]|].
  pose proof (inserted_good size nodes i cs G) as W. set (ns := inserted nodes i cs) in *. clearbody ns.
  destruct (acc_fold size pose ns W [] (or_introl eq_refl)) as [A [B D]]. split; [intros ->; reflexivity|]. split; [|split].
  - intros NE. destruct ns as [|n ns]; [congruence|]. assert (L : length (mn_histogram n) = size) by (apply W; now left). assert (T := turned_length size pose n L). split.
    + cbn [fold_left acc]. apply acc_nonempty; [intros m J; apply W; now right | exact T].
    + unfold live_histogram. rewrite (live_fold size) by (try exact W; apply repeat_length). cbn [fold_left]. do 2 f_equal. unfold acc.
      destruct size as [|size']; [reflexivity|]. cbn [repeat]. change (0 :: repeat 0 size') with (repeat 0 (S size')). rewrite <- T at 1. apply plus_zero.
  - intros k. rewrite B. replace (bin_at [] k) with 0 by (unfold bin_at; destruct k; reflexivity). rewrite Rplus_0_l. clear. induction ns as [|n ns IH]; [reflexivity|]. cbn [total]. now rewrite IH, turned_eq.
  - rewrite D. cbn [mass]. lra.
Qed.
(* the turn is the yaw of the rotation which after the gravity alignment of the node is that of the node
   in the submap, also for quaternions which are not of norm 1 *)
Theorem C89_turn : forall pose n, qnorm2 (mn_gravity n) <> 0 ->
  exists q, qmul q (mn_gravity n) = qmul (qconj pose) (mn_local n) /\ turn_into pose n = get_yaw q /\
    forall q', qmul q' (mn_gravity n) = qmul (qconj pose) (mn_local n) -> q' = q.
Proof.
  intros pose n N. set (g := mn_gravity n) in *. exists (qmul (qconj pose) (qmul (mn_local n) (qinverse g))).
  assert (P : 0 < qnorm2 g) by (assert (0 <= qnorm2 g) by (unfold qnorm2; nra); lra).
  assert (I : forall q, qmul (qmul q (qinverse g)) g = q).
  { intros [w x y z]. unfold qinverse. destruct (Rlt_dec 0 (qnorm2 g)); [|lra]. destruct g as [a b c d]. unfold qmul, qscale, qconj, qnorm2 in *. cbn in *. f_equal; field; lra. }
  assert (J : forall q, qmul (qmul q g) (qinverse g) = q).
  { intros [w x y z]. unfold qinverse. destruct (Rlt_dec 0 (qnorm2 g)); [|lra]. destruct g as [a b c d]. unfold qmul, qscale, qconj, qnorm2 in *. cbn in *. f_equal; field; lra. }
  assert (A : forall a b c, qmul a (qmul b c) = qmul (qmul a b) c) by (intros [? ? ? ?] [? ? ? ?] [? ? ? ?]; unfold qmul; cbn; f_equal; ring).
  split; [rewrite A; apply I|]. split; [reflexivity|]. intros q' E. rewrite A, <- E, J. reflexivity.
Qed.
(* the order of the constraints does not matter *)
Theorem C89_order : forall size submaps nodes cs cs',
  NoDup (map fst submaps) -> Forall empty3 submaps -> good_nodes size nodes -> Forall (good_constraint submaps nodes) cs ->
  Permutation cs cs' -> migrate submaps nodes cs' = migrate submaps nodes cs.
Proof.
  intros size submaps nodes cs cs' N E G C P. rewrite (migrate_is size submaps nodes cs) by assumption.
  rewrite (migrate_is size submaps nodes cs') by (try assumption; rewrite Forall_forall in *; intros c I; apply C; now rewrite P).
  f_equal. apply map_ext_in. intros [i s] I. rewrite Forall_forall in E. destruct (E _ I) as [pose Q]. cbn [snd] in Q. subst s. unfold moved. cbn [fst snd after]. do 2 f_equal.
  pose proof (inserted_perm nodes i cs cs' P) as PI. pose proof (inserted_good size nodes i cs G) as W. pose proof (inserted_good size nodes i cs' G) as W'.
  destruct (acc_fold size pose _ W [] (or_introl eq_refl)) as [_ [B _]]. destruct (acc_fold size pose _ W' [] (or_introl eq_refl)) as [_ [B' _]].
  assert (L : length (fold_left (acc pose) (inserted nodes i cs') []) = length (fold_left (acc pose) (inserted nodes i cs) [])).
  { destruct (inserted nodes i cs) as [|n ns]; [apply Permutation_nil in PI; now rewrite PI|].
    destruct (inserted nodes i cs') as [|n' ns']; [apply Permutation_sym, Permutation_nil in PI; discriminate|]. cbn [fold_left acc].
    rewrite !(acc_nonempty size); try reflexivity; try (intros m J; first [apply W; now right | apply W'; now right]); apply turned_length; [apply W | apply W']; now left. }
  apply nth_ext with (d := 0) (d' := 0); [exact L|]. intros k _. change (bin_at (fold_left (acc pose) (inserted nodes i cs') []) k = bin_at (fold_left (acc pose) (inserted nodes i cs) []) k).
  rewrite B, B'. f_equal. symmetry. now apply total_perm.
Qed.
(* 2D maps and maps without submaps are left alone, constraints between submaps and other nodes ignored *)
Theorem C89_unchanged : forall submaps nodes cs,
  (submaps = [] \/ (exists i l, submaps = (i, m_2d) :: l) \/ Forall (fun c => mc_intra c = false) cs) -> migrate submaps nodes cs = Some submaps.
Proof.
  intros submaps nodes cs [-> | [[i [l ->]] | C]]; [reflexivity | reflexivity |].
  assert (F : fold_left (migrate_step nodes) cs (Some submaps) = Some submaps).
  { induction C as [|c cs I C IH]; [reflexivity|]. cbn [fold_left]. unfold migrate_step at 2. rewrite I. exact IH. }
  unfold migrate. destruct submaps as [|[i [| |]] l]; try reflexivity; exact F.
Qed.
(* nodes with histograms of different sizes are not handled: a larger one is written outside the
   histogram of the submap, and a smaller one goes into the wrong bins without notice *)
Theorem C89_sizes_refuted : exists submaps nodes, NoDup (map fst submaps) /\ Forall empty3 submaps /\
  Forall (good_constraint submaps nodes) [mk_mconstraint true (0, 0)%Z (0, 0)%Z; mk_mconstraint true (0, 0)%Z (0, 1)%Z] /\
  migrate submaps nodes [mk_mconstraint true (0, 0)%Z (0, 0)%Z; mk_mconstraint true (0, 0)%Z (0, 1)%Z] = None /\
  migrate submaps nodes [mk_mconstraint true (0, 0)%Z (0, 1)%Z; mk_mconstraint true (0, 0)%Z (0, 0)%Z] <> None.
Proof.
  exists [((0, 0)%Z, m_3d q_one [])], [((0, 0)%Z, mk_mnode q_one q_one [1]); ((0, 1)%Z, mk_mnode q_one q_one [1; 1])].
  split; [repeat constructor; cbn; tauto|]. split; [constructor; [now exists q_one | constructor]|]. split.
  - repeat constructor; cbn; tauto.
  - cbn [migrate fold_left migrate_step mc_intra mc_node mc_submap find_id same_id fst snd Z.eqb Pos.eqb andb set_id add_histogram].
    assert (L1 : length (turned_histogram q_one (mk_mnode q_one q_one [1])) = 1%nat) by (unfold turned_histogram; now rewrite rotate_length).
    assert (L2 : length (turned_histogram q_one (mk_mnode q_one q_one [1; 1])) = 2%nat) by (unfold turned_histogram; now rewrite rotate_length).
    destruct (turned_histogram q_one (mk_mnode q_one q_one [1])) as [|a [|? ?]]; try discriminate L1.
    destruct (turned_histogram q_one (mk_mnode q_one q_one [1; 1])) as [|b [|b' [|? ?]]]; try discriminate L2. cbn. split; [reflexivity | discriminate].
Qed.

(* two nodes in a submap that has the frame of the first; the second was turned by a quarter *)
Example C89_example : exists h,
  migrate [((0, 0)%Z, m_3d q_one [])] [((0, 0)%Z, mk_mnode q_one q_one [1; 2]); ((0, 1)%Z, mk_mnode (about_z (PI / 2)) q_one [3; 4])]
    [mk_mconstraint true (0, 0)%Z (0, 0)%Z; mk_mconstraint true (0, 0)%Z (0, 1)%Z] = Some [((0, 0)%Z, m_3d q_one h)] /\ mass h = 10.
Proof.
  set (nodes := [((0, 0)%Z, mk_mnode q_one q_one [1; 2]); ((0, 1)%Z, mk_mnode (about_z (PI / 2)) q_one [3; 4])]).
  destruct (C89_sum 2 [((0, 0)%Z, m_3d q_one [])] nodes [mk_mconstraint true (0, 0)%Z (0, 0)%Z; mk_mconstraint true (0, 0)%Z (0, 1)%Z]) as [out [E [M H]]].
  - repeat constructor; cbn; tauto.
  - constructor; [now exists q_one | constructor].
  - intros i n I. destruct I as [[= _ <-] | [[= _ <-] | []]]; reflexivity.
  - repeat constructor; cbn; tauto.
  - destruct (H (0, 0)%Z q_one (or_introl eq_refl)) as [h [I [_ [_ [_ S]]]]]. exists h. rewrite E. split.
    + destruct out as [|[j s] [|? ?]]; try discriminate M. injection M as ->. destruct I as [[= ->] | []]. reflexivity.
    + rewrite S. cbn. lra.
Qed.

Print Assumptions C89_sum.
Print Assumptions C89_turn.
Print Assumptions C89_order.
Print Assumptions C89_unchanged.
Print Assumptions C89_sizes_refuted.
