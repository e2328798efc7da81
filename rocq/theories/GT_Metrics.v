(* Proofs about the metrics computed from relations (used by Properties_GT). *)
From Coq Require Import Reals ZArith Lra Lia Psatz.
From Verif Require Import CF_Model RG_Model RG_Spec RG_Proofs RG_Angle TIB_Model Properties_TIB GT_Model GT_Spec GT_Proofs GT_Generate.
From Coq Require Import List Bool Sorted.
Import ListNotations.
Open Scope R_scope.

Lemma error_frame w a b : unit3 w -> unit3 a -> unit3 b ->
  r3_mul (r3_inv (r3_mul w a)) (r3_mul w b) = r3_mul (r3_inv a) b.
Proof.
  intros W A B. pose proof (r3_inv_unit _ W). pose proof (r3_inv_unit _ A).
  rewrite r3_inv_mul, r3_assoc by auto using r3_mul_unit.
  rewrite <- (r3_assoc (r3_inv a) (r3_inv w) w), r3_inv_l, r3_id_r by auto. reflexivity.
Qed.
Lemma angle_zero_rot a : unit3 a -> (get_angle a = 0 <-> forall p, qrot (rot a) p = p).
Proof.
  intros A. split.
  - intros E p. destruct (angle_ok a A) as [_ [u [_ T]]]. rewrite T, E. unfold turned. rewrite cos_0, sin_0.
    apply vec_eq; cbn; ring.
  - intros H. unfold get_angle.
    assert (X : qx (rot a) = 0 /\ qy (rot a) = 0 /\ qz (rot a) = 0).
    { pose proof (f_equal v0 (H (mk_vec3 1 0 0))) as E1. pose proof (f_equal v1 (H (mk_vec3 0 1 0))) as E2.
      cbn in E1, E2. repeat split; nra. }
    destruct X as [X [Y Z]]. unfold unit3, is_unit, qnorm2 in A. rewrite X, Y, Z in A.
    assert (V : vnorm (qvec (rot a)) = 0).
    { unfold vnorm, vdot, qvec. cbn. rewrite X, Y, Z. replace (0 * 0 + 0 * 0 + 0 * 0) with 0 by ring. apply sqrt_0. }
    rewrite V. unfold atan2. destruct (Rlt_dec 0 (Rabs (qw (rot a)))) as [P | P].
    + unfold Rdiv. rewrite Rmult_0_l, atan_0. ring.
    + exfalso. apply P. apply Rabs_pos_lt. intros W. rewrite W in A. lra.
Qed.
Lemma vnorm_zero v : vdot v v = 0 -> v = v_zero.
Proof. unfold vdot. intros E. apply vec_eq; cbn; nra. Qed.
(* a motion with no translation and no rotation is the identity *)
Lemma still e : unit3 e -> ((vdot (trans e) (trans e) = 0 /\ get_angle e * get_angle e = 0) <-> forall p, r3_apply e p = p).
Proof.
  intros U. split.
  - intros [A B] p. apply vnorm_zero in A. assert (get_angle e = 0) as C by nra.
    pose proof (proj1 (angle_zero_rot e U) C p) as Q. unfold r3_apply. rewrite Q, A. apply vec_eq; cbn; ring.
  - intros H. pose proof (H v_zero) as T. rewrite <- trans_apply in T. split.
    + rewrite T. unfold vdot. cbn. ring.
    + assert (get_angle e = 0) as ->; [|ring]. apply angle_zero_rot; [exact U|]. intros p.
      specialize (H p). unfold r3_apply in H. rewrite T in H. rewrite <- H at 2. apply vec_eq; cbn; ring.
Qed.
Lemma error_zero p1 p2 x : unit3 p1 -> unit3 p2 -> unit3 x ->
  ((e_trans2 (compute_error p1 p2 x) = 0 /\ e_rot2 (compute_error p1 p2 x) = 0) <->
   forall p, r3_apply p2 p = r3_apply (r3_mul p1 x) p).
Proof.
  intros A B X. pose proof (r3_inv_unit _ A) as IA. pose proof (r3_inv_unit _ X) as IX.
  unfold compute_error. cbn [e_trans2 e_rot2]. rewrite still by (auto using r3_mul_unit).
  split; intros H p.
  - specialize (H (r3_apply x p)). rewrite !r3_action in H by (auto using r3_mul_unit).
    rewrite <- (r3_action (r3_inv x) x), r3_inv_l, r3_id_apply in H by auto.
    rewrite r3_action by auto. rewrite <- H, <- (r3_action p1 (r3_inv p1)), r3_inv_r, r3_id_apply by auto. reflexivity.
  - rewrite !r3_action by (auto using r3_mul_unit). rewrite H, r3_action by auto.
    rewrite <- (r3_action x (r3_inv x)), r3_inv_r, r3_id_apply by auto.
    rewrite <- (r3_action (r3_inv p1) p1), r3_inv_l, r3_id_apply by auto. reflexivity.
Qed.
Lemma inverse_angle a : unit3 a -> get_angle (r3_inv a) = get_angle a.
Proof. intros A. apply angle_of_w; [now apply r3_inv_unit|exact A|reflexivity]. Qed.
Lemma swap_angle p1 p2 x : unit3 p1 -> unit3 p2 -> unit3 x ->
  e_rot2 (compute_error p2 p1 (r3_inv x)) = e_rot2 (compute_error p1 p2 x).
Proof.
  intros A B X. pose proof (r3_inv_unit _ A) as IA. pose proof (r3_inv_unit _ X) as IX. pose proof (r3_inv_unit _ B) as IB.
  unfold compute_error. cbn [e_rot2].
  assert (E : get_angle (r3_mul (r3_mul (r3_inv p2) p1) (r3_inv (r3_inv x))) =
              get_angle (r3_mul (r3_mul (r3_inv p1) p2) (r3_inv x))).
  { rewrite r3_inv_inv by exact X. set (s := r3_mul (r3_inv p1) p2). assert (S : unit3 s) by (apply r3_mul_unit; auto).
    assert (I : r3_mul (r3_inv p2) p1 = r3_inv s).
    { unfold s. rewrite r3_inv_mul, r3_inv_inv by auto. reflexivity. }
    rewrite I. rewrite <- (inverse_angle (r3_mul (r3_inv s) x)) by (auto using r3_mul_unit, r3_inv_unit).
    pose proof (r3_inv_unit _ S) as IS. rewrite r3_inv_mul, r3_inv_inv by auto.
    apply angle_of_w; [now apply r3_mul_unit|now apply r3_mul_unit|].
    rewrite !r3_mul_rot by auto. f_equal. unfold qmul. cbn. ring. }
  now rewrite E.
Qed.

(* statistics *)
Lemma fold_plus l : forall a, fold_left Rplus l a = a + total (fun x => x) l.
Proof. induction l as [|x l IH]; intros a; cbn [fold_left total]; [lra|]. rewrite IH. lra. Qed.
Lemma fold_squares m l : forall a, fold_left (fun s v => s + (v - m) * (v - m)) l a = a + total (fun x => (x - m) * (x - m)) l.
Proof. induction l as [|x l IH]; intros a; cbn [fold_left total]; [lra|]. rewrite IH. lra. Qed.
Lemma total_pos f l : (forall x, 0 <= f x) -> 0 <= total f l.
Proof. intros H. induction l as [|x l IH]; cbn; [lra|]. specialize (H x). lra. Qed.
Lemma mean_spec l m s : mean_and_std_dev l = Some (m, s) <->
  (2 <= length l)%nat /\ m * INR (length l) = total (fun x => x) l /\
  0 <= s /\ s * s * (INR (length l) - 1) = total (fun x => (x - m) * (x - m)) l.
Proof.
  unfold mean_and_std_dev, sum_of. destruct (Nat.leb_spec 2 (length l)) as [L | L].
  2: { split; [discriminate|lia]. }
  assert (N : 2 <= INR (length l)). { change 2 with (INR 2). now apply le_INR. }
  rewrite fold_plus, fold_squares, !Rplus_0_l. split.
  - intros E. injection E as <- <-. split; [exact L|]. split; [field; lra|]. split; [apply sqrt_pos|].
    rewrite sqrt_def; [field; lra|]. apply Rmult_le_pos; [apply total_pos; intros z; apply (Rle_0_sqr (z - _))|]. apply Rlt_le, Rinv_0_lt_compat. lra.
  - intros [_ [M [P S]]].
    assert (E : total (fun x => x) l / INR (length l) = m) by (rewrite <- M; field; lra).
    rewrite E, <- S. do 2 f_equal. replace (s * s * _ / _) with (s * s) by (field; lra). now apply sqrt_square.
Qed.

(* looking up *)
Section Lookup.
Variable blend : Z * rigid3 -> Z * rigid3 -> Z -> rigid3.
Definition stamped (nodes : list tnode) := map (fun n => (tn_time n, tn_pose n)) nodes.
Lemma increasing_order nodes : increasing_times nodes -> in_order (stamped nodes).
Proof.
  induction nodes as [|n nodes IH]; intros H; [constructor|]. cbn. constructor.
  - apply IH. intros i j a b L A B. apply (H (S i) (S j) a b); auto. lia.
  - apply Forall_forall. intros x I. apply in_map_iff in I. destruct I as [m [<- I]].
    apply In_nth_error in I. destruct I as [k K]. cbn. pose proof (H 0%nat (S k) n m ltac:(lia) eq_refl K). lia.
Qed.
Lemma lookup_node nodes b n : increasing_times nodes -> (Z.of_nat (length nodes) < 2 ^ 64)%Z ->
  from_trajectory (stamped nodes) = Some b -> In n nodes -> lookup_transform blend b (tn_time n) = Some (tn_pose n).
Proof.
  intros I L E N. pose proof (increasing_order _ I) as O.
  destruct (C13_trajectory _ (stamped nodes) O) as [b' [E' Q]]; [unfold stamped; now rewrite map_length|].
  rewrite E in E'. injection E' as <-.
  assert (LO : limits_ok (map (fun n : Z * rigid3 => Push (fst n) (snd n)) (stamped nodes))).
  { intros z Hz. apply in_map_iff in Hz. destruct Hz as [? [? _]]. discriminate. }
  destruct (C13_lookup _ blend _ b (tn_time n) LO E) as [H1 [_ H2]].
  assert (NI : In (tn_time n, tn_pose n) (items b)).
  { rewrite Q. apply in_map_iff. exists n. auto. }
  assert (H : has b (tn_time n) = true) by (apply H1; do 2 eexists; split; [exact NI|split; [exact NI|cbn; lia]]).
  assert (X : lookup blend b (tn_time n) = Some (tn_pose n)).
  { specialize (H2 H). rewrite Q in H2. destruct H2 as [[l1 [p [l2 [S [F K]]]]] | [l1 [s [a [l2 [S [F K]]]]]]]; rewrite K; f_equal.
    - assert (Ip : In (tn_time n, p) (stamped nodes)) by (rewrite S; apply in_elt).
      apply in_map_iff in Ip. destruct Ip as [m [Em Im]]. injection Em as T <-.
      apply In_nth_error in Im, N. destruct Im as [i Mi], N as [j Nj].
      destruct (Nat.lt_trichotomy i j) as [W | [-> | W]].
      + pose proof (I _ _ _ _ W Mi Nj). lia.
      + congruence.
      + pose proof (I _ _ _ _ W Nj Mi). lia.
    - exfalso. assert (In (tn_time n, tn_pose n) (stamped nodes)) as J by (rewrite <- Q; exact NI).
      rewrite S in J, O. clear - J O F. remember (tn_time n) as tt eqn:TT. remember (tn_pose n) as pp eqn:PP. induction l1 as [|y l1 IH]; cbn in J, O.
      + inversion O as [|? ? O1 F1]; subst. inversion O1 as [|? ? O2 F2]; subst. rewrite Forall_forall in F2.
        destruct J as [J | [J | J]]; [subst s|subst a|apply F2 in J]; cbn in *; lia.
      + inversion O as [|? ? O1 F1]; subst. destruct J as [J | J]; [subst y|auto].
        rewrite Forall_forall in F1. assert (In s (l1 ++ s :: a :: l2)) as Is by apply in_elt. apply F1 in Is. cbn in Is. lia. }
  unfold lookup_transform. unfold earliest_time. rewrite Q. destruct nodes as [|n0 nodes]; [destruct N|].
  cbn [stamped map hd_error option_map fst]. rewrite H. exact X.
Qed.

Lemma kept_small t all mc me ra cs rs k : unit_trajectory t -> unit_constraints cs ->
  chosen t all mc me ra cs rs k -> Forall (fun r => exists n1 n2, In n1 (tr_nodes t) /\ In n2 (tr_nodes t) /\
    r_time1 r = tn_time n1 /\ r_time2 r = tn_time n2 /\
    sqrt (e_trans2 (compute_error (tn_pose n1) (tn_pose n2) (r_expected r))) <= me /\
    sqrt (e_rot2 (compute_error (tn_pose n1) (tn_pose n2) (r_expected r))) <= ra) rs.
Proof.
  intros U UC H. induction H as [| | | | |c cs rs k s i d n1 n2 sm K Q SM B H IH]; [constructor|..];
    inversion UC as [|? ? Uc UC']; subst; auto.
  constructor; [|auto]. destruct K as [G [T0 [S [I [A1 [A2 D]]]]]].
  exists n1, n2. cbn [r_time1 r_time2 r_expected].
  split; [destruct A1 as [_ A1]; eapply nth_error_In, A1|]. split; [destruct A2 as [_ A2]; eapply nth_error_In, A2|].
  do 2 (split; [reflexivity|]).
  pose proof (at_unit t U _ _ A1) as U1. pose proof (at_unit t U _ _ A2) as U2. pose proof (sub_unit t U _ _ SM) as U3.
  unfold compute_error. cbn [e_trans2 e_rot2]. unfold predicted.
  pose proof (r3_mul_unit _ _ U3 Uc) as UX. pose proof (r3_inv_unit _ UX) as IUX. pose proof (r3_mul_unit _ _ U2 IUX) as UD.
  rewrite error_conj by auto. fold (vnorm (trans (r3_mul (r3_mul (r3_inv (tn_pose n1)) (r3_mul (tn_pose n2) (r3_inv (r3_mul (ts_pose sm) (gc_pose c))))) (tn_pose n1)))).
  rewrite conj_trans, conj_angle by auto. unfold bad, discrepancy, predicted in B.
  destruct (angle_ok _ UD) as [[P _] _]. rewrite sqrt_square by exact P.
  split; apply Rnot_lt_le; intros W; apply B; auto.
Qed.

Lemma lookup_any nodes b : increasing_times nodes -> (Z.of_nat (length nodes) < 2 ^ 64)%Z ->
  from_trajectory (stamped nodes) = Some b -> forall t n,
  (lookup_transform blend b t = None <-> nodes = []) /\
  (has b t = true -> lookup_transform blend b t = lookup blend b t) /\
  (In n nodes -> (forall m, In m nodes -> (tn_time n <= tn_time m)%Z) -> (t <= tn_time n)%Z ->
    lookup_transform blend b t = Some (tn_pose n)) /\
  (In n nodes -> (forall m, In m nodes -> (tn_time m <= tn_time n)%Z) -> (tn_time n <= t)%Z ->
    lookup_transform blend b t = Some (tn_pose n)).
Proof.
  intros I L E t n. pose proof (increasing_order _ I) as O.
  destruct (C13_trajectory _ (stamped nodes) O) as [b' [E' Q]]; [unfold stamped; now rewrite map_length|].
  rewrite E in E'. injection E' as <-.
  assert (LO : limits_ok (map (fun n : Z * rigid3 => Push (fst n) (snd n)) (stamped nodes))).
  { intros z Hz. apply in_map_iff in Hz. destruct Hz as [? [? _]]. discriminate. }
  destruct (C13_lookup _ blend _ b t LO E) as [H1 [_ H2]].
  destruct nodes as [|n0 nodes].
  { assert (X : earliest_time rigid3 b = None) by (unfold earliest_time; rewrite Q; reflexivity).
    unfold lookup_transform. rewrite X. split; [tauto|]. split; [|split; intros []].
    intros H. apply H1 in H. destruct H as [x [_ [K _]]]. rewrite Q in K. destruct K. }
  assert (X : earliest_time rigid3 b = Some (tn_time n0)) by (unfold earliest_time; rewrite Q; reflexivity).
  assert (In n0 (n0 :: nodes)) as N0 by (left; reflexivity).
  pose proof (lookup_node _ b n0 I L E N0) as L0.
  assert (LN : exists nl, In nl (n0 :: nodes) /\ latest_time rigid3 b = Some (tn_time nl)).
  { unfold latest_time. rewrite Q. unfold stamped. rewrite <- map_rev.
    destruct (rev (n0 :: nodes)) as [|nl r] eqn:Rv.
    - apply (f_equal (@length _)) in Rv. rewrite rev_length in Rv. discriminate.
    - exists nl. split; [|reflexivity]. apply in_rev. rewrite Rv. left. reflexivity. }
  destruct LN as [nl [NL X']]. pose proof (lookup_node _ b nl I L E NL) as LL.
  assert (HI : forall m, In m (n0 :: nodes) -> has b (tn_time m) = true).
  { intros m M. apply (proj2 (proj1 (C13_lookup _ blend _ b (tn_time m) LO E))).
    assert (In (tn_time m, tn_pose m) (items b)) as K by (rewrite Q; apply in_map_iff; exists m; auto).
    do 2 eexists. split; [exact K|]. split; [exact K|cbn; lia]. }
  assert (HR : forall m, In m (n0 :: nodes) -> (tn_time n0 <= tn_time m <= tn_time nl)%Z).
  { intros m M. pose proof (HI m M) as K. unfold has in K. rewrite X, X' in K. apply andb_prop in K.
    destruct K as [K1 K2]. apply Z.leb_le in K1, K2. lia. }
  assert (D : lookup_transform blend b t = if has b t then lookup blend b t else
    if Z.ltb t (tn_time n0) then Some (tn_pose n0) else Some (tn_pose nl)).
  { unfold lookup_transform in *. rewrite X in *. rewrite X'. rewrite (HI n0 N0) in L0. rewrite (HI nl NL) in LL.
    destruct (has b t); [reflexivity|]. destruct (Z.ltb t (tn_time n0)); assumption. }
  assert (HT : has b t = ((tn_time n0 <=? t)%Z && (t <=? tn_time nl)%Z)%bool) by (unfold has; rewrite X, X'; reflexivity).
  assert (SAME : forall a c, In a (n0 :: nodes) -> In c (n0 :: nodes) -> tn_time a = tn_time c -> a = c).
  { intros a c A C T. apply In_nth_error in A, C. destruct A as [i A], C as [j C].
    destruct (Nat.lt_trichotomy i j) as [W | [-> | W]]; [pose proof (I _ _ _ _ W A C); lia|congruence|pose proof (I _ _ _ _ W C A); lia]. }
  split; [|split; [|split]].
  - split; [|discriminate]. rewrite D. destruct (has b t); [|destruct (Z.ltb _ _); discriminate].
    intros K. destruct (H2 eq_refl) as [[? [? [? [_ [_ Y]]]]] | [? [? [? [? [_ [_ Y]]]]]]]; congruence.
  - intros K. rewrite D, K. reflexivity.
  - intros N M T. assert (n = n0) as ->.
    { apply SAME; auto. pose proof (M n0 N0). pose proof (HR n N). lia. }
    destruct (Z.eq_dec t (tn_time n0)) as [-> | Y]; [exact L0|]. rewrite D, HT.
    destruct (Z.leb_spec (tn_time n0) t); [lia|]. cbn [andb]. destruct (Z.ltb_spec t (tn_time n0)); [reflexivity|lia].
  - intros N M T. assert (n = nl) as ->.
    { apply SAME; auto. pose proof (M nl NL). pose proof (HR n N). lia. }
    destruct (Z.eq_dec t (tn_time nl)) as [-> | Y]; [exact LL|]. rewrite D, HT.
    pose proof (HR n0 N0).
    destruct (Z.leb_spec t (tn_time nl)); [lia|]. rewrite andb_false_r. destruct (Z.ltb_spec t (tn_time n0)); [lia|reflexivity].
Qed.
End Lookup.
