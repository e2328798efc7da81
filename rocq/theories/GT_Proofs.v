(* Proofs about the generation of ground truth (used by Properties_GT). *)
From Coq Require Import Reals ZArith Lra Lia Psatz.
From Verif Require Import CF_Model RG_Model RG_Spec RG_Proofs RG_Angle TIB_Model GT_Model GT_Spec.
From Coq Require Import List Bool.
Import ListNotations.
Open Scope R_scope.

Lemma r3_inv_mul a b : unit3 a -> unit3 b -> r3_inv (r3_mul a b) = r3_mul (r3_inv b) (r3_inv a).
Proof.
  intros A B. pose proof (r3_mul_unit _ _ A B) as AB. pose proof (r3_inv_unit _ A) as IA. pose proof (r3_inv_unit _ B) as IB.
  pose proof (r3_inv_unit _ AB) as IAB. pose proof (r3_mul_unit _ _ IB IA) as IBA.
  rewrite <- (r3_id_r (r3_inv (r3_mul a b))) by exact IAB.
  assert (E : r3_mul (r3_mul a b) (r3_mul (r3_inv b) (r3_inv a)) = r3_id).
  { rewrite r3_assoc by auto. rewrite <- (r3_assoc a b (r3_inv b)) by auto. rewrite r3_inv_r by exact B.
    rewrite r3_id_r by exact A. now apply r3_inv_r. }
  rewrite <- E. rewrite r3_assoc by auto. rewrite r3_inv_l by exact AB. now apply r3_id_l.
Qed.
Lemma r3_inv_inv a : unit3 a -> r3_inv (r3_inv a) = a.
Proof.
  intros A. pose proof (r3_inv_unit _ A) as IA. pose proof (r3_inv_unit _ IA) as IIA.
  rewrite <- (r3_id_r (r3_inv (r3_inv a))) by exact IIA. rewrite <- (r3_inv_l a A).
  rewrite r3_assoc by auto. rewrite r3_inv_l by exact IA. now apply r3_id_l.
Qed.
Lemma qrot_zero q : qrot q v_zero = v_zero.
Proof. apply vec_eq; cbn; ring. Qed.
Lemma trans_apply a : trans a = r3_apply a v_zero.
Proof. unfold r3_apply. rewrite qrot_zero. apply vec_eq; cbn; ring. Qed.
Lemma distance_zero p : distance p v_zero = vnorm p.
Proof. unfold distance, vnorm. f_equal. unfold dist2, vdot. cbn. ring. Qed.
Lemma distance_sym p q : distance p q = distance q p.
Proof. unfold distance. f_equal. unfold dist2. ring. Qed.
Lemma distance_apply a p q : unit3 a -> distance (r3_apply a p) (r3_apply a q) = distance p q.
Proof.
  intros U. unfold distance. f_equal. pose proof (r3_isometry a p q U) as E.
  unfold dist2, vdot, vsub in *. cbn in *. lra.
Qed.
(* the translation of a conjugated motion *)
Lemma conj_trans p d : unit3 p -> unit3 d ->
  vnorm (trans (r3_mul (r3_mul (r3_inv p) d) p)) = distance (r3_apply d (trans p)) (trans p).
Proof.
  intros P D. pose proof (r3_inv_unit _ P) as IP.
  rewrite trans_apply, r3_action by (auto using r3_mul_unit). rewrite r3_action by auto.
  rewrite <- trans_apply, <- distance_zero.
  assert (Z : v_zero = r3_apply (r3_inv p) (trans p)).
  { rewrite (trans_apply p), <- r3_action, r3_inv_l by auto. now rewrite r3_id_apply. }
  rewrite Z at 1. now apply distance_apply.
Qed.
Lemma angle_of_w a b : is_unit (rot a) -> is_unit (rot b) -> Rabs (qw (rot a)) = Rabs (qw (rot b)) -> get_angle a = get_angle b.
Proof.
  intros A B E. unfold get_angle. rewrite E. do 2 f_equal. unfold vnorm. f_equal.
  assert (S : qw (rot a) * qw (rot a) = qw (rot b) * qw (rot b)).
  { rewrite <- (Rabs_pos_eq (qw (rot a) * _)) by nra. rewrite <- (Rabs_pos_eq (qw (rot b) * _)) by nra.
    rewrite !Rabs_mult, E. reflexivity. }
  unfold is_unit, qnorm2 in *. unfold vdot, qvec. cbn. lra.
Qed.
Lemma conj_w p d : is_unit p -> qw (qmul (qmul (qconj p) d) p) = qw d.
Proof. intros U. rewrite <- (qconj_invol p) at 2. rewrite qw_conj_by. rewrite (unit_conj _ U). ring. Qed.
Lemma conj_angle p d : unit3 p -> unit3 d -> get_angle (r3_mul (r3_mul (r3_inv p) d) p) = get_angle d.
Proof.
  intros P D. pose proof (r3_inv_unit _ P) as IP. pose proof (r3_mul_unit _ _ IP D) as ID.
  apply angle_of_w; [now apply r3_mul_unit|exact D|].
  rewrite r3_mul_rot, r3_mul_rot by auto. f_equal. apply conj_w, P.
Qed.
Lemma error_conj p1 p2 x : unit3 p1 -> unit3 p2 -> unit3 x ->
  r3_mul (r3_mul (r3_inv p1) p2) (r3_inv (r3_mul (r3_inv p1) x)) =
  r3_mul (r3_mul (r3_inv p1) (r3_mul p2 (r3_inv x))) p1.
Proof.
  intros A B X. pose proof (r3_inv_unit _ A) as IA. pose proof (r3_inv_unit _ X) as IX.
  rewrite r3_inv_mul, r3_inv_inv by auto.
  rewrite (r3_assoc (r3_mul (r3_inv p1) p2)) by auto using r3_mul_unit. f_equal.
  now rewrite r3_assoc by auto.
Qed.

(* the covered distance *)
Lemma relative_norm a b : unit3 a -> vnorm (trans (r3_mul (r3_inv a) b)) = distance (trans a) (trans b).
Proof.
  intros A. pose proof (r3_inv_unit _ A) as IA.
  assert (E : trans (r3_mul (r3_inv a) b) = r3_apply (r3_inv a) (trans b)) by reflexivity.
  rewrite E, <- distance_zero.
  assert (Z : v_zero = r3_apply (r3_inv a) (trans a)).
  { rewrite (trans_apply a), <- r3_action, r3_inv_l by auto. now rewrite r3_id_apply. }
  rewrite Z at 1. rewrite distance_apply by exact IA. apply distance_sym.
Qed.
Lemma path_cons2 p q r : path_length (p :: q :: r) = distance p q + path_length (q :: r).
Proof. reflexivity. Qed.
Lemma path_app a x b : path_length (a ++ x :: b) = path_length (a ++ [x]) + path_length (x :: b).
Proof.
  induction a as [|p a IH]; [cbn [app]; change (path_length [x]) with 0; lra|].
  destruct a as [|q a].
  - cbn [app]. rewrite !path_cons2. change (path_length [x]) with 0. lra.
  - cbn [app] in *. rewrite !path_cons2, IH. lra.
Qed.
Lemma distance_pos p q : 0 <= distance p q.
Proof. apply sqrt_pos. Qed.
Lemma path_pos l : 0 <= path_length l.
Proof.
  induction l as [|p r IH]; [cbn; lra|]. destruct r as [|q r]; [cbn; lra|]. rewrite path_cons2.
  pose proof (distance_pos p q). lra.
Qed.
Lemma covered_len d a l : length (covered_from d a l) = length l.
Proof. revert d a. induction l as [|n l IH]; intros; cbn [covered_from length]; auto. Qed.
Lemma covered_nth l : forall d a k x, unit3 a -> Forall (fun n => unit3 (tn_pose n)) l ->
  nth_error (covered_from d a l) k = Some x -> x = d + path_length (trans a :: firstn (S k) (positions l)).
Proof.
  induction l as [|n l IH]; intros d a k x A U E; [destruct k; discriminate|].
  inversion U as [|? ? N U']; subst. cbn [covered_from] in E. rewrite relative_norm in E by exact A.
  destruct k as [|k].
  - cbn [nth_error] in E. injection E as <-. cbn [positions map firstn]. rewrite path_cons2. change (path_length [_]) with 0. lra.
  - cbn [nth_error] in E. apply IH in E; auto. rewrite E.
    change (firstn (S (S k)) (positions (n :: l))) with (trans (tn_pose n) :: firstn (S k) (positions l)).
    rewrite path_cons2. lra.
Qed.
Lemma covered_ok t cov : unit_trajectory t -> covered_distance t = Some cov ->
  length cov = length (tr_nodes t) /\
  forall k x, nth_error cov k = Some x -> x = path_length (firstn (S k) (positions (tr_nodes t))).
Proof.
  intros [U _] E. unfold covered_distance in E. destruct (tr_nodes t) as [|n l]; [discriminate|].
  injection E as <-. inversion U as [|? ? N U']; subst. split; [cbn; now rewrite covered_len|].
  intros [|k] x E; cbn [nth_error] in E.
  - injection E as <-. reflexivity.
  - apply covered_nth in E; auto. rewrite E. cbn [positions map]. change (firstn (S (S k)) (?a :: ?b)) with (a :: firstn (S k) b).
    unfold positions. lra.
Qed.
Lemma path_split l i j x : (i <= j)%nat -> nth_error l i = Some x ->
  path_length (firstn (S j) l) = path_length (firstn (S i) l) + path_length (firstn (S j - i) (skipn i l)).
Proof.
  intros L E. destruct (nth_error_split _ _ E) as [a [b [-> <-]]].
  rewrite skipn_app, skipn_all, Nat.sub_diag. cbn [skipn app].
  rewrite !firstn_app. rewrite (firstn_all2 (n := S j) a), (firstn_all2 (n := S (length a)) a) by lia.
  replace (S (length a) - length a)%nat with 1%nat by lia. replace (S j - length a)%nat with (S (j - length a)) by lia.
  cbn [firstn]. now rewrite path_app.
Qed.
Lemma between t cov i j x y : unit_trajectory t -> covered_distance t = Some cov ->
  at_index cov i = Some x -> at_index cov j = Some y ->
  Rabs (y - x) = travelled (positions (tr_nodes t)) i j.
Proof.
  intros U E X Y. destruct (covered_ok t cov U E) as [L C]. unfold at_index in X, Y.
  destruct (Z.ltb_spec i 0) as [|I]; [discriminate|]. destruct (Z.ltb_spec j 0) as [|J]; [discriminate|].
  pose proof (C _ _ X) as X1. pose proof (C _ _ Y) as Y1.
  assert (G : forall k z, nth_error cov k = Some z -> exists p, nth_error (positions (tr_nodes t)) k = Some p).
  { intros k z K. destruct (nth_error (positions (tr_nodes t)) k) eqn:N; [eauto|].
    apply nth_error_None in N. unfold positions in N. rewrite map_length, <- L in N.
    apply nth_error_None in N. congruence. }
  unfold travelled, segment. destruct (Z.leb_spec i j) as [O | O].
  - destruct (G _ _ X) as [p P]. rewrite (path_split _ (Z.to_nat i) (Z.to_nat j) p) in Y1 by (lia || exact P).
    rewrite Y1, X1. replace (Z.to_nat (j - i + 1)) with (S (Z.to_nat j) - Z.to_nat i)%nat by lia.
    rewrite Rabs_pos_eq; [lra|]. match goal with |- 0 <= ?a + ?b - ?a => pose proof (path_pos (firstn (S (Z.to_nat j) - Z.to_nat i) (skipn (Z.to_nat i) (positions (tr_nodes t))))) end. lra.
  - destruct (G _ _ Y) as [p P]. rewrite (path_split _ (Z.to_nat j) (Z.to_nat i) p) in X1 by (lia || exact P).
    rewrite Y1, X1. replace (Z.to_nat (i - j + 1)) with (S (Z.to_nat i) - Z.to_nat j)%nat by lia.
    pose proof (path_pos (firstn (S (Z.to_nat i) - Z.to_nat j) (skipn (Z.to_nat j) (positions (tr_nodes t))))).
    rewrite Rabs_left1 by lra. lra.
Qed.
(* a path is not shorter than the straight line *)
Lemma triangle p q r : distance p r <= distance p q + distance q r.
Proof.
  unfold distance. apply Rsqr_incr_0_var.
  2: { pose proof (sqrt_pos (dist2 p q)). pose proof (sqrt_pos (dist2 q r)). lra. }
  assert (N : forall a b, 0 <= dist2 a b) by (intros a b; unfold dist2; pose proof (Rle_0_sqr (v0 a - v0 b)); pose proof (Rle_0_sqr (v1 a - v1 b)); pose proof (Rle_0_sqr (v2 a - v2 b)); unfold Rsqr in *; lra).
  unfold Rsqr. replace ((sqrt (dist2 p q) + sqrt (dist2 q r)) * (sqrt (dist2 p q) + sqrt (dist2 q r)))
    with (sqrt (dist2 p q) * sqrt (dist2 p q) + sqrt (dist2 q r) * sqrt (dist2 q r) + 2 * (sqrt (dist2 p q) * sqrt (dist2 q r))) by ring.
  rewrite !sqrt_def by apply N. rewrite <- sqrt_mult by apply N.
  assert (S : (v0 p - v0 q) * (v0 q - v0 r) + (v1 p - v1 q) * (v1 q - v1 r) + (v2 p - v2 q) * (v2 q - v2 r)
     <= sqrt (dist2 p q * dist2 q r)).
  { apply Rsqr_incr_0_var; [|apply sqrt_pos]. unfold Rsqr. rewrite sqrt_def by (pose proof (N p q); pose proof (N q r); nra).
    unfold dist2. generalize (v0 p - v0 q) (v1 p - v1 q) (v2 p - v2 q) (v0 q - v0 r) (v1 q - v1 r) (v2 q - v2 r).
    intros a b c d e f. pose proof (Rle_0_sqr (a * e - b * d)). pose proof (Rle_0_sqr (a * f - c * d)). pose proof (Rle_0_sqr (b * f - c * e)).
    unfold Rsqr in *. lra. }
  unfold dist2 in *. lra.
Qed.
Lemma path_straight l p q : hd_error l = Some p -> hd_error (rev l) = Some q -> distance p q <= path_length l.
Proof.
  revert p. induction l as [|a l IH]; intros p P Q; [discriminate|]. cbn in P. injection P as ->.
  destruct l as [|b l].
  - cbn in Q. injection Q as <-. cbn. unfold distance, dist2. apply Req_le. rewrite <- sqrt_0. f_equal. ring.
  - rewrite path_cons2. specialize (IH b eq_refl). cbn [rev] in *.
    destruct (rev l ++ [b]) as [|z zs] eqn:Z; [destruct (rev l); discriminate|]. cbn [app hd_error] in Q, IH. specialize (IH Q).
    pose proof (triangle p b q). lra.
Qed.
