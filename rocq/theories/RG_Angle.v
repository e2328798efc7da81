(* Angle-axis vectors and rotation quaternions. *)
From Coq Require Import ZArith Reals Lia Lra.
From Verif Require Import CF_Model CF_Spec CF_Proofs RG_Model RG_Spec RG_Proofs.
Open Scope R_scope.

Definition polar (h : R) (u : vec3 R) : quat := mk_quat (cos h) (sin h * v0 u) (sin h * v1 u) (sin h * v2 u).

Lemma polar_unit h u : dot u u = 1 -> is_unit (polar h u).
Proof.
  intros U. unfold is_unit, polar, dot in *. qcbn.
  transitivity (cos h * cos h + sin h * sin h * (v0 u * v0 u + v1 u * v1 u + v2 u * v2 u)); [ring|].
  rewrite U. pose proof (sc h). lra.
Qed.
Lemma polar_turned h u p : dot u u = 1 -> qrot (polar h u) p = turned u (2 * h) p.
Proof.
  intros U. destruct (double (2 * h)) as [C S]. replace (2 * h / 2) with h in C, S by field.
  unfold turned. rewrite C, S. unfold dot in *.
  assert (E : forall k q, k = q * (v0 u * v0 u + v1 u * v1 u + v2 u * v2 u) -> k = q)
    by (intros k q ->; rewrite U; ring).
  assert (Z : forall a b c, a - b = c * (v0 u * v0 u + v1 u * v1 u + v2 u * v2 u - 1) -> a = b)
    by (intros a b c H; rewrite U in H; lra).
  unfold polar. apply vec_eq; qcbn.
  - apply Z with (- 2 * sin h * sin h * v0 p). ring.
  - apply Z with (- 2 * sin h * sin h * v1 p). ring.
  - apply Z with (- 2 * sin h * sin h * v2 p). ring.
Qed.

Lemma vdot_pos v : 0 <= vdot v v.
Proof. unfold vdot. nra. Qed.
Lemma vnorm_sq v : vnorm v * vnorm v = vdot v v.
Proof. unfold vnorm. apply sqrt_sqrt, vdot_pos. Qed.
Lemma vnorm_pos v : 0 <= vnorm v.
Proof. apply sqrt_pos. Qed.
Lemma sq_unique a b : 0 <= a -> 0 <= b -> a * a = b * b -> a = b.
Proof. intros. nra. Qed.

Definition upper (q : quat) : quat := if Rlt_dec (qw q) 0 then qneg q else q.
Lemma upper_cases q : upper q = q \/ upper q = qneg q.
Proof. unfold upper. destruct (Rlt_dec _ _); auto. Qed.
Lemma upper_w q : 0 <= qw (upper q).
Proof. unfold upper. destruct (Rlt_dec _ _); [cbn; lra | lra]. Qed.
Lemma upper_unit q : is_unit q -> is_unit (upper q).
Proof. destruct (upper_cases q) as [-> | ->]; auto using unit_neg. Qed.
Lemma upper_rot q p : qrot (upper q) p = qrot q p.
Proof. destruct (upper_cases q) as [-> | ->]; [reflexivity | apply qrot_neg]. Qed.
Lemma upper_abs q : qw (upper q) = Rabs (qw q) /\ vnorm (qvec (upper q)) = vnorm (qvec q).
Proof.
  unfold upper. destruct (Rlt_dec _ _) as [L | L].
  - split; [cbn; rewrite Rabs_left; lra|]. unfold vnorm. f_equal. qcbn. ring.
  - split; [rewrite Rabs_pos_eq; lra | reflexivity].
Qed.

Definition half (q : quat) : R := atan2 (vnorm (qvec q)) (qw q).
Lemma half_spec q : is_unit q -> 0 <= qw q -> 0 <= half q <= PI / 2 /\ cos (half q) = qw q /\ sin (half q) = vnorm (qvec q).
Proof.
  intros U W. set (s := vnorm (qvec q)).
  assert (SS : s * s = vdot (qvec q) (qvec q)) by apply vnorm_sq.
  assert (SP : 0 <= s) by apply vnorm_pos.
  assert (N : qw q * qw q + s * s = 1) by (rewrite SS; unfold is_unit in U; rewrite <- U; qcbn; ring).
  destruct (atan2_polar s (qw q)) as [r [P [R2 [X [Y B]]]]].
  { destruct (Req_dec (qw q) 0) as [Z | Z]; [right | now left]. intros Z'. rewrite Z, Z' in N. lra. }
  assert (R1 : r = 1) by nra. subst r. fold s in Y |- *. unfold half. fold s. rewrite Rmult_1_l in X, Y.
  set (h := atan2 s (qw q)) in *. clearbody h. pose proof PI_RGT_0. split; [|split; congruence].
  split.
  - destruct (Rle_dec 0 h) as [L | L]; [exact L|exfalso].
    assert (0 < sin (- h)) by (apply sin_gt_0; lra). rewrite sin_neg in *. lra.
  - destruct (Rle_dec h (PI / 2)) as [L | L]; [exact L|exfalso].
    assert (cos h < 0) by (apply cos_lt_0; lra). lra.
Qed.

(* every rotation quaternion, up to its sign, is a turn by at most a half turn about an axis *)
Lemma polar_form q : is_unit q -> 0 <= qw q -> exists u, dot u u = 1 /\ q = polar (half q) u.
Proof.
  intros U W. destruct (half_spec q U W) as [B [C S]]. set (s := vnorm (qvec q)) in *.
  assert (SS : s * s = vdot (qvec q) (qvec q)) by apply vnorm_sq.
  destruct (Req_dec s 0) as [Z | Z].
  - exists (mk_vec3 1 0 0). split; [unfold dot; cbn; ring|]. rewrite Z in SS, S. qcbn.
    assert (qx q = 0 /\ qy q = 0 /\ qz q = 0) as [X [Y Z']] by (repeat split; nra).
    apply quat_eq; cbn; rewrite ?C, ?S; lra.
  - exists (vscale (/ s) (qvec q)). split.
    + transitivity (/ s * / s * (s * s)); [rewrite SS; unfold dot; qcbn; ring | field; exact Z].
    + apply quat_eq; cbn; rewrite ?C, ?S; try reflexivity; field; exact Z.
Qed.

Lemma get_angle_half a : is_unit (rot a) -> get_angle a = 2 * half (upper (rot a)).
Proof.
  intros U. unfold get_angle, half. destruct (upper_abs (rot a)) as [-> ->]. reflexivity.
Qed.
Lemma angle_ok a : is_unit (rot a) -> 0 <= get_angle a <= PI /\
  exists u, dot u u = 1 /\ forall p, qrot (rot a) p = turned u (get_angle a) p.
Proof.
  intros U. rewrite get_angle_half by exact U. pose proof (upper_unit _ U) as U'. pose proof (upper_w (rot a)) as W.
  destruct (half_spec _ U' W) as [B _]. split; [lra|].
  destruct (polar_form _ U' W) as [u [D E]]. exists u. split; [exact D|]. intros p.
  rewrite <- upper_rot, E at 1. now apply polar_turned.
Qed.

Lemma to_unit q : is_unit q -> to_angle_axis q =
  let n := upper q in let t := 2 * half n in
  let scale := if Rlt_dec t (1 / 10000000) then 2 else t / sin (t / 2) in
  vscale scale (qvec n).
Proof.
  intros U. unfold to_angle_axis. rewrite normalized_unit by exact U. fold (upper q).
  unfold half. cbv zeta. apply vec_eq; qcbn; ring.
Qed.
Lemma of_polar v : 1 / 100000000 < vdot v v ->
  of_angle_axis v = polar (vnorm v / 2) (vscale (/ vnorm v) v) /\ dot (vscale (/ vnorm v) v) (vscale (/ vnorm v) v) = 1 /\
  1 / 10000 < vnorm v.
Proof.
  intros B. pose proof (vnorm_sq v) as N. pose proof (vnorm_pos v) as P.
  assert (L : 1 / 10000 < vnorm v) by nra.
  unfold of_angle_axis. destruct (Rlt_dec _ _); [|contradiction]. split; [|split; [|exact L]].
  - unfold polar. apply quat_eq; qcbn; try reflexivity; field; lra.
  - transitivity (/ vnorm v * / vnorm v * (vnorm v * vnorm v)); [rewrite N; unfold dot; qcbn; ring | field; lra].
Qed.

Lemma of_turned v p : 1 / 100000000 < vdot v v ->
  qrot (of_angle_axis v) p = turned (vscale (/ vnorm v) v) (vnorm v) p.
Proof.
  intros B. destruct (of_polar v B) as [-> [D _]]. rewrite polar_turned by exact D. f_equal. field.
Qed.
Lemma of_unit v : 1 / 100000000 < vdot v v -> is_unit (of_angle_axis v).
Proof. intros B. destruct (of_polar v B) as [-> [D _]]. now apply polar_unit. Qed.

Lemma vnorm_scale k v : vnorm (vscale k v) = Rabs k * vnorm v.
Proof.
  apply sq_unique; [apply vnorm_pos | apply Rmult_le_pos; [apply Rabs_pos | apply vnorm_pos] |].
  rewrite vnorm_sq. replace (Rabs k * vnorm v * (Rabs k * vnorm v)) with (Rabs k * Rabs k * (vnorm v * vnorm v)) by ring.
  rewrite vnorm_sq, <- Rabs_mult, Rabs_pos_eq by nra. qcbn. ring.
Qed.
Lemma vscale_scale a b v : vscale a (vscale b v) = vscale (a * b) v.
Proof. apply vec_eq; qcbn; ring. Qed.
Lemma qvec_polar h u : qvec (polar h u) = vscale (sin h) u.
Proof. apply vec_eq; unfold polar; qcbn; ring. Qed.
Lemma unit_norm u : dot u u = 1 -> vnorm u = 1.
Proof. intros D. unfold vnorm. change (vdot u u) with (dot u u). rewrite D. apply sqrt_1. Qed.

(* to_angle_axis of a turn by less than a full turn *)
Lemma to_polar h u : dot u u = 1 -> 1 / 10000000 <= 2 * h -> h <= PI / 2 -> to_angle_axis (polar h u) = vscale (2 * h) u.
Proof.
  intros D L B. pose proof (polar_unit h u D) as U. rewrite to_unit by exact U. cbv zeta.
  assert (C : 0 <= cos h) by (apply cos_ge_0; lra).
  assert (E : upper (polar h u) = polar h u).
  { unfold upper. destruct (Rlt_dec _ _) as [X | X]; [cbn in X; lra | reflexivity]. }
  pose proof PI_RGT_0 as PP.
  assert (S : 0 < sin h) by (apply sin_gt_0; lra).
  rewrite E. assert (Hh : half (polar h u) = h).
  { unfold half. rewrite qvec_polar, vnorm_scale, (unit_norm u D), Rabs_pos_eq by lra.
    cbn [polar qw]. rewrite <- (Rmult_1_l (cos h)), (Rmult_comm (sin h)). apply atan2_exact; lra. }
  rewrite Hh. destruct (Rlt_dec _ _) as [X | X]; [lra|]. rewrite qvec_polar, vscale_scale. f_equal.
  replace (2 * h / 2) with h by field. field. lra.
Qed.
Lemma to_neg q : is_unit q -> qw q <> 0 -> to_angle_axis (qneg q) = to_angle_axis q.
Proof.
  intros U W. rewrite !to_unit by auto using unit_neg.
  assert (E : upper (qneg q) = upper q); [|now rewrite E].
  assert (E2 : qneg (qneg q) = q) by (apply quat_eq; qcbn; ring).
  unfold upper. cbn [qneg qw]. destruct (Rlt_dec (- qw q) 0), (Rlt_dec (qw q) 0); try lra; [exact E2 | reflexivity].
Qed.

(* vector -> quaternion -> vector *)
Lemma to_of v : 1 / 100000000 < vdot v v -> vnorm v <= PI -> to_angle_axis (of_angle_axis v) = v.
Proof.
  intros B P. destruct (of_polar v B) as [-> [D L]]. rewrite to_polar; [| exact D | lra | lra].
  rewrite vscale_scale. replace (2 * (vnorm v / 2) * / vnorm v) with 1 by (field; lra). apply vec_eq; qcbn; ring.
Qed.
(* ... a longer vector comes back as the same turn the short way round *)
Lemma to_of_long v : PI < vnorm v -> vnorm v <= 2 * PI - 1 / 10000000 ->
  to_angle_axis (of_angle_axis v) = vscale ((vnorm v - 2 * PI) / vnorm v) v.
Proof.
  intros A P. pose proof PI_RGT_0 as PP. pose proof pi_big as PB. pose proof (vnorm_sq v) as N.
  assert (B : 1 / 100000000 < vdot v v) by (rewrite <- N; nra).
  destruct (of_polar v B) as [-> [D L]]. set (u := vscale (/ vnorm v) v) in *. set (h := vnorm v / 2).
  assert (E : polar h u = qneg (polar (PI - h) (vneg u))).
  { apply quat_eq; unfold polar; qcbn; rewrite ?neg_cos, ?sin_PI_x; try ring.
    replace (PI - h) with (- (h - PI)) by ring. rewrite cos_neg. unfold Rminus.
    rewrite cos_plus, cos_neg, sin_neg, cos_PI, sin_PI. ring. }
  assert (D' : dot (vneg u) (vneg u) = 1) by (rewrite <- D; unfold dot; qcbn; ring).
  rewrite E, to_neg; [| now apply polar_unit | cbn; apply Rgt_not_eq, cos_gt_0; unfold h; lra].
  rewrite to_polar; [| exact D' | unfold h; lra | unfold h; lra].
  unfold u, h. apply vec_eq; qcbn; field; lra.
Qed.

Lemma sin_le h : 0 <= h -> sin h <= h.
Proof. intros H. destruct (Req_dec h 0) as [-> | N]; [rewrite sin_0; lra | apply Rlt_le, sin_lt_x; lra]. Qed.
Lemma cos_lower h : 1 - h * h / 2 <= cos h.
Proof.
  destruct (double h) as [C _]. rewrite C.
  assert (K : forall x, 0 <= x -> sin x * sin x <= x * x).
  { intros x X. destruct (Rle_dec x 1) as [L | L].
    - pose proof pi_big. assert (0 <= sin x) by (apply sin_ge_0; lra). pose proof (sin_le x X). nra.
    - pose proof (sc x). nra. }
  assert (S : sin (h / 2) * sin (h / 2) <= h / 2 * (h / 2)).
  { destruct (Rle_dec 0 h) as [P | P]; [apply K; lra|]. specialize (K (- (h / 2)) ltac:(lra)). rewrite sin_neg in K. lra. }
  lra.
Qed.
Lemma sin_lower h : 0 <= h <= 1 -> h - h * h * h / 2 <= sin h.
Proof.
  intros [A B]. pose proof pi_big as P.
  destruct (SIN h A ltac:(lra)) as [L _]. unfold sin_lb, sin_approx, sum_f_R0, sin_term in L.
  change (2 * 0 + 1)%nat with 1%nat in L. change (2 * 1 + 1)%nat with 3%nat in L.
  change (2 * 2 + 1)%nat with 5%nat in L. change (2 * 3 + 1)%nat with 7%nat in L. rewrite !INR_IZR_INZ in L.
  change (Z.of_nat (fact 1)) with 1%Z in L. change (Z.of_nat (fact 3)) with 6%Z in L.
  change (Z.of_nat (fact 5)) with 120%Z in L. change (Z.of_nat (fact 7)) with 5040%Z in L.
  assert (E : h - h * h * h / 6 <= sin h).
  { eapply Rle_trans; [|exact L]. apply Rminus_le.
    match goal with |- ?e <= 0 => replace e with (- (h * h * h * h * h) * (1 / 120 - h * h / 5040)) end.
    - assert (0 <= h * h * h * h * h) by (repeat apply Rmult_le_pos; assumption).
      assert (0 <= 1 / 120 - h * h / 5040) by nra. nra.
    - field. }
  assert (0 <= h * h * h) by (repeat apply Rmult_le_pos; assumption). lra.
Qed.

Lemma upper_upper q : upper (upper q) = upper q.
Proof. pose proof (upper_w q). unfold upper at 1. destruct (Rlt_dec _ _); [lra | reflexivity]. Qed.
Lemma to_upper q : is_unit q -> to_angle_axis q = to_angle_axis (upper q).
Proof. intros U. rewrite !to_unit by auto using upper_unit. now rewrite upper_upper. Qed.
Lemma vdot_scale k u : dot u u = 1 -> vdot (vscale k u) (vscale k u) = k * k.
Proof. intros D. transitivity (k * k * dot u u); [unfold dot; qcbn; ring | rewrite D; ring]. Qed.
Lemma vnorm_scale_unit k u : dot u u = 1 -> 0 <= k -> vnorm (vscale k u) = k.
Proof. intros D K. rewrite vnorm_scale, (unit_norm u D), Rabs_pos_eq; lra. Qed.

Lemma to_small q : is_unit q -> 2 * half (upper q) < 1 / 10000000 -> to_angle_axis q = vscale 2 (qvec (upper q)).
Proof. intros U H. rewrite to_unit by exact U. cbv zeta. destruct (Rlt_dec _ _); [reflexivity | contradiction]. Qed.
Lemma to_big q u : is_unit q -> dot u u = 1 -> upper q = polar (half (upper q)) u -> 1 / 10000000 <= 2 * half (upper q) ->
  to_angle_axis q = vscale (2 * half (upper q)) u.
Proof.
  intros U D E L. rewrite to_upper by exact U. rewrite E at 1.
  apply to_polar; [exact D | exact L | exact (proj2 (proj1 (half_spec _ (upper_unit _ U) (upper_w q))))].
Qed.

(* quaternion -> vector -> quaternion *)
Lemma of_to q : is_unit q -> 1 / 10000 < 2 * half (upper q) -> of_angle_axis (to_angle_axis q) = upper q.
Proof.
  intros U L. pose proof (upper_unit _ U) as U'. pose proof (upper_w q) as W.
  destruct (polar_form _ U' W) as [u [D E]]. rewrite (to_big q u U D E) by lra. set (h := half (upper q)) in *.
  destruct (of_polar (vscale (2 * h) u)) as [F _]; [rewrite vdot_scale by exact D; nra|].
  rewrite F, vnorm_scale_unit, vscale_scale by (assumption || lra).
  replace (2 * h / 2) with h by field. rewrite E. f_equal.
  replace (/ (2 * h) * (2 * h)) with 1 by (field; lra). apply vec_eq; qcbn; ring.
Qed.
Definition near (e : R) (a b : quat) : Prop :=
  Rabs (qw a - qw b) <= e /\ Rabs (qx a - qx b) <= e /\ Rabs (qy a - qy b) <= e /\ Rabs (qz a - qz b) <= e.
Lemma unit_comp u : dot u u = 1 -> Rabs (v0 u) <= 1 /\ Rabs (v1 u) <= 1 /\ Rabs (v2 u) <= 1.
Proof. unfold dot. intros D. repeat split; apply Rabs_le; nra. Qed.
Lemma of_to_small q : is_unit q -> 2 * half (upper q) <= 1 / 10000 ->
  near (2 / 1000000000) (of_angle_axis (to_angle_axis q)) (upper q).
Proof.
  intros U L. pose proof (upper_unit _ U) as U'. pose proof (upper_w q) as W.
  destruct (polar_form _ U' W) as [u [D E]]. destruct (half_spec _ U' W) as [[P _] [C S]].
  set (h := half (upper q)) in *.
  assert (HH : h * h <= 1 / 400000000) by nra.
  pose proof (cos_lower h) as CL. pose proof (COS_bound h) as CU. pose proof (sin_le h P) as SL.
  pose proof (sin_lower h ltac:(lra)) as SU. destruct (unit_comp u D) as [A0 [A1 A2]].
  assert (H3 : h * h * h / 2 <= 1 / 1000000000000) by nra.
  assert (SP : 0 <= sin h) by (rewrite S; apply vnorm_pos).
  assert (M : forall a, Rabs a <= 1 -> Rabs (h * a - sin h * a) <= 2 / 1000000000).
  { intros a Ha. replace (h * a - sin h * a) with ((h - sin h) * a) by ring. rewrite Rabs_mult, (Rabs_pos_eq (h - sin h)) by lra.
    pose proof (Rabs_pos a). nra. }
  assert (CC : Rabs (1 - cos h) <= 2 / 1000000000) by (apply Rabs_le; lra).
  assert (OF : forall k, 0 <= k <= 1 / 10000 -> of_angle_axis (vscale k u) = mk_quat 1 (k / 2 * v0 u) (k / 2 * v1 u) (k / 2 * v2 u)).
  { intros k K. unfold of_angle_axis. rewrite vdot_scale by exact D. destruct (Rlt_dec _ _) as [X | X]; [nra|].
    apply quat_eq; qcbn; lra. }
  destruct (Rle_dec (1 / 10000000) (2 * h)) as [B | B].
  - rewrite (to_big q u U D E B). fold h. rewrite OF by lra. rewrite E. unfold near, polar. cbn [qw qx qy qz].
    replace (2 * h / 2) with h by field. auto.
  - rewrite (to_small q U) by (fold h; lra). rewrite E, qvec_polar, vscale_scale. rewrite OF by lra.
    unfold near, polar. cbn [qw qx qy qz]. replace (2 * sin h / 2) with (sin h) by field.
    unfold Rminus at 2 3 4. rewrite !Rplus_opp_r, Rabs_R0. repeat split; lra || exact CC.
Qed.

(* short vectors, where the quaternion is not normalized *)
Lemma normalized_idem q : qnormalized (qnormalized q) = qnormalized q.
Proof.
  unfold qnormalized at 2 3. destruct (Rlt_dec 0 (qnorm2 q)) as [P | P].
  - apply normalized_unit.
    replace (qscale (/ qnorm q) q) with (qnormalized q) by (unfold qnormalized; destruct (Rlt_dec _ _); [reflexivity | contradiction]).
    apply normalized_is_unit. intros ->. qcbn. lra.
  - unfold qnormalized. destruct (Rlt_dec _ _); [contradiction | reflexivity].
Qed.
Lemma to_normalized q : to_angle_axis q = to_angle_axis (qnormalized q).
Proof. unfold to_angle_axis. now rewrite normalized_idem. Qed.
Lemma to_of_small v : vdot v v <= 1 / 100000000 ->
  exists k, to_angle_axis (of_angle_axis v) = vscale k v /\ Rabs (k - 1) <= 1 / 100000000.
Proof.
  intros B. pose proof (vnorm_sq v) as N. pose proof (vnorm_pos v) as NP. set (m := vnorm v) in *.
  assert (M4 : m <= 1 / 10000) by nra.
  assert (OF : of_angle_axis v = mk_quat 1 (1 / 2 * v0 v) (1 / 2 * v1 v) (1 / 2 * v2 v)).
  { unfold of_angle_axis. destruct (Rlt_dec _ _); [lra | reflexivity]. }
  destruct (Req_dec m 0) as [Z | Z].
  - exists 1. split; [|rewrite Rminus_eq_0, Rabs_R0; lra].
    assert (V : v = v_zero).
    { rewrite Z in N. qcbn. apply vec_eq; cbn; nra. }
    assert (OF' : of_angle_axis v = q_one) by (rewrite OF, V; apply quat_eq; cbn; lra).
    rewrite OF', to_unit by exact unit_one. cbv zeta.
    assert (UP : upper q_one = q_one) by (unfold upper; destruct (Rlt_dec _ _) as [X | X]; [cbn in X; lra | reflexivity]).
    rewrite UP, V. apply vec_eq; qcbn; ring.
  - set (u := vscale (/ m) v). set (h := atan (m / 2)).
    assert (D : dot u u = 1).
    { transitivity (/ m * / m * (m * m)); [rewrite N; unfold u, dot; qcbn; ring | field; exact Z]. }
    pose proof (cos_atan_pos (m / 2)) as CP. pose proof (sin_atan_eq (m / 2)) as SE. fold h in CP, SE.
    assert (H0 : 0 < h) by (unfold h; rewrite <- atan_0; apply atan_increasing; lra).
    assert (H1 : h < 1).
    { apply Rlt_trans with (atan 1); [apply atan_increasing; lra|]. rewrite atan_1. pose proof PI_4.
      assert (PI <> 4); [|lra]. intros E4. pose proof (SIN_bound 1).
      pose proof (cos_lower 1). assert (X : 0 < sin (PI / 4)) by (apply sin_gt_0; lra).
      assert (Y : sin (PI / 4) = cos (PI / 4)) by (rewrite sin_PI4, cos_PI4; reflexivity).
      replace (PI / 4) with 1 in * by lra. pose proof (sin_lower 1 ltac:(lra)). pose proof (sc 1).
      assert (Q2 : sin 1 * sin 1 = 1 / 2) by nra. pose proof (SIN 1 ltac:(lra) ltac:(lra)) as [L1 _].
      unfold sin_lb, sin_approx, sum_f_R0, sin_term in L1.
      change (2 * 0 + 1)%nat with 1%nat in L1. change (2 * 1 + 1)%nat with 3%nat in L1.
      change (2 * 2 + 1)%nat with 5%nat in L1. change (2 * 3 + 1)%nat with 7%nat in L1. rewrite !INR_IZR_INZ in L1.
      change (Z.of_nat (fact 1)) with 1%Z in L1. change (Z.of_nat (fact 3)) with 6%Z in L1.
      change (Z.of_nat (fact 5)) with 120%Z in L1. change (Z.of_nat (fact 7)) with 5040%Z in L1.
      rewrite !pow1 in L1. cbn [pow] in L1. assert (4 / 5 < sin 1) by lra. nra. }
    pose proof (sin_lower h ltac:(lra)) as SL. pose proof (sin_le h ltac:(lra)) as SU.
    pose proof (cos_lower h) as CL. pose proof (COS_bound h) as [_ CU].
    assert (S2 : sin h <= m / 2) by nra.
    assert (HM : h <= m) by nra.
    assert (HH : h * h / 2 <= 1 / 200000000) by nra.
    assert (NQ : qnormalized (of_angle_axis v) = polar h u).
    { rewrite OF. unfold qnormalized.
      assert (N2 : qnorm2 (mk_quat 1 (1 / 2 * v0 v) (1 / 2 * v1 v) (1 / 2 * v2 v)) = 1 + m / 2 * (m / 2)).
      { qcbn. replace (m / 2 * (m / 2)) with (m * m / 4) by field. rewrite N. field. }
      rewrite N2. destruct (Rlt_dec _ _) as [X | X]; [|nra].
      assert (NN : / qnorm (mk_quat 1 (1 / 2 * v0 v) (1 / 2 * v1 v) (1 / 2 * v2 v)) = cos h).
      { unfold qnorm. rewrite N2. apply Rmult_eq_reg_l with (sqrt (1 + m / 2 * (m / 2))).
        2:{ apply Rgt_not_eq, sqrt_lt_R0. exact X. }
        rewrite Rinv_r by (apply Rgt_not_eq, sqrt_lt_R0; exact X).
        apply sq_unique; [lra | apply Rmult_le_pos; [apply sqrt_pos | lra] |].
        replace (sqrt (1 + m / 2 * (m / 2)) * cos h * (sqrt (1 + m / 2 * (m / 2)) * cos h)) with
          (sqrt (1 + m / 2 * (m / 2)) * sqrt (1 + m / 2 * (m / 2)) * (cos h * cos h)) by ring.
        rewrite sqrt_sqrt by lra. pose proof (sc h) as SC. rewrite SE in SC. lra. }
      rewrite NN. unfold polar, u. rewrite SE. apply quat_eq; qcbn; field; exact Z. }
    rewrite to_normalized, NQ.
    destruct (Rle_dec (1 / 10000000) (2 * h)) as [T | T].
    + exists (2 * h / m). rewrite to_polar; [|exact D | exact T | unfold h; pose proof (atan_range (m / 2)); lra].
      split; [unfold u; rewrite vscale_scale; f_equal|].
      assert (E : 2 * h / m - 1 = (h * cos h - sin h) / sin h).
      { rewrite SE. field. lra. }
      rewrite E. assert (SP : 0 < sin h) by (rewrite SE; nra).
      assert (A : Rabs (h * cos h - sin h) <= 1 / 100000000 * sin h).
      { apply Rabs_le. assert (h * (h * h / 2) <= h * (1 / 200000000)) by nra. split; nra. }
      unfold Rdiv at 1. rewrite Rabs_mult, (Rabs_pos_eq (/ sin h)) by (apply Rlt_le, Rinv_0_lt_compat; exact SP).
      apply Rmult_le_reg_r with (sin h); [exact SP|]. rewrite Rmult_assoc, Rinv_l, Rmult_1_r by lra. exact A.
    + exists (cos h). pose proof (polar_unit h u D) as U. 
      assert (UP : upper (polar h u) = polar h u).
      { unfold upper. destruct (Rlt_dec _ _) as [X | X]; [cbn in X; lra | reflexivity]. }
      rewrite to_small; [| exact U |].
      * rewrite UP, qvec_polar, vscale_scale. unfold u. rewrite vscale_scale. split.
        -- f_equal. rewrite SE. field. exact Z.
        -- apply Rabs_le. lra.
      * rewrite UP. unfold half. rewrite qvec_polar, vnorm_scale_unit by (assumption || nra). cbn [polar qw].
        rewrite <- (Rmult_1_l (sin h)), <- (Rmult_1_l (cos h)), atan2_exact; [lra | lra |].
        pose proof (atan_range (m / 2)). unfold h. lra.
Qed.

Lemma to_zero q : is_unit q -> (to_angle_axis q = v_zero <-> q = q_one \/ q = qneg q_one).
Proof.
  intros U. pose proof (upper_unit _ U) as U'. pose proof (upper_w q) as W.
  destruct (half_spec _ U' W) as [[P H2] [C S]]. rewrite to_unit by exact U. cbv zeta. set (h := half (upper q)) in *.
  set (k := if Rlt_dec _ _ then _ else _).
  assert (K : k <> 0).
  { unfold k. destruct (Rlt_dec _ _) as [X | X]; [lra|]. replace (2 * h / 2) with h by field. pose proof PI_RGT_0.
    assert (0 < sin h) by (apply sin_gt_0; lra). apply Rgt_not_eq, Rdiv_lt_0_compat; lra. }
  assert (E : qneg (qneg q) = q) by (apply quat_eq; qcbn; ring).
  split.
  - intros Z. assert (V : qx (upper q) = 0 /\ qy (upper q) = 0 /\ qz (upper q) = 0).
    { unfold vscale, v_zero, qvec in Z. cbn [v0 v1 v2] in Z. injection Z. intros Z1 Z2 Z3.
      apply Rmult_integral in Z1, Z2, Z3. tauto. }
    destruct V as [X [Y Z']]. assert (W1 : qw (upper q) = 1) by (unfold is_unit in U'; qcbn; rewrite X, Y, Z' in U'; nra).
    assert (UQ : upper q = q_one) by (apply quat_eq; cbn; assumption).
    destruct (upper_cases q) as [F | F]; [left; congruence | right; rewrite <- E; congruence].
  - intros H. assert (V : qvec (upper q) = v_zero).
    { destruct (upper_cases q) as [-> | ->], H as [-> | ->]; apply vec_eq; qcbn; ring. }
    rewrite V. apply vec_eq; qcbn; ring.
Qed.
Lemma to_norm q : is_unit q -> 1 / 10000000 <= 2 * half (upper q) -> vnorm (to_angle_axis q) = 2 * half (upper q).
Proof.
  intros U L. pose proof (upper_unit _ U) as U'. pose proof (upper_w q) as W.
  destruct (polar_form _ U' W) as [u [D E]]. rewrite (to_big q u U D E L). apply vnorm_scale_unit; [exact D | lra].
Qed.

(* a transform whose rotation is not quite a unit quaternion, and its inverse() *)
Lemma conj_square q : qmul q (qconj q) = mk_quat (qnorm2 q) 0 0 0.
Proof. apply quat_eq; qcbn; ring. Qed.
Lemma qrot_form q p : qrot q p = vadd (Q q p) (vscale (1 - qnorm2 q) p).
Proof. unfold Q. apply vec_eq; qcbn; ring. Qed.
Lemma Q_dot q a b : vdot (Q q a) (Q q b) = qnorm2 q * qnorm2 q * vdot a b.
Proof.
  rewrite !dot_pure, !pure_Q.
  assert (C : qmul (qconj q) q = mk_quat (qnorm2 q) 0 0 0) by (apply quat_eq; qcbn; ring).
  assert (E : qmul (qmul (qmul q (pure a)) (qconj q)) (qmul (qmul q (pure b)) (qconj q)) =
    qmul (qmul q (qscale (qnorm2 q) (qmul (pure a) (pure b)))) (qconj q)).
  { rewrite !qmul_assoc. f_equal. rewrite <- (qmul_assoc (qmul q (pure a)) (qconj q) q), C.
    rewrite <- !qmul_assoc. f_equal. generalize (pure a) (pure b). intros x y. apply quat_eq; qcbn; ring. }
  rewrite E, qw_conj_by. generalize (qmul (pure a) (pure b)). intros x. unfold qscale. cbn [qw]. ring.
Qed.
Lemma Q_conj q p : Q q (Q (qconj q) p) = vscale (qnorm2 q * qnorm2 q) p.
Proof.
  apply pure_inj. rewrite !pure_Q, qconj_invol, !qmul_assoc.
  pose proof (conj_square q) as C. rewrite C, <- (qmul_assoc _ q (qconj q)), C. unfold pure. apply quat_eq; qcbn; ring.
Qed.
Lemma Q_add q a b : Q q (vadd a b) = vadd (Q q a) (Q q b).
Proof. unfold Q. apply vec_eq; qcbn; ring. Qed.
Lemma Q_scale q k a : Q q (vscale k a) = vscale k (Q q a).
Proof. unfold Q. apply vec_eq; qcbn; ring. Qed.
Lemma qnorm2_conj q : qnorm2 (qconj q) = qnorm2 q.
Proof. qcbn. ring. Qed.
Lemma vdot_two a b : vdot (vadd a b) (vadd a b) <= 2 * vdot a a + 2 * vdot b b.
Proof.
  assert (0 <= vdot (vsub a b) (vsub a b)) by apply vdot_pos. qcbn. lra.
Qed.
Lemma vdot_scaled k t : vdot (vscale k t) (vscale k t) = k * k * vdot t t.
Proof. qcbn. ring. Qed.
Lemma vdot_swap w t : vdot (vadd (vneg w) t) (vadd (vneg w) t) = vdot (vsub w t) (vsub w t).
Proof. qcbn. ring. Qed.
Lemma inverse_error q t : let n := qnorm2 q in let d := vsub (qrot q (qrot (qconj q) t)) t in
  vdot d d <= (1 - n) * (1 - n) * (16 * (n * n)) * vdot t t.
Proof.
  cbv zeta. set (n := qnorm2 q). set (x := Q q t). set (y := Q (qconj q) t).
  assert (E : vsub (qrot q (qrot (qconj q) t)) t =
    vscale (1 - n) (vadd (vadd x (vscale (- n) t)) (vadd y (vscale (- n) t)))).
  { rewrite !qrot_form, qnorm2_conj, Q_add, Q_scale, Q_conj. fold n x y. clearbody n x y. unfold vadd, vsub, vscale. apply vec_eq; cbn [v0 v1 v2]; ring. }
  assert (X : vdot x x = n * n * vdot t t) by apply Q_dot.
  assert (Y : vdot y y = n * n * vdot t t) by (unfold y; rewrite Q_dot, qnorm2_conj; reflexivity).
  assert (N : vdot (vscale (- n) t) (vscale (- n) t) = n * n * vdot t t) by (rewrite vdot_scaled; ring).
  rewrite E. clearbody x y n. set (z := vadd _ _).
  assert (Z : vdot z z <= 16 * (n * n) * vdot t t).
  { unfold z. eapply Rle_trans; [apply vdot_two|].
    pose proof (vdot_two x (vscale (- n) t)). pose proof (vdot_two y (vscale (- n) t)). lra. }
  rewrite vdot_scaled.
  rewrite (Rmult_assoc ((1 - n) * (1 - n)) _ (vdot t t)). apply Rmult_le_compat_l; [apply Rle_0_sqr | exact Z].
Qed.
Lemma inverse_valid a : r3_valid a ->
  rot (r3_mul a (r3_inv a)) = q_one /\ vnorm (trans (r3_mul a (r3_inv a))) <= 81 / 10000 * vnorm (trans a).
Proof.
  unfold r3_valid. intros V. apply Rabs_def2 in V. set (q := rot a) in *.
  assert (P : qnorm q * qnorm q = qnorm2 q).
  { unfold qnorm. apply sqrt_sqrt. unfold qnorm2. nra. }
  assert (B : 998001 / 1000000 < qnorm2 q < 1002001 / 1000000) by nra.
  cbn [r3_mul r3_inv rot trans]. fold q. split.
  - rewrite conj_square.
    unfold qnormalized, qnorm. assert (S : qnorm2 (mk_quat (qnorm2 q) 0 0 0) = qnorm2 q * qnorm2 q) by (unfold qnorm2; cbn; ring).
    rewrite S, sqrt_square by lra. destruct (Rlt_dec _ _) as [_ | N]; [|nra].
    apply quat_eq; cbn; try ring. field. lra.
  - set (t := trans a). rewrite qrot_vneg. pose proof (inverse_error q t) as E. cbv zeta in E.
    set (n := qnorm2 q) in *. set (w := qrot q (qrot (qconj q) t)) in *.
    pose proof (vdot_swap w t) as D.
    assert (K : (1 - n) * (1 - n) * (16 * (n * n)) <= 81 / 10000 * (81 / 10000)).
    { assert (K1 : - (2001 / 1000000) < 1 - n < 2001 / 1000000) by lra.
      assert (K2 : (1 - n) * (1 - n) <= 2001 / 1000000 * (2001 / 1000000)) by nra.
      assert (K3 : 16 * (n * n) <= 16 * (1002001 / 1000000 * (1002001 / 1000000))) by nra.
      assert (0 <= (1 - n) * (1 - n)) by apply Rle_0_sqr. assert (0 <= n * n) by apply Rle_0_sqr.
      eapply Rle_trans; [apply Rmult_le_compat; [assumption | lra | exact K2 | exact K3] | lra]. }
    pose proof (vdot_pos t) as T. rewrite <- D in E. pose proof (vnorm_sq (vadd (vneg w) t)) as W. pose proof (vnorm_sq t) as Wt.
    apply Rsqr_incr_0_var; [|apply Rmult_le_pos; [lra | apply vnorm_pos]]. unfold Rsqr. rewrite W.
    replace (81 / 10000 * vnorm t * (81 / 10000 * vnorm t)) with (81 / 10000 * (81 / 10000) * (vnorm t * vnorm t)) by ring.
    rewrite Wt. eapply Rle_trans; [exact E|]. apply Rmult_le_compat_r; [exact T | exact K].
Qed.
