From Coq Require Import Reals List Arith Lra Lia Psatz.
From Verif Require Import CF_Model CF_Spec RG_Model RG_Proofs NE_Model NE_Spec.
Import ListNotations.
Open Scope R_scope.

(* windows *)
Lemma window_ok r p n : forall l, window r p n l = firstn (List.length (window r p n l)) l /\ in_window r p n l (List.length (window r p n l)).
Proof.
  induction n as [|n IH]; intros [|s l]; cbn [window List.length firstn];
    try (split; [reflexivity|]; unfold in_window; cbn; repeat split; try lia; try constructor; auto; fail).
  destruct (Rlt_dec (vnorm (vsub p s)) r) as [N | N]; cbn [List.length firstn].
  - destruct (IH l) as [A [B [C [D E]]]]. split; [f_equal; exact A|]. split; [lia|]. split; [cbn; lia|]. split.
    + constructor; [exact N | exact D].
    + cbn. destruct E as [E | [E | E]]; [left; lia | right; left; lia | right; right; exact E].
  - split; [reflexivity|]. split; [lia|]. split; [cbn; lia|]. split; [constructor|]. right. right. exists s. split; [reflexivity | exact N].
Qed.

(* normals of samples *)
Ltac vcbn := unfold dot2, cross2, vdot, vsub, vadd, vscale in *; cbn [v0 v1 v2] in *.
Lemma side_norm p s : vnorm (mk_vec3 (- v1 (vsub p s)) (v0 (vsub p s)) 0) = length2 (vsub p s).
Proof. unfold vnorm, length2. f_equal. vcbn. ring. Qed.
Lemma near_zero origin p s : ~ far p s -> sample_normal origin p s = mk_vec3 0 0 0.
Proof.
  intros F. unfold sample_normal. cbn zeta. rewrite side_norm. unfold min_normal_length. destruct (Rlt_dec _ _); [reflexivity|]. unfold far in F. lra.
Qed.
Lemma vnorm_neg v : vnorm (vscale (- 1) v) = vnorm v.
Proof. unfold vnorm. f_equal. vcbn. ring. Qed.
Lemma length2_sq v : length2 v * length2 v = dot2 v v.
Proof. unfold length2. apply sqrt_sqrt. pose proof (Rle_0_sqr (v0 v)). pose proof (Rle_0_sqr (v1 v)). unfold Rsqr, dot2 in *. lra. Qed.
Lemma far_across origin p s : far p s -> across origin p s (sample_normal origin p s).
Proof.
  intros F. unfold far in F. unfold sample_normal. cbn zeta. rewrite side_norm. unfold min_normal_length. destruct (Rlt_dec _ _); [lra|].
  set (L := length2 (vsub p s)) in *. assert (L0 : 0 < / L) by (apply Rinv_0_lt_compat; lra).
  pose proof (length2_sq (vsub p s)) as Q. fold L in Q. assert (I : / L * L = 1) by (apply Rinv_l; lra).
  destruct (Rlt_dec _ _) as [D | D]; rewrite ?vnorm_neg, side_norm; fold L; unfold across; vcbn;
    set (i := / L) in *; set (x := v0 p - v0 s) in *; set (y := v1 p - v1 s) in *; clearbody i L x y;
    assert (U : i * i * (x * x + y * y) = 1) by (rewrite <- Q; replace (i * i * (L * L)) with ((i * L) * (i * L)) by ring; rewrite I; ring).
  - split; [ring|]. split; [rewrite <- U; ring|]. split; [ring|].
    assert (E : 0 < i * - (- y * (v0 origin - v0 p) + x * (v1 origin - v1 p) + 0 * (v2 origin - v2 p))) by (apply Rmult_lt_0_compat; lra).
    split; [|intros Z]; lra.
  - split; [ring|]. split; [rewrite <- U; ring|]. split; [ring|].
    assert (E : 0 <= i * (- y * (v0 origin - v0 p) + x * (v1 origin - v1 p) + 0 * (v2 origin - v2 p))) by (apply Rmult_le_pos; lra).
    split; [lra|]. intros _. replace (x * (i * x) - y * (i * - y)) with (i * (x * x + y * y)) by ring.
    apply Rmult_lt_0_compat; [exact L0|]. assert (0 < L * L) by (apply Rmult_lt_0_compat; lra). lra.
Qed.

Lemma far_dec p s : {far p s} + {~ far p s}.
Proof. unfold far. destruct (Rle_dec (1 / 1000000) (length2 (vsub p s))); [left | right]; assumption. Qed.
Lemma vadd_assoc a b c : vadd (vadd a b) c = vadd a (vadd b c).
Proof. vcbn. f_equal; ring. Qed.
Lemma vadd_0l a : vadd (mk_vec3 0 0 0) a = a.
Proof. destruct a as [x y z]. vcbn. f_equal; ring. Qed.
Lemma vadd_0r a : vadd a (mk_vec3 0 0 0) = a.
Proof. destruct a as [x y z]. vcbn. f_equal; ring. Qed.
Lemma mean_sum origin p samples : exists ns, all_across origin p samples ns /\ mean_normal origin p samples = sum_all ns.
Proof.
  assert (K : forall acc, exists ns, all_across origin p samples ns /\
    fold_left (fun sum s => vadd sum (sample_normal origin p s)) samples acc = vadd acc (sum_all ns)).
  { induction samples as [|s samples IH]; intros acc; cbn [fold_left all_across].
    - exists []. split; [reflexivity|]. cbn [sum_all fold_right]. symmetry. apply vadd_0r.
    - destruct (IH (vadd acc (sample_normal origin p s))) as [ns [A B]]. destruct (far_dec p s) as [F | F].
      + exists (sample_normal origin p s :: ns). split; [right; split; [exact F|]; exists (sample_normal origin p s), ns; split; [reflexivity|]; split; [apply far_across; exact F | exact A]|].
        rewrite B. cbn [sum_all fold_right]. apply vadd_assoc.
      + exists ns. split; [left; split; assumption|]. rewrite B, near_zero, vadd_0r by exact F. reflexivity. }
  destruct (K (mk_vec3 0 0 0)) as [ns [A B]]. exists ns. split; [exact A|]. unfold mean_normal. rewrite B. apply vadd_0l.
Qed.

(* one normal for each return *)
Lemma normals_length o origin : forall rest before, List.length (normals_from o origin before rest) = List.length rest.
Proof. induction rest as [|h rest IH]; intros before; cbn; [reflexivity|]. rewrite IH. reflexivity. Qed.
Lemma normals_nth o origin : forall b1 b0 p after,
  nth_error (normals_from o origin b0 (b1 ++ p :: after)) (List.length b1) =
  Some (estimate_normal origin p (window (n_radius o) p (n_samples o / 2) (rev b1 ++ b0)) (window (n_radius o) p ((n_samples o + 1) / 2 + 1) (p :: after))).
Proof.
  induction b1 as [|h b1 IH]; intros b0 p after; cbn [List.app normals_from List.length nth_error rev]; [reflexivity|].
  rewrite IH. rewrite <- List.app_assoc. reflexivity.
Qed.
Lemma vnorm_self p : vnorm (vsub p p) = 0.
Proof. unfold vnorm. replace (vdot (vsub p p) (vsub p p)) with 0 by (vcbn; ring). apply sqrt_0. Qed.
Lemma window_self r p n after : 0 < r -> window r p (n + 1) (p :: after) = p :: window r p n after.
Proof. intros R0. rewrite Nat.add_1_r. cbn [window]. rewrite vnorm_self. destruct (Rlt_dec 0 r); [reflexivity | contradiction]. Qed.
Lemma normal_at o origin before p after : 0 < n_radius o ->
  exists a samples, nth_error (estimate_normals2 o origin (before ++ p :: after)) (List.length before) = Some a /\
    samples_of o before p after samples /\
    ((samples = [] /\ a = atan2 (v1 origin - v1 p) (v0 origin - v0 p)) \/
     (samples <> [] /\ exists ns, all_across origin p samples ns /\ a = atan2 (v1 (sum_all ns)) (v0 (sum_all ns)))).
Proof.
  intros R0. unfold estimate_normals2. rewrite normals_nth, List.app_nil_r, window_self by exact R0.
  set (b := window (n_radius o) p (n_samples o / 2) (rev before)). set (f := window (n_radius o) p ((n_samples o + 1) / 2) after).
  destruct (window_ok (n_radius o) p (n_samples o / 2) (rev before)) as [B1 B2]. destruct (window_ok (n_radius o) p ((n_samples o + 1) / 2) after) as [F1 F2].
  fold b in B1, B2. fold f in F1, F2.
  eexists. exists (rev b ++ f). split; [reflexivity|]. split.
  - exists (List.length b), (List.length f). split; [exact B2|]. split; [exact F2|]. rewrite <- B1, <- F1. reflexivity.
  - unfold estimate_normal. cbn [List.length tl]. destruct (Nat.ltb_spec (List.length b + S (List.length f)) 2) as [L | L].
    + left. assert (List.length b = 0 /\ List.length f = 0)%nat as [X Y] by lia. apply length_zero_iff_nil in X, Y. rewrite X, Y. split; reflexivity.
    + right. split.
      * intros E. apply app_eq_nil in E. destruct E as [E1 E2]. rewrite E2 in L. apply (f_equal (@List.length _)) in E1. rewrite rev_length in E1. cbn in *. lia.
      * destruct (mean_sum origin p (rev b ++ f)) as [ns [A E]]. exists ns. split; [exact A|]. rewrite E. reflexivity.
Qed.

(* facing the origin *)
Lemma dot_sum d ns : dot2 (sum_all ns) d = fold_right (fun n s => dot2 n d + s) 0 ns.
Proof. induction ns as [|n ns IH]; cbn [sum_all fold_right]; [vcbn; ring|]. rewrite <- IH. unfold sum_all. vcbn. ring. Qed.
Lemma across_all_nonneg origin p samples : forall ns, all_across origin p samples ns -> Forall (fun n => 0 <= dot2 n (vsub origin p)) ns.
Proof.
  induction samples as [|s samples IH]; cbn; intros ns.
  - intros ->. constructor.
  - intros [[_ A] | [_ [n [ns' [-> [C A]]]]]]; [apply IH; exact A|]. constructor; [apply C | apply IH; exact A].
Qed.
Lemma sum_nonneg d ns : Forall (fun n => 0 <= dot2 n d) ns -> 0 <= dot2 (sum_all ns) d.
Proof. rewrite dot_sum. induction 1; cbn [fold_right]; lra. Qed.
Lemma across_strict origin p s n : across origin p s n -> cross2 (vsub p s) (vsub origin p) <> 0 -> 0 < dot2 n (vsub origin p).
Proof.
  intros [_ [U [T [D _]]]] C. destruct (Req_dec (dot2 n (vsub origin p)) 0) as [Z | N]; [|lra]. exfalso. apply C.
  set (t := vsub p s) in *. set (d := vsub origin p) in *.
  assert (E : cross2 t d * dot2 n n = dot2 n t * cross2 n d - cross2 n t * dot2 n d) by (unfold cross2, dot2; ring).
  rewrite U, T, Z in E. lra.
Qed.
Lemma sum_strict origin p samples : forall ns, all_across origin p samples ns ->
  Exists (fun s => far p s /\ cross2 (vsub p s) (vsub origin p) <> 0) samples -> 0 < dot2 (sum_all ns) (vsub origin p).
Proof.
  induction samples as [|s samples IH]; cbn [all_across]; intros ns A E; [inversion E|].
  destruct A as [[F A] | [F [n [ns' [-> [C A]]]]]].
  - inversion E as [? ? [G _] | ? ? G]; subst; [contradiction|]. apply IH; assumption.
  - rewrite dot_sum. cbn [fold_right]. rewrite <- dot_sum. pose proof (sum_nonneg _ _ (across_all_nonneg _ _ _ _ A)).
    inversion E as [? ? [_ G] | ? ? G]; subst.
    + pose proof (across_strict _ _ _ _ C G). lra.
    + pose proof (IH _ A G). destruct C as [_ [_ [_ [C _]]]]. lra.
Qed.
Lemma atan_points v d : 0 < dot2 v d -> points_to (atan2 (v1 v) (v0 v)) d.
Proof.
  intros P. destruct (atan2_polar (v1 v) (v0 v)) as [r [R0 [_ [X [Y _]]]]].
  { destruct (Req_dec (v0 v) 0) as [A | A]; [right | left; exact A]. intros B. unfold dot2 in P. rewrite A, B in P. lra. }
  unfold points_to. apply Rmult_lt_reg_l with r; [exact R0|]. rewrite Rmult_0_r.
  set (a := atan2 (v1 v) (v0 v)) in *. unfold dot2 in P. rewrite X, Y in P. lra.
Qed.

(* walls *)
Lemma across_unique origin p s n m : far p s -> across origin p s n -> v2 m = 0 -> dot2 m m = 1 -> dot2 m (vsub p s) = 0 -> 0 < dot2 m (vsub origin p) -> n = m.
Proof.
  intros F [Z [U [T [D _]]]] Z' U' T' D'. set (t := vsub p s) in *. set (d := vsub origin p) in *.
  assert (L : 0 < dot2 t t).
  { rewrite <- length2_sq. unfold far in F. fold t in F. apply Rmult_lt_0_compat; lra. }
  assert (C : cross2 n m = 0).
  { assert (E : cross2 n m * dot2 t t = dot2 n t * cross2 t m - dot2 m t * cross2 t n) by (unfold cross2, dot2; ring).
    rewrite T, T' in E. assert (cross2 n m * dot2 t t = 0) by lra. apply Rmult_integral in H. lra. }
  assert (E : n = vscale (dot2 n m) m).
  { destruct n as [n0 n1 n2], m as [m0 m1 m2]. unfold vscale, dot2, cross2 in *. cbn [v0 v1 v2] in *. subst n2 m2.
    assert (A0 : n0 = (n0 * m0 + n1 * m1) * m0).
    { replace n0 with (n0 * (m0 * m0 + m1 * m1)) at 1 by (rewrite U'; ring).
      replace (n0 * (m0 * m0 + m1 * m1)) with ((n0 * m0 + n1 * m1) * m0 + (n0 * m1 - n1 * m0) * m1) by ring. rewrite C. ring. }
    assert (A1 : n1 = (n0 * m0 + n1 * m1) * m1).
    { replace n1 with (n1 * (m0 * m0 + m1 * m1)) at 1 by (rewrite U'; ring).
      replace (n1 * (m0 * m0 + m1 * m1)) with ((n0 * m0 + n1 * m1) * m1 - (n0 * m1 - n1 * m0) * m0) by ring. rewrite C. ring. }
    f_equal; [exact A0 | exact A1 | ring]. }
  set (k := dot2 n m) in *. assert (K2 : k * k = 1).
  { rewrite E in U. unfold vscale, dot2 in U. cbn [v0 v1] in U. unfold dot2 in U'. 
    replace (k * v0 m * (k * v0 m) + k * v1 m * (k * v1 m)) with (k * k * (v0 m * v0 m + v1 m * v1 m)) in U by ring. rewrite U' in U. lra. }
  assert (K : k = 1).
  { assert (G : dot2 n d = k * dot2 m d) by (rewrite E at 1; unfold vscale, dot2; cbn [v0 v1]; ring).
    assert (0 <= k) by (destruct (Rle_dec 0 k); [assumption|]; nra). nra. }
  rewrite E, K. destruct m as [m0 m1 m2]. unfold vscale. cbn [v0 v1 v2]. f_equal; ring.
Qed.
Lemma wall_sum origin p m samples : v2 m = 0 -> dot2 m m = 1 -> 0 < dot2 m (vsub origin p) -> Forall (fun s => dot2 m (vsub p s) = 0) samples ->
  forall ns, all_across origin p samples ns -> exists k, sum_all ns = vscale (INR k) m /\ (Exists (far p) samples -> (0 < k)%nat).
Proof.
  intros Z U D. induction 1 as [|s samples T _ IH]; intros ns; cbn [all_across].
  - intros ->. exists 0%nat. split; [|intros E; inversion E]. cbn [sum_all fold_right]. unfold vscale. f_equal; cbn; ring.
  - intros [[F A] | [F [n [ns' [-> [C A]]]]]].
    + destruct (IH _ A) as [k [E H]]. exists k. split; [exact E|]. intros X. apply H. inversion X; subst; [contradiction | assumption].
    + destruct (IH _ A) as [k [E H]]. exists (S k). split; [|lia]. cbn [sum_all fold_right]. change (fold_right vadd (mk_vec3 0 0 0) ns') with (sum_all ns').
      rewrite E, (across_unique origin p s n m F C Z U T D). rewrite S_INR. unfold vadd, vscale. cbn [v0 v1 v2]. f_equal; ring.
Qed.
Lemma atan_scaled k m : 0 < k -> dot2 m m = 1 -> cos (atan2 (k * v1 m) (k * v0 m)) = v0 m /\ sin (atan2 (k * v1 m) (k * v0 m)) = v1 m.
Proof.
  intros K U. unfold dot2 in U. destruct (atan2_polar (k * v1 m) (k * v0 m)) as [r [R0 [R1 [X [Y _]]]]].
  { destruct (Req_dec (v0 m) 0) as [A | A].
    - right. intros B. apply Rmult_integral in B. destruct B as [B | B]; [lra|]. rewrite A, B in U. lra.
    - left. intros B. apply Rmult_integral in B. destruct B; lra. }
  assert (r = k).
  { replace (k * v0 m * (k * v0 m) + k * v1 m * (k * v1 m)) with (k * k * (v0 m * v0 m + v1 m * v1 m)) in R1 by ring. rewrite U in R1. nra. }
  subst r. split; apply Rmult_eq_reg_l with k; lra.
Qed.

(* turning everything *)
Lemma sc2 a : sin a * sin a + cos a * cos a = 1.
Proof. pose proof (sin2_cos2 a) as H. unfold Rsqr in H. exact H. Qed.
Lemma turned_sub a p q : vsub (turned2 a p) (turned2 a q) = turned2 a (vsub p q).
Proof. unfold turned2. vcbn. f_equal; ring. Qed.
Lemma turned_add a p q : vadd (turned2 a p) (turned2 a q) = turned2 a (vadd p q).
Proof. unfold turned2. vcbn. f_equal; ring. Qed.
Lemma turned_dot a p q : vdot (turned2 a p) (turned2 a q) = vdot p q.
Proof.
  unfold turned2. vcbn. pose proof (sc2 a) as S.
  replace ((cos a * v0 p - sin a * v1 p) * (cos a * v0 q - sin a * v1 q) + (sin a * v0 p + cos a * v1 p) * (sin a * v0 q + cos a * v1 q) + v2 p * v2 q)
    with ((sin a * sin a + cos a * cos a) * (v0 p * v0 q + v1 p * v1 q) + v2 p * v2 q) by ring. rewrite S. ring.
Qed.
Lemma turned_norm a p : vnorm (turned2 a p) = vnorm p.
Proof. unfold vnorm. rewrite turned_dot. reflexivity. Qed.
Lemma turned_scale a k p : vscale k (turned2 a p) = turned2 a (vscale k p).
Proof. unfold turned2. vcbn. f_equal; ring. Qed.
Lemma turned_sample a origin p s : sample_normal (turned2 a origin) (turned2 a p) (turned2 a s) = turned2 a (sample_normal origin p s).
Proof.
  unfold sample_normal. cbn zeta. rewrite !turned_sub.
  assert (E : mk_vec3 (- v1 (turned2 a (vsub p s))) (v0 (turned2 a (vsub p s))) 0 = turned2 a (mk_vec3 (- v1 (vsub p s)) (v0 (vsub p s)) 0))
    by (unfold turned2; vcbn; f_equal; ring).
  rewrite E, turned_norm, turned_dot. destruct (Rlt_dec _ _).
  - unfold turned2. cbn [v0 v1 v2]. f_equal; ring.
  - destruct (Rlt_dec _ 0); rewrite ?turned_scale, turned_norm; reflexivity.
Qed.
Lemma turned_mean a origin p samples : mean_normal (turned2 a origin) (turned2 a p) (map (turned2 a) samples) = turned2 a (mean_normal origin p samples).
Proof.
  unfold mean_normal. assert (Z : mk_vec3 0 0 0 = turned2 a (mk_vec3 0 0 0)) by (unfold turned2; cbn [v0 v1 v2]; f_equal; ring). rewrite Z at 1.
  generalize (mk_vec3 0 0 0). induction samples as [|s samples IH]; intros acc; cbn [map fold_left]; [reflexivity|].
  rewrite turned_sample, turned_add. apply IH.
Qed.
Lemma turned_window a r p n : forall l, window r (turned2 a p) n (map (turned2 a) l) = map (turned2 a) (window r p n l).
Proof.
  induction n as [|n IH]; intros [|s l]; cbn [window map]; try reflexivity. rewrite turned_sub, turned_norm.
  destruct (Rlt_dec _ _); [cbn [map]; f_equal; apply IH | reflexivity].
Qed.
Definition turned_angle (a x y : R) : Prop := same_angle y (x + a) \/ (x = 0 /\ y = 0).
Lemma atan2_00 : atan2 0 0 = 0.
Proof. unfold atan2. repeat (destruct (Rlt_dec _ _); try lra). Qed.
Lemma turned_atan a v : turned_angle a (normal_to_angle v) (normal_to_angle (turned2 a v)).
Proof.
  unfold turned_angle, normal_to_angle. destruct (Req_dec (v0 v) 0) as [A | A].
  - destruct (Req_dec (v1 v) 0) as [B | B].
    + right. unfold turned2. cbn [v0 v1]. rewrite A, B. rewrite !Rmult_0_r, Rminus_0_r, Rplus_0_r. split; apply atan2_00.
    + left. destruct (atan2_polar (v1 v) (v0 v)) as [r [R0 [_ [X [Y _]]]]]; [right; exact B|]. set (t := atan2 (v1 v) (v0 v)) in *.
      unfold turned2. cbn [v0 v1]. rewrite X, Y.
      replace (sin a * (r * cos t) + cos a * (r * sin t)) with (r * sin (t + a)) by (rewrite sin_plus; ring).
      replace (cos a * (r * cos t) - sin a * (r * sin t)) with (r * cos (t + a)) by (rewrite cos_plus; ring). apply atan2_same. exact R0.
  - left. destruct (atan2_polar (v1 v) (v0 v)) as [r [R0 [_ [X [Y _]]]]]; [left; exact A|]. set (t := atan2 (v1 v) (v0 v)) in *.
    unfold turned2. cbn [v0 v1]. rewrite X, Y.
    replace (sin a * (r * cos t) + cos a * (r * sin t)) with (r * sin (t + a)) by (rewrite sin_plus; ring).
    replace (cos a * (r * cos t) - sin a * (r * sin t)) with (r * cos (t + a)) by (rewrite cos_plus; ring). apply atan2_same. exact R0.
Qed.
Lemma turned_normals a o origin : forall rest before,
  Forall2 (turned_angle a) (normals_from o origin before rest) (normals_from o (turned2 a origin) (map (turned2 a) before) (map (turned2 a) rest)).
Proof.
  induction rest as [|h rest IH]; intros before; cbn [normals_from map]; [constructor|]. constructor; [|apply (IH (h :: before))].
  rewrite turned_window. change (turned2 a h :: map (turned2 a) rest) with (map (turned2 a) (h :: rest)). rewrite turned_window.
  unfold estimate_normal. rewrite !map_length. destruct (Nat.ltb _ 2).
  - rewrite turned_sub. apply turned_atan.
  - rewrite <- map_rev. set (w := window _ _ _ (h :: rest)).
    replace (map (turned2 a) (rev (window (n_radius o) h (n_samples o / 2) before)) ++ tl (map (turned2 a) w))
      with (map (turned2 a) (rev (window (n_radius o) h (n_samples o / 2) before) ++ tl w)) by (rewrite map_app; destruct w; reflexivity).
    rewrite turned_mean. apply turned_atan.
Qed.
