(* Inserting range data. *)
From Coq Require Import ZArith Reals List Bool Permutation Lra Lia Psatz.
From Verif Require Import CF_Model RG_Model RG_Proofs RH_Proofs IG_Model IG_Proofs I2_Model RTP_Model RTP_Spec TI_Model TI_Spec TI_Proofs TI_Ray TI_Cells.
Import ListNotations.
Open Scope R_scope.

(* the box *)
Definition inbox (b : (R * R) * (R * R)) (p : R * R) : Prop :=
  fst (fst b) <= fst p <= fst (snd b) /\ snd (fst b) <= snd p <= snd (snd b).
Lemma extend_in b p : fst (fst b) <= fst (snd b) -> snd (fst b) <= snd (snd b) -> inbox (extend b p) p.
Proof. unfold inbox, extend. cbn [fst snd]. intros. repeat split; (apply Rmin_r || apply Rmax_r). Qed.
Lemma extend_keeps b p q : inbox b q -> inbox (extend b p) q.
Proof.
  unfold inbox, extend. cbn [fst snd]. intros [[A B] [C D]].
  pose proof (Rmin_l (fst (fst b)) (fst p)). pose proof (Rmax_l (fst (snd b)) (fst p)).
  pose proof (Rmin_l (snd (fst b)) (snd p)). pose proof (Rmax_l (snd (snd b)) (snd p)). lra.
Qed.
Lemma box_in t origin hits : forall b q, inbox b q ->
  inbox (fold_left (fun b h => extend b (behind t origin h)) hits b) q /\
  Forall (fun h => inbox (fold_left (fun b h => extend b (behind t origin h)) hits b) (behind t origin h)) hits.
Proof.
  induction hits as [|h hits IH]; intros b q B; cbn [fold_left]; [auto|].
  assert (E : inbox (extend b (behind t origin h)) (behind t origin h)).
  { unfold inbox in B. apply extend_in; lra. }
  destruct (IH _ _ (extend_keeps b (behind t origin h) q B)) as [I1 I2]. destruct (IH _ _ E) as [J1 _]. split; [exact I1|]. constructor; assumption.
Qed.
Lemma grow_box fuel t origin hits g gg : proper (g_lim g) -> grow_as_needed fuel t origin hits g = Some gg ->
  grown_map g gg /\ inside (g_lim gg) (xy origin) /\ Forall (fun h => inside (g_lim gg) (behind t origin h)) hits.
Proof.
  intros P. unfold grow_as_needed.
  destruct (grow_to fuel g _) as [g1|] eqn:E1; [|discriminate]. intros E2.
  destruct (grow_some _ _ _ _ P E1) as [G1 I1]. assert (P1 : proper (g_lim g1)) by apply G1.
  destruct (grow_some _ _ _ _ P1 E2) as [G2 I2]. pose proof (grow_inside _ _ _ _ _ P1 E2 I1) as I1'.
  split; [exact (grown_trans _ _ _ G1 G2)|].
  assert (K : forall p, inbox (bounding_box t origin hits) p -> inside (g_lim gg) p).
  { unfold inbox, inside, padding in *. cbn [fst snd] in *. intros p Hp. lra. }
  destruct (box_in t origin hits ((v0 origin, v1 origin), (v0 origin, v1 origin)) (xy origin)) as [B1 B2].
  { unfold inbox, xy. cbn [fst snd]. lra. }
  split; [apply K; exact B1|]. revert B2. apply Forall_impl. intros h. apply K.
Qed.
Lemma grow_box_enough t origin hits g : proper (g_lim g) -> exists n, forall fuel, (n <= fuel)%nat -> exists gg, grow_as_needed fuel t origin hits g = Some gg.
Proof.
  intros P. unfold grow_as_needed. set (b := bounding_box t origin hits). set (p := (_ - padding, _ - padding)). set (q := (_ + padding, _ + padding)).
  destruct (grow_enough g p P) as [n1 H1]. destruct (H1 n1 (Nat.le_refl _)) as [g1 E1].
  destruct (grow_some _ _ _ _ P E1) as [[_ [P1 _]] _]. destruct (grow_enough g1 q P1) as [n2 H2].
  exists (n1 + n2)%nat. intros fuel F. rewrite (grow_more _ _ n1 g1 fuel E1) by lia. apply H2. lia.
Qed.
Lemma grow_box_more t origin hits g n fuel gg : grow_as_needed n t origin hits g = Some gg -> (n <= fuel)%nat -> grow_as_needed fuel t origin hits g = Some gg.
Proof.
  unfold grow_as_needed. intros E F. destruct (grow_to n g _) as [g1|] eqn:E1; [|discriminate].
  rewrite (grow_more _ _ n g1 fuel E1 F). apply (grow_more _ _ n); assumption.
Qed.

(* the ends of a level ray *)
Lemma behind_past t origin h : v2 h = v2 origin -> dist (xy origin) (xy h) <> 0 -> behind t origin h = past (xy origin) (xy h) t.
Proof.
  intros Z D. unfold behind, past, normalized3. unfold dist, xy in *. cbn [fst snd] in *.
  replace (vdot (vsub h origin) (vsub h origin)) with ((v0 h - v0 origin) * (v0 h - v0 origin) + (v1 h - v1 origin) * (v1 h - v1 origin))
    by (unfold vdot, vsub; cbn [v0 v1 v2]; rewrite Z; ring).
  set (n := (v0 h - v0 origin) * (v0 h - v0 origin) + (v1 h - v1 origin) * (v1 h - v1 origin)) in *.
  destruct (Rlt_dec 0 n) as [P | N].
  - cbn. f_equal; field; exact D.
  - exfalso. apply D. apply sqrt_neg_0. lra.
Qed.
Lemma between1 a b p q k : a < p < b -> a < q < b -> 0 <= k <= 1 -> a < p + k * (q - p) < b.
Proof.
  intros A B K. replace (p + k * (q - p)) with ((1 - k) * p + k * q) by ring.
  destruct (Req_EM_T k 1) as [-> |]; [lra|]. split; nra.
Qed.
Lemma inside_between l p q k : inside l p -> inside l q -> 0 <= k <= 1 -> inside l (between p q k).
Proof. unfold inside, between. cbn [fst snd]. intros [A A'] [B B'] K. split; apply between1; assumption. Qed.
Lemma past_between origin hit t : 0 < t -> t <= dist origin hit ->
  past origin hit (- t) = between origin (past origin hit t) ((dist origin hit - t) / (dist origin hit + t)).
Proof. intros T D. unfold past, between. cbn [fst snd]. set (d := dist origin hit) in *. f_equal; field; lra. Qed.
Lemma ends_inside o l origin hit : 0 < o_truncation o -> o_truncation o <= dist origin hit ->
  inside l origin -> inside l (past origin hit (o_truncation o)) -> inside l (ray_from o origin hit) /\ inside l (ray_to o origin hit).
Proof.
  intros T D A B. split; [|exact B]. unfold ray_from. destruct (o_free_space o); [exact A|].
  rewrite past_between by assumption. apply inside_between; [exact A | exact B|].
  split; [apply Rmult_le_pos; [lra|]; apply Rlt_le, Rinv_0_lt_compat; lra|].
  apply Rmult_le_reg_r with (dist origin hit + o_truncation o); [lra|]. unfold Rdiv. rewrite Rmult_assoc, Rinv_l by lra. lra.
Qed.

(* the returns *)
Lemma with_normals_ok hits : forall normals, List.length normals = List.length hits -> exists rs, with_normals hits normals = Some rs /\ map fst rs = hits /\ map snd rs = normals.
Proof.
  induction hits as [|h hits IH]; intros [|n normals] L; try discriminate; cbn.
  - exists []. auto.
  - destruct (IH normals) as [rs [E [A B]]]; [cbn in L; lia|]. rewrite E. eexists. split; [reflexivity|]. cbn. rewrite A, B. auto.
Qed.
Lemma map_zero hits : map fst (map (fun h : vec3 R => (h, 0)) hits) = hits.
Proof. rewrite map_map. cbn. apply map_id. Qed.
Lemma returns_ok sort normals o origin hits : sorts sort -> one_normal_each normals ->
  exists rs, returns_used sort normals o origin hits = Some rs /\
    map fst rs = (if needs_normals o then sort origin hits else hits) /\
    (needs_normals o = true -> map snd rs = normals origin (sort origin hits)).
Proof.
  intros S N. unfold returns_used. destruct (needs_normals o).
  - destruct (normals origin (sort origin hits)) as [|n ns] eqn:E.
    + exists (map (fun h => (h, 0)) (sort origin hits)). split; [reflexivity|]. split; [apply map_zero|]. intros _.
      specialize (N origin (sort origin hits)). rewrite E in N. destruct (sort origin hits); [reflexivity | discriminate].
    + destruct (with_normals_ok (sort origin hits) (n :: ns)) as [rs [A [B C]]]; [rewrite <- E; apply N|]. exists rs. auto.
  - exists (map (fun h => (h, 0)) hits). split; [reflexivity|]. split; [apply map_zero | discriminate].
Qed.
Lemma valid_grown o g g' : grown_map g g' -> valid_map o g -> valid_map o g'.
Proof.
  intros [_ [_ [_ [_ G]]]] V c d w C E. destruct (G c C) as [[x [X [_ Y]]] | N]; [|congruence]. apply (V x d w X). congruence.
Qed.

(* the order of returns *)
Lemma angle_key origin p : exists t, direction origin p = t /\ - PI < t <= PI /\
  fst (normalized2 (v0 p - v0 origin, v1 p - v1 origin)) = cos t /\
  (snd (normalized2 (v0 p - v0 origin, v1 p - v1 origin)) < 0 <-> t < 0).
Proof.
  eexists. split; [reflexivity|]. unfold direction, normalized2, dist, xy. cbn [fst snd]. pose proof PI_RGT_0.
  set (x := v0 p - v0 origin). set (y := v1 p - v1 origin).
  destruct (Rlt_dec 0 (x * x + y * y)) as [P | N].
  - destruct (Req_EM_T (sqrt (x * x + y * y)) 0) as [Z | _]; [apply sqrt_eq_0 in Z; lra|].
    split; [apply atan2_range|].
    destruct (atan2_polar y x) as [r [R0 [R1 [R2 [R3 _]]]]].
    { destruct (Req_EM_T x 0) as [-> |]; [|left; assumption]. right. intros ->. lra. }
    assert (E : sqrt (x * x + y * y) = r) by (rewrite <- R1; apply sqrt_square; lra). rewrite E. cbn [fst snd].
    pose proof (atan2_range y x) as [L U]. set (t := atan2 y x) in *. split.
    + rewrite R2. field. lra.
    + rewrite R3. replace (r * sin t / r) with (sin t) by (field; lra). split; intros S.
      * destruct (Rlt_dec t 0); [assumption|]. pose proof (sin_ge_0 t). lra.
      * apply sin_lt_0_var; lra.
  - pose proof (Rle_0_sqr x) as X. pose proof (Rle_0_sqr y) as Y. unfold Rsqr in X, Y. assert (Z : x * x + y * y = 0) by lra. rewrite Z, sqrt_0.
    destruct (Req_EM_T 0 0) as [_ | C]; [|contradiction C; reflexivity]. cbn [fst snd].
    assert (x = 0) by nra. assert (y = 0) by nra. split; [lra|]. split; [rewrite cos_PI2; assumption|]. split; lra.
Qed.
Lemma sorter_ok origin a b : sorter_less origin a b = true <-> direction origin a < direction origin b.
Proof.
  destruct (angle_key origin a) as [s [-> [S1 [S2 S3]]]]. destruct (angle_key origin b) as [t [-> [T1 [T2 T3]]]].
  unfold sorter_less. cbn zeta. rewrite S2, T2.
  set (ya := snd (normalized2 (v0 a - v0 origin, v1 a - v1 origin))) in *. set (yb := snd (normalized2 (v0 b - v0 origin, v1 b - v1 origin))) in *.
  destruct (Rlt_dec ya 0) as [A | A], (Rlt_dec yb 0) as [B | B]; cbn [xorb].
  - assert (s < 0) by tauto. assert (t < 0) by tauto.
    assert (K : cos s < cos t <-> s < t).
    { rewrite <- (cos_neg s), <- (cos_neg t). split; intros X.
      - apply cos_decreasing_0 in X; lra.
      - apply cos_decreasing_1; lra. }
    destruct (Rlt_dec (cos s) (cos t)); split; try tauto; intros; try discriminate; tauto.
  - assert (s < 0) by tauto. assert (~ t < 0) by tauto. split; [lra | reflexivity].
  - assert (~ s < 0) by tauto. assert (t < 0) by tauto. split; [discriminate | lra].
  - assert (~ s < 0) by tauto. assert (~ t < 0) by tauto.
    assert (K : cos t < cos s <-> s < t).
    { split; intros X; [apply cos_decreasing_0 in X; lra | apply cos_decreasing_1; lra]. }
    destruct (Rlt_dec (cos t) (cos s)); split; try tauto; intros; try discriminate; tauto.
Qed.

(* sums of updates *)
Lemma total_pos us : Forall (fun u => 0 < snd u) us -> 0 <= total us.
Proof. induction 1 as [|u us H _ IH]; unfold total in *; cbn [fold_right]; lra. Qed.
Lemma total_app a b : total (a ++ b) = total a + total b.
Proof. unfold total. induction a as [|x a IH]; cbn [List.app fold_right]; [|rewrite IH]; ring. Qed.
Lemma moment_app a b : moment (a ++ b) = moment a + moment b.
Proof. unfold moment. induction a as [|x a IH]; cbn [List.app fold_right]; [|rewrite IH]; ring. Qed.
Lemma mean_ok o us : us <> [] -> Forall (fun u => 0 < snd u) us -> total us <= o_max_weight o ->
  mixed_all o us = Some (moment us / total us, total us).
Proof.
  unfold mixed_all. induction us as [|u us IH] using rev_ind; [congruence|]. intros _ F T.
  rewrite fold_left_app. cbn [fold_left]. apply Forall_app in F. destruct F as [F1 F2]. inversion F2; subst.
  rewrite total_app in *. rewrite moment_app.
  replace (total [u]) with (snd u) in * by (cbn; ring). replace (moment [u]) with (snd u * fst u) by (cbn; ring). pose proof (total_pos us F1).
  destruct us as [|x us].
  - cbn [fold_left mixed]. change (total []) with 0 in *. change (moment []) with 0. rewrite Rmin_left by lra. rewrite !Rplus_0_l.
    replace (snd u * fst u / snd u) with (fst u) by (field; lra). reflexivity.
  - assert (0 < total (x :: us)) by (inversion F1; subst; change (total (x :: us)) with (snd x + total us); pose proof (total_pos us ltac:(assumption)); lra).
    rewrite IH by (try congruence; try assumption; lra). cbn [mixed]. rewrite Rmin_left by lra.
    replace (total (x :: us) * (moment (x :: us) / total (x :: us))) with (moment (x :: us)) by (field; lra). reflexivity.
Qed.

(* a cell center on the ray *)
Lemma on_ray o origin hit normal s : 0 < dist origin hit -> s <= dist origin hit ->
  dist origin hit * cos normal = fst origin - fst hit -> dist origin hit * sin normal = snd origin - snd hit ->
  wanted_distance o origin hit normal (past origin hit (- s)) = Rmax (- o_truncation o) (Rmin (o_truncation o) s).
Proof.
  intros D S C N. unfold wanted_distance. f_equal. f_equal. pose proof (sin2_cos2 normal) as U. unfold Rsqr in U.
  assert (E : past origin hit (- s) = (fst hit + s * cos normal, snd hit + s * sin normal)).
  { unfold past. f_equal; apply Rmult_eq_reg_r with (dist origin hit); try lra.
    - replace (fst hit - fst origin) with (- (dist origin hit * cos normal)) by lra. field. lra.
    - replace (snd hit - snd origin) with (- (dist origin hit * sin normal)) by lra. field. lra. }
  rewrite E. cbn [fst snd]. destruct (o_project o).
  - replace (s) with (s * 1) at 3 by ring. rewrite <- U. ring.
  - assert (G : dist origin (fst hit + s * cos normal, snd hit + s * sin normal) = dist origin hit - s).
    { unfold dist at 1. cbn [fst snd].
      replace (fst hit + s * cos normal - fst origin) with ((s - dist origin hit) * cos normal) by (rewrite Rmult_minus_distr_r; lra).
      replace (snd hit + s * sin normal - snd origin) with ((s - dist origin hit) * sin normal) by (rewrite Rmult_minus_distr_r; lra).
      replace (_ + _) with ((dist origin hit - s) * (dist origin hit - s) * (sin normal * sin normal + cos normal * cos normal)) by ring.
      rewrite U, Rmult_1_r. apply sqrt_square. lra. }
    rewrite G. ring.
Qed.
