(* Updates of cells. *)
From Coq Require Import ZArith Reals List Bool Permutation Lra Lia Psatz.
From Verif Require Import CF_Model RG_Model IG_Model IG_Proofs I2_Model RTP_Model RTP_Spec TI_Model TI_Spec TI_Proofs TI_Ray.
Import ListNotations.
Open Scope R_scope.

Lemma cell_eqb_ok a b : cell_eqb a b = true <-> a = b.
Proof.
  unfold cell_eqb. rewrite andb_true_iff, !Z.eqb_eq. destruct a, b. simpl. split; [intros [-> ->]; reflexivity | intros E; injection E; auto].
Qed.
Lemma cell_dec (a b : Z * Z) : {a = b} + {a <> b}.
Proof. decide equality; apply Z.eq_dec. Qed.
Lemma updated_ok c l : existsb (cell_eqb c) l = true <-> In c l.
Proof.
  rewrite existsb_exists. split.
  - intros [x [H E]]. apply cell_eqb_ok in E. subst. exact H.
  - intros H. exists c. split; [exact H | apply cell_eqb_ok; reflexivity].
Qed.
Lemma clamp_ok x t : 0 <= t -> rclamp x (- t) t = Rmax (- t) (Rmin t x).
Proof.
  intros T. unfold rclamp, Rmax, Rmin. destruct (Rlt_dec t x), (Rle_dec t x); try lra;
    destruct (Rlt_dec x (- t)); repeat (destruct (Rle_dec _ _)); lra.
Qed.
Lemma sqrt2pi : 0 < sqrt (2 * PI).
Proof. apply sqrt_lt_R0. pose proof PI_RGT_0. lra. Qed.
Lemma gaussian_ok x s : s <> 0 -> gaussian x s = normal_density x s.
Proof.
  intros S. unfold gaussian, normal_density, Rsqr. pose proof sqrt2pi.
  replace (- (1 / 2) * x * x / (s * s)) with (- (x / s * (x / s)) / 2) by (field; exact S). field. lra.
Qed.
Lemma dist_pos p q : 0 <= dist p q.
Proof. apply sqrt_pos. Qed.

Section Update.
Variable wrap : R -> R.
Variable o : toptions.
Variable origin : R * R.
Hypothesis trunc_pos : 0 < o_truncation o.

Lemma update_wanted hit normal center : cell_update wrap o origin hit normal center =
  (wanted_distance o origin hit normal center, wanted_weight wrap o origin hit normal center).
Proof.
  unfold cell_update. rewrite !norm_dist.
  assert (D : rclamp (if o_project o then (fst center - fst hit) * cos normal + (snd center - snd hit) * sin normal
                      else dist origin hit - dist origin center) (- o_truncation o) (o_truncation o)
              = wanted_distance o origin hit normal center) by (apply clamp_ok; lra).
  cbn zeta. rewrite D. f_equal. unfold wanted_weight, factor.
  replace (- (snd hit - snd origin)) with (snd origin - snd hit) by ring.
  replace (- (fst hit - fst origin)) with (fst origin - fst hit) by ring.
  assert (W : (if (o_exponent o =? 0)%Z then 1 else range_weight (dist origin hit) (o_exponent o)) =
              (if (o_exponent o =? 0)%Z then 1 else if Rle_dec (dist origin hit) (1 / 1000000) then 0 else / powerRZ (dist origin hit) (o_exponent o))).
  { destruct (o_exponent o =? 0)%Z; [reflexivity|]. unfold range_weight. rewrite Rabs_right by (apply Rle_ge, dist_pos).
    destruct (Rlt_dec _ _), (Rle_dec _ _); lra. }
  rewrite W. destruct (Req_EM_T (o_angle_bandwidth o) 0) as [_ | A]; destruct (Req_EM_T (o_distance_bandwidth o) 0) as [_ | B];
    rewrite ?gaussian_ok by assumption; ring.
Qed.
Lemma blended_mixed g c d w : w <> 0 -> blended (o_max_weight o) (read_cell g (o_truncation o) c) d w = mixed o (g_cell g c) d w.
Proof.
  intros W. unfold blended, read_cell, mixed. destruct (g_cell g c) as [[d0 w0]|]; simpl.
  - f_equal. f_equal. ring.
  - rewrite Rplus_0_l. f_equal. field. exact W.
Qed.

(* the cells of one ray *)
Definition updates (hit : R * R) (n : R) (g : grid3) (m : list (Z * Z)) (c : Z * Z) : Prop :=
  In c m /\ ~ In c (g_upd g) /\ wanted_weight wrap o origin hit n (cell_center2 (g_lim g) c) <> 0.
Definition result (hit : R * R) (n : R) (g : grid3) (c : Z * Z) : R * R :=
  mixed o (g_cell g c) (wanted_distance o origin hit n (cell_center2 (g_lim g) c)) (wanted_weight wrap o origin hit n (cell_center2 (g_lim g) c)).
Lemma cells_ok hit n m : forall g g', update_cells wrap o origin hit n m g = Some g' ->
  g_lim g' = g_lim g /\ (forall c, In c (g_upd g') <-> In c (g_upd g) \/ updates hit n g m c) /\
  (forall c, updates hit n g m c -> g_cell g' c = Some (result hit n g c)) /\
  (forall c, ~ updates hit n g m c -> g_cell g' c = g_cell g c).
Proof.
  induction m as [|a m IH]; intros g g' H; cbn [update_cells] in H.
  - assert (g' = g) by congruence. subst. split; [reflexivity|]. unfold updates.
    split; [|split]; intros c; [split; [auto | intros [X | [[] _]]; exact X] | intros [[] _] | reflexivity].
  - destruct (contains2 (g_lim g) a) eqn:K; [|discriminate].
    destruct (existsb (cell_eqb a) (g_upd g)) eqn:U.
    + apply updated_ok in U. destruct (IH _ _ H) as [L [A [B C]]]. clear IH H.
      assert (E : forall c, updates hit n g (a :: m) c <-> updates hit n g m c).
      { intros c. unfold updates. split; intros [X [Y Z]]; (split; [|split; assumption]); [|right; exact X].
        destruct X as [<- | X]; [contradiction | exact X]. }
      split; [exact L|]. split; [|split]; intros c; rewrite E; [apply A | apply B | apply C].
    + assert (U' : ~ In a (g_upd g)) by (rewrite <- updated_ok; congruence).
      rewrite update_wanted in H. cbn zeta in H. cbn [fst snd] in H. unfold update_cell3 in H.
      destruct (Req_EM_T _ 0) as [W | W].
      * destruct (IH _ _ H) as [L [A [B C]]]. clear IH H.
        assert (E : forall c, updates hit n g (a :: m) c <-> updates hit n g m c).
        { intros c. unfold updates. split; intros [X [Y Z]]; (split; [|split; assumption]); [|right; exact X].
          destruct X as [<- | X]; [contradiction | exact X]. }
        split; [exact L|]. split; [|split]; intros c; rewrite E; [apply A | apply B | apply C].
      * rewrite K, U in H. rewrite blended_mixed in H by exact W.
        destruct (IH _ _ H) as [L [A [B C]]]. clear IH H. cbn [g_lim g_upd] in *.
        unfold updates in A, B, C. cbn [g_lim g_upd g_cell] in A, B, C. unfold result in B. cbn [g_lim g_cell] in B.
        split; [exact L|]. unfold updates, result. split; [|split]; intros c.
        -- rewrite A. destruct (cell_dec a c) as [<- | N].
           ++ split; [intros _; right; split; [left; reflexivity | split; assumption] | intros _; left; left; reflexivity].
           ++ split.
              ** intros [[X | X] | [X [Y Z]]]; [contradiction | left; exact X | right]. split; [right; exact X|]. split; [|exact Z]. intros V. apply Y. right. exact V.
              ** intros [X | [[X | X] [Y Z]]]; [left; right; exact X | contradiction | right]. split; [exact X|]. split; [|exact Z]. intros [V | V]; contradiction.
        -- intros [X [Y Z]]. destruct (cell_dec a c) as [<- | N].
           ++ rewrite C by (intros [_ [V _]]; apply V; left; reflexivity). rewrite (proj2 (cell_eqb_ok a a) eq_refl). reflexivity.
           ++ rewrite B.
              ** destruct (cell_eqb a c) eqn:E; [apply cell_eqb_ok in E; contradiction | reflexivity].
              ** destruct X as [X | X]; [contradiction|]. split; [exact X|]. split; [|exact Z]. intros [V | V]; contradiction.
        -- intros X. destruct (cell_dec a c) as [<- | N].
           ++ exfalso. apply X. split; [left; reflexivity | split; assumption].
           ++ rewrite C.
              ** destruct (cell_eqb a c) eqn:E; [apply cell_eqb_ok in E; contradiction | reflexivity].
              ** intros [V1 [V2 V3]]. apply X. split; [right; exact V1|]. split; [|exact V3]. intros V. apply V2. right. exact V.
Qed.
Lemma cells_some hit n m : forall g, (forall c, In c m -> is_cell (g_lim g) c) -> exists g', update_cells wrap o origin hit n m g = Some g'.
Proof.
  induction m as [|a m IH]; intros g H; cbn [update_cells]; [eexists; reflexivity|].
  assert (K : contains2 (g_lim g) a = true) by (apply contains_cell, H; left; reflexivity).
  assert (M : forall c, In c m -> is_cell (g_lim g) c) by (intros; apply H; right; assumption). rewrite K.
  destruct (existsb (cell_eqb a) (g_upd g)) eqn:U; [apply IH; exact M|].
  cbn zeta. unfold update_cell3. destruct (Req_EM_T _ 0); [apply IH; exact M|]. rewrite K, U. apply IH. exact M.
Qed.

(* one hit *)
Definition app (l : limits2) (c : Z * Z) (r : vec3 R * R) : Prop := applies wrap o l origin c r.
Definition res (g : grid3) (c : Z * Z) (r : vec3 R * R) : R * R := result (xy (fst r)) (snd r) g c.
Lemma hit_ok r g g' : insert_hit wrap o origin (xy (fst r)) (snd r) g = Some g' ->
  g_lim g' = g_lim g /\ forall c,
   (In c (g_upd g) -> g_cell g' c = g_cell g c /\ In c (g_upd g')) /\
   (~ In c (g_upd g) -> (~ app (g_lim g) c r /\ g_cell g' c = g_cell g c /\ ~ In c (g_upd g')) \/
                        (app (g_lim g) c r /\ g_cell g' c = Some (res g c r) /\ In c (g_upd g'))).
Proof.
  unfold insert_hit. rewrite norm_dist. destruct (Rlt_dec _ _) as [S | S].
  - intros H. assert (g' = g) by congruence. subst. split; [reflexivity|]. intros c. split; [auto|]. intros N. left.
    split; [|auto]. intros [A _]. lra.
  - assert (D : dist origin (xy (fst r)) <> 0) by lra. destruct (ray_mask o (g_lim g) origin (xy (fst r))) as [m|] eqn:M; [|discriminate].
    destruct (mask_ok _ _ _ _ _ D M) as [I _]. intros H. destruct (cells_ok _ _ _ _ _ H) as [L [A [B C]]]. split; [exact L|]. intros c. split.
    + intros U. rewrite C by (intros [_ [X _]]; contradiction). split; [reflexivity|]. apply A. left. exact U.
    + intros U. destruct (in_dec cell_dec c m) as [J | J].
      * destruct (Req_EM_T (wanted_weight wrap o origin (xy (fst r)) (snd r) (cell_center2 (g_lim g) c)) 0) as [W | W].
        -- left. split; [intros [_ [_ X]]; contradiction|]. split; [apply C; intros [_ [_ X]]; contradiction|].
           rewrite A. intros [X | [_ [_ X]]]; contradiction.
        -- right. split; [split; [lra|]; split; [apply I; exact J | exact W]|].
           assert (X : updates (xy (fst r)) (snd r) g m c) by (split; [exact J | split; assumption]).
           split; [apply B; exact X | apply A; right; exact X].
      * left. split; [intros [_ [X _]]; apply I in X; contradiction|]. split; [apply C; intros [X _]; contradiction|].
        rewrite A. intros [X | [X _]]; contradiction.
Qed.
Lemma hits_ok rs : forall g g', insert_hits wrap o origin rs g = Some g' -> g_lim g' = g_lim g /\ forall c,
   (In c (g_upd g) -> g_cell g' c = g_cell g c) /\
   (~ In c (g_upd g) -> (Forall (fun r => ~ app (g_lim g) c r) rs /\ g_cell g' c = g_cell g c) \/
     exists before r after, rs = before ++ r :: after /\ Forall (fun r => ~ app (g_lim g) c r) before /\ app (g_lim g) c r /\ g_cell g' c = Some (res g c r)).
Proof.
  induction rs as [|[h n] rs IH]; intros g g' H; cbn [insert_hits] in H.
  - assert (g' = g) by congruence. subst. split; [reflexivity|]. intros c. split; [reflexivity|]. intros _. left. auto.
  - destruct (insert_hit wrap o origin (v0 h, v1 h) n g) as [g1|] eqn:E; [|discriminate].
    destruct (hit_ok (h, n) g g1 E) as [L1 H1]. destruct (IH _ _ H) as [L2 H2]. split; [congruence|]. intros c.
    destruct (H1 c) as [A1 A2], (H2 c) as [B1 B2]. rewrite L1 in B2. split.
    + intros U. destruct (A1 U) as [X Y]. rewrite B1 by exact Y. exact X.
    + intros U. destruct (A2 U) as [[X [Y Z]] | [X [Y Z]]].
      * destruct (B2 Z) as [[P Q] | [b [r [a [P [Q [S T]]]]]]].
        -- left. split; [constructor; assumption | congruence].
        -- right. exists ((h, n) :: b), r, a. rewrite P. split; [reflexivity|]. split; [constructor; assumption|]. split; [exact S|].
           rewrite T. unfold res, result. rewrite Y, L1. reflexivity.
      * right. exists [], (h, n), rs. split; [reflexivity|]. split; [constructor|]. split; [exact X|]. rewrite (B1 Z). exact Y.
Qed.
Lemma hits_some rs : forall g, proper (g_lim g) -> small_grid (g_lim g) ->
  Forall (fun r => o_truncation o <= dist origin (xy (fst r)) -> inside (g_lim g) (ray_from o origin (xy (fst r))) /\ inside (g_lim g) (ray_to o origin (xy (fst r)))) rs ->
  exists g', insert_hits wrap o origin rs g = Some g'.
Proof.
  induction rs as [|[h n] rs IH]; intros g P S F; cbn [insert_hits]; [eexists; reflexivity|]. inversion F as [|? ? F1 F2]; subst.
  assert (E : exists g1, insert_hit wrap o origin (v0 h, v1 h) n g = Some g1).
  { unfold insert_hit. rewrite norm_dist. destruct (Rlt_dec _ _) as [|N]; [eexists; reflexivity|]. cbn [fst] in F1. change (v0 h, v1 h) with (xy h) in *.
    assert (D : dist origin (xy h) <> 0) by lra. destruct F1 as [I1 I2]; [lra|].
    destruct (mask_exists o (g_lim g) origin (xy h) D P S I1 I2) as [m M]. rewrite M. apply cells_some.
    intros c Hc. apply (crossed_cell o _ origin (xy h)); try assumption. apply (mask_ok _ _ _ _ _ D M). exact Hc. }
  destruct E as [g1 E]. rewrite E. destruct (hit_ok (h, n) g g1 E) as [L _]. apply IH; rewrite L; assumption.
Qed.
End Update.

(* weights and distances *)
Lemma density_pos x s : 0 < s -> 0 < normal_density x s.
Proof.
  intros S. unfold normal_density. apply Rdiv_lt_0_compat; [apply exp_pos|]. apply Rmult_lt_0_compat; [exact S | apply sqrt2pi].
Qed.
Lemma factor_pos b x : 0 <= b -> 0 < factor b x.
Proof. intros B. unfold factor. destruct (Req_EM_T b 0); [lra|]. apply density_pos. lra. Qed.
Lemma weight_nonneg wrap o origin hit n c : 0 <= o_angle_bandwidth o -> 0 <= o_distance_bandwidth o -> 0 <= wanted_weight wrap o origin hit n c.
Proof.
  intros A B. unfold wanted_weight. repeat apply Rmult_le_pos; try (apply Rlt_le, factor_pos; assumption).
  destruct (o_exponent o =? 0)%Z; [lra|]. destruct (Rle_dec _ _); [lra|]. apply Rlt_le, Rinv_0_lt_compat, powerRZ_lt. lra.
Qed.
Lemma distance_range o origin hit n c : 0 < o_truncation o -> - o_truncation o <= wanted_distance o origin hit n c <= o_truncation o.
Proof.
  intros T. unfold wanted_distance. split; [apply Rmax_l|]. apply Rmax_lub; [lra | apply Rmin_l].
Qed.
Lemma mean_range d0 w0 d w t : 0 <= w0 -> 0 < w -> - t <= d0 <= t -> - t <= d <= t -> - t <= (w0 * d0 + w * d) / (w0 + w) <= t.
Proof.
  intros. split.
  - apply Rmult_le_reg_r with (w0 + w); [lra|]. unfold Rdiv. rewrite Rmult_assoc, Rinv_l by lra. nra.
  - apply Rmult_le_reg_r with (w0 + w); [lra|]. unfold Rdiv. rewrite Rmult_assoc, Rinv_l by lra. nra.
Qed.
Lemma mixed_range o old d w : usable_options o -> 0 < w -> - o_truncation o <= d <= o_truncation o ->
  (forall d0 w0, old = Some (d0, w0) -> - o_truncation o <= d0 <= o_truncation o /\ 0 <= w0 <= o_max_weight o) ->
  - o_truncation o <= fst (mixed o old d w) <= o_truncation o /\ 0 <= snd (mixed o old d w) <= o_max_weight o.
Proof.
  intros [T [M _]] W D H. destruct old as [[d0 w0]|]; simpl.
  - destruct (H d0 w0 eq_refl) as [A B]. split; [apply mean_range; lra|]. split; [apply Rmin_glb; lra | apply Rmin_r].
  - split; [exact D|]. split; [apply Rmin_glb; lra | apply Rmin_r].
Qed.
