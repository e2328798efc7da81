(* Properties C76-C78: submap textures. *)
From Coq Require Import ZArith Reals Lra Lia Bool Qreals QArith.
From Verif Require Import Vec G2_Model G2_Spec CF_Model RG_Model RG_Spec RG_Proofs IG_Model IG_Proofs TX_Model TX_Spec TX_Proofs TX_Paint TX_Three.
From Verif Require SW_Model SW_Proofs Properties_G2.
From Coq Require Import List.
Import ListNotations.
Open Scope R_scope.

(* C76: texels *)
Ltac pairs X := apply pair_equal_spec in X; lia.
Theorem C76_log_odds : forall p, 1 / 10 <= p <= 9 / 10 ->
  exists k, log_odds_integer p = Some k /\ (1 <= k <= 255)%Z /\
    Rabs (log_odds p - IZR (k - 128) * log_odds_step) <= log_odds_step / 2.
Proof.
  intros p H. destruct (integer_form p H) as [E B]. exists (lround (scaled p) + 1)%Z. split; [exact E|]. split; [lia|].
  pose proof (lround_near (scaled p)) as L. unfold scaled in L at 2 3. pose proof step_pos as S.
  assert (Q : log_odds p / log_odds_step * log_odds_step = log_odds p) by (field; lra).
  set (x := log_odds p / log_odds_step) in *. rewrite <- Q. rewrite minus_IZR, plus_IZR. apply Rabs_le. nra.
Qed.
Theorem C76_monotone : forall p q a b, 1 / 10 <= p -> p <= q -> q <= 9 / 10 ->
  log_odds_integer p = Some a -> log_odds_integer q = Some b -> (a <= b)%Z.
Proof.
  intros p q a b P L Q. destruct (integer_form p) as [-> _]; [lra|]. destruct (integer_form q) as [-> _]; [lra|].
  intros A B. injection A as <-. injection B as <-. apply Zplus_le_compat_r, lround_mono, scaled_mono; lra.
Qed.
Theorem C76_ends : log_odds_integer (1 / 10) = Some 1%Z /\ log_odds_integer (1 / 2) = Some 128%Z /\
  log_odds_integer (9 / 10) = Some 255%Z.
Proof.
  pose proof ln9_pos as P.
  assert (L : forall p k, 1 / 10 <= p <= 9 / 10 -> scaled p = IZR k -> log_odds_integer p = Some (k + 1)%Z).
  { intros p k H S. destruct (integer_form p H) as [-> _]. now rewrite S, lround_Z. }
  split; [|split]; [apply (L _ 0%Z)|apply (L _ 127%Z)|apply (L _ 254%Z)]; try lra; unfold scaled;
    rewrite <- logit_log_odds by lra.
  - change (1 / 10) with k_min_probability. rewrite logit_min. unfold log_odds_step. field. lra.
  - unfold logit. replace (1 / 2 / (1 - 1 / 2)) with 1 by field. rewrite ln_1. field. pose proof step_pos. lra.
  - change (9 / 10) with k_max_probability. rewrite logit_max. unfold log_odds_step. field. lra.
Qed.
(* occupied and free are drawn alike, except when the log odds are halfway between two values *)
Theorem C76_symmetric : forall p, 1 / 10 <= p <= 9 / 10 -> ~ tie (log_odds p / log_odds_step) ->
  exists k, log_odds_integer p = Some k /\ log_odds_integer (1 - p) = Some (256 - k)%Z.
Proof.
  intros p H N. destruct (integer_form p H) as [E _]. destruct (integer_form (1 - p)) as [F _]; [lra|].
  exists (lround (scaled p) + 1)%Z. split; [exact E|]. rewrite F, scaled_flip, lround_flip; [f_equal; lia|].
  intros (k & K). apply N. exists (k - 127)%Z. unfold scaled in K. rewrite minus_IZR. lra.
Qed.
Theorem C76_symmetric_refuted : exists p a b, 1 / 10 <= p <= 9 / 10 /\
  log_odds_integer p = Some a /\ log_odds_integer (1 - p) = Some b /\ b <> (256 - a)%Z.
Proof.
  pose proof step_pos as S. destruct (log_odds_surj (log_odds_step / 2)) as (p & P & L).
  assert (H : 1 / 10 <= p <= 9 / 10).
  { apply range_of_log_odds; [exact P|]. rewrite L. unfold log_odds_step. pose proof ln9_pos. lra. }
  assert (SC : scaled p = IZR 127 + 1 / 2) by (unfold scaled; rewrite L; field; lra).
  exists p, 129%Z, 128%Z. split; [exact H|]. destruct (integer_form p H) as [-> _]. destruct (integer_form (1 - p)) as [-> _]; [lra|].
  rewrite scaled_flip, SC. replace (254 - (IZR 127 + 1 / 2)) with (IZR 126 + 1 / 2) by lra.
  rewrite !lround_tie by lia. repeat split. discriminate.
Qed.
(* the texel of a probability: a known cell is never transparent, and the texel gives the log odds to
   half a step, except that the two values nearest to 1/2 share a texel *)
Theorem C76_texel : forall p, 1 / 10 <= p <= 9 / 10 ->
  exists v a, probability_texel p = Some (v, a) /\ (0 <= v <= 127)%Z /\ (0 <= a <= 127)%Z /\
    (v, a) <> (0, 0)%Z /\ (v = 0 \/ a = 0)%Z /\
    ((v, a) <> (0, 1)%Z -> Rabs (log_odds p + IZR (shade (v, a)) * log_odds_step) <= log_odds_step / 2) /\
    ((v, a) = (0, 1)%Z -> - (1 / 2) * log_odds_step <= log_odds p <= 3 / 2 * log_odds_step).
Proof.
  intros p H. destruct (C76_log_odds p H) as (k & E & B & D). unfold probability_texel. rewrite E.
  pose proof step_pos as S.
  destruct (texel_cases (128 - k)) as [[C T]|[[C T]|[C T]]]; [lia| | |]; rewrite T.
  - exists (128 - k)%Z, 0%Z. split; [reflexivity|]. split; [lia|]. split; [lia|]. split; [intros X; pairs X|].
    split; [now right|]. split; [|intros X; pairs X]. intros _. unfold shade. cbn [fst snd].
    rewrite Z.sub_0_r, minus_IZR. rewrite minus_IZR in D. replace (log_odds p + (IZR 128 - IZR k) * log_odds_step) with (log_odds p - (IZR k - IZR 128) * log_odds_step) by ring. exact D.
  - exists 0%Z, (- (128 - k))%Z. split; [reflexivity|]. split; [lia|]. split; [lia|]. split; [intros X; pairs X|].
    split; [now left|]. split.
    + intros _. unfold shade. cbn [fst snd]. replace (0 - - (128 - k))%Z with (128 - k)%Z by ring. rewrite minus_IZR.
      rewrite minus_IZR in D. replace (log_odds p + (IZR 128 - IZR k) * log_odds_step) with (log_odds p - (IZR k - IZR 128) * log_odds_step) by ring. exact D.
    + intros X. assert (k = 129)%Z by pairs X. subst k. replace (IZR (129 - 128)) with 1 in D by reflexivity.
      unfold Rabs in D. destruct (Rcase_abs _) in D; lra.
  - exists 0%Z, 1%Z. split; [reflexivity|]. split; [lia|]. split; [lia|]. split; [discriminate|]. split; [now left|].
    split; [congruence|]. intros _. assert (k = 128)%Z by lia. subst k. replace (IZR (128 - 128)) with 0 in D by reflexivity.
    unfold Rabs in D. destruct (Rcase_abs _) in D; lra.
Qed.
Theorem C76_distinct : forall d e, (-255 <= d <= 255)%Z -> (-255 <= e <= 255)%Z ->
  (texel d = texel e <-> d = e \/ (d = 0 /\ e = -1)%Z \/ (d = -1 /\ e = 0)%Z).
Proof.
  intros d e D E. split.
  - intros H. destruct (texel_cases d D) as [[C T]|[[C T]|[C T]]], (texel_cases e E) as [[C' T']|[[C' T']|[C' T']]];
      rewrite T, T' in H; pairs H.
  - intros [->|[[-> ->]|[-> ->]]]; reflexivity.
Qed.
Theorem C76_tsdf : forall tsd mt w mw, 0 < mt -> Rabs tsd <= mt -> 0 < mw -> 0 <= w <= mw ->
  exists v a, tsdf_texel tsd mt w mw = Some (v, a) /\ (0 <= v <= 127)%Z /\ (0 <= a <= 128)%Z /\
    (v, a) <> (0, 0)%Z /\ (v = 0 \/ a = 0)%Z /\
    ((v, a) <> (0, 1)%Z -> Rabs (w / mw * (255 * sqrt (Rabs tsd / mt) - 128) - IZR (shade (v, a))) <= 1 / 2).
Proof.
  intros tsd mt w mw A B C D. unfold tsdf_texel. pose proof (tsdf_range tsd mt w mw A B C D) as T.
  assert (N : Rabs (w / mw * (255 * sqrt (Rabs tsd / mt) - 128) - IZR (tsdf_delta tsd mt w mw)) <= 1 / 2).
  { unfold tsdf_delta. pose proof (lround_near (w / mw * (sqrt (Rabs tsd / mt) * 255 - 128))) as L.
    rewrite (Rmult_comm 255). apply Rabs_le. lra. }
  set (d := tsdf_delta tsd mt w mw) in *.
  destruct (texel_cases d) as [[K X]|[[K X]|[K X]]]; [lia| | |]; rewrite X.
  - exists d, 0%Z. split; [reflexivity|]. split; [lia|]. split; [lia|]. split; [intros Y; pairs Y|].
    split; [now right|]. intros _. unfold shade. cbn [fst snd]. now rewrite Z.sub_0_r.
  - exists 0%Z, (- d)%Z. split; [reflexivity|]. split; [lia|]. split; [lia|]. split; [intros Y; pairs Y|].
    split; [now left|]. intros _. unfold shade. cbn [fst snd]. now replace (0 - - d)%Z with d by ring.
  - exists 0%Z, 1%Z. split; [reflexivity|]. split; [lia|]. split; [lia|]. split; [discriminate|]. split; [now left|congruence].
Qed.
Example C76_example : probability_texel (1 / 10) = Some (127, 0)%Z /\ probability_texel (1 / 2) = Some (0, 1)%Z /\
  probability_texel (9 / 10) = Some (0, 127)%Z /\ tsdf_texel 0 1 5 10 = Some (0, 64)%Z.
Proof.
  unfold probability_texel. destruct C76_ends as (-> & -> & ->). repeat split. unfold tsdf_texel, tsdf_delta.
  rewrite Rabs_R0. replace (0 / 1) with 0 by field. rewrite sqrt_0. replace (5 / 10 * (0 * 255 - 128)) with (IZR (-64)) by lra.
  now rewrite lround_Z.
Qed.

(* C77: the texture of a 2D grid and where it is painted *)
Theorem C77_pixels : forall g color local pose ox oy w h, wf g -> cropped_limits g = (ox, oy, w, h) ->
  (forall x y, is_known g x y = true -> exists i a, color x y = Some (i, a) /\ byte i /\ byte a /\ (i, a) <> (0, 0)%Z) ->
  exists t s words, draw_texture g color local = Some t /\ fill_slice pose t = Some (s, words) /\
    x_width t = w /\ x_height t = h /\ vsize (x_cells t) = (2 * (w * h))%Z /\
    s_width s = w /\ s_height s = h /\ s_drawn s = true /\ vsize words = (w * h)%Z /\
    (* every known cell has a pixel *)
    (forall x y, is_known g x y = true -> (0 <= x - ox < w /\ 0 <= y - oy < h)%Z) /\
    (* every pixel shows its cell *)
    (forall u v, (0 <= u < w -> 0 <= v < h -> exists word,
       vget words (v * w + u) = Some word /\ 0 <= word < 2 ^ 32 /\ blue_channel word = 0 /\
       if is_known g (u + ox) (v + oy)
       then green_channel word = 255 /\ color (u + ox) (v + oy) = Some (red_channel word, alpha_channel word)
       else word = 0)%Z).
Proof.
  intros g color local pose ox oy w h W CL C.
  destruct (pipeline g color local pose W) as (t & s & words & ox' & oy' & nx & ny & E & F & CL' & X & Y & TW & TH & LW & K & _ & V & S).
  { intros x y Q. destruct (C x y Q) as (i & a & -> & _). eauto. }
  rewrite CL in CL'. injection CL' as <- <- <- <-.
  exists t, s, words. split; [exact E|]. split; [exact F|]. split; [exact TW|]. split; [exact TH|]. split.
  { unfold fill_slice, unpack in F. rewrite TW, TH in F. destruct (Z.eqb_spec (vsize (x_cells t)) (2 * (w * h))) as [Q|Q]; [exact Q|discriminate]. }
  rewrite S. cbn [s_width s_height s_drawn]. do 3 (split; [reflexivity|]). split; [exact LW|]. split; [exact K|].
  intros u v U Q. destruct (V u v U Q) as (i & a & T & G). exists (cairo_word i a). split; [exact G|].
  unfold cell_texel in T. destruct (is_known g (u + ox) (v + oy)) eqn:KN.
  - destruct (C _ _ KN) as (i' & a' & T' & Bi & Ba & N). rewrite T in T'. injection T' as <- <-.
    destruct (word_channels i a Bi Ba) as (R1 & R2 & R3 & R4 & R5). split; [exact R1|]. split; [exact R4|].
    rewrite R2, R3, R5. split; [|exact T]. unfold observed.
    destruct (Z.eqb_spec i 0), (Z.eqb_spec a 0); subst; congruence || reflexivity.
  - injection T as <- <-. repeat split; vm_compute; congruence.
Qed.
Theorem C77_probability : forall g p local pose ox oy w h, wf g -> cropped_limits g = (ox, oy, w, h) ->
  (forall x y, is_known g x y = true -> 1 / 10 <= p x y <= 9 / 10) ->
  exists t s words, probability_texture g p local = Some t /\ fill_slice pose t = Some (s, words) /\
    (forall x y, is_known g x y = true -> (0 <= x - ox < w /\ 0 <= y - oy < h)%Z) /\
    (forall u v, (0 <= u < w -> 0 <= v < h -> exists word,
       vget words (v * w + u) = Some word /\
       if is_known g (u + ox) (v + oy)
       then green_channel word = 255 /\ probability_texel (p (u + ox) (v + oy)) = Some (red_channel word, alpha_channel word)
       else word = 0)%Z).
Proof.
  intros g p local pose ox oy w h W CL H.
  destruct (C77_pixels g (fun x y => probability_texel (p x y)) local pose ox oy w h W CL) as (t & s & words & A & B & _ & _ & _ & _ & _ & _ & _ & D & E).
  { intros x y K. destruct (C76_texel _ (H x y K)) as (v & a & T & B1 & B2 & N & _). exists v, a. unfold byte. repeat split; try lia; assumption. }
  exists t, s, words. do 3 (split; [assumption|]). intros u v U V. destruct (E u v U V) as (word & G & _ & _ & Q). eauto.
Qed.
Theorem C77_tsdf : forall g tsd weight mt mw local pose ox oy w h, wf g -> cropped_limits g = (ox, oy, w, h) ->
  0 < mt -> 0 < mw -> (forall x y, is_known g x y = true -> Rabs (tsd x y) <= mt /\ 0 <= weight x y <= mw) ->
  exists t s words, tsdf_texture g tsd weight mt mw local = Some t /\ fill_slice pose t = Some (s, words) /\
    (forall x y, is_known g x y = true -> (0 <= x - ox < w /\ 0 <= y - oy < h)%Z) /\
    (forall u v, (0 <= u < w -> 0 <= v < h -> exists word,
       vget words (v * w + u) = Some word /\
       if is_known g (u + ox) (v + oy)
       then green_channel word = 255 /\ tsdf_texel (tsd (u + ox) (v + oy)) mt (weight (u + ox) (v + oy)) mw = Some (red_channel word, alpha_channel word)
       else word = 0)%Z).
Proof.
  intros g tsd weight mt mw local pose ox oy w h W CL MT MW H.
  destruct (C77_pixels g (fun x y => tsdf_texel (tsd x y) mt (weight x y) mw) local pose ox oy w h W CL) as (t & s & words & A & B & _ & _ & _ & _ & _ & _ & _ & D & E).
  { intros x y K. destruct (H x y K) as [H1 H2]. destruct (C76_tsdf _ _ _ _ MT H1 MW H2) as (v & a & T & B1 & B2 & N & _). exists v, a. unfold byte. repeat split; try lia; assumption. }
  exists t, s, words. do 3 (split; [assumption|]). intros u v U V. destruct (E u v U V) as (word & G & _ & _ & Q). eauto.
Qed.
(* a cell is painted where it is in the map: x to the right, y up, from the origin of the image *)
Theorem C77_position : forall g color a b t s words ox oy w h slices resolution image m x y,
  wf g -> cropped_limits g = (ox, oy, w, h) -> draw_texture g color (embed3d b) = Some t ->
  fill_slice (embed3d a) t = Some (s, words) -> 0 < resolution ->
  paint_slices slices resolution = Some image -> In (s, m) (i_painted image) ->
  let center := cell_center (g_lim g) x y in
  let world := r2_apply a (r2_apply (r2_inv b) (Q2R (fst center), Q2R (snd center))) in
  m_apply m (IZR (x - ox) + 1 / 2, IZR (y - oy) + 1 / 2) =
    (fst (i_origin image) + fst world / resolution, snd (i_origin image) - snd world / resolution).
Proof.
  intros g color a b t s words ox oy w h slices resolution image m x y W CL D F RP P I center world.
  unfold draw_texture in D. rewrite CL in D. destruct (texels _ _ _ _ _) as [cells|]; [|discriminate]. injection D as <-.
  unfold fill_slice in F. cbn [x_cells x_width x_height x_res x_pose] in F.
  destruct (unpack _ _ _) as [[it al]|]; [|discriminate]. destruct (cairo_words it al) as [ws|]; [|discriminate]. injection F as <- <-.
  unfold paint_slices in P. destruct (bounding_box _) as [[[lx ly] [hx hy]]|]; [|discriminate]. injection P as <-.
  cbn [i_painted i_origin fst snd] in *. unfold paint in I. apply paint_In in I. subst m. cbn [s_res].
  set (s := mk_slice _ _ _ _ _ _) in *.
  rewrite scale_apply, transform_apply. cbn [fst snd].
  set (mx := Q2R (l_mx (g_lim g)) - Q2R (l_res (g_lim g)) * IZR oy). set (my := Q2R (l_my (g_lim g)) - Q2R (l_res (g_lim g)) * IZR ox).
  assert (E : r3_mul (s_pose s) (s_slice_pose s) = embed3d (r2_mul a (r2_mul (r2_inv b) (mk_vec3 mx my 0)))).
  { unfold s. cbn [s_pose s_slice_pose]. now rewrite flat_translation, embed_inv, <- !embed_mul. }
  rewrite (flat_matrix s _ _ E). cbn [fst snd]. rewrite !r2_action. rewrite scale_apply, translate_apply, identity_apply. cbn [fst snd].
  set (res := Q2R (l_res (g_lim g))) in *.
  assert (R : r2_apply (mk_vec3 mx my 0) (- (res * (IZR (y - oy) + 1 / 2)), - (res * (IZR (x - ox) + 1 / 2))) =
    (Q2R (fst center), Q2R (snd center))).
  { assert (H2 : Q2R (1 # 2) = 1 / 2) by (unfold Q2R; cbn; lra).
    unfold center, cell_center, r2_apply. cbn [fst snd v0 v1 v2]. rewrite cos_0, sin_0, !Q2R_minus, !Q2R_mult, !Q2R_plus, H2, !minus_IZR.
    unfold mx, my. fold res. assert (HI : forall z, Q2R (inject_Z z) = IZR z) by (intros z; unfold Q2R; cbn; field).
    rewrite !HI. f_equal; ring. }
  rewrite R. fold world. f_equal; field; lra.
Qed.
(* only for poses without roll and pitch *)
Theorem C77_position_refuted : exists s u v, is_unit (rot (s_pose s)) /\ s_slice_pose s = r3_id /\
  let world := r3_apply (r3_mul (s_pose s) (s_slice_pose s)) (mk_vec3 (- v) (- u) 0) in
  m_apply (slice_matrix s) (u, v) <> (v0 world, - v1 world).
Proof.
  exists (mk_slice 1 1 1 r3_id (mk_rigid3 v_zero (mk_quat 0 1 0 0)) true), 0, 1. cbn [s_pose s_slice_pose rot].
  assert (U : is_unit (mk_quat 0 1 0 0)) by (unfold is_unit, qnorm2; cbn [qw qx qy qz]; ring).
  split; [exact U|]. split; [reflexivity|]. unfold slice_matrix. cbn [s_pose s_slice_pose].
  rewrite r3_id_r by exact U. cbv zeta. unfold m_apply, r3_apply, qrot, vadd, vcross, vscale, qvec, v_zero.
  cbn [m_xx m_yx m_xy m_yy m_x0 m_y0 fst snd rot trans v0 v1 v2 qw qx qy qz]. intros E. injection E as E _. lra.
Qed.
(* every painted pixel is in the image, at least the padding of 5 pixels away from its border *)
Theorem C77_inside : forall slices resolution image s m u v,
  paint_slices slices resolution = Some image -> In (s, m) (i_painted image) ->
  0 <= u <= IZR (s_width s) -> 0 <= v <= IZR (s_height s) ->
  5 <= fst (m_apply m (u, v)) <= IZR (i_width image) - 5 /\ 5 <= snd (m_apply m (u, v)) <= IZR (i_height image) - 5.
Proof.
  intros slices resolution image s m u v P I U V. unfold paint_slices in P.
  destruct (bounding_box _) as [[[lx ly] [hx hy]]|] eqn:B; [|discriminate]. injection P as <-.
  cbn [i_painted i_width i_height] in *. rewrite paint_translated in I. apply in_map_iff in I. destruct I as ((s' & m') & E & I).
  cbn [fst snd] in E. injection E as -> <-.
  destruct (box_inside _ s m' u v I U V) as (b & EB & IN). rewrite B in EB. injection EB as <-. unfold inside in IN. cbn [fst snd] in IN.
  rewrite transform_apply, translate_apply, identity_apply. cbn [fst snd]. unfold k_padding. rewrite !plus_IZR. change (2 * 5)%Z with 10%Z.
  pose proof (SW_Proofs.ceil_spec (hx - lx)). pose proof (SW_Proofs.ceil_spec (hy - ly)). lra.
Qed.
(* with a surface for every slice all are painted, in order; the first slice without one ends it *)
Theorem C77_painted : forall slices resolution image, paint_slices slices resolution = Some image ->
  map fst (i_painted image) = drawn_prefix slices.
Proof.
  intros slices resolution image P. unfold paint_slices in P. destruct (bounding_box _) as [[[lx ly] [hx hy]]|]; [|discriminate].
  injection P as <-. cbn [i_painted]. apply paint_prefix.
Qed.
Theorem C77_all_painted : forall slices resolution, slices <> [] -> (forall s, In s slices -> s_drawn s = true /\ (0 <= s_width s /\ 0 <= s_height s)%Z) ->
  exists image, paint_slices slices resolution = Some image /\ map fst (i_painted image) = slices.
Proof.
  intros slices resolution N D.
  assert (PX : drawn_prefix slices = slices).
  { clear N. induction slices as [|s r IH]; [reflexivity|]. cbn [drawn_prefix]. destruct (D s (or_introl eq_refl)) as [-> _].
    f_equal. apply IH. intros z Z. apply D. now right. }
  assert (X : exists image, paint_slices slices resolution = Some image).
  { unfold paint_slices. destruct (bounding_box _) as [[[lx ly] [hx hy]]|] eqn:B; [eauto|]. exfalso.
    destruct slices as [|s r]; [congruence|]. destruct (D s (or_introl eq_refl)) as (E1 & E2 & E3). unfold paint in B. cbn [paint_loop] in B. rewrite E1 in B.
    match type of B with bounding_box ((?a, ?c) :: ?l) = _ =>
      destruct (box_inside ((a, c) :: l) a c 0 0 (or_introl eq_refl)) as (b & EB & _) end;
      [apply IZR_le in E2; lra|apply IZR_le in E3; lra|]. congruence. }
  destruct X as (image & X). exists image. split; [exact X|]. rewrite (C77_painted _ _ _ X). exact PX.
Qed.
Theorem C77_all_painted_refuted : exists slices s image, In s slices /\ s_drawn s = true /\
  paint_slices slices 1 = Some image /\ ~ In s (map fst (i_painted image)).
Proof.
  set (s := fun w d => mk_slice w 1 1 r3_id r3_id d).
  destruct (C77_all_painted [s 1%Z true] 1) as (im & _); [discriminate|intros z [<-|[]]; repeat split; cbn; lia|].
  assert (X : exists image, paint_slices [s 1%Z true; s 2%Z false; s 3%Z true] 1 = Some image).
  { unfold paint_slices. destruct (bounding_box _) as [[[lx ly] [hx hy]]|] eqn:B; [eauto|]. discriminate B. }
  destruct X as (image & X). exists [s 1%Z true; s 2%Z false; s 3%Z true], (s 3%Z true), image.
  split; [right; right; now left|]. split; [reflexivity|]. split; [exact X|]. rewrite (C77_painted _ _ _ X). cbn.
  intros [E|[]]. unfold s in E. injection E as E. discriminate.
Qed.
(* nothing to paint: the size of the image is undefined *)
Theorem C77_empty : forall slices resolution, drawn_prefix slices = [] -> paint_slices slices resolution = None.
Proof.
  intros slices resolution E. unfold paint_slices, paint.
  destruct slices as [|s r]; [reflexivity|]. cbn [drawn_prefix] in E. cbn [paint_loop]. destruct (s_drawn s); [discriminate|reflexivity].
Qed.
Example C77_example :
  match Properties_G2.ex_grid with
  | Some g => cropped_limits g = (1, 0, 1, 1)%Z /\ texels g (fun _ _ => Some (7, 0)%Z) 0 0 (xy_range 3 2) = Some [0; 0; 7; 0; 0; 0; 0; 0; 0; 0; 0; 0]%Z
  | None => False
  end /\ unpack [7; 0; 0; 9]%Z 2 1 = Some ([7; 0], [0; 9])%Z /\
  cairo_words [7; 0]%Z [0; 9]%Z = Some [7 * 2 ^ 16 + 255 * 2 ^ 8; 9 * 2 ^ 24 + 255 * 2 ^ 8]%Z.
Proof. vm_compute. repeat split. Qed.

(* C78: the X-ray texture of a 3D grid *)
Theorem C78_texture : forall p res pose cells, let l := voxels p res pose cells in
  (forall v, In v cells -> 1 / 10 <= p (w_value v) <= 9 / 10) -> l <> [] -> fits l ->
  exists t s words x0 x1 y0 y1, texture3 p res pose cells = Some t /\ fill_slice pose t = Some (s, words) /\
    least w_x l x0 /\ greatest w_x l x1 /\ least w_y l y0 /\ greatest w_y l y1 /\
    s_width s = (y1 - y0 + 1)%Z /\ s_height s = (x1 - x0 + 1)%Z /\ vsize words = (s_width s * s_height s)%Z /\
    (forall i j, (0 <= i < s_height s -> 0 <= j < s_width s -> exists word,
       vget words (i * s_width s + j) = Some word /\ blue_channel word = 0 /\
       column_texel p (column (x1, y1) i j l) (red_channel word, alpha_channel word) /\
       green_channel word = if (word =? 0) then 0 else 255)%Z) /\
    (* a pixel is at the corner of its column, half a voxel from its centre *)
    (unit3 pose -> 0 < res -> forall i j,
       m_apply (m_scale (slice_matrix s) res) (IZR j + 1 / 2, IZR i + 1 / 2) =
         ((IZR (x1 - i) - 1 / 2) * res, - ((IZR (y1 - j) - 1 / 2) * res))).
Proof.
  intros p res pose cells l P N F.
  destruct (texture3_ok p res pose cells P N F) as (t & x0 & x1 & y0 & y1 & ts & E & A1 & A2 & A3 & A4 & W & H & R & C & L & XP & V).
  fold l in A1, A2, A3, A4, V.
  assert (YY : (y0 <= y1)%Z). { destruct A3 as [(a & I & <-) _]. destruct A4 as [_ G]. now apply G. }
  assert (XX : (x0 <= x1)%Z). { destruct A1 as [(a & I & <-) _]. destruct A2 as [_ G]. now apply G. }
  assert (FS : fill_slice pose t = Some (mk_slice (x_width t) (x_height t) (x_res t) (x_pose t) pose true, map (fun t => cairo_word (fst t) (snd t)) ts)).
  { unfold fill_slice. rewrite C, unpack_ok by (exact L || lia). now rewrite words_ok. }
  exists t, (mk_slice (x_width t) (x_height t) (x_res t) (x_pose t) pose true), (map (fun t => cairo_word (fst t) (snd t)) ts), x0, x1, y0, y1.
  split; [exact E|]. split; [exact FS|]. do 4 (split; [assumption|]). cbn [s_width s_height]. split; [exact W|]. split; [exact H|].
  split; [unfold vsize; rewrite map_length; exact L|]. split.
  - intros i j I J. destruct (V i j I J) as ((rd & al) & U & CT). exists (cairo_word rd al). rewrite vget_map, U. split; [reflexivity|].
    assert (BY : byte rd /\ byte al /\ ((rd, al) = (0, 0)%Z \/ (rd, al) <> (0, 0)%Z)).
    { destruct CT as [[CT _]|(zmin & zmax & m & _ & _ & _ & _ & RG & T)].
      - injection CT as -> ->. unfold byte. split; [lia|]. split; [lia|]. now left.
      - destruct (C76_texel _ RG) as (v' & a' & T' & B1 & B2 & N' & _). rewrite T in T'. injection T' as <- <-. unfold byte. split; [lia|]. split; [lia|]. now right. }
    destruct BY as (B1 & B2 & B3). destruct (word_channels rd al B1 B2) as (R1 & R2 & R3 & R4 & R5).
    split; [exact R4|]. rewrite R2, R3, R5. split; [exact CT|]. rewrite (word_form rd al B1 B2). unfold byte in *.
    unfold observed. destruct (Z.eqb_spec rd 0), (Z.eqb_spec al 0); cbn [andb]; subst.
    + reflexivity.
    + rewrite (proj2 (Z.eqb_neq _ 0)); [reflexivity|]. change (2 ^ 24)%Z with 16777216%Z. change (2 ^ 16)%Z with 65536%Z. change (2 ^ 8)%Z with 256%Z. lia.
    + rewrite (proj2 (Z.eqb_neq _ 0)); [reflexivity|]. change (2 ^ 24)%Z with 16777216%Z. change (2 ^ 16)%Z with 65536%Z. change (2 ^ 8)%Z with 256%Z. lia.
    + rewrite (proj2 (Z.eqb_neq _ 0)); [reflexivity|]. change (2 ^ 24)%Z with 16777216%Z. change (2 ^ 16)%Z with 65536%Z. change (2 ^ 8)%Z with 256%Z. lia.
  - intros UP RP i j. rewrite scale_apply. cbn [fst snd].
    set (T := mk_rigid3 (mk_vec3 (IZR x1 * res) (IZR y1 * res) (v2 (trans pose))) q_one) in *.
    assert (UT : unit3 T) by apply unit_one.
    assert (M : r3_mul pose (x_pose t) = T).
    { rewrite XP, r3_assoc, r3_inv_r, r3_id_l; auto. now apply r3_inv_unit. }
    unfold slice_matrix. cbn [s_pose s_slice_pose]. rewrite M. unfold T. cbv zeta. cbn [rot trans]. rewrite !qrot_one.
    unfold m_apply. cbn [m_xx m_yx m_xy m_yy m_x0 m_y0 fst snd v0 v1 v2]. rewrite !minus_IZR. f_equal; field.
Qed.
(* every obstructed voxel is in exactly one column of the texture *)
Theorem C78_once : forall (l : list voxel) x0 x1 y0 y1 q, least w_x l x0 -> greatest w_x l x1 -> least w_y l y0 -> greatest w_y l y1 ->
  In q l -> exists! ij, (0 <= fst ij < x1 - x0 + 1 /\ 0 <= snd ij < y1 - y0 + 1)%Z /\ In q (column (x1, y1) (fst ij) (snd ij) l).
Proof.
  intros l x0 x1 y0 y1 q [_ A] [_ B] [_ C] [_ D] Q. specialize (A q Q). specialize (B q Q). specialize (C q Q). specialize (D q Q).
  exists (x1 - w_x q, y1 - w_y q)%Z. split.
  - cbn [fst snd]. split; [lia|]. apply filter_In. split; [exact Q|]. unfold at_pixel. cbn [fst snd].
    rewrite !(proj2 (Z.eqb_eq _ _)) by lia. reflexivity.
  - intros [i j] [_ I]. cbn [fst snd] in I. apply filter_In in I. destruct I as [_ I]. unfold at_pixel in I. cbn [fst snd] in I.
    apply andb_true_iff in I. rewrite !Z.eqb_eq in I. f_equal; lia.
Qed.
(* the voxels are the obstructed ones, moved to the nearest voxel of the global frame *)
Theorem C78_voxels : forall p res pose cells q, 0 < res ->
  In q (voxels p res pose cells) <-> exists v, In v cells /\ 501 / 1000 <= p (w_value v) /\ q = project_voxel res pose v /\
    w_value q = w_value v /\
    (let c := r3_apply pose (mk_vec3 (IZR (w_x v) * res) (IZR (w_y v) * res) (IZR (w_z v) * res)) in
     Rabs (v0 c - IZR (w_x q) * res) <= res / 2 /\ Rabs (v1 c - IZR (w_y q) * res) <= res / 2 /\ Rabs (v2 c - IZR (w_z q) * res) <= res / 2).
Proof.
  intros p res pose cells q RP.
  assert (NR : forall x, Rabs (x - IZR (lround (x * (1 / res))) * res) <= res / 2).
  { intros x. pose proof (lround_near (x * (1 / res))) as L. assert (Q : x * (1 / res) * res = x) by (field; lra).
    set (k := IZR (lround (x * (1 / res)))) in *. set (y := x * (1 / res)) in *. rewrite <- Q. apply Rabs_le. nra. }
  unfold voxels. rewrite in_map_iff. split.
  - intros (v & <- & V). apply filter_In in V. destruct V as [V O]. exists v. split; [exact V|]. split.
    + unfold obstructed, k_obstructed in O. destruct (Rlt_dec (p (w_value v)) (501 / 1000)); [discriminate|lra].
    + split; [reflexivity|]. split; [reflexivity|]. unfold project_voxel, voxel_center. cbv zeta. cbn [w_x w_y w_z]. split; [apply NR|split; apply NR].
  - intros (v & V & O & -> & _). exists v. split; [reflexivity|]. apply filter_In. split; [exact V|].
    unfold obstructed, k_obstructed. destruct (Rlt_dec (p (w_value v)) (501 / 1000)); [lra|reflexivity].
Qed.
(* no obstructed voxel: INT_MIN - INT_MAX *)
Theorem C78_empty : forall p res pose cells, voxels p res pose cells = [] -> texture3 p res pose cells = None.
Proof.
  intros p res pose cells E. unfold texture3.
  destruct (extract_ok p res pose cells (int_max, int_max) (int_min, int_min)) as (lo & hi & X & B); [now rewrite E|].
  rewrite X. rewrite E in B. destruct B as (_ & _ & _ & _ & _ & [B6|(q1 & [] & _)] & [B7|(q2 & [] & _)] & [B8|(q3 & [] & _)] & [B9|(q4 & [] & _)]).
  rewrite B6, B7, B8, B9. reflexivity.
Qed.
(* a column without free space shows the mean of its probabilities; with free space it is darker, and
   it is never above the greatest *)
Theorem C78_xray : forall n zmin zmax sum max, (0 < n)%Z -> IZR n / 2 <= sum <= IZR n * max -> 1 / 2 <= max <= 9 / 10 ->
  ((zmax - zmin <= n)%Z -> xray n zmin zmax sum max = sum / IZR n) /\
  1 - max <= xray n zmin zmax sum max <= sum / IZR n /\ xray n zmin zmax sum max <= max.
Proof.
  intros n zmin zmax sum max N S M. apply IZR_lt in N. unfold xray. cbv zeta.
  assert (D : sum / IZR n * IZR n = sum) by (field; lra).
  set (f := 15 / 100 * Rmax (IZR (zmax - zmin - n)) 0).
  assert (F : 0 <= f) by (unfold f; pose proof (Rmax_r (IZR (zmax - zmin - n)) 0); lra).
  assert (Q : (sum + (1 - max) * f) / (IZR n + f) * (IZR n + f) = sum + (1 - max) * f) by (field; lra).
  split.
  - intros L. assert (F0 : f = 0). { unfold f. rewrite Rmax_right; [lra|]. apply IZR_le. lia. }
    rewrite F0. field. lra.
  - set (x := (sum + (1 - max) * f) / (IZR n + f)) in *. set (y := sum / IZR n) in *.
    assert (Y : 1 / 2 <= y <= max) by (split; apply Rmult_le_reg_r with (IZR n); lra).
    assert (X1 : 1 - max <= x) by (apply Rmult_le_reg_r with (IZR n + f); [lra|]; rewrite Q; nra).
    assert (X2 : x <= y) by (apply Rmult_le_reg_r with (IZR n + f); [lra|]; rewrite Q; nra).
    lra.
Qed.
Definition ex_cells : list voxel := [mk_voxel 2 5 0 20000; mk_voxel 2 5 4 20000; mk_voxel 1 7 3 20000; mk_voxel 9 9 9 0]%Z.
Definition ex_probability (v : Z) : R := if (v =? 0)%Z then 1 / 10 else 8 / 10.
Example C78_example :
  voxels ex_probability 1 r3_id ex_cells = [mk_voxel 2 5 0 20000; mk_voxel 2 5 4 20000; mk_voxel 1 7 3 20000]%Z /\
  fits (voxels ex_probability 1 r3_id ex_cells) /\ xray 2 0 4 (16 / 10) (8 / 10) = 166 / 230 /\
  column (2, 7)%Z 0 2 (voxels ex_probability 1 r3_id ex_cells) = [mk_voxel 2 5 0 20000; mk_voxel 2 5 4 20000]%Z.
Proof.
  set (cells := ex_cells). set (p := ex_probability).
  assert (V : voxels p 1 r3_id cells = [mk_voxel 2 5 0 20000; mk_voxel 2 5 4 20000; mk_voxel 1 7 3 20000]%Z).
  { assert (O : filter (obstructed p) cells = [mk_voxel 2 5 0 20000; mk_voxel 2 5 4 20000; mk_voxel 1 7 3 20000]%Z).
    { unfold cells, ex_cells, obstructed, p, ex_probability, k_obstructed. cbn [filter w_value Z.eqb].
      destruct (Rlt_dec (8 / 10) (501 / 1000)); [lra|]. destruct (Rlt_dec (1 / 10) (501 / 1000)); [reflexivity|lra]. }
    unfold voxels. rewrite O. cbn [map]. unfold project_voxel, voxel_center. cbv zeta. rewrite !r3_id_apply. cbn [w_x w_y w_z w_value v0 v1 v2].
    assert (E : forall k, lround (IZR k * 1 * (1 / 1)) = k) by (intros k; replace (IZR k * 1 * (1 / 1)) with (IZR k) by field; apply lround_Z).
    now rewrite !E. }
  rewrite V. split; [reflexivity|]. split; [|split; [|reflexivity]].
  - split; [|split].
    + intros a [<-|[<-|[<-|[]]]]; reflexivity.
    + intros a b [<-|[<-|[<-|[]]]] [<-|[<-|[<-|[]]]]; vm_compute; discriminate.
    + intros a b c d [<-|[<-|[<-|[]]]] [<-|[<-|[<-|[]]]] [<-|[<-|[<-|[]]]] [<-|[<-|[<-|[]]]]; vm_compute; discriminate.
  - unfold xray. cbv zeta. rewrite Rmax_left; [|apply IZR_le; lia]. replace (IZR (4 - 0 - 2)) with 2 by reflexivity. field.
Qed.

(* the pixels are not at the centres of their columns *)
Theorem C78_position_refuted : exists p res pose cells t s words x1 y1, unit3 pose /\ 0 < res /\
  texture3 p res pose cells = Some t /\ fill_slice pose t = Some (s, words) /\
  greatest w_x (voxels p res pose cells) x1 /\ greatest w_y (voxels p res pose cells) y1 /\
  m_apply (m_scale (slice_matrix s) res) (0 + 1 / 2, 0 + 1 / 2) <> (IZR x1 * res, - (IZR y1 * res)).
Proof.
  destruct C78_example as (V & F & _).
  destruct (C78_texture ex_probability 1 r3_id ex_cells) as (t & s & words & x0 & x1 & y0 & y1 & A & B & _ & C & _ & D & _ & _ & _ & _ & E).
  - intros v _. unfold ex_probability. destruct (_ =? _)%Z; lra.
  - rewrite V. discriminate.
  - exact F.
  - exists ex_probability, 1, r3_id, ex_cells, t, s, words, x1, y1. split; [apply unit_one|]. split; [lra|].
    do 4 (split; [assumption|]). rewrite (E unit_one Rlt_0_1 0%Z 0%Z). rewrite !Z.sub_0_r. intros X. apply pair_equal_spec in X. lra.
Qed.

Print Assumptions C76_log_odds.
Print Assumptions C76_monotone.
Print Assumptions C76_ends.
Print Assumptions C76_symmetric.
Print Assumptions C76_symmetric_refuted.
Print Assumptions C76_texel.
Print Assumptions C76_distinct.
Print Assumptions C76_tsdf.
Print Assumptions C77_pixels.
Print Assumptions C77_probability.
Print Assumptions C77_tsdf.
Print Assumptions C77_position.
Print Assumptions C77_position_refuted.
Print Assumptions C77_inside.
Print Assumptions C77_painted.
Print Assumptions C77_all_painted.
Print Assumptions C77_all_painted_refuted.
Print Assumptions C77_empty.
Print Assumptions C78_texture.
Print Assumptions C78_once.
Print Assumptions C78_voxels.
Print Assumptions C78_empty.
Print Assumptions C78_xray.
Print Assumptions C78_position_refuted.
