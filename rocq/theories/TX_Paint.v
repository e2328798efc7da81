From Coq Require Import ZArith Reals Lra Lia Bool Qreals QArith.
From Verif Require Import Vec G2_Model G2_Spec CF_Model RG_Model RG_Spec RG_Proofs IG_Model IG_Proofs TX_Model TX_Spec TX_Proofs.
From Verif Require TSD_Crop G2_Crop SW_Model SW_Proofs.
From Coq Require Import List.
Import ListNotations.
Open Scope Z_scope.

(* ---- words *)
Lemma lor_low a b n : 0 <= n -> 0 <= b < 2 ^ n -> Z.lor (a * 2 ^ n) b = a * 2 ^ n + b.
Proof.
  intros N H. rewrite <- Z.shiftl_mul_pow2 by exact N. assert (L : Z.land (Z.shiftl a n) b = 0).
  { apply Z.bits_inj'. intros k K. rewrite Z.land_spec, Z.bits_0, Z.shiftl_spec by exact K.
    destruct (Z.ltb_spec k n) as [C|C].
    - rewrite Z.testbit_neg_r by lia. reflexivity.
    - rewrite <- (Z.mod_small b (2 ^ n)) by exact H. rewrite Z.mod_pow2_bits_high by lia. apply andb_false_r. }
  now rewrite <- Z.lxor_lor, <- Z.add_nocarry_lxor by exact L.
Qed.
Definition observed (i a : Z) : Z := if (i =? 0) && (a =? 0) then 0 else 255.
Lemma observed_byte i a : 0 <= observed i a <= 255.
Proof. unfold observed. destruct (_ && _); lia. Qed.
Lemma word_form i a : byte i -> byte a -> cairo_word i a = a * 2 ^ 24 + i * 2 ^ 16 + observed i a * 2 ^ 8.
Proof.
  unfold byte. intros I A. pose proof (observed_byte i a) as O. unfold cairo_word. fold (observed i a). cbv zeta.
  rewrite Z.lor_0_r, !Z.shiftl_mul_pow2 by lia.
  change (2 ^ 24) with 16777216. change (2 ^ 16) with 65536. change (2 ^ 8) with 256.
  rewrite (lor_low a (i * 65536) 24 : _ -> _ -> Z.lor (a * 16777216) _ = a * 16777216 + _) by lia.
  replace (a * 16777216 + i * 65536) with ((a * 256 + i) * 65536) by ring.
  rewrite (lor_low (a * 256 + i) (observed i a * 256) 16 : _ -> _ -> Z.lor ((a * 256 + i) * 65536) _ = (a * 256 + i) * 65536 + _) by lia.
  reflexivity.
Qed.
Lemma word_channels i a : byte i -> byte a -> let w := cairo_word i a in
  0 <= w < 2 ^ 32 /\ alpha_channel w = a /\ red_channel w = i /\ blue_channel w = 0 /\
  green_channel w = observed i a.
Proof.
  intros I A w. subst w. rewrite word_form by assumption. unfold byte in *. pose proof (observed_byte i a) as O.
  set (o := observed i a) in *. clearbody o. unfold alpha_channel, red_channel, blue_channel, green_channel.
  change (2 ^ 24) with 16777216. change (2 ^ 16) with 65536. change (2 ^ 8) with 256. change (2 ^ 32) with 4294967296.
  assert (E1 : (a * 16777216 + i * 65536 + o * 256) / 16777216 = a).
  { symmetry. apply Z.div_unique with (r := i * 65536 + o * 256); lia. }
  assert (E2 : (a * 16777216 + i * 65536 + o * 256) / 65536 = a * 256 + i).
  { symmetry. apply Z.div_unique with (r := o * 256); lia. }
  assert (E3 : (a * 16777216 + i * 65536 + o * 256) / 256 = a * 65536 + i * 256 + o).
  { symmetry. apply Z.div_unique with (r := 0); lia. }
  repeat split; try lia.
  - rewrite E2. symmetry. apply Z.mod_unique with (q := a); lia.
  - symmetry. apply Z.mod_unique with (q := a * 65536 + i * 256 + o); lia.
  - rewrite E3. symmetry. apply Z.mod_unique with (q := a * 256 + i); lia.
Qed.

(* ---- indices *)
Lemma zrange_app a b : 0 <= a -> 0 <= b -> zrange (a + b) = zrange a ++ map (fun k => a + k) (zrange b).
Proof.
  intros A B. rewrite !zrange_seq, Z2Nat.inj_add, seq_app, map_app by assumption. f_equal.
  rewrite map_map. cbn [plus].
  assert (G : forall n s, map Z.of_nat (seq (Z.to_nat a + s) n) = map (fun x => a + Z.of_nat x) (seq s n)).
  { induction n as [|n IH]; intros s; [reflexivity|]. cbn [seq map]. f_equal; [lia|].
    rewrite <- IH. f_equal. f_equal. lia. }
  specialize (G (Z.to_nat b) 0%nat). now rewrite Nat.add_0_r in G.
Qed.
Lemma list_prod_snoc {A B} (l : list A) x (m : list B) : list_prod (l ++ [x]) m = list_prod l m ++ map (fun y => (x, y)) m.
Proof. induction l as [|a l IH]; cbn [app list_prod]; [now rewrite app_nil_r|]. now rewrite IH, app_assoc. Qed.
Lemma zrange_succ n : 0 <= n -> zrange (n + 1) = zrange n ++ [n].
Proof. intros H. rewrite zrange_app by lia. change (zrange 1) with [0]. cbn [map]. now rewrite Z.add_0_r. Qed.
Lemma rows h w : 0 <= h -> 0 <= w ->
  map (fun ij => fst ij * w + snd ij) (list_prod (zrange h) (zrange w)) = zrange (h * w).
Proof.
  intros H W. rewrite <- (Z2Nat.id h H). induction (Z.to_nat h) as [|n IH]; [reflexivity|].
  rewrite Nat2Z.inj_succ, <- Z.add_1_r, zrange_succ, list_prod_snoc, map_app, IH by lia.
  replace ((Z.of_nat n + 1) * w) with (Z.of_nat n * w + w) by ring. rewrite zrange_app by lia.
  f_equal. rewrite map_map. reflexivity.
Qed.
Lemma vsize_zrange n : 0 <= n -> vsize (zrange n) = n.
Proof. intros H. unfold vsize. rewrite zrange_seq, map_length, seq_length. lia. Qed.
Lemma vget_zrange n k : 0 <= k < n -> vget (zrange n) k = Some k.
Proof.
  intros H. unfold vget. rewrite (proj2 (Z.leb_le 0 k)) by lia. rewrite zrange_seq, nth_error_map.
  assert (L : nth_error (seq 0 (Z.to_nat n)) (Z.to_nat k) = Some (Z.to_nat k)).
  { rewrite (nth_error_nth' _ 0%nat) by (rewrite seq_length; lia). f_equal. rewrite seq_nth by lia. lia. }
  rewrite L. cbn. f_equal. lia.
Qed.
Lemma vget_map {A B} (f : A -> B) l k : vget (map f l) k = option_map f (vget l k).
Proof. unfold vget. destruct (0 <=? k); [|reflexivity]. now rewrite nth_error_map. Qed.
Lemma xy_length nx ny : 0 <= nx -> 0 <= ny -> vsize (xy_range nx ny) = nx * ny.
Proof.
  intros X Y. unfold vsize, xy_range. rewrite map_length, prod_length, Nat2Z.inj_mul.
  fold (vsize (zrange ny)) (vsize (zrange nx)). rewrite !vsize_zrange by assumption. ring.
Qed.
Lemma xy_at nx ny x y : 0 <= x < nx -> 0 <= y < ny -> vget (xy_range nx ny) (y * nx + x) = Some (x, y).
Proof.
  intros X Y.
  assert (R : vget (map (fun ij => fst ij * nx + snd ij) (list_prod (zrange ny) (zrange nx))) (y * nx + x) = Some (y * nx + x)).
  { rewrite rows by lia. apply vget_zrange. nia. }
  unfold xy_range. rewrite !vget_map in *.
  destruct (vget (list_prod (zrange ny) (zrange nx)) (y * nx + x)) as [[i j]|] eqn:E; [|discriminate].
  cbn [option_map fst snd] in *. injection R as R.
  assert (I : In (i, j) (list_prod (zrange ny) (zrange nx))).
  { unfold vget in E. destruct (0 <=? _); [|discriminate]. now apply nth_error_In in E. }
  rewrite in_prod_iff, !In_zrange in I. destruct I as [I J].
  assert (i = y) by nia. subst. f_equal. f_equal. lia.
Qed.

(* ---- unpack after the loop *)
Definition cell_texel (g : grid) (color : Z -> Z -> option (Z * Z)) (x y : Z) : option (Z * Z) :=
  if is_known g x y then color x y else Some (0, 0).
Definition interleave (ts : list (Z * Z)) : list Z := flat_map (fun t => [fst t; snd t]) ts.
Lemma texels_ok g color ox oy xys :
  (forall x y, In (x, y) xys -> exists t, cell_texel g color (x + ox) (y + oy) = Some t) ->
  exists ts, texels g color ox oy xys = Some (interleave ts) /\
    map (fun xy => cell_texel g color (fst xy + ox) (snd xy + oy)) xys = map Some ts.
Proof.
  induction xys as [|[x y] r IH]; intros H.
  - now exists [].
  - destruct IH as (ts & E & M); [intros; apply H; now right|].
    destruct (H x y (or_introl eq_refl)) as ((v & a) & T). exists ((v, a) :: ts). split.
    + cbn [texels]. fold (cell_texel g color (x + ox) (y + oy)). rewrite T. now rewrite E.
    + cbn [map fst snd]. now rewrite T, M.
Qed.
Lemma interleave_length ts : vsize (interleave ts) = 2 * vsize ts.
Proof.
  unfold vsize. induction ts as [|t r IH]; [reflexivity|]. cbn [interleave flat_map app length].
  fold (interleave r). cbn [length]. lia.
Qed.
Lemma interleave_at ts : forall k t, vget ts k = Some t ->
  vget (interleave ts) (k * 2) = Some (fst t) /\ vget (interleave ts) (k * 2 + 1) = Some (snd t).
Proof.
  assert (G : forall ts n t, nth_error ts n = Some t ->
    nth_error (interleave ts) (n * 2) = Some (fst t) /\ nth_error (interleave ts) (S (n * 2)) = Some (snd t)).
  { induction ts0 as [|u r IH]; intros [|n] t E; cbn in E; try discriminate.
    - injection E as ->. now split.
    - apply IH in E. exact E. }
  intros k t. unfold vget. destruct (Z.leb_spec 0 k); [|discriminate]. intros E. apply G in E.
  rewrite (proj2 (Z.leb_le 0 (k * 2))), (proj2 (Z.leb_le 0 (k * 2 + 1))) by lia.
  replace (Z.to_nat (k * 2)) with (Z.to_nat k * 2)%nat by lia.
  replace (Z.to_nat (k * 2 + 1)) with (S (Z.to_nat k * 2)) by lia. exact E.
Qed.
Lemma gather_ok cells l vs : map (vget cells) l = map Some vs -> gather cells l = Some vs.
Proof.
  revert vs. induction l as [|i r IH]; intros [|v vs] H; try discriminate; [reflexivity|].
  cbn [map] in H. injection H as H1 H2. cbn [gather]. now rewrite H1, (IH _ H2).
Qed.
Lemma zrange_select ts (f : Z * Z -> Z) (h : Z -> Z) :
  (forall k t, vget ts k = Some t -> vget (interleave ts) (h k) = Some (f t)) ->
  map (vget (interleave ts)) (map h (zrange (vsize ts))) = map Some (map f ts).
Proof.
  intros H. rewrite !map_map. apply vec_ext.
  - unfold vsize. rewrite !map_length. fold (vsize (zrange (vsize ts))). fold (vsize ts).
    apply vsize_zrange. unfold vsize. lia.
  - intros k K. rewrite !vget_map. assert (K' : 0 <= k < vsize ts).
    { unfold vsize at 1 in K. rewrite map_length in K. fold (vsize (zrange (vsize ts))) in K.
      rewrite vsize_zrange in K by (unfold vsize; lia). exact K. }
    clear K. rename K' into K. rewrite vget_zrange by exact K. cbn [option_map].
    destruct (vget_some ts k K) as (t & T). rewrite T. cbn [option_map]. now rewrite (H k t T).
Qed.
Lemma unpack_ok ts w h : 0 <= w -> 0 <= h -> vsize ts = w * h ->
  unpack (interleave ts) w h = Some (map fst ts, map snd ts).
Proof.
  intros W H L. unfold unpack. rewrite interleave_length, L, Z.eqb_refl, rows by assumption.
  rewrite (Z.mul_comm h w), <- L. cbv zeta.
  rewrite (gather_ok _ _ (map fst ts)), (gather_ok _ _ (map snd ts)); [reflexivity| |];
    apply (zrange_select ts); intros k t T; now apply interleave_at.
Qed.
Lemma words_ok ts : cairo_words (map fst ts) (map snd ts) = Some (map (fun t => cairo_word (fst t) (snd t)) ts).
Proof. induction ts as [|t r IH]; [reflexivity|]. cbn [map cairo_words]. now rewrite IH. Qed.

Lemma pipeline g color local pose : wf g ->
  (forall x y, is_known g x y = true -> exists t, color x y = Some t) ->
  exists t s words ox oy nx ny, draw_texture g color local = Some t /\ fill_slice pose t = Some (s, words) /\
    cropped_limits g = (ox, oy, nx, ny) /\ 0 < nx /\ 0 < ny /\
    x_width t = nx /\ x_height t = ny /\ vsize words = nx * ny /\
    (forall x y, is_known g x y = true -> 0 <= x - ox < nx /\ 0 <= y - oy < ny) /\
    (forall u v, 0 <= u < nx -> 0 <= v < ny -> contains (g_lim g) (u + ox) (v + oy) = true) /\
    (forall u v, 0 <= u < nx -> 0 <= v < ny -> exists i a,
       cell_texel g color (u + ox) (v + oy) = Some (i, a) /\ vget words (v * nx + u) = Some (cairo_word i a)) /\
    s = mk_slice nx ny (Q2R (l_res (g_lim g))) (r3_mul (r3_inv local)
          (mk_rigid3 (mk_vec3 (Q2R (l_mx (g_lim g)) - Q2R (l_res (g_lim g)) * IZR oy)
                              (Q2R (l_my (g_lim g)) - Q2R (l_res (g_lim g)) * IZR ox) 0)%R q_one)) pose true.
Proof.
  intros W C. destruct (TSD_Crop.cropped_limits_ok g W) as (ox & oy & nx & ny & E & X & Y & In1 & In2 & _).
  assert (T : forall x y, exists t, cell_texel g color x y = Some t).
  { intros x y. unfold cell_texel. destruct (is_known g x y) eqn:K; [now apply C|eauto]. }
  destruct (texels_ok g color ox oy (xy_range nx ny)) as (ts & ET & M); [intros; apply T|].
  assert (L : vsize ts = nx * ny).
  { rewrite <- (xy_length nx ny) by lia. unfold vsize. f_equal.
    rewrite <- (map_length Some ts), <- M, map_length. reflexivity. }
  unfold draw_texture. rewrite E, ET. cbv zeta.
  eexists _, _, _, ox, oy, nx, ny. split; [reflexivity|]. unfold fill_slice. cbn [x_cells x_width x_height x_res x_pose].
  rewrite unpack_ok by (assumption || lia). rewrite words_ok. split; [reflexivity|].
  split; [reflexivity|]. split; [exact X|]. split; [exact Y|]. split; [reflexivity|]. split; [reflexivity|].
  split; [unfold vsize; rewrite map_length; exact L|]. split; [exact In2|]. split; [exact In1|]. split; [|reflexivity].
  intros u v U V. assert (K : 0 <= v * nx + u < vsize ts) by (rewrite L; nia).
  destruct (vget_some ts _ K) as ((i & a) & G). exists i, a. rewrite vget_map, G. split; [|reflexivity].
  pose proof (f_equal (fun l => vget l (v * nx + u)) M) as Q. cbv beta in Q. rewrite !vget_map, G, xy_at in Q by assumption.
  cbn [option_map fst snd] in Q. now injection Q.
Qed.

(* ---- positions *)
Open Scope R_scope.
Lemma transform_apply c m p : m_apply (m_transform c m) p = m_apply c (m_apply m p).
Proof. unfold m_apply, m_transform. cbn [m_xx m_yx m_xy m_yy m_x0 m_y0 fst snd]. f_equal; ring. Qed.
Lemma scale_apply c k p : m_apply (m_scale c k) p = m_apply c (k * fst p, k * snd p).
Proof. unfold m_scale. rewrite transform_apply. f_equal. unfold m_apply. cbn [m_xx m_yx m_xy m_yy m_x0 m_y0 fst snd]. f_equal; ring. Qed.
Lemma translate_apply c x y p : m_apply (m_translate c x y) p = m_apply c (fst p + x, snd p + y).
Proof. unfold m_translate. rewrite transform_apply. f_equal. unfold m_apply. cbn [m_xx m_yx m_xy m_yy m_x0 m_y0 fst snd]. f_equal; ring. Qed.
Lemma identity_apply p : m_apply m_identity p = p.
Proof. destruct p as [x y]. unfold m_apply, m_identity. cbn [m_xx m_yx m_xy m_yy m_x0 m_y0 fst snd]. f_equal; ring. Qed.
Lemma embed_inv a : r3_inv (embed3d a) = embed3d (r2_inv a).
Proof.
  unfold r3_inv, embed3d. cbn [rot trans].
  assert (Q : qconj (about_z (v2 a)) = about_z (- v2 a)).
  { unfold about_z, qconj. cbn [qw qx qy qz]. replace (- v2 a / 2) with (- (v2 a / 2)) by field.
    rewrite cos_neg, sin_neg. f_equal; ring. }
  rewrite Q, about_z_rot. unfold r2_inv. cbn [v0 v1 v2]. apply rigid_eq; cbn [trans rot]; [|reflexivity].
  unfold vneg. apply vec_eq; cbn [v0 v1 v2]; ring.
Qed.
Lemma flat_translation x y : mk_rigid3 (mk_vec3 x y 0) q_one = embed3d (mk_vec3 x y 0).
Proof.
  unfold embed3d, about_z, q_one. cbn [v0 v1 v2]. replace (0 / 2) with 0 by field. now rewrite cos_0, sin_0.
Qed.
Lemma flat_matrix s a p : r3_mul (s_pose s) (s_slice_pose s) = embed3d a ->
  m_apply (slice_matrix s) p = let w := r2_apply a (- snd p, - fst p) in (fst w, - snd w).
Proof.
  intros H. unfold slice_matrix. rewrite H. unfold m_apply, r2_apply, embed3d. cbn [rot trans].
  rewrite !about_z_rot. cbn [m_xx m_yx m_xy m_yy m_x0 m_y0 fst snd v0 v1 v2]. f_equal; ring.
Qed.

(* ---- bounding box *)
Definition inside (b : R * R * (R * R)) (p : R * R) : Prop :=
  fst (fst b) <= fst p <= fst (snd b) /\ snd (fst b) <= snd p <= snd (snd b).
Definition wider (b c : R * R * (R * R)) : Prop := inside c (fst b) /\ inside c (snd b).
Lemma wider_inside b c p : wider b c -> inside b p -> inside c p.
Proof. unfold wider, inside. intros. lra. Qed.
Definition grows (b c : option (R * R * (R * R))) : Prop :=
  forall b', b = Some b' -> exists c', c = Some c' /\ forall p, inside b' p -> inside c' p.
Lemma extend_grows b p : grows b (extend b p) /\ exists c, extend b p = Some c /\ inside c p.
Proof.
  destruct b as [[[lx ly] [hx hy]]|].
  - split.
    + intros b' E. injection E as <-. eexists. split; [reflexivity|]. intros q. unfold inside. cbn [fst snd].
      pose proof (Rmin_l lx (fst p)). pose proof (Rmin_l ly (snd p)). pose proof (Rmax_l hx (fst p)). pose proof (Rmax_l hy (snd p)). lra.
    + eexists. split; [reflexivity|]. unfold inside. cbn [fst snd].
      pose proof (Rmin_r lx (fst p)). pose proof (Rmin_r ly (snd p)). pose proof (Rmax_r hx (fst p)). pose proof (Rmax_r hy (snd p)). lra.
  - split; [intros b' E; discriminate|]. eexists. split; [reflexivity|]. unfold inside. cbn [fst snd]. lra.
Qed.
Lemma grows_refl b : grows b b.
Proof. intros b' E. eauto. Qed.
Lemma grows_trans a b c : grows a b -> grows b c -> grows a c.
Proof. intros H K a' E. destruct (H a' E) as (b' & E' & I). destruct (K b' E') as (c' & E'' & J). eauto. Qed.
Lemma extend_all l : forall b, grows b (fold_left extend l b) /\
  (forall p, In p l -> exists c, fold_left extend l b = Some c /\ inside c p).
Proof.
  induction l as [|q r IH]; intros b; cbn [fold_left].
  - split; [apply grows_refl|intros p []].
  - destruct (IH (extend b q)) as [G I]. destruct (extend_grows b q) as [G1 (c & E & I1)]. split.
    + now apply grows_trans with (extend b q).
    + intros p [<-|P]; [|now apply I]. destruct (G c E) as (d & E2 & J). exists d. split; [exact E2|]. now apply J.
Qed.
Lemma fold_map {A B C} (f : C -> B -> C) (g : A -> B) l b : fold_left (fun b a => f b (g a)) l b = fold_left f (map g l) b.
Proof. revert b. induction l as [|a l IH]; intros b; [reflexivity|]. cbn [fold_left map]. apply IH. Qed.
Lemma box_flat painted : forall b,
  fold_left (fun b sm => fold_left (fun b p => extend b (m_apply (snd sm) p)) (corners (fst sm)) b) painted b =
  fold_left extend (flat_map (fun sm => map (m_apply (snd sm)) (corners (fst sm))) painted) b.
Proof.
  induction painted as [|sm r IH]; intros b; [reflexivity|]. cbn [flat_map]. rewrite fold_left_app. cbn [fold_left].
  rewrite IH. f_equal.
Qed.
Lemma between a u w lo hi c : 0 <= u <= w -> lo <= c <= hi -> lo <= a * w + c <= hi -> lo <= a * u + c <= hi.
Proof.
  intros U L H. destruct (Rle_dec 0 a).
  - assert (0 <= a * u) by (apply Rmult_le_pos; lra). assert (a * u <= a * w) by (apply Rmult_le_compat_l; lra). lra.
  - assert (a * w <= a * u) by nra. assert (a * u <= 0) by nra. lra.
Qed.
Lemma box_inside painted s m u v : In (s, m) painted -> 0 <= u <= IZR (s_width s) -> 0 <= v <= IZR (s_height s) ->
  exists b, bounding_box painted = Some b /\ inside b (m_apply m (u, v)).
Proof.
  intros P U V. unfold bounding_box. rewrite box_flat.
  set (l := flat_map _ painted). destruct (extend_all l None) as [_ I].
  assert (C : forall p, In p (corners s) -> In (m_apply m p) l).
  { intros p Q. unfold l. apply in_flat_map. exists (s, m). split; [exact P|]. cbn [fst snd]. now apply in_map. }
  destruct (I (m_apply m (0, 0))) as (b & E & B1); [apply C; now left|].
  exists b. split; [exact E|].
  assert (J : forall p, In p (corners s) -> inside b (m_apply m p)).
  { intros p Q. destruct (I _ (C p Q)) as (b' & E' & Z). congruence. }
  pose proof (J _ (or_intror (or_introl eq_refl))) as B2.
  pose proof (J _ (or_intror (or_intror (or_introl eq_refl)))) as B3.
  pose proof (J _ (or_intror (or_intror (or_intror (or_introl eq_refl))))) as B4. clear J C I.
  destruct b as [[lx ly] [hx hy]]. unfold inside, m_apply in *. cbn [fst snd] in *.
  set (w := IZR (s_width s)) in *. set (h := IZR (s_height s)) in *. clearbody w h.
  assert (G : forall a b c lo hi, lo <= a * 0 + b * 0 + c <= hi -> lo <= a * w + b * 0 + c <= hi ->
    lo <= a * 0 + b * h + c <= hi -> lo <= a * w + b * h + c <= hi -> lo <= a * u + b * v + c <= hi).
  { intros a b c lo hi H1 H2 H3 H4. rewrite Rplus_assoc. apply between with w; [exact U| |].
    - apply between with h; [exact V|lra|lra].
    - replace (a * w + (b * v + c)) with (b * v + (a * w + c)) by ring.
      apply between with h; [exact V|lra|lra]. }
  split; apply G; lra.
Qed.
Lemma m_transform_assoc a b c : m_transform a (m_transform b c) = m_transform (m_transform a b) c.
Proof. unfold m_transform. cbn [m_xx m_yx m_xy m_yy m_x0 m_y0]. f_equal; ring. Qed.
Lemma m_identity_l a : m_transform m_identity a = a.
Proof. destruct a as [a1 a2 a3 a4 a5 a6]. unfold m_transform, m_identity. cbn [m_xx m_yx m_xy m_yy m_x0 m_y0]. f_equal; ring. Qed.
Lemma paint_loop_transform t c slices :
  paint_loop (m_transform t c) slices = map (fun sm => (fst sm, m_transform t (snd sm))) (paint_loop c slices).
Proof.
  induction slices as [|s r IH]; [reflexivity|]. cbn [paint_loop]. destruct (s_drawn s); [|reflexivity].
  cbn [map fst snd]. rewrite IH. f_equal. f_equal. unfold m_scale. now rewrite !m_transform_assoc.
Qed.
Lemma paint_translated x y k slices : paint (m_translate m_identity x y) k slices =
  map (fun sm => (fst sm, m_transform (m_translate m_identity x y) (snd sm))) (paint m_identity k slices).
Proof.
  unfold paint. rewrite <- paint_loop_transform. f_equal.
  unfold m_scale at 2. rewrite m_identity_l. reflexivity.
Qed.
Lemma paint_prefix c slices : map fst (paint_loop c slices) = drawn_prefix slices.
Proof.
  induction slices as [|s r IH]; [reflexivity|]. cbn [paint_loop drawn_prefix]. destruct (s_drawn s); [|reflexivity].
  cbn [map fst]. now rewrite IH.
Qed.
Lemma paint_In c slices s m : In (s, m) (paint_loop c slices) -> m = m_scale (m_transform c (slice_matrix s)) (s_res s).
Proof.
  induction slices as [|a r IH]; [intros []|]. cbn [paint_loop]. destruct (s_drawn a); [|intros []].
  intros [E|H]; [|now apply IH]. now injection E as <- <-.
Qed.
