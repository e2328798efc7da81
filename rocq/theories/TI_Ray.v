(* The cells that a ray updates. *)
From Coq Require Import ZArith Reals List Bool Permutation QArith Qreals Lra Lia Psatz.
From Verif Require Import CF_Model RG_Model IG_Model IG_Proofs I2_Model TX_Proofs RTP_Model RTP_Spec Properties_RTP TI_Model TI_Spec TI_Proofs.
Import ListNotations.
Close Scope Q_scope.
Open Scope R_scope.

(* crossing with a real parameter *)
Definition alongR (b e : Z) (t : R) : R := IZR b + 1 / 2 + t * (IZR e - IZR b).
Definition in_pixelR (s p : Z) (v : R) : Prop := IZR (s * p) < v < IZR (s * (p + 1)).
Lemma Q2R_Z z : Q2R (inject_Z z) = IZR z.
Proof. unfold Q2R, inject_Z. simpl. field. Qed.
Lemma Q2R_along b e t : Q2R (along b e t) = alongR b e (Q2R t).
Proof.
  unfold along, alongR. rewrite !Q2R_plus, Q2R_mult, Q2R_minus, !Q2R_Z. replace (Q2R (1 # 2)) with (1 / 2) by (unfold Q2R; simpl; lra). ring.
Qed.
Lemma in_pixel_real s p v : in_pixel s p v <-> in_pixelR s p (Q2R v).
Proof.
  unfold in_pixel, in_pixelR. rewrite <- !Q2R_Z. split; intros [A B]; split; (apply Qlt_Rlt || apply Rlt_Qlt); assumption.
Qed.
Lemma rational_near t d : 0 <= t <= 1 -> 0 < d -> exists q : Q, (0 <= q <= 1)%Q /\ Rabs (Q2R q - t) < d.
Proof.
  intros T D. pose proof (archimed (/ d)) as [U _]. set (N := up (/ d)) in *.
  assert (I : 0 < / d) by (apply Rinv_0_lt_compat; exact D).
  assert (N0 : (0 < N)%Z) by (apply lt_IZR; lra).
  exists (Int_part (t * IZR N) # Z.to_pos N)%Q.
  assert (E : Q2R (Int_part (t * IZR N) # Z.to_pos N) = IZR (Int_part (t * IZR N)) / IZR N).
  { unfold Q2R. simpl. rewrite Z2Pos.id by exact N0. reflexivity. }
  pose proof (floor_spec (t * IZR N)) as [A B]. assert (NR : 0 < IZR N) by lra.
  assert (A' : 0 <= t * IZR N) by (apply Rmult_le_pos; lra).
  assert (G : (0 <= Int_part (t * IZR N))%Z).
  { assert (X : IZR (- 1) < IZR (Int_part (t * IZR N))) by (simpl; lra). apply lt_IZR in X. lia. }
  apply IZR_le in G.
  assert (tN : t * IZR N <= 1 * IZR N) by (apply Rmult_le_compat_r; lra).
  split; [split|].
  - apply Rle_Qle. rewrite E. replace (Q2R 0) with 0 by (unfold Q2R; simpl; lra).
    apply Rmult_le_pos; [exact G|]. apply Rlt_le, Rinv_0_lt_compat. exact NR.
  - apply Rle_Qle. rewrite E. replace (Q2R 1) with 1 by (unfold Q2R; simpl; lra).
    apply Rmult_le_reg_r with (IZR N); [exact NR|]. unfold Rdiv. rewrite Rmult_assoc, Rinv_l by lra. lra.
  - rewrite E. replace (IZR (Int_part (t * IZR N)) / IZR N - t) with (- ((t * IZR N - IZR (Int_part (t * IZR N))) / IZR N)) by (field; lra).
    rewrite Rabs_Ropp, Rabs_right.
    + apply div_lt; [exact NR|]. apply Rlt_trans with 1; [lra|].
      apply Rmult_lt_reg_r with (/ d); [exact I|]. rewrite Rmult_assoc, Rinv_r by lra. lra.
    + apply Rle_ge, Rmult_le_pos; [lra|]. apply Rlt_le, Rinv_0_lt_compat. exact NR.
Qed.
Lemma crosses_real b e s c : crosses b e s c <-> exists t, 0 <= t <= 1 /\
  in_pixelR s (fst c) (alongR (fst b) (fst e) t) /\ in_pixelR s (snd c) (alongR (snd b) (snd e) t).
Proof.
  split.
  - intros [t [[T1 T2] [A B]]]. exists (Q2R t). rewrite in_pixel_real, Q2R_along in A, B.
    apply Qle_Rle in T1, T2. replace (Q2R 0) with 0 in T1 by (unfold Q2R; simpl; lra). replace (Q2R 1) with 1 in T2 by (unfold Q2R; simpl; lra).
    auto.
  - intros [t [T [[A1 A2] [B1 B2]]]].
    set (x := alongR (fst b) (fst e) t) in *. set (y := alongR (snd b) (snd e) t) in *.
    set (m := Rmin (Rmin (x - IZR (s * fst c)) (IZR (s * (fst c + 1)) - x)) (Rmin (y - IZR (s * snd c)) (IZR (s * (snd c + 1)) - y))).
    assert (M0 : 0 < m) by (unfold m; repeat apply Rmin_glb_lt; lra).
    assert (M1 : m <= x - IZR (s * fst c)) by (unfold m; eapply Rle_trans; apply Rmin_l).
    assert (M2 : m <= IZR (s * (fst c + 1)) - x) by (unfold m; eapply Rle_trans; [apply Rmin_l | apply Rmin_r]).
    assert (M3 : m <= y - IZR (s * snd c)) by (unfold m; eapply Rle_trans; [apply Rmin_r | apply Rmin_l]).
    assert (M4 : m <= IZR (s * (snd c + 1)) - y) by (unfold m; eapply Rle_trans; apply Rmin_r).
    clearbody m.
    set (dx := IZR (fst e) - IZR (fst b)) in *. set (dy := IZR (snd e) - IZR (snd b)) in *.
    set (D := Rabs dx + Rabs dy + 1). pose proof (Rabs_pos dx) as Px. pose proof (Rabs_pos dy) as Py.
    assert (D0 : 0 < D) by (unfold D; lra).
    destruct (rational_near t (m / D) T) as [q [Hq N]]; [apply Rdiv_lt_0_compat; assumption|].
    exists q. split; [exact Hq|]. rewrite !in_pixel_real, !Q2R_along.
    assert (K : forall d, Rabs d <= D -> Rabs ((Q2R q - t) * d) < m).
    { intros d Hd. rewrite Rabs_mult. pose proof (Rabs_pos (Q2R q - t)).
      apply Rle_lt_trans with (Rabs (Q2R q - t) * D); [apply Rmult_le_compat_l; assumption|].
      apply Rmult_lt_compat_r with (r := D) in N; [|exact D0]. unfold Rdiv in N. rewrite Rmult_assoc, Rinv_l in N by lra. lra. }
    assert (Kx := K dx ltac:(unfold D; lra)). assert (Ky := K dy ltac:(unfold D; lra)).
    apply Rabs_def2 in Kx, Ky.
    assert (Ex : alongR (fst b) (fst e) (Q2R q) = x + (Q2R q - t) * dx) by (unfold x, dx, alongR; ring).
    assert (Ey : alongR (snd b) (snd e) (Q2R q) = y + (Q2R q - t) * dy) by (unfold y, dy, alongR; ring).
    rewrite Ex, Ey. unfold in_pixelR. lra.
Qed.

(* masks have no negative ends *)
Lemma ordered_nonneg b e s l : (fst b <= fst e)%Z -> ray_ordered b e s = Some l ->
  (0 <= fst b /\ 0 <= snd b /\ 0 <= fst e /\ 0 <= snd e)%Z.
Proof.
  destruct b as [bx by_], e as [ex ey]. unfold ray_ordered. intros L. cbn [fst] in L. destruct (s =? 0)%Z; [discriminate|].
  destruct ((0 <=? bx) && (0 <=? by_) && (0 <=? ey))%Z eqn:E; [|discriminate]. intros _.
  rewrite !andb_true_iff, !Z.leb_le in E. cbn [fst snd]. lia.
Qed.
Lemma mask_nonneg b e s l : ray_to_pixel_mask b e s = Some l -> (0 <= fst b /\ 0 <= snd b /\ 0 <= fst e /\ 0 <= snd e)%Z.
Proof.
  unfold ray_to_pixel_mask. destruct (Z.ltb_spec (fst e) (fst b)); intros H'.
  - destruct (ray_ordered e b s) eqn:E; [|discriminate]. apply ordered_nonneg in E; lia.
  - destruct (ray_ordered b e s) eqn:E; [|discriminate]. apply ordered_nonneg in E; lia.
Qed.

(* the ends of the ray *)
Lemma norm_dist o h : norm2 (fst h - fst o) (snd h - snd o) = dist o h.
Proof. reflexivity. Qed.
Lemma ends_ok o origin hit : dist origin hit <> 0 -> ray_ends o origin hit = (ray_from o origin hit, ray_to o origin hit).
Proof.
  intros D. unfold ray_ends, ray_from, ray_to, past. rewrite norm_dist. f_equal.
  - destruct (o_free_space o); [reflexivity|]. f_equal; field; exact D.
  - f_equal; field; exact D.
Qed.
Lemma superscaled_ok l s : superscaled l = Some s -> small_grid l /\ s = mk_limits2 (l_res l / 1000) (l_max_x l) (l_max_y l) (l_nx l * 1000) (l_ny l * 1000).
Proof.
  unfold superscaled, subpixel_scale, small_grid. destruct (_ && _)%bool eqn:E; [|discriminate]. intros H.
  rewrite andb_true_iff, !Z.ltb_lt in E. split; [exact E|]. congruence.
Qed.
Lemma superscaled_small l : small_grid l -> superscaled l = Some (mk_limits2 (l_res l / 1000) (l_max_x l) (l_max_y l) (l_nx l * 1000) (l_ny l * 1000)).
Proof.
  unfold superscaled, subpixel_scale, small_grid. rewrite <- !Z.ltb_lt. intros [-> ->]. reflexivity.
Qed.
Lemma fits_ok z : (0 <= z)%Z -> fits_int z = true -> int32 z.
Proof. unfold fits_int, int32. rewrite andb_true_iff, Z.leb_le, Z.ltb_lt. lia. Qed.
Lemma mask_ok o l origin hit m : dist origin hit <> 0 -> ray_mask o l origin hit = Some m ->
  (forall c, In c m <-> crossed o l origin hit c) /\ NoDup m.
Proof.
  intros D. unfold ray_mask. destruct (superscaled l) as [s|] eqn:S; [|discriminate].
  destruct (superscaled_ok _ _ S) as [_ ->]. rewrite ends_ok by exact D. cbn zeta. cbn [fst snd].
  unfold crossed.
  set (b := cell_index2 _ (fst (ray_from o origin hit)) _).
  set (e := cell_index2 _ (fst (ray_to o origin hit)) _).
  change (cell_index2 (subpixels l) (fst (ray_from o origin hit)) (snd (ray_from o origin hit))) with b.
  change (cell_index2 (subpixels l) (fst (ray_to o origin hit)) (snd (ray_to o origin hit))) with e.
  destruct (fits_int (fst b) && fits_int (snd b) && fits_int (fst e) && fits_int (snd e)) eqn:F; [|discriminate].
  rewrite !andb_true_iff in F. destruct F as [[[F1 F2] F3] F4]. intros H. destruct (mask_nonneg _ _ _ _ H) as [N1 [N2 [N3 N4]]].
  destruct (C21_ray b e 1000 (fits_ok _ N1 F1) (fits_ok _ N2 F2) (fits_ok _ N3 F3) (fits_ok _ N4 F4) ltac:(lia) ltac:(lia)) as [m' [E [G1 [G2 _]]]].
  assert (m' = m) by (unfold subpixel_scale in H; congruence). subst m'. split; [exact G1 | exact G2].
Qed.
Lemma subpixels_proper l : proper l -> proper (subpixels l).
Proof. unfold proper, subpixels. lcbn. intros [A [B C]]. repeat split; [lra | lia | lia]. Qed.
Lemma subpixels_inside l p : inside (subpixels l) p <-> inside l p.
Proof.
  unfold inside, subpixels. lcbn. rewrite !mult_IZR.
  replace (l_res l / 1000 * (1000 * IZR (l_ny l))) with (l_res l * IZR (l_ny l)) by field.
  replace (l_res l / 1000 * (1000 * IZR (l_nx l))) with (l_res l * IZR (l_nx l)) by field. reflexivity.
Qed.
Lemma mask_exists o l origin hit : dist origin hit <> 0 -> proper l -> small_grid l ->
  inside l (ray_from o origin hit) -> inside l (ray_to o origin hit) -> exists m, ray_mask o l origin hit = Some m.
Proof.
  intros D P S A B. unfold ray_mask. rewrite superscaled_small by exact S. rewrite ends_ok by exact D. cbn zeta. cbn [fst snd].
  set (b := cell_index2 _ (fst (ray_from o origin hit)) _).
  set (e := cell_index2 _ (fst (ray_to o origin hit)) _).
  assert (Hb : is_cell (subpixels l) b) by (apply (index_inside (subpixels l)), subpixels_inside; [apply subpixels_proper; exact P | exact A]).
  assert (He : is_cell (subpixels l) e) by (apply (index_inside (subpixels l)), subpixels_inside; [apply subpixels_proper; exact P | exact B]).
  unfold is_cell, subpixels in Hb, He. cbn [l_nx l_ny] in Hb, He. unfold small_grid in S.
  assert (F : forall z, (0 <= z < 2 ^ 31)%Z -> fits_int z = true) by (intros z Hz; unfold fits_int; rewrite andb_true_iff, Z.leb_le, Z.ltb_lt; lia).
  rewrite !F by lia. cbn [andb].
  assert (I : forall z, (0 <= z < 2 ^ 31)%Z -> int32 z) by (intros z Hz; exact Hz).
  destruct (C21_ray b e 1000) as [m [E _]]; try (apply I); try lia.
  exists m. exact E.
Qed.
Lemma along_cell n b e t s p : (0 <= b < s * n)%Z -> (0 <= e < s * n)%Z -> (0 < s)%Z -> 0 <= t <= 1 -> in_pixelR s p (alongR b e t) -> (0 <= p < n)%Z.
Proof.
  intros B E S T [A1 A2]. unfold alongR in *.
  assert (B1 : 0 <= IZR b) by (apply IZR_le; lia). assert (B2 : IZR b + 1 <= IZR (s * n)) by (rewrite <- plus_IZR; apply IZR_le; lia).
  assert (E1 : 0 <= IZR e) by (apply IZR_le; lia). assert (E2 : IZR e + 1 <= IZR (s * n)) by (rewrite <- plus_IZR; apply IZR_le; lia).
  assert (X1 : 0 < IZR b + 1 / 2 + t * (IZR e - IZR b)) by nra.
  assert (X2 : IZR b + 1 / 2 + t * (IZR e - IZR b) < IZR (s * n)) by nra.
  assert (Y1 : IZR 0 < IZR (s * (p + 1))) by lra. assert (Y2 : IZR (s * p) < IZR (s * n)) by lra.
  apply lt_IZR in Y1, Y2. nia.
Qed.
Lemma crossed_cell o l origin hit c : proper l -> inside l (ray_from o origin hit) -> inside l (ray_to o origin hit) ->
  crossed o l origin hit c -> is_cell l c.
Proof.
  intros P A B X. apply subpixels_inside, index_inside in A, B; try (apply subpixels_proper; exact P).
  unfold crossed in X. apply crosses_real in X. destruct X as [t [T [X Y]]].
  destruct A as [A1 A2], B as [B1 B2]. unfold subpixels in *. cbn [l_nx l_ny] in *.
  split; [apply (along_cell _ _ _ _ _ _ A1 B1 ltac:(lia) T X) | apply (along_cell _ _ _ _ _ _ A2 B2 ltac:(lia) T Y)].
Qed.

(* cells and rays in the plane *)
Lemma index_coord r m x : 0 < r -> Rabs ((m - x) / r - (IZR (lround ((m - x) / r - 1 / 2)) + 1 / 2)) <= 1 / 2.
Proof. intros H. pose proof (lround_near ((m - x) / r - 1 / 2)) as [A B]. apply Rabs_le. lra. Qed.
Lemma along_coord r m x y t : 0 < r -> 0 <= t <= 1 ->
  Rabs ((m - (x + t * (y - x))) / r - alongR (lround ((m - x) / r - 1 / 2)) (lround ((m - y) / r - 1 / 2)) t) <= 1 / 2.
Proof.
  intros H T. pose proof (index_coord r m x H) as A. pose proof (index_coord r m y H) as B. unfold alongR.
  set (i := IZR (lround ((m - x) / r - 1 / 2))) in *. set (j := IZR (lround ((m - y) / r - 1 / 2))) in *.
  replace ((m - (x + t * (y - x))) / r) with ((1 - t) * ((m - x) / r) + t * ((m - y) / r)) by (field; lra).
  set (u := (m - x) / r) in *. set (v := (m - y) / r) in *. clearbody u v i j.
  assert (A' : - (1 / 2) <= u - (i + 1 / 2) <= 1 / 2) by (split; pose proof (Rle_abs (u - (i + 1 / 2))); pose proof (Rle_abs (- (u - (i + 1 / 2)))); rewrite Rabs_Ropp in *; lra).
  assert (B' : - (1 / 2) <= v - (j + 1 / 2) <= 1 / 2) by (split; pose proof (Rle_abs (v - (j + 1 / 2))); pose proof (Rle_abs (- (v - (j + 1 / 2)))); rewrite Rabs_Ropp in *; lra).
  apply Rabs_le. split; nra.
Qed.
Lemma cell_coord r m p x k : 0 < r ->
  (Rabs (x - (m - r * (IZR p + 1 / 2))) < r / 2 + k * (r / 1000) <-> Rabs ((m - x) / (r / 1000) - (1000 * IZR p + 500)) < 500 + k).
Proof.
  intros H. replace ((m - x) / (r / 1000) - (1000 * IZR p + 500)) with (- ((x - (m - r * (IZR p + 1 / 2))) / (r / 1000))) by (field; lra).
  rewrite Rabs_Ropp. set (a := x - (m - r * (IZR p + 1 / 2))).
  replace (Rabs (a / (r / 1000))) with (Rabs a / (r / 1000))
    by (unfold Rdiv at 1 3; rewrite Rabs_mult, (Rabs_right (/ (r / 1000))) by (apply Rle_ge, Rlt_le, Rinv_0_lt_compat; lra); reflexivity).
  rewrite div_lt by lra. split; lra.
Qed.
Lemma pixel_coord p v : in_pixelR 1000 p v <-> Rabs (v - (1000 * IZR p + 500)) < 500.
Proof.
  unfold in_pixelR. rewrite !mult_IZR, plus_IZR. split.
  - intros. apply Rabs_def1; lra.
  - intros H. apply Rabs_def2 in H. lra.
Qed.
Lemma abs_shift a b c k : Rabs (a - b) <= 1 / 2 -> Rabs (b - c) < k -> Rabs (a - c) < k + 1 / 2.
Proof.
  intros A B. replace (a - c) with ((a - b) + (b - c)) by ring. pose proof (Rabs_triang (a - b) (b - c)). lra.
Qed.
Lemma crossed_near o l origin hit c : proper l -> crossed o l origin hit c ->
  exists t, 0 <= t <= 1 /\ in_cell l c (l_res l / 2000) (between (ray_from o origin hit) (ray_to o origin hit) t).
Proof.
  intros [Hr _] X. apply crosses_real in X. destruct X as [t [T [X Y]]]. exists t. split; [exact T|].
  rewrite pixel_coord in X, Y. unfold in_cell, between, cell_center2. cbn [fst snd].
  replace (l_res l / 2000) with (1 / 2 * (l_res l / 1000)) by field. unfold cell_index2, subpixels in X, Y. cbn [fst snd l_res l_max_x l_max_y] in X, Y.
  split; apply cell_coord; try exact Hr; (eapply abs_shift; [apply along_coord; [lra | exact T]|]); assumption.
Qed.
Lemma deep_crossed o l origin hit c t : proper l -> 0 <= t <= 1 ->
  in_cell l c (- (l_res l / 2000)) (between (ray_from o origin hit) (ray_to o origin hit) t) -> crossed o l origin hit c.
Proof.
  intros [Hr _] T. unfold in_cell, between, cell_center2. cbn [fst snd].
  replace (- (l_res l / 2000)) with (- (1 / 2) * (l_res l / 1000)) by field. rewrite !cell_coord by exact Hr. intros [X Y].
  unfold crossed. apply crosses_real. exists t. split; [exact T|]. unfold cell_index2, subpixels. cbn [fst snd l_res l_max_x l_max_y].
  rewrite !pixel_coord. replace 500 with (500 + - (1 / 2) + 1 / 2) at 2 4 by field.
  split; (eapply abs_shift; [rewrite Rabs_minus_sym; apply along_coord; [lra | exact T]|]); assumption.
Qed.
