(* C71 and C72: the histograms of the rotational scan matcher *)
From Coq Require Import ZArith Reals Lra Lia List Bool Permutation.
From Verif Require Import CF_Model RG_Model IG_Model IG_Proofs IG_Smooth I2_Match Vec RH_Model RH_Spec RH_Proofs RH_Turn RH_Slice.
Import ListNotations.
Open Scope R_scope.

(* ---- C71: computing histograms *)

(* a direction is added to the one bin that contains its line *)
Theorem C71_direction : forall angle value h, - PI <= angle <= PI -> h <> [] ->
  exists w b h', add_value 1 angle value h = Some h' /\
    (w = angle \/ w = angle + PI) /\ 0 <= w <= PI /\
    (0 <= b < Z.of_nat (length h))%Z /\
    IZR b * (PI / INR (length h)) <= w <= IZR (b + 1) * (PI / INR (length h)) /\
    (w < PI -> w < IZR (b + 1) * (PI / INR (length h))) /\
    length h' = length h /\ nth (Z.to_nat b) h' 0 = nth (Z.to_nat b) h 0 + value /\
    forall k, k <> Z.to_nat b -> nth k h' 0 = nth k h 0.
Proof.
  intros angle value h A NE. pose proof PI_pos as P.
  destruct (add_ok angle value h A NE) as [w [h' [W [E [L [_ B]]]]]].
  destruct (wrapped_ok angle A) as [w' [W' [R [C _]]]]. rewrite W in W'. injection W' as <-.
  assert (N : (0 < vsize h)%Z) by (unfold vsize; destruct h; [congruence | cbn [length]; lia]).
  pose proof (bucket_in (vsize h) w N) as K. set (b := bucket_of (vsize h) w) in *.
  assert (N' : 0 < IZR (vsize h)) by (apply IZR_lt; exact N).
  assert (EQ : INR (length h) = IZR (vsize h)) by (unfold vsize; apply INR_IZR_INZ). rewrite EQ.
  exists w, b, h'. split; [exact E|]. split; [exact C|]. split; [exact R|]. split; [exact K|].
  assert (S : IZR b <= IZR (vsize h) * (w / PI) <= IZR (b + 1) /\ (w < PI -> IZR (vsize h) * (w / PI) < IZR (b + 1))).
  { destruct (Rlt_dec w PI) as [Q|Q].
    - unfold b. rewrite bucket_floor by (try exact N; lra). rewrite plus_IZR.
      pose proof (floor_spec (IZR (vsize h) * (w / PI))). lra.
    - assert (w = PI) by lra. subst w. replace (IZR (vsize h) * (PI / PI)) with (IZR (vsize h)) by (field; lra).
      assert (b = vsize h - 1)%Z.
      { unfold b, bucket_of. replace (IZR (vsize h) * (PI / PI) - 1 / 2) with (IZR (vsize h) - 1 / 2) by (field; lra).
        destruct (lround_half_up (IZR (vsize h)) N') as [-> | [F _]].
        - rewrite floor_Z. unfold clamp_int. destruct (Z.ltb_spec (vsize h - 1) (vsize h)); lia.
        - assert (1 <= IZR (vsize h)) by (apply IZR_le; lia). lra. }
      rewrite H. rewrite minus_IZR. replace (vsize h - 1 + 1)%Z with (vsize h) by lia. lra. }
  assert (M : w = IZR (vsize h) * (w / PI) * (PI / IZR (vsize h))) by (field; lra).
  assert (U : 0 < PI / IZR (vsize h)) by (now apply Rdiv_lt_0_compat).
  split; [rewrite M at 1 2; split; apply Rmult_le_compat_r; lra|].
  split; [intros Q; rewrite M at 1; apply Rmult_lt_compat_r; [exact U | now apply S]|].
  split; [exact L|]. split.
  - specialize (B b K). rewrite Z.eqb_refl in B. exact B.
  - intros k H. destruct (Nat.lt_ge_cases k (length h)) as [Q|Q].
    + specialize (B (Z.of_nat k) ltac:(unfold vsize; lia)). unfold bin in B. rewrite Nat2Z.id in B. rewrite B.
      destruct (Z.eqb_spec (Z.of_nat k) b) as [G|G]; [exfalso; apply H; lia | lra].
    + rewrite !nth_overflow by lia. reflexivity.
Qed.
(* opposite directions are the same line, but the direction of the negative x axis has another bin
   than the one of the positive x axis *)
Theorem C71_opposite_refuted : exists h, add_value 1 0 1 h <> add_value 1 PI 1 h.
Proof.
  exists [0; 0]. pose proof PI_pos as P.
  destruct (C71_direction 0 1 [0; 0] ltac:(lra) ltac:(discriminate)) as [w [b [h [E [C [R [K [I [I' [L [V _]]]]]]]]]]].
  destruct (C71_direction PI 1 [0; 0] ltac:(lra) ltac:(discriminate)) as [w' [b' [h' [E' [C' [R' [K' [J [J' [L' [V' O']]]]]]]]]]].
  rewrite E, E'. intros [= Q]. cbn [length INR] in I, I', J. change (Z.of_nat (length [0; 0])) with 2%Z in K, K'.
  assert (w' = PI) by (destruct C'; lra). subst w'.
  assert (b' = 1)%Z. { assert (1 < IZR (b' + 1)) by nra. apply lt_IZR in H. lia. } subst b'.
  rewrite Q in V. destruct C as [-> | ->].
  - assert (b = 0)%Z. { assert (IZR b <= 0) by nra. apply le_IZR in H. lia. } subst b.
    change (Z.to_nat 0) with 0%nat in V. rewrite (O' 0%nat) in V by (cbn; lia). cbn in V. lra.
  - (* the angle is not negative: PI is not added *)
    assert (W : wrapped 1 0 = Some 0).
    { unfold wrapped. cbn [angle_down]. destruct (Rlt_dec PI 0); [lra|]. cbn [angle_up]. destruct (Rlt_dec 0 0); [lra | reflexivity]. }
    destruct (add_around 0 1 [0; 0] h 0 ltac:(discriminate) ltac:(lra) W E) as [_ S].
    destruct (add_around PI 1 [0; 0] h' PI ltac:(discriminate) ltac:(lra)) with (2 := E') as [_ S'].
    { unfold wrapped. cbn [angle_down]. destruct (Rlt_dec PI PI); [lra|]. cbn [angle_up]. destruct (Rlt_dec PI 0); [lra | reflexivity]. }
    specialize (S 0%Z). rewrite Q in S.
    rewrite bucket_floor in S by (try reflexivity; lra).
    replace (IZR (vsize [0; 0]) * (0 / PI)) with (IZR 0) in S by (unfold Rdiv; ring). rewrite floor_Z in S.
    change (Z.eqb (Z.modulo 0%Z (vsize [0; 0])) 0%Z) with true in S. cbv iota in S.
    assert (Z0 : nth 0 h' 0 = 0) by (rewrite (O' 0%nat) by discriminate; reflexivity).
    assert (A0 : around_bin h' 0 = nth 0 h' 0) by (unfold around_bin; rewrite L'; reflexivity).
    rewrite A0 in S. rewrite Z0 in S. change (around_bin [0; 0] 0) with 0 in S. lra.
Qed.
(* every cloud has a histogram *)
Theorem C71_histogram : forall cloud n, (0 < n)%nat -> exists h,
  compute_histogram 1 cloud n = Some h /\ length h = n /\ (forall x, In x h -> 0 <= x) /\ mass h <= INR (length cloud).
Proof.
  intros cloud n N. unfold compute_histogram.
  assert (S : sound n 0 (repeat 0 n)).
  { split; [apply repeat_length|]. split; [intros x I; apply repeat_spec in I; lra|]. rewrite mass_repeat. cbn. lra. }
  destruct (compute_sound n (slices cloud) N (slices_nonempty cloud) 0%nat _ S) as [h [E [L [P M]]]].
  exists h. rewrite (Permutation_length (slices_perm cloud)) in M. auto.
Qed.
(* the slices are a partition of the cloud by height *)
Theorem C71_slices : forall cloud, Permutation (concat (slices cloud)) cloud /\
  forall s, In s (slices cloud) -> s <> [] /\ exists k, forall p,
    In p s <-> (In p cloud /\ slice_key p = k) /\ Rabs (v2 p - IZR k * (2 / 10)) <= 1 / 10.
Proof.
  intros cloud. split; [apply slices_perm|]. intros s I. split; [now apply slices_nonempty in I|].
  unfold slices in I. apply in_map_iff in I. destruct I as [k [<- K]]. exists k. intros p. rewrite filter_In, Z.eqb_eq.
  split; [|tauto]. intros H. split; [exact H|]. destruct H as [_ <-]. unfold slice_key, k_slice_height.
  pose proof (lround_near (v2 p / (2 / 10))) as Q. set (z := IZR (lround _)) in *.
  assert (v2 p = v2 p / (2 / 10) * (2 / 10)) by (field; lra). apply Rabs_le. lra.
Qed.
(* a slice is sorted by the angle around its centroid, without the points next to it *)
Theorem C71_sorted : forall slice, slice <> [] -> exists c s, centroid slice = Some c /\ sort_slice slice = Some s /\
  Permutation s (filter (fun p => if Rlt_dec (norm2 (head2 p c)) (2 / 10) then false else true) slice) /\
  ascending (map (fun p => atan2 (v1 p - v1 c) (v0 p - v0 c)) s).
Proof. intros slice NE. exact (sort_slice_ok slice NE). Qed.
(* turning a sorted slice by full bins around the z axis turns what it adds to the histogram *)
Theorem C71_turned : forall k slice h t, h <> [] -> t = IZR k * PI / INR (length h) ->
  (forall p q, In p slice -> In q slice -> ~ left_of p q /\ ~ left_of (turn_z t p) (turn_z t q)) ->
  exists g, add_slice 1 slice h = Some g /\
    add_slice 1 (map (turn_z t) slice) (rotate_histogram h t) = Some (rotate_histogram g t).
Proof.
  intros k slice h t NE T H.
  assert (EQ : INR (length h) = IZR (vsize h)) by (unfold vsize; apply INR_IZR_INZ). rewrite EQ in T.
  assert (S : shifted k h (rotate_histogram h t)) by (apply shifted_rotate; [exact NE | now rewrite T]).
  destruct (slice_shifted (vsize h) k t slice h _ T eq_refl S H) as [g [g' [E [E' [V SG]]]]].
  exists g. split; [exact E|]. rewrite E'. f_equal.
  assert (NG : g <> []) by (destruct SG as [_ [Q _]]; exact Q).
  apply (shifted_rotate k g g' NG) in SG. rewrite SG, V. now rewrite T.
Qed.

(* ... but the order of the points in a slice starts at the angle of the negative x axis *)
Definition around_square : list point :=
  [mk_vec3 (-3/10) (-4/10) 0; mk_vec3 (4/10) (-3/10) 0; mk_vec3 (3/10) (4/10) 0; mk_vec3 (-4/10) (3/10) 0].
Definition turned_square : list point :=
  [mk_vec3 (4/10) (-3/10) 0; mk_vec3 (3/10) (4/10) 0; mk_vec3 (-4/10) (3/10) 0; mk_vec3 (-3/10) (-4/10) 0].
Lemma turned_square_ok : map (turn_z (PI / 2)) around_square = turned_square.
Proof.
  unfold around_square, turned_square, turn_z. cbn [map v0 v1 v2]. rewrite cos_PI2, sin_PI2.
  repeat (apply f_equal2; [f_equal; field|]). reflexivity.
Qed.
Lemma square_centroid l : l = around_square \/ l = turned_square -> centroid l = Some v_zero.
Proof.
  intros [-> | ->]; unfold centroid, around_square, turned_square; cbn [fold_left length]; f_equal;
    unfold vscale, vadd, v_zero; cbn [v0 v1 v2]; f_equal; field; cbn; lra.
Qed.
Lemma norm_half x y : x * x + y * y = 1 / 4 -> norm2 (x - 0, y - 0) = 1 / 2.
Proof.
  intros E. unfold norm2. cbn [fst snd]. replace ((x - 0) * (x - 0) + (y - 0) * (y - 0)) with ((1 / 2) * (1 / 2)) by lra.
  apply sqrt_square. lra.
Qed.
Lemma square_angles :
  let a := angle_around v_zero in
  a (mk_vec3 (-3/10) (-4/10) 0) < a (mk_vec3 (4/10) (-3/10) 0) < a (mk_vec3 (3/10) (4/10) 0) /\
  a (mk_vec3 (3/10) (4/10) 0) < a (mk_vec3 (-4/10) (3/10) 0).
Proof.
  cbv zeta. unfold angle_around, head2, v_zero. cbn [v0 v1 v2 fst snd]. unfold atan2.
  repeat (destruct (Rlt_dec _ _); [| try lra] || destruct (Rle_dec _ _); try lra); try lra.
  all: set (u := atan ((-4 / 10 - 0) / (-3 / 10 - 0))) in *; set (v := atan ((-3 / 10 - 0) / (4 / 10 - 0)));
    set (w := atan ((4 / 10 - 0) / (3 / 10 - 0))); set (x := atan ((3 / 10 - 0) / (-4 / 10 - 0))).
  all: pose proof (atan_bound ((-4 / 10 - 0) / (-3 / 10 - 0))) as U; pose proof (atan_bound ((-3 / 10 - 0) / (4 / 10 - 0))) as V;
    pose proof (atan_bound ((4 / 10 - 0) / (3 / 10 - 0))) as W; pose proof (atan_bound ((3 / 10 - 0) / (-4 / 10 - 0))) as X;
    fold u in U; fold v in V; fold w in W; fold x in X.
  all: assert (v < w) by (apply atan_increasing; lra).
  all: pose proof PI_pos; lra.
Qed.
Lemma square_sorted l : l = around_square \/ l = turned_square -> sort_slice l = Some around_square.
Proof.
  intros L. unfold sort_slice. rewrite (square_centroid l L). cbv zeta. f_equal.
  assert (F : filter (fun p => if Rlt_dec (norm2 (head2 p v_zero)) k_min_distance then false else true) l = l).
  { apply filter_all. intros p P. unfold head2, v_zero. cbn [v0 v1].
    rewrite norm_half; [destruct (Rlt_dec _ _); [unfold k_min_distance in *; lra | reflexivity]|].
    destruct L as [-> | ->]; unfold around_square, turned_square in P; cbn [In] in P;
      repeat (destruct P as [<- | P]; [cbn [v0 v1]; lra|]); destruct P. }
  rewrite F. destruct square_angles as [[A B] C]. unfold around_square, turned_square in *.
  set (a := angle_around v_zero) in *.
  destruct L as [-> | ->]; cbn [fold_right insert_by];
    repeat (match goal with |- context [Rle_dec (a ?x) (a ?y)] => destruct (Rle_dec (a x) (a y)); [try lra | try lra] end; cbn [insert_by]);
    reflexivity.
Qed.
Lemma square_slices l : l = around_square \/ l = turned_square -> slices l = [l].
Proof.
  assert (K : slice_key (mk_vec3 0 0 0) = 0%Z).
  { unfold slice_key. cbn [v2]. replace (0 / k_slice_height) with (IZR 0) by (unfold k_slice_height; field). apply lround_Z. }
  assert (K' : forall x y, slice_key (mk_vec3 x y 0) = 0%Z) by (intros; exact K).
  intros [-> | ->]; unfold slices, slice_keys, around_square, turned_square; cbn [fold_left]; rewrite !K';
    cbn [insert_key map filter Z.ltb Z.eqb Z.compare]; rewrite !K'; reflexivity.
Qed.
Lemma sqrt_half : sqrt (1 / 2) * sqrt (1 / 2) = 1 / 2. Proof. apply sqrt_sqrt. lra. Qed.
Lemma half_bounds : 7 / 10 < sqrt (1 / 2) < 71 / 100.
Proof.
  split.
  - rewrite <- (sqrt_square (7 / 10)) by lra. apply sqrt_lt_1; lra.
  - rewrite <- (sqrt_square (71 / 100)) by lra. apply sqrt_lt_1; lra.
Qed.
Lemma square_bucket a w : wrapped 1 a = Some w -> 0 <= w < PI / 2 -> bucket_of 2 w = 0%Z.
Proof.
  intros _ W. pose proof PI_pos. rewrite bucket_floor by (try reflexivity; lra). apply floor_unique.
  assert (0 <= w / PI < 1 / 2).
  { split; [apply Rmult_le_pos; [lra | left; apply Rinv_0_lt_compat; lra]|].
    apply Rmult_lt_reg_r with PI; [lra|]. unfold Rdiv at 1. rewrite Rmult_assoc, Rinv_l by lra. lra. }
  lra.
Qed.
Lemma add_first a w v x y : - PI <= a <= PI -> wrapped 1 a = Some w -> 0 <= w < PI / 2 ->
  add_value 1 a v [x; y] = Some [x + v; y].
Proof.
  intros A W R. unfold add_value. rewrite W. change (vsize [x; y]) with 2%Z. rewrite (square_bucket a w W R). reflexivity.
Qed.
Lemma seventh : 0 < atan (1 / 7) < PI / 2.
Proof.
  pose proof (atan_bound (1 / 7)). split; [|lra]. rewrite <- atan_0. apply atan_increasing. lra.
Qed.
Lemma square_added : add_slice 1 around_square [0; 0] = Some [2 - 2 * sqrt (1 / 2); 0].
Proof.
  unfold add_slice. rewrite square_centroid by now left. unfold around_square.
  pose proof half_bounds as HB. pose proof sqrt_half as HH. pose proof PI_pos as P. pose proof seventh as A7.
  set (c := v_zero). cbn [fold_left].
  assert (N0 : norm2 (0, 0) = 0) by (unfold norm2; cbn [fst snd]; replace (0 * 0 + 0 * 0) with 0 by ring; apply sqrt_0).
  assert (V : forall x y x' y', x * x + y * y = 1 / 2 -> x' * x' + y' * y' = 1 / 4 -> Rabs (x * x' + y * y') = 1 / 4 ->
    slice_value (x, y) (x' - 0, y' - 0) = 1 - sqrt (1 / 2)).
  { intros x y x' y' E1 E2 E3. unfold slice_value. rewrite (norm_half x' y' E2).
    unfold norm2. cbn [fst snd]. rewrite E1.
    replace (x / sqrt (1 / 2) * ((x' - 0) / (1 / 2)) + y / sqrt (1 / 2) * ((y' - 0) / (1 / 2)))
      with ((x * x' + y * y') * (2 * / sqrt (1 / 2))) by (field; lra).
    rewrite Rabs_mult, E3, (Rabs_pos_eq (2 * / sqrt (1 / 2))).
    - assert (I : / sqrt (1 / 2) = 2 * sqrt (1 / 2)).
      { apply Rmult_eq_reg_l with (sqrt (1 / 2)); [|lra]. rewrite Rinv_r by lra. lra. }
      rewrite I. rewrite Rmax_right; lra.
    - apply Rmult_le_pos; [lra|]. left. apply Rinv_0_lt_compat. lra. }
  (* the first point *)
  assert (S1 : slice_step 1 c (Some (mk_vec3 (-3/10) (-4/10) 0 : point, [0; 0])) (mk_vec3 (-3/10) (-4/10) 0)
    = Some (mk_vec3 (-3/10) (-4/10) 0 : point, [0; 0])).
  { unfold slice_step, head2. cbv zeta. cbn [v0 v1]. replace (-3 / 10 - -3 / 10) with 0 by ring.
    replace (-4 / 10 - -4 / 10) with 0 by ring. rewrite N0. destruct (Rlt_dec _ _); [reflexivity | unfold k_min_distance in *; lra]. }
  rewrite S1.
  (* the second one *)
  assert (S2 : slice_step 1 c (Some (mk_vec3 (-3/10) (-4/10) 0 : point, [0; 0])) (mk_vec3 (4/10) (-3/10) 0)
    = Some (mk_vec3 (-3/10) (-4/10) 0 : point, [0 + (1 - sqrt (1 / 2)); 0])).
  { unfold slice_step, head2, c, v_zero. cbv zeta. cbn [v0 v1]. replace (4 / 10 - -3 / 10) with (7 / 10) by field.
    replace (-3 / 10 - -4 / 10) with (1 / 10) by field.
    rewrite (norm_half (4 / 10) (-3 / 10)) by lra.
    replace (norm2 (7 / 10, 1 / 10)) with (sqrt (1 / 2)) by (unfold norm2; cbn [fst snd]; f_equal; lra).
    unfold k_min_distance, k_max_distance. destruct (Rlt_dec _ _); [lra|]. destruct (Rlt_dec _ _); [lra|]. destruct (Rlt_dec _ _); [lra|].
    rewrite (V (7 / 10) (1 / 10) (4 / 10) (-3 / 10)) by (try lra; rewrite Rabs_pos_eq; lra).
    cbn [fst snd]. replace (atan2 (1 / 10) (7 / 10)) with (atan (1 / 7)).
    - rewrite (add_first _ (atan (1 / 7))); [reflexivity | lra | | lra].
      unfold wrapped. cbn [angle_down]. destruct (Rlt_dec _ _); [lra|]. cbn [angle_up]. destruct (Rlt_dec _ _); [lra | reflexivity].
    - unfold atan2. destruct (Rlt_dec _ _); [|lra]. f_equal. field. }
  rewrite S2.
  assert (S3 : forall h, slice_step 1 c (Some (mk_vec3 (-3/10) (-4/10) 0 : point, h)) (mk_vec3 (3/10) (4/10) 0)
    = Some (mk_vec3 (3/10) (4/10) 0 : point, h)).
  { intros h. unfold slice_step, head2, c, v_zero. cbv zeta. cbn [v0 v1]. replace (3 / 10 - -3 / 10) with (6 / 10) by field.
    replace (4 / 10 - -4 / 10) with (8 / 10) by field. rewrite (norm_half (3 / 10) (4 / 10)) by lra.
    replace (norm2 (6 / 10, 8 / 10)) with 1.
    - unfold k_min_distance, k_max_distance. destruct (Rlt_dec _ _); [lra|]. destruct (Rlt_dec _ _); [lra|].
      destruct (Rlt_dec _ _); [reflexivity | lra].
    - unfold norm2. cbn [fst snd]. replace (6 / 10 * (6 / 10) + 8 / 10 * (8 / 10)) with 1 by lra. now rewrite sqrt_1. }
  rewrite S3.
  assert (S4 : forall x, slice_step 1 c (Some (mk_vec3 (3/10) (4/10) 0 : point, [x; 0])) (mk_vec3 (-4/10) (3/10) 0)
    = Some (mk_vec3 (3/10) (4/10) 0 : point, [x + (1 - sqrt (1 / 2)); 0])).
  { intros x. unfold slice_step, head2, c, v_zero. cbv zeta. cbn [v0 v1]. replace (-4 / 10 - 3 / 10) with (- (7 / 10)) by field.
    replace (3 / 10 - 4 / 10) with (- (1 / 10)) by field.
    rewrite (norm_half (-4 / 10) (3 / 10)) by lra.
    replace (norm2 (- (7 / 10), - (1 / 10))) with (sqrt (1 / 2)) by (unfold norm2; cbn [fst snd]; f_equal; lra).
    unfold k_min_distance, k_max_distance. destruct (Rlt_dec _ _); [lra|]. destruct (Rlt_dec _ _); [lra|]. destruct (Rlt_dec _ _); [lra|].
    rewrite (V (- (7 / 10)) (- (1 / 10)) (-4 / 10) (3 / 10)) by (try lra; rewrite Rabs_pos_eq; lra).
    cbn [fst snd]. replace (atan2 (- (1 / 10)) (- (7 / 10))) with (atan (1 / 7) - PI).
    - rewrite (add_first _ (atan (1 / 7))); [reflexivity | lra | | lra].
      unfold wrapped. cbn [angle_down]. destruct (Rlt_dec _ _); [lra|]. cbn [angle_up]. destruct (Rlt_dec _ _); [|lra].
      destruct (Rlt_dec _ _); [lra|]. f_equal. ring.
    - unfold atan2. destruct (Rlt_dec _ _); [lra|]. destruct (Rlt_dec _ _); [|lra]. destruct (Rle_dec _ _); [lra|].
      f_equal. f_equal. field. }
  rewrite S4. f_equal. f_equal. lra.
Qed.
Lemma square_histogram l : l = around_square \/ l = turned_square ->
  compute_histogram 1 l 2 = Some [2 - 2 * sqrt (1 / 2); 0].
Proof.
  intros L. unfold compute_histogram. rewrite (square_slices l L). cbn [fold_left repeat]. unfold compute_step.
  rewrite (square_sorted l L). apply square_added.
Qed.
(* the histogram of a turned cloud is not the turned histogram *)
Theorem C71_turn_refuted : exists cloud h g,
  (forall p q, In p cloud -> In q cloud -> ~ left_of p q /\ ~ left_of (turn_z (PI / 2) p) (turn_z (PI / 2) q)) /\
  compute_histogram 1 cloud 2 = Some h /\ compute_histogram 1 (map (turn_z (PI / 2)) cloud) 2 = Some g /\
  g <> rotate_histogram h (PI / 2) /\ match_histograms g (rotate_histogram h (PI / 2)) = 0.
Proof.
  exists around_square, [2 - 2 * sqrt (1 / 2); 0], [2 - 2 * sqrt (1 / 2); 0].
  set (x := 2 - 2 * sqrt (1 / 2)). assert (X : 1 / 2 < x) by (unfold x; pose proof half_bounds; lra).
  assert (R : rotate_histogram [x; 0] (PI / 2) = [0; x]).
  { apply around_ext; [now rewrite rotate_length|]. intros j.
    replace (PI / 2) with (IZR 1 * PI / IZR (vsize [x; 0])) by (change (vsize [x; 0]) with 2%Z; field).
    rewrite around_full by discriminate. unfold around_bin. change (Z.of_nat (length [x; 0])) with 2%Z. change (Z.of_nat (length [0; x])) with 2%Z.
    rewrite <- (Zminus_mod_idemp_l j 1 2). pose proof (Z.mod_pos_bound j 2 ltac:(lia)) as B.
    assert (C : (j mod 2 = 0 \/ j mod 2 = 1)%Z) by lia. destruct C as [-> | ->]; reflexivity. }
  split.
  { intros p q Hp Hq. unfold turn_z, left_of. cbn [v0 v1]. rewrite cos_PI2, sin_PI2.
    unfold around_square in Hp, Hq. cbn [In] in Hp, Hq.
    repeat (destruct Hp as [<- | Hp]); repeat (destruct Hq as [<- | Hq]); try contradiction;
      cbn [v0 v1]; split; intros [U W]; lra. }
  split; [apply square_histogram; now left|]. split; [rewrite turned_square_ok; apply square_histogram; now right|].
  rewrite R. split; [intros [= E _]; lra|].
  unfold match_histograms, hnorm, hdot. cbv zeta. cbn [combine map fold_right fst snd].
  replace (0 * 0 + (x * x + 0)) with (x * x) by ring. replace (x * x + (0 * 0 + 0)) with (x * x) by ring.
  rewrite sqrt_square by lra. destruct (Rlt_dec _ _); [nra|]. replace (x * 0 + (0 * x + 0)) with 0 by ring.
  unfold Rdiv. apply Rmult_0_l.
Qed.

(* ---- C72: turning and comparing histograms *)

(* bins of a turned histogram are interpolated between neighbouring ones *)
Theorem C72_interpolates : forall h angle k, h <> [] -> exists m s, 0 <= s < 1 /\
  - angle * INR (length h) / PI = IZR m + s /\
  around_bin (rotate_histogram h angle) k = (1 - s) * around_bin h (k + m) + s * around_bin h (k + m + 1).
Proof.
  intros h angle k NE. rewrite around_rotate by exact NE.
  assert (EQ : INR (length h) = IZR (vsize h)) by (unfold vsize; apply INR_IZR_INZ). rewrite EQ.
  fold (buckets h angle). set (v := buckets h angle). exists (Int_part v), (v - IZR (Int_part v)).
  pose proof (floor_spec v). split; [lra|]. split; [ring|]. rewrite (ramp_at _ v (Int_part v)) by lra.
  rewrite Z.add_assoc. ring.
Qed.
(* turns by full bins *)
Theorem C72_full : forall h j k, h <> [] ->
  around_bin (rotate_histogram h (IZR j * PI / INR (length h))) k = around_bin h (k - j).
Proof.
  intros h j k NE. assert (EQ : INR (length h) = IZR (vsize h)) by (unfold vsize; apply INR_IZR_INZ). rewrite EQ.
  now apply around_full.
Qed.
Theorem C72_group : forall h, rotate_histogram h 0 = h /\
  (forall a m, rotate_histogram h (a + IZR m * PI) = rotate_histogram h a) /\
  (forall j a, h <> [] -> rotate_histogram (rotate_histogram h (IZR j * PI / INR (length h))) a =
                          rotate_histogram h (IZR j * PI / INR (length h) + a)).
Proof.
  intros h. split; [apply rotate_0|]. split; [apply rotate_period|]. intros j a NE.
  assert (EQ : INR (length h) = IZR (vsize h)) by (unfold vsize; apply INR_IZR_INZ). rewrite EQ. now apply rotate_compose.
Qed.
(* turns by parts of bins do not add up *)
Theorem C72_compose_refuted : exists h a, rotate_histogram (rotate_histogram h a) a <> rotate_histogram h (a + a).
Proof.
  exists [1; 0; 0], (PI / 6). intros E. pose proof PI_pos as P.
  assert (B : forall h, length h = 3%nat -> buckets h (PI / 6) = -1 / 2).
  { intros h L. unfold buckets, vsize. rewrite L. change (Z.of_nat 3) with 3%Z. field. lra. }
  assert (V : forall h k, length h = 3%nat ->
    around_bin (rotate_histogram h (PI / 6)) k = 1 / 2 * around_bin h (k - 1) + 1 / 2 * around_bin h k).
  { intros h k L. rewrite around_rotate by (intros ->; discriminate). rewrite (B h L).
    rewrite (ramp_at _ (-1 / 2) (-1)) by lra. replace (k + (-1 + 1))%Z with k by lia. change (k + -1)%Z with (k - 1)%Z. lra. }
  assert (Q : around_bin (rotate_histogram (rotate_histogram [1; 0; 0] (PI / 6)) (PI / 6)) 1 = 1 / 2).
  { rewrite V by (rewrite rotate_length; reflexivity). rewrite !V by reflexivity.
    change (around_bin [1; 0; 0] (1 - 1 - 1)) with 0. change (around_bin [1; 0; 0] (1 - 1)) with 1.
    change (around_bin [1; 0; 0] 1) with 0. lra. }
  rewrite E in Q. replace (PI / 6 + PI / 6) with (IZR 1 * PI / IZR (vsize [1; 0; 0])) in Q
    by (change (vsize [1; 0; 0]) with 3%Z; field).
  rewrite around_full in Q by discriminate. change (around_bin [1; 0; 0] (1 - 1)) with 1 in Q. lra.
Qed.
(* nothing is lost, and bins stay in the range of the bins *)
Theorem C72_mass : forall h angle, length (rotate_histogram h angle) = length h /\
  mass (rotate_histogram h angle) = mass h /\
  forall lo hi, (forall x, In x h -> lo <= x <= hi) -> forall x, In x (rotate_histogram h angle) -> lo <= x <= hi.
Proof.
  intros h a. split; [apply rotate_length|]. split; [apply rotate_mass|]. intros lo hi. apply rotate_nonneg.
Qed.
(* no bin jumps with the angle *)
Theorem C72_continuous : forall h d, h <> [] -> (forall i, Rabs (around_bin h (i + 1) - around_bin h i) <= d) ->
  forall a b k, Rabs (around_bin (rotate_histogram h a) k - around_bin (rotate_histogram h b) k)
                <= d * (INR (length h) / PI) * Rabs (a - b).
Proof.
  intros h d NE D a b k. rewrite !around_rotate by exact NE. pose proof PI_pos as P.
  assert (EQ : INR (length h) = IZR (vsize h)) by (unfold vsize; apply INR_IZR_INZ). rewrite EQ.
  assert (N : 0 <= IZR (vsize h) / PI).
  { rewrite <- EQ. apply Rmult_le_pos; [apply pos_INR | left; now apply Rinv_0_lt_compat]. }
  eapply Rle_trans; [apply (ramp_lip _ d)|].
  - intros i. rewrite Z.add_assoc. apply D.
  - replace (buckets h a - buckets h b) with (IZR (vsize h) / PI * (b - a)) by (unfold buckets; field; lra).
    rewrite Rabs_mult, (Rabs_pos_eq _ N), (Rabs_minus_sym b a). lra.
Qed.
(* the score of two histograms *)
Theorem C72_score : forall a b, length a = length b ->
  -1 <= match_histograms a b <= 1 /\ match_histograms a b = match_histograms b a /\
  ((forall x, In x a -> 0 <= x) -> (forall x, In x b -> 0 <= x) -> 0 <= match_histograms a b).
Proof.
  intros a b L. split; [now apply match_range|]. split; [now apply match_comm|]. now apply match_nonneg.
Qed.
(* the largest score is that of proportional histograms *)
Theorem C72_largest : forall a b, length a = length b -> 1 / 1000 <= hnorm b * hnorm a ->
  (match_histograms a b = 1 <-> proportional a b).
Proof. exact match_one. Qed.
(* ... and of every pair with an almost empty one *)
Theorem C72_empty : forall a b, hnorm b * hnorm a < 1 / 1000 -> match_histograms a b = 1.
Proof. intros a b H. unfold match_histograms. cbv zeta. destruct (Rlt_dec _ _); [reflexivity | lra]. Qed.
Theorem C72_turned_both : forall a b k, length a = length b ->
  match_histograms (rotate_histogram a (IZR k * PI / INR (length a))) (rotate_histogram b (IZR k * PI / INR (length a)))
  = match_histograms a b.
Proof.
  intros a b k L. destruct a as [|x l] eqn:E.
  - destruct b; [reflexivity | discriminate].
  - rewrite <- E in *. assert (EQ : forall h : list R, INR (length h) = IZR (vsize h)) by (intros; unfold vsize; apply INR_IZR_INZ).
    rewrite EQ. assert (V : vsize a = vsize b) by (unfold vsize; lia). rewrite V at 2. apply match_rotate; [exact L | congruence].
Qed.
(* the angle by which a scan is turned is found with the largest score *)
Theorem C72_found : forall scan initial angles i a, nth_error angles i = Some a ->
  length (match_angles (rotate_histogram scan (initial + a)) scan initial angles) = length angles /\
  nth_error (match_angles (rotate_histogram scan (initial + a)) scan initial angles) i = Some 1 /\
  forall s, In s (match_angles (rotate_histogram scan (initial + a)) scan initial angles) -> s <= 1.
Proof.
  intros scan initial angles i a A. unfold match_angles. split; [apply map_length|]. split.
  - erewrite map_nth_error by exact A. f_equal. set (h := rotate_histogram scan (initial + a)).
    destruct (Rlt_dec (hnorm h * hnorm h) (1 / 1000)) as [S|S]; [now apply C72_empty|].
    apply C72_largest; [reflexivity | lra |]. exists 1. split; [lra|]. rewrite <- (map_id h) at 1. apply map_ext. intros. ring.
  - intros s I. apply in_map_iff in I. destruct I as [b [<- _]]. apply match_range. now rewrite !rotate_length.
Qed.
(* one angle more costs one score more, and scores do not depend on the other angles *)
Theorem C72_scores : forall submap scan initial angles i, nth_error (match_angles submap scan initial angles) i =
  match nth_error angles i with
  | None => None
  | Some a => Some (match_histograms submap (rotate_histogram scan (initial + a)))
  end.
Proof.
  intros submap scan initial angles. unfold match_angles. induction angles; intros [|i]; cbn [map nth_error]; auto.
Qed.

(* a line of two points in the direction of 45 degrees *)
Example C71_ex : add_value 1 (- (3 / 4) * PI) 2 [1; 1; 1; 1] = Some [1; 1 + 2; 1; 1].
Proof.
  pose proof PI_pos as P. unfold add_value, wrapped. cbn [angle_down]. destruct (Rlt_dec _ _); [lra|].
  cbn [angle_up]. destruct (Rlt_dec _ _); [|lra]. destruct (Rlt_dec _ _); [lra|].
  change (vsize [1; 1; 1; 1]) with 4%Z. rewrite bucket_floor by (try reflexivity; lra).
  rewrite (floor_unique _ 1); [reflexivity|]. replace (IZR 4 * ((- (3 / 4) * PI + PI) / PI)) with 1 by (field; lra). lra.
Qed.
Example C72_ex : rotate_histogram [1; 2; 3; 4] (PI / 4) = [4; 1; 2; 3].
Proof.
  apply around_ext; [now rewrite rotate_length|]. intros j.
  replace (PI / 4) with (IZR 1 * PI / INR (length [1; 2; 3; 4])) by (cbn; field). rewrite C72_full by discriminate.
  unfold around_bin. change (Z.of_nat (length [1; 2; 3; 4])) with 4%Z. change (Z.of_nat (length [4; 1; 2; 3])) with 4%Z.
  rewrite <- (Zminus_mod_idemp_l j 1 4). pose proof (Z.mod_pos_bound j 4 ltac:(lia)) as B.
  assert (C : (j mod 4 = 0 \/ j mod 4 = 1 \/ j mod 4 = 2 \/ j mod 4 = 3)%Z) by lia.
  destruct C as [-> | [-> | [-> | ->]]]; reflexivity.
Qed.

Print Assumptions C71_direction.
Print Assumptions C71_opposite_refuted.
Print Assumptions C71_histogram.
Print Assumptions C71_slices.
Print Assumptions C71_sorted.
Print Assumptions C71_turned.
Print Assumptions C71_turn_refuted.
Print Assumptions C72_interpolates.
Print Assumptions C72_full.
Print Assumptions C72_group.
Print Assumptions C72_compose_refuted.
Print Assumptions C72_mass.
Print Assumptions C72_continuous.
Print Assumptions C72_score.
Print Assumptions C72_largest.
Print Assumptions C72_empty.
Print Assumptions C72_turned_both.
Print Assumptions C72_found.
Print Assumptions C72_scores.
