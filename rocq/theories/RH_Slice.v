From Coq Require Import ZArith Reals Lra Lia List Bool.
From Verif Require Import CF_Model RG_Model RG_Proofs IG_Model IG_Proofs Vec RH_Model RH_Spec RH_Proofs RH_Turn.
Import ListNotations.
Open Scope R_scope.

(* ---- turning points *)
Lemma turn_add t a b : turn_z t (vadd a b) = vadd (turn_z t a) (turn_z t b).
Proof. unfold turn_z, vadd. cbn [v0 v1 v2]. f_equal; ring. Qed.
Lemma turn_scale t k a : turn_z t (vscale k a) = vscale k (turn_z t a).
Proof. unfold turn_z, vscale. cbn [v0 v1 v2]. f_equal; ring. Qed.
Lemma turn_sum t l : forall a, fold_left vadd (map (turn_z t) l) (turn_z t a) = turn_z t (fold_left vadd l a).
Proof. induction l; intros a0; cbn [map fold_left]; [reflexivity|]. rewrite <- turn_add. apply IHl. Qed.
Lemma turn_centroid t l c : centroid l = Some c -> centroid (map (turn_z t) l) = Some (turn_z t c).
Proof.
  unfold centroid. destruct l as [|p l]; [discriminate|]. intros [= <-]. cbn [map]. f_equal. rewrite turn_scale. f_equal.
  - cbn [length]. now rewrite map_length.
  - assert (Z : turn_z t v_zero = v_zero) by (unfold turn_z, v_zero; cbn [v0 v1 v2]; f_equal; ring).
    pose proof (turn_sum t (p :: l) v_zero) as S. rewrite Z in S. exact S.
Qed.
Definition turn2 (t : R) (d : R * R) : R * R := (cos t * fst d - sin t * snd d, sin t * fst d + cos t * snd d).
Lemma turn_head t p q : head2 (turn_z t p) (turn_z t q) = turn2 t (head2 p q).
Proof. unfold head2, turn2, turn_z. cbn [v0 v1 fst snd]. f_equal; ring. Qed.
Lemma turn_products t d e :
  fst (turn2 t d) * fst (turn2 t e) + snd (turn2 t d) * snd (turn2 t e) = fst d * fst e + snd d * snd e.
Proof.
  unfold turn2. cbn [fst snd]. pose proof (sin2_cos2 t) as S. unfold Rsqr in S.
  transitivity ((sin t * sin t + cos t * cos t) * (fst d * fst e + snd d * snd e)); [ring|]. rewrite S. ring.
Qed.
Lemma turn_norm t d : norm2 (turn2 t d) = norm2 d.
Proof. unfold norm2. now rewrite turn_products. Qed.
Lemma turn_value t d e : slice_value (turn2 t d) (turn2 t e) = slice_value d e.
Proof.
  unfold slice_value. rewrite !turn_norm.
  assert (E : fst (turn2 t d) / norm2 d * (fst (turn2 t e) / norm2 e) + snd (turn2 t d) / norm2 d * (snd (turn2 t e) / norm2 e)
    = fst d / norm2 d * (fst e / norm2 e) + snd d / norm2 d * (snd e / norm2 e)).
  { transitivity ((fst (turn2 t d) * fst (turn2 t e) + snd (turn2 t d) * snd (turn2 t e)) * (/ norm2 d * / norm2 e));
      [unfold Rdiv; ring|].
    rewrite turn_products. unfold Rdiv. ring. }
  now rewrite E.
Qed.
Lemma norm2_nonzero d : norm2 d <> 0 -> fst d <> 0 \/ snd d <> 0.
Proof.
  intros N. destruct (Req_dec (fst d) 0) as [A|A]; [|now left]. destruct (Req_dec (snd d) 0) as [B|B]; [|now right].
  exfalso. apply N. unfold norm2. rewrite A, B. replace (0 * 0 + 0 * 0) with 0 by ring. apply sqrt_0.
Qed.
Lemma turn_angle t d : norm2 d <> 0 -> exists m,
  atan2 (snd (turn2 t d)) (fst (turn2 t d)) = atan2 (snd d) (fst d) + t + IZR m * (2 * PI).
Proof.
  intros N. destruct (atan2_polar (snd d) (fst d) (norm2_nonzero d N)) as [r [P [_ [X [Y _]]]]].
  set (a := atan2 (snd d) (fst d)) in *.
  replace (snd (turn2 t d)) with (r * sin (a + t)) by (unfold turn2; cbn [snd]; rewrite X, Y, sin_plus; ring).
  replace (fst (turn2 t d)) with (r * cos (a + t)) by (unfold turn2; cbn [fst]; rewrite X, Y, cos_plus; ring).
  destruct (atan2_same r (a + t) P) as [m M]. exists m. rewrite M. ring.
Qed.
Lemma atan2_below y x : ~ (y = 0 /\ x < 0) -> atan2 y x < PI.
Proof.
  intros H. pose proof PI_pos. unfold atan2. pose proof (atan_bound (y / x)).
  destruct (Rlt_dec 0 x); [lra|]. destruct (Rlt_dec x 0) as [X|X].
  - destruct (Rle_dec 0 y) as [Y|Y]; [|lra].
    assert (0 < y) by (destruct (Rle_lt_or_eq_dec _ _ Y); [assumption | exfalso; apply H; split; auto]).
    assert (y / x < 0). { unfold Rdiv. apply Rinv_lt_0_compat in X. nra. }
    pose proof (atan_increasing _ _ H3). rewrite atan_0 in H4. lra.
  - destruct (Rlt_dec 0 y); [lra|]. destruct (Rlt_dec y 0); lra.
Qed.

(* ---- histograms of turned slices *)
Definition shifted (k : Z) (h h' : list R) : Prop :=
  length h' = length h /\ h <> [] /\ forall j, around_bin h' (j + k) = around_bin h j.
Lemma shifted_rotate k h h' : h <> [] ->
  (shifted k h h' <-> h' = rotate_histogram h (IZR k * PI / IZR (vsize h))).
Proof.
  intros NE. split.
  - intros [L [_ E]]. apply around_ext; [now rewrite rotate_length|]. intros j.
    rewrite around_full by exact NE. rewrite <- E. f_equal. lia.
  - intros ->. split; [apply rotate_length|]. split; [exact NE|]. intros j. rewrite around_full by exact NE. f_equal. lia.
Qed.
Lemma add_around a v h h' w : h <> [] -> - PI <= a <= PI -> wrapped 1 a = Some w -> add_value 1 a v h = Some h' ->
  length h' = length h /\
  forall j, around_bin h' j = around_bin h j + (if (j mod vsize h =? bucket_of (vsize h) w)%Z then v else 0).
Proof.
  intros NE A W E. destruct (add_ok a v h A NE) as [w' [g [W' [E' [L [_ B]]]]]].
  rewrite W in W'. injection W' as <-. rewrite E in E'. injection E' as <-. split; [exact L|]. intros j.
  assert (N : (0 < vsize h)%Z) by (unfold vsize; destruct h; [congruence | cbn [length]; lia]).
  pose proof (Z.mod_pos_bound j (vsize h) N) as J.
  rewrite <- (around_mod h' j). assert (V : vsize h' = vsize h) by (unfold vsize; lia). rewrite V.
  rewrite around_small by lia. rewrite (B _ J). now rewrite <- (around_mod h j), around_small.
Qed.
Lemma add_shifted k m a a' v h h' : shifted k h h' -> - PI <= a < PI -> - PI <= a' < PI ->
  a' = a + IZR k * PI / IZR (vsize h) + IZR m * PI ->
  exists g g', add_value 1 a v h = Some g /\ add_value 1 a' v h' = Some g' /\ shifted k g g'.
Proof.
  intros [L [NE E]] A A' R. assert (NE' : h' <> []) by (intros ->; destruct h; [congruence | discriminate]).
  assert (V : vsize h' = vsize h) by (unfold vsize; lia).
  assert (N : (0 < vsize h)%Z) by (unfold vsize; destruct h; [congruence | cbn [length]; lia]).
  destruct (add_ok a v h ltac:(lra) NE) as [w [g [W [G [Lg _]]]]].
  destruct (add_ok a' v h' ltac:(lra) NE') as [w' [g' [W' [G' [Lg' _]]]]].
  exists g, g'. split; [exact G|]. split; [exact G'|].
  destruct (add_around a v h g w NE ltac:(lra) W G) as [_ S].
  destruct (add_around a' v h' g' w' NE' ltac:(lra) W' G') as [_ S'].
  split; [lia|]. split; [intros ->; destruct h; [congruence | discriminate]|]. intros j. rewrite S', S, E. f_equal.
  rewrite V, (bucket_turn (vsize h) a a' k m w w' N A A' R W W').
  pose proof (bucket_in (vsize h) w N) as B. set (b := bucket_of (vsize h) w) in *.
  destruct (Z.eqb_spec (j mod vsize h) b) as [Q|Q].
  - rewrite <- (Zplus_mod_idemp_l j), Q, Z.eqb_refl. reflexivity.
  - destruct (Z.eqb_spec ((j + k) mod vsize h) ((b + k) mod vsize h)) as [Q'|]; [|reflexivity]. exfalso. apply Q.
    rewrite <- (Z.mod_small b (vsize h) B). replace j with (j + k - k)%Z by lia. replace b with (b + k - k)%Z by lia.
    now rewrite (Zminus_mod (j + k)), (Zminus_mod (b + k)), Q'.
Qed.

Section Turned.
Variables (n k : Z) (t : R) (c : point).
Hypothesis T : t = IZR k * PI / IZR n.
Lemma step_shifted p last h h' : vsize h = n -> shifted k h h' -> ~ left_of last p -> ~ left_of (turn_z t last) (turn_z t p) ->
  exists l' g g', slice_step 1 c (Some (last, h)) p = Some (l', g) /\
    slice_step 1 (turn_z t c) (Some (turn_z t last, h')) (turn_z t p) = Some (turn_z t l', g') /\
    vsize g = n /\ shifted k g g' /\ (l' = last \/ l' = p).
Proof.
  intros V S NL NL'. unfold slice_step. cbv zeta. rewrite !turn_head, !turn_norm, turn_value.
  destruct (Rlt_dec (norm2 (head2 p last)) k_min_distance) as [|D]; [eauto 10|].
  destruct (Rlt_dec _ _); [eauto 10|]. destruct (Rlt_dec _ _); [eauto 10|].
  assert (Z : norm2 (head2 p last) <> 0) by (unfold k_min_distance in D; lra).
  destruct (turn_angle t (head2 p last) Z) as [m M].
  set (a := atan2 (snd (head2 p last)) (fst (head2 p last))) in *.
  set (a' := atan2 (snd (turn2 t (head2 p last))) (fst (turn2 t (head2 p last)))) in *.
  assert (A : - PI <= a < PI).
  { split; [left; apply atan2_range|]. apply atan2_below. unfold head2. cbn [fst snd]. intros [U W]. apply NL. split; lra. }
  assert (A' : - PI <= a' < PI).
  { split; [left; apply atan2_range|]. apply atan2_below. rewrite <- turn_head. unfold head2. cbn [fst snd].
    intros [U W]. apply NL'. split; lra. }
  destruct (add_shifted k (2 * m) a a' (slice_value (head2 p last) (head2 p c)) h h' S A A') as [g [g' [G [G' SG]]]].
  { rewrite M, T, V, mult_IZR. ring. }
  rewrite G, G'. exists last, g, g'. repeat split; auto; try apply SG.
  destruct S as [_ [NE _]]. destruct (add_ok a (slice_value (head2 p last) (head2 p c)) h ltac:(lra) NE) as [w [g2 [_ [G2 [L2 _]]]]].
  rewrite G in G2. injection G2 as <-. unfold vsize in *. lia.
Qed.
Lemma loop_shifted ps : forall seen last h h', vsize h = n -> shifted k h h' -> In last seen ->
  (forall p q, In p (seen ++ ps) -> In q (seen ++ ps) -> ~ left_of p q /\ ~ left_of (turn_z t p) (turn_z t q)) ->
  exists l' g g', fold_left (slice_step 1 c) ps (Some (last, h)) = Some (l', g) /\
    fold_left (slice_step 1 (turn_z t c)) (map (turn_z t) ps) (Some (turn_z t last, h')) = Some (turn_z t l', g') /\
    vsize g = n /\ shifted k g g'.
Proof.
  induction ps as [|p ps IH]; intros seen last h h' V S I H; cbn [map fold_left]; [eauto 8|].
  assert (Q : ~ left_of last p /\ ~ left_of (turn_z t last) (turn_z t p)).
  { apply H; apply in_or_app; [now left | right; now left]. }
  destruct (step_shifted p last h h' V S (proj1 Q) (proj2 Q)) as [l1 [g [g' [E [E' [V1 [S1 C]]]]]]]. rewrite E, E'.
  apply (IH (seen ++ [p])); auto.
  - apply in_or_app. destruct C as [-> | ->]; [now left | right; now left].
  - intros a b A B. rewrite <- app_assoc in A, B. now apply H.
Qed.
End Turned.
Lemma slice_shifted n k t ps h h' : t = IZR k * PI / IZR n -> vsize h = n -> shifted k h h' ->
  (forall p q, In p ps -> In q ps -> ~ left_of p q /\ ~ left_of (turn_z t p) (turn_z t q)) ->
  exists g g', add_slice 1 ps h = Some g /\ add_slice 1 (map (turn_z t) ps) h' = Some g' /\ vsize g = n /\ shifted k g g'.
Proof.
  intros T V S H. destruct ps as [|p ps]; [cbn [add_slice map]; eauto 6|].
  destruct (centroid (p :: ps)) as [c|] eqn:C; [|discriminate].
  pose proof (turn_centroid t _ _ C) as C'.
  destruct (loop_shifted n k t c T (p :: ps) [p] p h h' V S (or_introl eq_refl)) as [l' [g [g' [E [E' [V' S']]]]]].
  { intros a b A B. apply H; [cbn in A; destruct A as [<- | A] | cbn in B; destruct B as [<- | B]]; cbn; tauto. }
  exists g, g'. assert (F : forall s c h l g f, centroid (f :: s) = Some c ->
    fold_left (slice_step 1 c) (f :: s) (Some (f, h)) = Some (l, g) -> add_slice 1 (f :: s) h = Some g).
  { clear. intros s c h l g f C E. unfold add_slice. rewrite C. cbv beta iota.
    match goal with |- match ?X with _ => _ end = _ => replace X with (Some (l, g)) by (symmetry; exact E) end. reflexivity. }
  split; [exact (F _ _ _ _ _ _ C E)|]. split; [exact (F _ _ _ _ _ _ C' E')|]. auto.
Qed.
