From Coq Require Import ZArith Reals List Bool Lra Lia Permutation.
From Verif Require Import CF_Model RG_Model IG_Model IG_Proofs Vec MG_Spec XR_Model XR_Spec.
Import ListNotations.
Open Scope R_scope.

(* colors and images *)
Lemma cairo_back c : byte_color c -> of_cairo (to_cairo c) = c.
Proof.
  destruct c as [[r g] b]. unfold byte_color, of_cairo, to_cairo. intros [A [B C]].
  change (2 ^ 24)%Z with 16777216%Z. change (2 ^ 16)%Z with 65536%Z. change (2 ^ 8)%Z with 256%Z.
  assert (E1 : ((255 * 16777216 + r * 65536 + g * 256 + b) / 65536 = 255 * 256 + r)%Z) by (symmetry; apply Z.div_unique with (g * 256 + b)%Z; lia).
  assert (E2 : ((255 * 16777216 + r * 65536 + g * 256 + b) / 256 = 255 * 65536 + r * 256 + g)%Z) by (symmetry; apply Z.div_unique with b; lia).
  rewrite E1, E2. f_equal; [f_equal|]; symmetry.
  - apply Z.mod_unique with 255%Z; lia.
  - apply Z.mod_unique with (255 * 256 + r)%Z; lia.
  - apply Z.mod_unique with (255 * 65536 + r * 256 + g)%Z; lia.
Qed.
Lemma component_byte c : (0 <= component8 c < 256)%Z.
Proof.
  unfold component8. pose proof (lround_near (clamp01 c * 255)) as N. assert (0 <= clamp01 c <= 1) by (unfold clamp01; destruct (Rlt_dec _ _); [lra|]; destruct (Rlt_dec _ _); lra).
  assert (- 1 < IZR (lround (clamp01 c * 255))) by lra. assert (IZR (lround (clamp01 c * 255)) < 256) by lra. apply lt_IZR in H0, H1. lia.
Qed.
Lemma pixel_index w h x y : (0 <= x < w -> 0 <= y < h -> 0 <= y * w + x < w * h)%Z.
Proof. intros. nia. Qed.
Lemma pixel_inj w x y x' y' : (0 <= x < w -> 0 <= x' < w -> y * w + x = y' * w + x' -> x = x' /\ y = y')%Z.
Proof. intros A B E. assert (y = y') by nia. subst. lia. Qed.

(* lists of options *)
Lemma all_some_map {A B} (f : A -> option B) l : (forall a, In a l -> f a <> None) -> exists r, all_some (map f l) = Some r /\ map f l = map Some r.
Proof.
  induction l as [|a l IH]; intros H; [now exists []|]. destruct IH as [r [E M]]; [intros b I; apply H; now right|]. cbn [map all_some].
  destruct (f a) as [b|] eqn:F; [|exfalso; apply (H a); [now left | exact F]]. rewrite E. exists (b :: r). split; [reflexivity|]. cbn [map]. now rewrite M.
Qed.
Lemma nth_rows {A B} (g : A -> list B) m l : (forall a, In a l -> length (g a) = m) -> forall i j a, nth_error l i = Some a -> (j < m)%nat ->
  nth_error (flat_map g l) (i * m + j) = nth_error (g a) j.
Proof.
  induction l as [|b l IH]; intros L i j a I J; [destruct i; discriminate|]. assert (Lb := L b (or_introl eq_refl)). cbn [flat_map]. destruct i as [|i]; cbn [nth_error] in I.
  - injection I as ->. rewrite nth_error_app1 by (cbn; lia). f_equal.
  - rewrite nth_error_app2 by (rewrite Lb; cbn; lia). rewrite Lb. replace (S i * m + j - m)%nat with (i * m + j)%nat by (cbn; lia). apply IH; [intros c C; apply L; now right | exact I | exact J].
Qed.
Lemma length_rows {A B} (g : A -> list B) m l : (forall a, In a l -> length (g a) = m) -> length (flat_map g l) = (length l * m)%nat.
Proof. induction l as [|a l IH]; intros L; [reflexivity|]. cbn [flat_map length]. rewrite app_length, IH by (intros c C; apply L; now right). rewrite (L a (or_introl eq_refl)). reflexivity. Qed.
Lemma zrange_len n : length (zrange n) = Z.to_nat n.
Proof. now rewrite zrange_seq, map_length, seq_length. Qed.
Lemma zrange_nth n k : (k < Z.to_nat n)%nat -> nth_error (zrange n) k = Some (Z.of_nat k).
Proof. intros H. rewrite zrange_seq, nth_error_map. rewrite (nth_error_nth' _ 0%nat) by (now rewrite seq_length). cbn [option_map]. now rewrite seq_nth. Qed.
Lemma rev_nth_error {A} (l : list A) k : (k < length l)%nat -> nth_error (rev l) k = nth_error l (length l - S k).
Proof.
  intros H. destruct l as [|a l]; [cbn in H; lia|]. rewrite (nth_error_nth' (rev (a :: l)) a) by (now rewrite rev_length). rewrite rev_nth by exact H.
  symmetry. apply nth_error_nth'. lia.
Qed.
Lemma flat_map_map {A B C} (f : B -> C) (g : A -> list B) l : map f (flat_map g l) = flat_map (fun a => map f (g a)) l.
Proof. induction l as [|a l IH]; [reflexivity|]. cbn [flat_map]. now rewrite map_app, IH. Qed.

Lemma rotate_ok i : proper i -> exists o, rotate90 i = Some o /\ i_w o = i_h i /\ i_h o = i_w i /\ proper o /\
  forall x y, inside o x y -> vget (i_pixels o) (y * i_w o + x) = vget (i_pixels i) ((i_h i - 1 - x) * i_w i + y).
Proof.
  intros [[W H] L]. unfold rotate90. set (g := fun x : Z => map (fun y => vget (i_pixels i) (y * i_w i + x)%Z) (rev (zrange (i_h i)))).
  assert (R : exists r, all_some (flat_map g (zrange (i_w i))) = Some r /\ flat_map g (zrange (i_w i)) = map Some r).
  { rewrite <- (map_id (flat_map g _)). apply all_some_map. intros a I. apply in_flat_map in I. destruct I as [x [X I]]. unfold g in I. apply in_map_iff in I. destruct I as [y [<- Y]].
    rewrite <- in_rev in Y. rewrite In_zrange in X, Y. destruct (vget_some (i_pixels i) (y * i_w i + x)) as [v ->]; [unfold vsize; rewrite L; now apply pixel_index | discriminate]. }
  destruct R as [r [E M]]. rewrite E. cbn [option_map]. eexists. split; [reflexivity|]. cbn [i_w i_h i_pixels]. split; [reflexivity|]. split; [reflexivity|].
  assert (G : forall a, In a (zrange (i_w i)) -> length (g a) = Z.to_nat (i_h i)) by (intros a _; unfold g; now rewrite map_length, rev_length, zrange_len).
  assert (LR : length r = (Z.to_nat (i_w i) * Z.to_nat (i_h i))%nat) by (rewrite <- (map_length Some r), <- M, (length_rows g _ _ G), zrange_len; reflexivity).
  split; [split; [cbn [i_w i_h]; auto|]; cbn [i_pixels i_w i_h]; rewrite LR, Nat2Z.inj_mul, !Z2Nat.id by assumption; lia|].
  unfold inside. cbn [i_w i_h]. intros x y [X Y].
  unfold vget at 1. destruct (Z.leb_spec 0 (y * i_h i + x)); [|nia].
  assert (K : nth_error (map Some r) (Z.to_nat (y * i_h i + x)) = Some (vget (i_pixels i) ((i_h i - 1 - x) * i_w i + y)%Z)).
  { rewrite <- M. replace (Z.to_nat (y * i_h i + x)) with (Z.to_nat y * Z.to_nat (i_h i) + Z.to_nat x)%nat by (rewrite Z2Nat.inj_add, Z2Nat.inj_mul by nia; reflexivity).
    rewrite (nth_rows g _ _ G _ _ y) by (try lia; rewrite zrange_nth by lia; f_equal; lia). unfold g. rewrite nth_error_map, rev_nth_error by (rewrite zrange_len; lia). rewrite zrange_len, zrange_nth by lia. cbn [option_map].
    do 3 f_equal. nia. }
  rewrite nth_error_map in K. destruct (nth_error r (Z.to_nat (y * i_h i + x))) as [v|]; [|discriminate]. cbn [option_map] in K. now injection K.
Qed.
Lemma set_ok i x y c : proper i -> inside i x y -> exists o, set_pixel i x y c = Some o /\ i_w o = i_w i /\ i_h o = i_h i /\ proper o /\
  forall x' y', inside i x' y' -> vget (i_pixels o) (y' * i_w o + x') = if ((x' =? x) && (y' =? y))%Z then Some (to_cairo c) else vget (i_pixels i) (y' * i_w i + x').
Proof.
  intros [[W H] L] [X Y]. unfold set_pixel. destruct (vset_ok (i_pixels i) (y * i_w i + x) (to_cairo c)) as [l [E [LL G]]]; [unfold vsize; rewrite L; now apply pixel_index|].
  rewrite E. cbn [option_map]. eexists. split; [reflexivity|]. cbn [i_w i_h i_pixels]. split; [reflexivity|]. split; [reflexivity|]. split.
  - split; [cbn [i_w i_h]; auto|]. cbn [i_w i_h i_pixels]. unfold vsize in LL. congruence.
  - intros x' y' [X' Y']. rewrite G. destruct (Z.eqb_spec (y' * i_w i + x') (y * i_w i + x)) as [Q | Q].
    + destruct (pixel_inj _ _ _ _ _ X' X Q) as [-> ->]. now rewrite !Z.eqb_refl.
    + destruct (Z.eqb_spec x' x) as [-> | ?]; [|reflexivity]. destruct (Z.eqb_spec y' y) as [-> | ?]; [congruence | reflexivity].
Qed.
Lemma image_ext i j : proper i -> proper j -> i_w i = i_w j -> i_h i = i_h j ->
  (forall x y, inside i x y -> vget (i_pixels i) (y * i_w i + x) = vget (i_pixels j) (y * i_w i + x)) -> i = j.
Proof.
  destruct i as [w h l], j as [w' h' l']. unfold proper, inside. cbn [i_w i_h i_pixels]. intros [[W H] L] [_ L'] <- <- E. f_equal.
  assert (Q : forall k, (k < length l)%nat -> nth_error l k = nth_error l' k).
  { intros k K. assert (0 < w)%Z by nia. specialize (E (Z.of_nat k mod w)%Z (Z.of_nat k / w)%Z). pose proof (Z.mod_pos_bound (Z.of_nat k) w ltac:(lia)) as MB.
    pose proof (Z.div_mod (Z.of_nat k) w ltac:(lia)) as D.
    assert (0 <= Z.of_nat k / w < h)%Z by (split; [apply Z.div_pos; lia | apply Z.div_lt_upper_bound; lia]).
    specialize (E (conj MB H1)). replace (Z.of_nat k / w * w + Z.of_nat k mod w)%Z with (Z.of_nat k) in E by lia. unfold vget in E. destruct (Z.leb_spec 0 (Z.of_nat k)); [|lia]. now rewrite Nat2Z.id in E. }
  assert (LL : length l = length l') by lia. clear E L L'. revert l' Q LL. induction l as [|a l IH]; intros [|a' l'] Q LL; try discriminate; [reflexivity|]. f_equal.
  - specialize (Q 0%nat ltac:(cbn; lia)). now injection Q.
  - apply IH; [|now injection LL]. intros k K. apply (Q (S k)). cbn. lia.
Qed.
