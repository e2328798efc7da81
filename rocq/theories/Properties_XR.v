(* C90: images.  C91: X-ray pictures. *)
From Coq Require Import ZArith Reals List Bool Lra Lia.
From Verif Require Import CF_Model RG_Model IG_Model IG_Proofs Vec MG_Spec XR_Model XR_Spec XR_Proofs XR_Xray XR_Floors.
Import ListNotations.
Open Scope R_scope.

Lemma new_proper w h : (0 <= w)%Z -> (0 <= h)%Z -> proper (new_image w h).
Proof. intros W H. split; cbn [i_w i_h i_pixels new_image]; [auto|]. rewrite repeat_length. rewrite Z2Nat.id; nia. Qed.

(* a pixel that was set is read back, and the others stay *)
Theorem C90_pixels : forall i x y c, proper i -> inside i x y -> byte_color c ->
  exists o, set_pixel i x y c = Some o /\ proper o /\ i_w o = i_w i /\ i_h o = i_h i /\ get_pixel o x y = Some c /\
    forall x' y', inside i x' y' -> (x', y') <> (x, y) -> get_pixel o x' y' = get_pixel i x' y' /\ get_pixel i x' y' <> None.
Proof.
  intros i x y c P I B. destruct (set_ok i x y c P I) as [o [E [W [H [PO G]]]]]. exists o. split; [exact E|]. split; [exact PO|]. split; [exact W|]. split; [exact H|]. split.
  - unfold get_pixel. rewrite (G x y I), !Z.eqb_refl. cbn [andb option_map]. now rewrite cairo_back.
  - intros x' y' I' N. unfold get_pixel. rewrite (G x' y' I'). split.
    + destruct (Z.eqb_spec x' x) as [-> | ?]; [|reflexivity]. destruct (Z.eqb_spec y' y) as [-> | ?]; [congruence | reflexivity].
    + destruct P as [_ L]. destruct I' as [X Y]. destruct (vget_some (i_pixels i) (y' * i_w i + x')) as [v ->]; [unfold vsize; rewrite L; now apply pixel_index | discriminate].
Qed.
(* rotating puts the left column on top *)
Theorem C90_rotate : forall i, proper i -> exists o, rotate90 i = Some o /\ proper o /\ i_w o = i_h i /\ i_h o = i_w i /\
  forall x y, inside o x y -> get_pixel o x y = get_pixel i y (i_h i - 1 - x) /\ get_pixel o x y <> None.
Proof.
  intros i P. destruct (rotate_ok i P) as [o [E [W [H [PO G]]]]]. exists o. split; [exact E|]. split; [exact PO|]. split; [exact W|]. split; [exact H|]. intros x y I. unfold get_pixel. rewrite (G x y I). split; [reflexivity|].
  destruct P as [_ L]. destruct I as [X Y]. destruct (vget_some (i_pixels i) ((i_h i - 1 - x) * i_w i + y)) as [v ->]; [unfold vsize; rewrite L; apply pixel_index; lia | discriminate].
Qed.
Theorem C90_four : forall i, proper i -> exists a b c, rotate90 i = Some a /\ rotate90 a = Some b /\ rotate90 b = Some c /\ rotate90 c = Some i.
Proof.
  intros i P. destruct (rotate_ok i P) as [a [Ea [Wa [Ha [Pa Ga]]]]]. destruct (rotate_ok a Pa) as [b [Eb [Wb [Hb [Pb Gb]]]]].
  destruct (rotate_ok b Pb) as [c [Ec [Wc [Hc [Pc Gc]]]]]. destruct (rotate_ok c Pc) as [d [Ed [Wd [Hd [Pd Gd]]]]].
  exists a, b, c. repeat split; auto. rewrite Ed. f_equal. apply image_ext; auto; try congruence. intros x y I. rewrite (Gd x y I).
  unfold inside in *. rewrite Gc by (unfold inside; lia). rewrite Gb by (unfold inside; lia). rewrite Ga by (unfold inside; lia). f_equal. rewrite Wd. nia.
Qed.
Example C90_example : exists o a, set_pixel (new_image 2 3) 0 2 (10, 20, 30)%Z = Some o /\ rotate90 o = Some a /\ get_pixel a 0 0 = Some (10, 20, 30)%Z.
Proof. eexists _, _. repeat split; reflexivity. Qed.

(* each picture shows, for each column of the box around all points, white if the floor has no points
   there and else the mean color of its points, faded by the logarithm of the number of voxels *)
Theorem C91_pictures : forall floors batches factor, exists aggs box, xrun floors batches = Some (aggs, box) /\
  length aggs = (match floors with [] => 1 | _ => length floors end)%nat /\
  box_ok box (fun c => exists k pts p, (k < length aggs)%nat /\ shown floors k batches pts /\ In p pts /\ snd (fst p) = c) /\
  forall k a pts, nth_error aggs k = Some a -> shown floors k batches pts ->
    match box with
    | None => write_voxels a box factor = Some None
    | Some (lo, hi) => exists img mx, write_voxels a box factor = Some (Some img) /\ largest pts mx /\ proper img /\
        i_w img = (fst hi - fst lo + 1)%Z /\ i_h img = (snd hi - snd lo + 1)%Z /\
        forall c, in_box lo hi c -> exists out, get_pixel img (fst hi - fst c) (snd hi - snd c) = Some out /\ wanted_color pts factor mx c out
    end.
Proof.
  intros floors batches factor. destruct (run_ok floors batches) as [aggs [box [E [L [G B]]]]]. exists aggs, box. split; [exact E|]. split; [exact L|]. split.
  - eapply box_iff; [|exact B]. intros c. cbn beta. rewrite L. split.
    + intros [k [K I]]. apply in_map_iff in I. destruct I as [p [Q I]]. exists k, (kept_points floors k batches), p. repeat split; auto. now apply shown_kept.
    + intros [k [pts [p [K [S [I <-]]]]]]. apply shown_kept in S. subst pts. exists k. split; [exact K|]. now apply (in_map (fun p : xpoint => snd (fst p))).
  - intros k a pts A S. apply shown_kept in S. subst pts. assert (K : (k < pictures floors)%nat) by (rewrite <- L; apply nth_error_Some; congruence).
    rewrite (G k K) in A. injection A as <-. destruct box as [[lo hi]|]; [|reflexivity]. cbn [box_ok] in B. destruct B as [B [[c1 [P1 _]] _]].
    destruct (picture_ok (kept_points floors k batches) lo hi) with (factor := factor) as [img [mx [W [M [IW [IH [PR H]]]]]]].
    + intros p P. apply B. exists k. split; [exact K|]. now apply (in_map (fun p : xpoint => snd (fst p))).
    + specialize (B c1 P1). lia.
    + exists img, mx. auto 10.
Qed.
(* with the factor 1 the thickest columns have exactly their mean color *)
Theorem C91_thickest : forall pts mx c out, largest pts mx -> column c pts <> [] -> (1 < thickness c pts)%nat ->
  (forall d, (thickness d pts <= thickness c pts)%nat) -> wanted_color pts 1 mx c out ->
  out = to_color8 (mk_vec3 (mean v0 (column c pts)) (mean v1 (column c pts)) (mean v2 (column c pts))).
Proof.
  intros pts mx c out [M1 [M2 M3]] NE T D [_ W]. specialize (W NE). cbv zeta in W.
  assert (F : 0 < smallest_float) by (apply Rinv_0_lt_compat, pow_lt; lra).
  assert (MX : ln (INR (thickness c pts)) = mx).
  { apply Rle_antisym; [now apply M2|]. destruct M3 as [-> | [d [ND ->]]].
    - assert (1 / 2 <= ln (INR (thickness c pts))).
      { assert (ln 2 <= ln (INR (thickness c pts))).
        { assert (2 <= INR (thickness c pts)) by (change 2 with (INR 2); apply le_INR; lia). destruct H as [H | H]; [left; apply ln_increasing; lra | rewrite <- H; lra]. }
        pose proof ln_lt_2. lra. }
      assert (smallest_float <= 1 / 2); [|lra]. unfold smallest_float. replace (1 / 2) with (/ 2 ^ 1) by (cbn; lra). apply Rinv_le_contravar; [lra|]. apply Rle_pow; [lra | lia].
    - assert (0 < thickness d pts)%nat by (destruct (thickness d pts) eqn:Z; [apply thickness_zero in Z; congruence | lia]).
      assert (INR (thickness d pts) <= INR (thickness c pts)) by (apply le_INR, D). assert (0 < INR (thickness d pts)) by (now apply lt_0_INR).
      destruct H0 as [H0 | H0]; [left; apply ln_increasing; lra | rewrite H0; lra]. }
  rewrite MX in W. replace (mx / mx * 1) with 1 in W by (field; lra). rewrite Rmin_left in W by lra. rewrite W. unfold faded. do 2 f_equal; ring.
Qed.
(* a column with a single voxel is white, whatever its color: it looks like an empty one *)
Lemma white_component : component8 1 = 255%Z.
Proof.
  unfold component8, clamp01. destruct (Rlt_dec 1 1); [lra|]. destruct (Rlt_dec 1 0); [lra|]. rewrite Rmult_1_l. apply lround_Z.
Qed.
Theorem C91_thin : forall pts factor mx c out, thickness c pts = 1%nat -> wanted_color pts factor mx c out -> out = (255, 255, 255)%Z.
Proof.
  intros pts factor mx c out T [_ W]. rewrite T in W. cbn [INR] in W. rewrite ln_1 in W. replace (0 / mx * factor) with 0 in W by (unfold Rdiv; ring). rewrite Rmin_right in W by lra.
  rewrite W; [|intros C; apply thickness_zero in C; congruence]. unfold faded, to_color8. cbn [v0 v1 v2]. rewrite !Rmult_0_l, Rminus_0_r, Rplus_0_r. now rewrite white_component.
Qed.
Theorem C91_visible_refuted : exists batches aggs box a img, xrun [] batches = Some (aggs, box) /\ nth_error aggs 0 = Some a /\
  (exists t pts p, In (t, pts) batches /\ In p pts /\ snd p = mk_vec3 0 0 0) /\
  write_voxels a box 1 = Some (Some img) /\ (forall x y, inside img x y -> get_pixel img x y = Some (255, 255, 255)%Z).
Proof.
  set (pt := ((0, (0, 0))%Z, mk_vec3 0 0 0) : xpoint). set (batches := [(0%Z, [pt])]). exists batches.
  destruct (C91_pictures [] batches 1) as [aggs [box [E [L [B G]]]]]. destruct aggs as [|a [|? ?]]; try discriminate L. exists [a], box, a.
  assert (S : shown [] 0 batches [pt]) by (exists (fun _ => true); split; [intros b; split; [intros _; now left | reflexivity] | reflexivity]).
  specialize (G 0%nat a [pt] eq_refl S). 
  assert (BX : box = Some ((0, 0), (0, 0))%Z) by (vm_compute in E; injection E as _ <-; reflexivity). subst box.
  destruct G as [img [mx [W [M [P [IW [IH G]]]]]]]. exists img. split; [exact E|]. split; [reflexivity|]. split; [exists 0%Z, [pt], pt; repeat split; now left|]. split; [exact W|].
  cbn [fst snd] in IW, IH. intros x y [X Y]. assert (x = 0%Z) by lia. assert (y = 0%Z) by lia. subst x y.
  destruct (G (0, 0)%Z) as [out [O WC]]; [unfold in_box; cbn; lia|]. cbn [fst snd] in O. change (0 - 0)%Z with 0%Z in O. rewrite O. f_equal. eapply C91_thin; [|exact WC]. reflexivity.
Qed.

Print Assumptions C90_pixels.
Print Assumptions C90_rotate.
Print Assumptions C90_four.
Print Assumptions C91_pictures.
Print Assumptions C91_thickest.
Print Assumptions C91_thin.
Print Assumptions C91_visible_refuted.
