From Coq Require Import ZArith Reals Lra Lia Bool.
From Verif Require Import Vec CF_Model RG_Model RG_Spec RG_Proofs IG_Model IG_Proofs TX_Model TX_Spec TX_Proofs TX_Paint.
From Coq Require Import List.
Import ListNotations.
Open Scope Z_scope.

Definition boxed (l : list voxel) (lo hi lo' hi' : Z * Z) : Prop :=
  (forall q, In q l -> fst lo' <= w_x q <= fst hi' /\ snd lo' <= w_y q <= snd hi') /\
  fst lo' <= fst lo /\ snd lo' <= snd lo /\ fst hi <= fst hi' /\ snd hi <= snd hi' /\
  (fst lo' = fst lo \/ exists q, In q l /\ w_x q = fst lo') /\ (snd lo' = snd lo \/ exists q, In q l /\ w_y q = snd lo') /\
  (fst hi' = fst hi \/ exists q, In q l /\ w_x q = fst hi') /\ (snd hi' = snd hi \/ exists q, In q l /\ w_y q = snd hi').
Lemma extract_ok p res pose cells : forall lo hi, forallb int_voxel (voxels p res pose cells) = true ->
  exists lo' hi', extract p res pose cells lo hi = Some (voxels p res pose cells, lo', hi') /\
    boxed (voxels p res pose cells) lo hi lo' hi'.
Proof.
  induction cells as [|v r IH]; intros lo hi H.
  - exists lo, hi. split; [reflexivity|]. split; [intros q []|]. repeat split; try lia; now left.
  - cbn [extract]. unfold voxels in *. cbn [filter] in *. assert (O : obstructed p v = if Rlt_dec (p (w_value v)) k_obstructed then false else true) by reflexivity.
    rewrite O in *. clear O. destruct (Rlt_dec (p (w_value v)) k_obstructed); [now apply IH|].
    cbn [map forallb] in *. apply andb_true_iff in H. destruct H as [I H]. set (q := project_voxel res pose v) in *.
    unfold int_voxel in I. cbv zeta. rewrite I.
    destruct (IH (Z.min (fst lo) (w_x q), Z.min (snd lo) (w_y q)) (Z.max (fst hi) (w_x q), Z.max (snd hi) (w_y q)) H)
      as (lo' & hi' & E & B). exists lo', hi'. rewrite E. split; [reflexivity|].
    set (l := map (project_voxel res pose) (filter (obstructed p) r)) in *.
    destruct B as (B1 & B2 & B3 & B4 & B5 & B6 & B7 & B8 & B9). cbn [fst snd] in *.
    assert (K : forall (f : voxel -> Z) a b x, (x = Z.min a (f q) \/ (exists z, In z l /\ f z = x)) -> b = q ->
      x = a \/ exists z, In z (b :: l) /\ f z = x).
    { intros f a b x [->|(z & Z1 & Z2)] ->.
      - destruct (Z.min_spec a (f q)) as [[_ ->]|[_ ->]]; [now left|right; exists q; split; [now left|reflexivity]].
      - right. exists z. split; [now right|exact Z2]. }
    assert (K' : forall (f : voxel -> Z) a b x, (x = Z.max a (f q) \/ (exists z, In z l /\ f z = x)) -> b = q ->
      x = a \/ exists z, In z (b :: l) /\ f z = x).
    { intros f a b x [->|(z & Z1 & Z2)] ->.
      - destruct (Z.max_spec a (f q)) as [[_ ->]|[_ ->]]; [right; exists q; split; [now left|reflexivity]|now left].
      - right. exists z. split; [now right|exact Z2]. }
    unfold boxed. split; [intros z [<-|Z]; [lia|now apply B1]|]. repeat split; try lia.
    + now apply (K w_x).
    + now apply (K w_y).
    + now apply (K' w_x).
    + now apply (K' w_y).
Qed.

(* ---- accumulation *)
Lemma accumulate_ok p w h lo hi : w = snd hi - snd lo + 1 -> h = fst hi - fst lo + 1 ->
  forall l s d, (forall q, In q l -> fst lo <= w_x q <= fst hi /\ snd lo <= w_y q <= snd hi) ->
  vsize s = w * h -> (forall i j, 0 <= i < h -> 0 <= j < w -> vget s (i * w + j) = Some (d i j)) ->
  exists s', fold_left (accumulate_step p w lo hi) l (Some s) = Some s' /\ vsize s' = w * h /\
    forall i j, 0 <= i < h -> 0 <= j < w ->
      vget s' (i * w + j) = Some (fold_left (add_voxel p) (column hi i j l) (d i j)).
Proof.
  intros EW EH. induction l as [|q r IH]; intros s d B L D.
  - exists s. now repeat split.
  - destruct (B q (or_introl eq_refl)) as [B1 B2]. cbn [fold_left]. unfold accumulate_step at 2.
    rewrite (proj2 (Z.ltb_ge (w_x q) (fst lo))), (proj2 (Z.ltb_ge (w_y q) (snd lo))), (proj2 (Z.ltb_ge (fst hi) (w_x q))),
      (proj2 (Z.ltb_ge (snd hi) (w_y q))) by lia. cbn [orb]. cbv zeta.
    set (i0 := fst hi - w_x q). set (j0 := snd hi - w_y q).
    assert (I0 : 0 <= i0 < h) by (unfold i0; lia). assert (J0 : 0 <= j0 < w) by (unfold j0; lia).
    rewrite (D i0 j0 I0 J0).
    destruct (vset_ok s (i0 * w + j0) (add_voxel p (d i0 j0) q)) as (s1 & E1 & F1); [rewrite L; nia|].
    destruct F1 as (F1 & F2). rewrite E1.
    destruct (IH s1 (fun i j => if at_pixel hi i j q then add_voxel p (d i j) q else d i j)) as (s' & E & L' & V).
    + intros z Z. apply B. now right.
    + now rewrite F1.
    + intros i j I J. rewrite F2. unfold at_pixel.
      destruct (Z.eqb_spec (i * w + j) (i0 * w + j0)) as [Q|Q].
      * assert (i = i0) by nia. assert (j = j0) by nia. subst i j.
        rewrite (proj2 (Z.eqb_eq (w_x q) (fst hi - i0))), (proj2 (Z.eqb_eq (w_y q) (snd hi - j0))) by (unfold i0, j0; lia). reflexivity.
      * replace ((w_x q =? fst hi - i) && (w_y q =? snd hi - j)) with false; [now apply D|].
        symmetry. apply andb_false_iff. destruct (Z.eq_dec i i0) as [->|N]; [right|left]; apply Z.eqb_neq; intros X.
        -- apply Q. f_equal. unfold j0. lia.
        -- apply N. unfold i0. lia.
    + exists s'. split; [exact E|]. split; [exact L'|]. intros i j I J. rewrite (V i j I J). unfold column. cbn [filter].
      destruct (at_pixel hi i j q); reflexivity.
Qed.

(* ---- the data of a pixel *)
Lemma fold_pixel p l : forall d, let e := fold_left (add_voxel p) l d in
  p_count e = p_count d + Z.of_nat (length l) /\
  (p_sum e = p_sum d + total (fun v => p (w_value v)) l)%R /\
  p_min_z e <= p_min_z d /\ p_max_z d <= p_max_z e /\ (p_max d <= p_max e)%R /\
  (forall v, In v l -> p_min_z e <= w_z v <= p_max_z e /\ (p (w_value v) <= p_max e)%R) /\
  (p_min_z e = p_min_z d \/ exists v, In v l /\ w_z v = p_min_z e) /\
  (p_max_z e = p_max_z d \/ exists v, In v l /\ w_z v = p_max_z e) /\
  (p_max e = p_max d \/ exists v, In v l /\ p (w_value v) = p_max e).
Proof.
  induction l as [|v r IH]; intros d; cbn zeta.
  - cbn [fold_left length total fold_right]. do 5 (split; [lia || (cbn; lra)|]). split; [intros v []|]. repeat split; now left.
  - cbn [fold_left length]. specialize (IH (add_voxel p d v)). cbv zeta in IH.
    set (e := fold_left (add_voxel p) r (add_voxel p d v)) in *.
    destruct IH as (A1 & A2 & A3 & A4 & A5 & A6 & A7 & A8 & A9). unfold add_voxel in *. cbn [p_count p_sum p_min_z p_max_z p_max] in *.
    assert (P1 := Rmax_l (p_max d) (p (w_value v))). assert (P2 := Rmax_r (p_max d) (p (w_value v))).
    split; [lia|]. split; [unfold total in *; cbn [fold_right]; rewrite A2; lra|]. split; [lia|]. split; [lia|]. split; [lra|].
    split; [intros z [<-|Z]; [split; [lia|lra]|now apply A6]|]. split; [|split].
    + destruct A7 as [E|(z & Z1 & Z2)].
      * destruct (Z.min_spec (p_min_z d) (w_z v)) as [[_ M]|[_ M]]; rewrite M in E; [now left|].
        right. exists v. split; [now left|now rewrite E].
      * right. exists z. split; [now right|exact Z2].
    + destruct A8 as [E|(z & Z1 & Z2)].
      * destruct (Z.max_spec (p_max_z d) (w_z v)) as [[_ M]|[_ M]]; rewrite M in E; [|now left].
        right. exists v. split; [now left|now rewrite E].
      * right. exists z. split; [now right|exact Z2].
    + destruct A9 as [E|(z & Z1 & Z2)].
      * destruct (Rle_dec (p_max d) (p (w_value v))) as [M|M].
        -- rewrite Rmax_right in E by lra. right. exists v. split; [now left|now rewrite E].
        -- rewrite Rmax_left in E by lra. now left.
      * right. exists z. split; [now right|exact Z2].
Qed.
Lemma pixel_stats p l : l <> [] -> (forall v, In v l -> is_int (w_z v) = true /\ (1 / 2 < p (w_value v))%R) ->
  let e := fold_left (add_voxel p) l no_pixel in
  p_count e = Z.of_nat (length l) /\ p_sum e = total (fun v => p (w_value v)) l /\
  least w_z l (p_min_z e) /\ greatest w_z l (p_max_z e) /\ greatest_real (fun v => p (w_value v)) l (p_max e).
Proof.
  intros N I e. destruct (fold_pixel p l no_pixel) as (A1 & A2 & A3 & A4 & A5 & A6 & A7 & A8 & A9). fold e in A1, A2, A3, A4, A5, A6, A7, A8, A9.
  cbn [no_pixel p_count p_sum p_min_z p_max_z p_max] in *.
  destruct l as [|v0 r]; [congruence|]. set (l := v0 :: r) in *.
  destruct (I v0 (or_introl eq_refl)) as [Z0 P0]. destruct (A6 v0 (or_introl eq_refl)) as [Q1 Q2].
  unfold is_int in Z0. apply andb_true_iff in Z0. destruct Z0 as [Z1 Z2]. apply Z.leb_le in Z1, Z2.
  split; [lia|]. split; [lra|]. split; [|split].
  - split; [|intros a A; now apply A6]. destruct A7 as [E|X]; [|exact X]. exists v0. split; [now left|lia].
  - split; [|intros a A; now apply A6]. destruct A8 as [E|X]; [|exact X]. exists v0. split; [now left|lia].
  - split; [|intros a A; now apply A6]. destruct A9 as [E|X]; [|exact X]. exfalso. lra.
Qed.

Lemma total_bounds {A} (f : A -> R) l lo hi : (forall a, In a l -> (lo <= f a <= hi)%R) ->
  (lo * INR (length l) <= total f l <= hi * INR (length l))%R.
Proof.
  induction l as [|a r IH]; intros H; [cbn; lra|].
  assert (B := H a (or_introl eq_refl)). assert (C := IH (fun x i => H x (or_intror i))).
  cbn [total fold_right length]. fold (total f r). rewrite S_INR. lra.
Qed.
Lemma average_xray e : average_probability e = xray (p_count e) (p_min_z e) (p_max_z e) (p_sum e) (p_max e).
Proof. unfold average_probability, xray. cbv zeta. now rewrite (minus_IZR (p_max_z e - p_min_z e)). Qed.
Lemma xray_range n lo hi s m : 0 < n -> (1 / 10 * IZR n <= s <= 9 / 10 * IZR n)%R -> (1 / 10 <= m <= 9 / 10)%R ->
  (1 / 10 <= xray n lo hi s m <= 9 / 10)%R.
Proof.
  intros N S M. unfold xray. cbv zeta. apply IZR_lt in N. set (f := (15 / 100 * Rmax (IZR (hi - lo - n)) 0)%R).
  assert (F : (0 <= f)%R) by (unfold f; pose proof (Rmax_r (IZR (hi - lo - n)) 0); lra).
  assert (Q : ((s + (1 - m) * f) / (IZR n + f) * (IZR n + f) = s + (1 - m) * f)%R) by (field; lra).
  set (x := ((s + (1 - m) * f) / (IZR n + f))%R) in *.
  split; apply Rmult_le_reg_r with (IZR n + f)%R; try lra; rewrite Q; nra.
Qed.
Lemma clamp_id x : (1 / 10 <= x <= 9 / 10)%R -> clamp_probability x = x.
Proof.
  intros H. unfold clamp_probability, k_min_probability, k_max_probability.
  destruct (Rlt_dec (9 / 10) x); [lra|]. destruct (Rlt_dec x (1 / 10)); [lra|reflexivity].
Qed.
Lemma texel_exists x : (1 / 10 <= x <= 9 / 10)%R -> exists t, probability_texel x = Some t.
Proof. intros H. unfold probability_texel. destruct (integer_form x H) as [-> _]. eauto. Qed.

Lemma column_ok p l : (forall v, In v l -> is_int (w_z v) = true /\ (501 / 1000 <= p (w_value v) <= 9 / 10)%R) ->
  (forall a b, In a l -> In b l -> w_z a - w_z b <= int_max) ->
  exists t, pixel_texel (fold_left (add_voxel p) l no_pixel) = Some t /\ column_texel p l t.
Proof.
  intros I S. destruct l as [|v r] eqn:EL.
  - exists (0, 0). split; [reflexivity|]. left. split; [reflexivity|]. intros a b [].
  - rewrite <- EL in *. assert (N : l <> []) by (rewrite EL; discriminate).
    destruct (pixel_stats p l N) as (A1 & A2 & A3 & A4 & A5); [intros z Z; destruct (I z Z); split; [assumption|lra]|].
    set (e := fold_left (add_voxel p) l no_pixel) in *.
    assert (C : 0 < p_count e) by (rewrite A1, EL; cbn [length]; lia).
    pose proof A3 as ((a & Ia & Ea) & La). pose proof A4 as ((b & Ib & Eb) & Lb).
    assert (Z0 : p_min_z e <= p_max_z e) by (rewrite <- Ea; now apply Lb).
    assert (Z1 : p_max_z e - p_min_z e <= int_max) by (rewrite <- Ea, <- Eb; now apply S).
    unfold pixel_texel. rewrite (proj2 (Z.ltb_lt _ _) C). cbv zeta.
    assert (Z2 : is_int (p_max_z e - p_min_z e) = true).
    { unfold is_int. apply andb_true_intro. split; apply Z.leb_le; [unfold int_min|]; lia. }
    rewrite Z2. cbn [negb]. destruct (Z.ltb_spec (p_max_z e - p_min_z e) 3) as [D|D].
    + exists (0, 0). split; [reflexivity|]. left. split; [reflexivity|]. intros x y X Y.
      pose proof (La y Y). pose proof (Lb x X). lia.
    + assert (RG : (1 / 10 <= xray (Z.of_nat (length l)) (p_min_z e) (p_max_z e) (total (fun v => p (w_value v)) l) (p_max e) <= 9 / 10)%R).
      { apply xray_range.
        - lia.
        - rewrite <- INR_IZR_INZ.
          pose proof (total_bounds (fun v => p (w_value v)) l (1 / 10)%R (9 / 10)%R) as T. apply T.
          intros x X. destruct (I x X). lra.
        - destruct A5 as ((x & X & <-) & _). destruct (I x X). lra. }
      rewrite average_xray, A1, A2, clamp_id by exact RG.
      destruct (texel_exists _ RG) as (t & T). exists t. split; [exact T|]. right.
      exists (p_min_z e), (p_max_z e), (p_max e). do 3 (split; [assumption|]). split; [exact D|]. split; [exact RG|exact T].
Qed.
Lemma pixel_values_ok l : (forall d, In d l -> exists t, pixel_texel d = Some t) ->
  exists ts, pixel_values l = Some (interleave ts) /\ map pixel_texel l = map Some ts.
Proof.
  induction l as [|d r IH]; intros H.
  - now exists [].
  - destruct IH as (ts & E & M); [intros; apply H; now right|]. destruct (H d (or_introl eq_refl)) as ((v & a) & T).
    exists ((v, a) :: ts). cbn [pixel_values map]. rewrite T, E, M. now split.
Qed.

(* ---- the whole texture *)
Lemma texture3_ok p res pose cells : let l := voxels p res pose cells in
  (forall v, In v cells -> (1 / 10 <= p (w_value v) <= 9 / 10)%R) -> l <> [] -> fits l ->
  exists t x0 x1 y0 y1 ts, texture3 p res pose cells = Some t /\
    least w_x l x0 /\ greatest w_x l x1 /\ least w_y l y0 /\ greatest w_y l y1 /\
    x_width t = y1 - y0 + 1 /\ x_height t = x1 - x0 + 1 /\ x_res t = res /\
    x_cells t = interleave ts /\ vsize ts = x_width t * x_height t /\
    x_pose t = r3_mul (r3_inv pose) (mk_rigid3 (mk_vec3 (IZR x1 * res) (IZR y1 * res) (v2 (trans pose)))%R q_one) /\
    forall i j, 0 <= i < x_height t -> 0 <= j < x_width t -> exists u,
      vget ts (i * x_width t + j) = Some u /\ column_texel p (column (x1, y1) i j l) u.
Proof.
  intros l P N (F1 & F2 & F3).
  destruct (extract_ok p res pose cells (int_max, int_max) (int_min, int_min)) as (lo & hi & E & B).
  { apply forallb_forall. exact F1. }
  fold l in E, B. destruct B as (B1 & B2 & B3 & B4 & B5 & B6 & B7 & B8 & B9). cbn [fst snd] in *.
  assert (A : exists q, In q l) by (destruct l as [|q r]; [congruence|exists q; now left]). destruct A as (q & Q).
  assert (IB : forall a, In a l -> int_min <= w_x a <= int_max /\ int_min <= w_y a <= int_max /\ int_min <= w_z a <= int_max).
  { intros a A. specialize (F1 a A). unfold int_voxel, is_int in F1. rewrite !andb_true_iff, !Z.leb_le in F1. tauto. }
  assert (L1 : least w_x l (fst lo)).
  { split; [|intros a A; now apply B1]. destruct B6 as [X|X]; [|exact X]. exists q. split; [exact Q|]. pose proof (B1 q Q). pose proof (IB q Q). lia. }
  assert (L2 : least w_y l (snd lo)).
  { split; [|intros a A; now apply B1]. destruct B7 as [X|X]; [|exact X]. exists q. split; [exact Q|]. pose proof (B1 q Q). pose proof (IB q Q). lia. }
  assert (L3 : greatest w_x l (fst hi)).
  { split; [|intros a A; now apply B1]. destruct B8 as [X|X]; [|exact X]. exists q. split; [exact Q|]. pose proof (B1 q Q). pose proof (IB q Q). lia. }
  assert (L4 : greatest w_y l (snd hi)).
  { split; [|intros a A; now apply B1]. destruct B9 as [X|X]; [|exact X]. exists q. split; [exact Q|]. pose proof (B1 q Q). pose proof (IB q Q). lia. }
  set (w := snd hi - snd lo + 1). set (h := fst hi - fst lo + 1).
  assert (HW : 1 <= w) by (pose proof (B1 q Q); unfold w; lia). assert (HH : 1 <= h) by (pose proof (B1 q Q); unfold h; lia).
  assert (WH : w * h <= int_max).
  { destruct L1 as [(a & Ia & Ea) _], L2 as [(b & Ib & Eb) _], L3 as [(c & Ic & Ec) _], L4 as [(d & Id & Ed) _].
    pose proof (F3 c a d b Ic Ia Id Ib) as X. rewrite Ea, Eb, Ec, Ed in X. fold h w in X. lia. }
  assert (W1 : w <= int_max) by nia. assert (H1 : h <= int_max) by nia.
  unfold texture3. rewrite E. fold w h. cbv zeta.
  assert (CH : is_int (snd hi - snd lo) && is_int w && is_int (fst hi - fst lo) && is_int h && is_int (w * h) = true).
  { unfold is_int, int_min. rewrite !andb_true_iff, !Z.leb_le. unfold w, h in *. unfold int_max in *. nia. }
  rewrite CH. unfold accumulate.
  destruct (accumulate_ok p w h lo hi eq_refl eq_refl l (repeat no_pixel (Z.to_nat (w * h))) (fun _ _ => no_pixel)) as (s & ES & LS & VS).
  { exact B1. }
  { rewrite vsize_repeat. nia. }
  { intros i j I J. apply vget_repeat. nia. }
  rewrite ES.
  assert (CI : forall v, In v l -> is_int (w_z v) = true /\ (501 / 1000 <= p (w_value v) <= 9 / 10)%R).
  { intros v V. split; [specialize (F1 v V); unfold int_voxel in F1; rewrite !andb_true_iff in F1; tauto|].
    unfold l, voxels in V. apply in_map_iff in V. destruct V as (c & <- & C). apply filter_In in C. destruct C as [C O].
    cbn [project_voxel w_value]. split; [|now apply P]. unfold obstructed in O. unfold k_obstructed in O.
    destruct (Rlt_dec (p (w_value c)) (501 / 1000)); [discriminate|lra]. }
  assert (CO : forall i j, exists t, pixel_texel (fold_left (add_voxel p) (column hi i j l) no_pixel) = Some t /\ column_texel p (column hi i j l) t).
  { intros i j. apply column_ok.
    - intros v V. apply filter_In in V. now apply CI.
    - intros a b X Y. apply filter_In in X, Y. now apply F2. }
  destruct (pixel_values_ok s) as (ts & ET & MT).
  { intros d D. apply In_nth_error in D. destruct D as (n & D).
    assert (K : (n < length s)%nat) by (apply nth_error_Some; congruence).
    unfold vsize in LS.
    pose proof (VS (Z.of_nat n / w) (Z.of_nat n mod w)) as V.
    assert (EN : Z.of_nat n / w * w + Z.of_nat n mod w = Z.of_nat n) by (rewrite (Z.div_mod (Z.of_nat n) w) at 3 by lia; ring).
    rewrite EN in V. assert (VN : vget s (Z.of_nat n) = Some d).
    { unfold vget. rewrite (proj2 (Z.leb_le 0 (Z.of_nat n))) by lia. now rewrite Nat2Z.id. }
    rewrite VN in V. specialize (V ltac:(split; [apply Z.div_pos; lia|apply Z.div_lt_upper_bound; lia]) ltac:(apply Z.mod_pos_bound; lia)).
    injection V as ->. destruct (CO (Z.of_nat n / w) (Z.of_nat n mod w)) as (t & T & _). eauto. }
  rewrite ET. eexists _, (fst lo), (fst hi), (snd lo), (snd hi), ts. split; [reflexivity|].
  cbn [x_width x_height x_res x_cells x_pose]. do 4 (split; [assumption|]). do 4 (split; [reflexivity|]).
  assert (LT : vsize ts = vsize s) by (unfold vsize; rewrite <- (map_length Some ts), <- MT, map_length; reflexivity).
  split; [now rewrite LT|]. split; [reflexivity|]. fold w h. intros i j I J.
  replace (fst hi, snd hi) with hi by (now destruct hi).
  destruct (CO i j) as (u & U1 & U2). exists u. split; [|exact U2].
  pose proof (f_equal (fun l => vget l (i * w + j)) MT) as X. cbv beta in X. rewrite !vget_map, (VS i j I J) in X.
  cbn [option_map] in X. rewrite U1 in X. destruct (vget ts (i * w + j)) as [u'|]; [|discriminate]. cbn [option_map] in X. now injection X as ->.
Qed.
