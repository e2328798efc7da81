(* Sequences of SetCell between two FinishUpdate calls, ComputeCroppedGrid and
   serialization of a TSDF2D. *)
From Coq Require Import List ZArith QArith Bool Lia SpecFloat.
From Verif Require Import Vec Float32 FloatR Float32_Proofs PV_Model PV_Bounded PV_Proofs
  G2_Model G2_Round G2_Spec G2_Proofs G2_Grow G2_Embed G2_Crop TSD_Model TSD_Spec TSD_Proofs TSD_Grid.
Import ListNotations.
Open Scope Z_scope.

Definition store_ok (t : tsdf) (s : store) : Prop :=
  let '(x, y, d, w) := s in contains (g_lim (t_grid t)) x y = true /\
    valid32 d /\ d <> S754_nan /\ valid32 w /\ w <> S754_nan.

Record smid (t0 : tsdf) (before : list store) (t : tsdf) : Prop := {
  sm_wf : twf t;
  sm_lim : g_lim (t_grid t) = g_lim (t_grid t0);
  sm_conv : t_conv t = t_conv t0;
  sm_upd : forall x y, contains (g_lim (t_grid t0)) x y = true ->
    (marked t x y <-> existsb (store_at x y) before = true);
  sm_val : forall x y, contains (g_lim (t_grid t0)) x y = true ->
    cell_pair t x y = match find (store_at x y) before with
                      | Some s => stored (t_conv t0) s
                      | None => cell_pair t0 x y
                      end
}.

Lemma unmark_marked a : 1 <= a <= 32767 -> unmark (a + 32768) = a.
Proof. intros H. unfold unmark. destruct (Z.ltb_spec (a + 32768) 32768); lia. Qed.

Lemma set_all_mid t0 ss : forall before t, smid t0 before t -> Forall (store_ok t0) ss ->
  exists t', set_all t ss = Some t' /\ smid t0 (before ++ ss) t'.
Proof.
  induction ss as [|[[[x y] d] w] ss IH]; intros before t M F; cbn [set_all].
  - exists t. rewrite app_nil_r. auto.
  - inversion F as [|? ? O F']; subst. cbn [store_ok] in O. destruct O as [C [Vd [Nd [Vw Nw]]]].
    destruct M as [TW L Cv Up Va].
    assert (C' : contains (g_lim (t_grid t)) x y = true) by now rewrite L.
    destruct (tsd_range _ (tw_conv _ TW) d Vd Nd) as [a [Ea Ba]].
    destruct (weight_range _ (tw_conv _ TW) w Vw Nw) as [b [Eb Bb]].
    destruct (set_cell_ok t x y d w a b TW C' Ea Eb Ba Bb) as [t1 [E1 [W1 [L1 [C1 [Hm Hn]]]]]].
    rewrite E1.
    assert (St : stored (t_conv t0) (x, y, d, w) = Some (a, b)).
    { cbn [stored]. rewrite <- Cv, Ea, Eb. reflexivity. }
    assert (M1 : smid t0 (before ++ [(x, y, d, w)]) t1).
    { constructor; [exact W1 | congruence | congruence | |].
      - intros x' y' Cx. rewrite existsb_app. cbn [existsb]. rewrite orb_false_r, orb_true_iff.
        rewrite <- (Up x' y' Cx). cbn [store_at]. rewrite andb_true_iff, !Z.eqb_eq.
        destruct (in_dec Z.eq_dec (l_nx (g_lim (t_grid t)) * y + x) (g_upd (t_grid t))) as [I | I].
        + rewrite (Hm I). split; [tauto|]. intros [Q | [<- <-]]; [exact Q | exact I].
        + destruct (Hn I) as [Eu _]. unfold marked. rewrite L1, Eu. cbn [In]. rewrite L.
          apply contains_iff in Cx. apply contains_iff in C. split.
          * intros [Q | Q]; [|now left]. right. apply flat_inj in Q; lia.
          * intros [Q | [-> ->]]; [now right | now left].
      - intros x' y' Cx. rewrite find_app_none. cbn [store_at].
        pose proof (Va x' y' Cx) as Vx.
        destruct (in_dec Z.eq_dec (l_nx (g_lim (t_grid t)) * y + x) (g_upd (t_grid t))) as [I | I].
        + rewrite (Hm I), Vx. destruct (find (store_at x' y') before) eqn:Fd; [reflexivity|].
          destruct ((x =? x') && (y =? y')) eqn:Q; [|reflexivity].
          apply andb_true_iff in Q. rewrite !Z.eqb_eq in Q. destruct Q as [<- <-].
          apply (Up x y C) in I. rewrite find_existsb, Fd in I. discriminate.
        + destruct (Hn I) as [_ V]. destruct (V x' y') as [V1 V2]. unfold cell_pair.
          rewrite V1, V2. destruct ((x' =? x) && (y' =? y)) eqn:Q.
          * apply andb_true_iff in Q. rewrite !Z.eqb_eq in Q. destruct Q as [-> ->].
            destruct (find (store_at x y) before) eqn:Fd.
            { elim I. apply (Up x y C). now rewrite find_existsb, Fd. }
            rewrite !Z.eqb_refl. cbn [andb]. rewrite St. now rewrite unmark_marked.
          * rewrite (Z.eqb_sym x x'), (Z.eqb_sym y y'), Q.
            unfold cell_pair in Vx. rewrite Vx. destruct (find (store_at x' y') before); reflexivity. }
    destruct (IH _ t1 M1 F') as [t' [E' M']]. exists t'. split; [exact E'|].
    now rewrite <- app_assoc in M'.
Qed.

Lemma smid_start t : twf t -> g_upd (t_grid t) = [] -> smid t [] t.
Proof.
  intros TW E. constructor; auto; intros x y C.
  unfold marked. rewrite E. cbn. split; [contradiction | discriminate].
Qed.

(* the loop of ComputeCroppedGrid *)
Lemma unmark_range t x y v : wf t -> cell_value t x y = Some v -> 0 <= unmark v <= 32767 /\
  (v <> 0 -> 1 <= unmark v) /\ (v = unmark v \/ v = unmark v + 32768).
Proof.
  intros W E. pose proof (wf_cell_range _ _ _ _ W E) as B. unfold unmark.
  destruct (Z.ltb_spec v 32768); lia.
Qed.

Lemma same_known_weight t x y v : twf t -> cell_value (t_grid t) x y = Some v ->
  exists w, weight_value t x y = Some w /\ 0 <= w <= 32767 /\ (v <> 0 <-> w <> 0).
Proof.
  intros TW E. pose proof (cell_value_contains _ _ _ _ E) as C.
  destruct (cell_value_some (wgrid t) x y (wf_size _ (tw_weights _ TW)) C) as [w Ew].
  exists w. rewrite weight_value_eq. split; [exact Ew|].
  pose proof (tw_known _ TW x y) as K. apply eq_iff_eq_true in K. rewrite !is_known_iff in K.
  rewrite E, Ew in K. split.
  - pose proof Ew as Ew'. unfold cell_value, flat_index in Ew'. cbn [wgrid g_lim g_cells] in Ew'. rewrite C in Ew'.
    pose proof (wf_plain _ (tw_weights _ TW) _ w ltac:(cbn; tauto) Ew'). lia.
  - split; intros N.
    + destruct K as [_ K]. destruct K as [w' [Q Nq]]; [eauto|]. congruence.
    + destruct K as [K _]. destruct K as [v' [Q Nq]]; [eauto|]. congruence.
Qed.

Lemma get_tsd_value t x y v : twf t -> cell_value (t_grid t) x y = Some v -> v <> 0 ->
  get_tsd t x y = Some (value_to_tsd (t_conv t) (unmark v)).
Proof.
  intros TW E N. unfold get_tsd. rewrite (cell_value_contains _ _ _ _ E), E. cbn [option_map]. f_equal.
  destruct (unmark_range _ _ _ _ (tw_grid _ TW) E) as [B [B1 [Q | Q]]]; rewrite Q at 1; [reflexivity|].
  apply tsd_marked. lia.
Qed.

Lemma t_crop_loop_ok t ox oy xys : twf t -> forall c, twf c -> t_conv c = t_conv t ->
  NoDup xys ->
  (forall x y, In (x, y) xys -> cell_value (t_grid c) x y = Some 0 /\ weight_value c x y = Some 0 /\
     contains (g_lim (t_grid t)) (x + ox) (y + oy) = true) ->
  exists c', t_crop_loop t c ox oy xys = Some c' /\ twf c' /\ g_lim (t_grid c') = g_lim (t_grid c) /\
    t_conv c' = t_conv t /\
    forall x y, (In (x, y) xys -> cell_pair c' x y = cell_pair t (x + ox) (y + oy)) /\
                (~ In (x, y) xys -> cell_value (t_grid c') x y = cell_value (t_grid c) x y /\
                                    weight_value c' x y = weight_value c x y).
Proof.
  intros TW. induction xys as [|[x y] r IH]; intros c Wc Cc N H; cbn [t_crop_loop].
  - exists c. do 4 (split; [auto|]). intros x y. split; [intros [] | auto].
  - inversion N as [|? ? Nx Nr]; subst.
    destruct (H x y (or_introl eq_refl)) as [Z0 [Z1 C]].
    destruct (cell_value_some (t_grid t) _ _ (wf_size _ (tw_grid _ TW)) C) as [v Ev].
    destruct (same_known_weight t _ _ v TW Ev) as [w [Ew [Bw NZ]]].
    destruct (unmark_range _ _ _ _ (tw_grid _ TW) Ev) as [Bv [B1 _]].
    pose proof (cell_value_contains _ _ _ _ Z0) as Cc0.
    destruct (is_known (t_grid t) (x + ox) (y + oy)) eqn:K.
    + apply is_known_iff in K. destruct K as [v' [Ev' Nv]]. rewrite Ev in Ev'. injection Ev' as <-.
      rewrite (get_tsd_value t _ _ v TW Ev Nv).
      unfold get_weight. rewrite C, Ew. cbn [option_map].
      assert (B1w : 1 <= w) by (destruct NZ as [NZ _]; specialize (NZ Nv); lia).
      destruct (set_cell_ok c x y (value_to_tsd (t_conv t) (unmark v)) (value_to_weight (t_conv t) w)
                  (unmark v) w Wc Cc0) as [c1 [E1 [W1 [L1 [C1 [Hm Hn]]]]]].
      * rewrite Cc. apply tsd_round; [apply TW | specialize (B1 Nv); lia].
      * rewrite Cc. apply weight_round; [apply TW | lia].
      * specialize (B1 Nv). lia.
      * lia.
      * rewrite E1.
        assert (NM : ~ marked c x y).
        { intros I. unfold cell_value, flat_index in Z0. rewrite Cc0 in Z0.
          pose proof (wf_marked _ (tw_grid _ Wc) _ _ I Z0). lia. }
        destruct (Hn NM) as [_ V].
        destruct (IH c1 W1 ltac:(congruence) Nr) as [c' [E2 [W2 [L2 [C2 V2]]]]].
        { intros x' y' I'. destruct (H x' y' (or_intror I')) as [A1 [A2 A3]].
          destruct (V x' y') as [V3 V4]. rewrite V3, V4.
          destruct ((x' =? x) && (y' =? y)) eqn:Q; [|auto].
          apply andb_true_iff in Q. rewrite !Z.eqb_eq in Q. destruct Q as [-> ->]. contradiction. }
        exists c'. split; [exact E2|]. split; [exact W2|]. split; [congruence|]. split; [exact C2|].
        intros x' y'. destruct (V2 x' y') as [V5 V6]. destruct (V x' y') as [V3 V4]. split.
        -- intros [Q | Q]; [|now apply V5]. injection Q as <- <-.
           destruct (V6 Nx) as [V7 V8]. unfold cell_pair. rewrite V7, V8, V3, V4, !Z.eqb_refl. cbn [andb].
           rewrite Ev, Ew. rewrite unmark_marked by (specialize (B1 Nv); lia). reflexivity.
        -- intros Q. destruct (V6 ltac:(intros Q'; apply Q; now right)) as [V7 V8]. rewrite V7, V8, V3, V4.
           destruct ((x' =? x) && (y' =? y)) eqn:Q2; [|auto].
           apply andb_true_iff in Q2. rewrite !Z.eqb_eq in Q2. destruct Q2 as [-> ->]. elim Q. now left.
    + assert (V0 : v = 0).
      { destruct (Z.eq_dec v 0) as [|NV]; [assumption|]. apply not_true_iff_false in K. elim K.
        apply is_known_iff. eauto. }
      subst v. assert (W0 : w = 0) by (destruct (Z.eq_dec w 0); [assumption | tauto]). subst w.
      destruct (IH c Wc Cc Nr) as [c' [E2 [W2 [L2 [C2 V2]]]]].
      { intros x' y' I'. apply H. now right. }
      exists c'. do 4 (split; [assumption|]). intros x' y'. destruct (V2 x' y') as [V5 V6]. split.
      * intros [Q | Q]; [|now apply V5]. injection Q as <- <-. destruct (V6 Nx) as [V7 V8].
        unfold cell_pair. now rewrite V7, V8, Z0, Z1, Ev, Ew.
      * intros Q. apply V6. intros Q'. apply Q. now right.
Qed.

Lemma cropped_limits_ok g : wf g -> exists ox oy nx ny, cropped_limits g = (ox, oy, nx, ny) /\ 0 < nx /\ 0 < ny /\
  (forall x y, 0 <= x < nx -> 0 <= y < ny -> contains (g_lim g) (x + ox) (y + oy) = true) /\
  (forall x y, is_known g x y = true -> 0 <= x - ox < nx /\ 0 <= y - oy < ny) /\
  (((forall x y, is_known g x y = false) /\ nx = 1 /\ ny = 1) \/
   ((exists y, is_known g ox y = true) /\ (exists y, is_known g (ox + nx - 1) y = true) /\
    (exists x, is_known g x oy = true) /\ (exists x, is_known g x (oy + ny - 1) = true))).
Proof.
  intros W. pose proof (wf_lim _ W) as [Hr [Hx Hy]].
  unfold cropped_limits. pose proof (wf_box _ W) as B. destruct (g_box g) as [b|].
  - rewrite (box_empty_exact _ _ B). destruct B as [B [[y1 K1] [[y2 K2] [[x3 K3] [x4 K4]]]]].
    pose proof (B _ _ K1). pose proof (B _ _ K2). pose proof (B _ _ K3). pose proof (B _ _ K4).
    assert (Kc : forall x y, is_known g x y = true -> contains (g_lim g) x y = true).
    { intros x y. unfold is_known. destruct (contains (g_lim g) x y); auto. }
    pose proof (Kc _ _ K1) as Q1. pose proof (Kc _ _ K2) as Q2. pose proof (Kc _ _ K3) as Q3.
    pose proof (Kc _ _ K4) as Q4. rewrite contains_iff in Q1, Q2, Q3, Q4.
    do 4 eexists. split; [reflexivity|]. split; [lia|]. split; [lia|]. split; [|split].
    + intros x y Qx Qy. apply contains_iff. lia.
    + intros x y Q. specialize (B _ _ Q). lia.
    + right. split; [eauto|]. split; [|split; [eauto|]].
      * exists y2. replace (b_x0 b + (b_x1 b - b_x0 b + 1) - 1) with (b_x1 b) by ring. exact K2.
      * exists x4. replace (b_y0 b + (b_y1 b - b_y0 b + 1) - 1) with (b_y1 b) by ring. exact K4.
  - do 4 eexists. split; [reflexivity|]. split; [lia|]. split; [lia|]. split; [|split].
    + intros x y Qx Qy. apply contains_iff. lia.
    + intros x y Q. cbn [box_exact] in B. rewrite B in Q. discriminate.
    + left. split; [exact B | auto].
Qed.

Lemma t_crop_ok t : twf t -> exists c ox oy, t_crop t = Some c /\ twf c /\ g_upd (t_grid c) = [] /\
  t_conv c = t_conv t /\
  l_res (g_lim (t_grid c)) = l_res (g_lim (t_grid t)) /\
  (l_mx (g_lim (t_grid c)) == l_mx (g_lim (t_grid t)) - l_res (g_lim (t_grid t)) * inject_Z oy)%Q /\
  (l_my (g_lim (t_grid c)) == l_my (g_lim (t_grid t)) - l_res (g_lim (t_grid t)) * inject_Z ox)%Q /\
  (forall x y, contains (g_lim (t_grid c)) x y = true ->
     contains (g_lim (t_grid t)) (x + ox) (y + oy) = true /\
     cell_pair c x y = cell_pair t (x + ox) (y + oy)) /\
  (forall x y, is_known (t_grid t) x y = true -> contains (g_lim (t_grid c)) (x - ox) (y - oy) = true) /\
  (((forall x y, is_known (t_grid t) x y = false) /\ l_nx (g_lim (t_grid c)) = 1 /\ l_ny (g_lim (t_grid c)) = 1) \/
   ((exists y, is_known (t_grid t) ox y = true) /\
    (exists y, is_known (t_grid t) (ox + l_nx (g_lim (t_grid c)) - 1) y = true) /\
    (exists x, is_known (t_grid t) x oy = true) /\
    (exists x, is_known (t_grid t) x (oy + l_ny (g_lim (t_grid c)) - 1) = true))).
Proof.
  intros TW. pose proof (wf_lim _ (tw_grid _ TW)) as L. pose proof L as [Hr [Hx Hy]].
  destruct (cropped_limits_ok _ (tw_grid _ TW)) as [ox [oy [nx [ny [E [Px [Py [In1 [In2 Bx]]]]]]]]].
  unfold t_crop. rewrite E. rewrite (lim_new _ L) by assumption.
  match goal with |- context [new_tsdf ?l' _ _] => set (l := l') end.
  destruct (new_tsdf_ok l (max_tsd (t_conv t)) (max_weight (t_conv t))) as [c0 [E0 [W0 [L0 [U0 [C0 Z0]]]]]].
  { split; [exact Hr | split; assumption]. }
  { apply TW. }
  { apply TW. }
  rewrite E0.
  assert (C0' : t_conv c0 = t_conv t) by (rewrite C0; destruct (t_conv t); reflexivity).
  destruct (t_crop_loop_ok t ox oy (xy_range nx ny) TW c0 W0 C0' (xy_range_NoDup nx ny))
    as [c1 [E1 [W1 [L1 [Cv1 V1]]]]].
  { intros x y I. apply xy_range_In in I.
    destruct (Z0 x y) as [A1 A2]; [apply contains_iff; cbn [l l_nx l_ny]; tauto|].
    split; [exact A1|]. split; [exact A2 | apply In1; tauto]. }
  rewrite E1. destruct (t_finish_ok c1 W1) as [c [E2 [W2 [L2 [C2 [U2 [_ [V2 V3]]]]]]]].
  exists c, ox, oy. split; [exact E2|]. split; [exact W2|]. split; [exact U2|]. split; [congruence|].
  rewrite L2, L1, L0. cbn [l l_res l_mx l_my l_nx l_ny].
  split; [reflexivity|]. split; [reflexivity|]. split; [reflexivity|]. split; [|split; [|exact Bx]].
  - intros x y C. apply contains_iff in C. cbn [l_nx l_ny] in C. split; [apply In1; tauto|].
    destruct (V1 x y) as [Q _]. rewrite <- Q by (now apply xy_range_In).
    unfold cell_pair. rewrite V2, V3. destruct (cell_value (t_grid c1) x y) as [v|] eqn:Ev; [|reflexivity].
    cbn [option_map]. destruct (weight_value c1 x y); [|reflexivity]. f_equal. f_equal.
    destruct (unmark_range _ _ _ _ (tw_grid _ W1) Ev) as [B _]. unfold unmark at 1.
    destruct (Z.ltb_spec (unmark v) 32768); lia.
  - intros x y Q. apply contains_iff. cbn [l_nx l_ny]. auto.
Qed.

(* serialization *)
Lemma cells_16bit g : wf g -> forallb (fun c => c <=? 65535) (g_cells g) = true.
Proof.
  intros W. apply forallb_forall. intros v I. apply In_nth_error in I. destruct I as [n E].
  assert (Ev : vget (g_cells g) (Z.of_nat n) = Some v).
  { unfold vget. destruct (Z.leb_spec 0 (Z.of_nat n)); [|lia]. now rewrite Nat2Z.id. }
  apply Z.leb_le. destruct (in_dec Z.eq_dec (Z.of_nat n) (g_upd g)) as [J | J].
  - pose proof (wf_marked _ W _ _ J Ev). lia.
  - pose proof (wf_plain _ W _ _ J Ev). lia.
Qed.

Lemma t_proto_roundtrip t : twf t -> g_upd (t_grid t) = [] ->
  exists p, t_to_proto t = Some p /\ t_from_proto p = Some t.
Proof.
  intros TW U. unfold t_to_proto. rewrite U. eexists. split; [reflexivity|].
  unfold t_from_proto. cbn [tp_lim tp_cells tp_box tp_minc tp_maxc tp_weights tp_trunc tp_maxw].
  pose proof (tw_grid _ TW) as W.
  assert (Lg : feqb (g_minc (t_grid t)) f_zero && feqb (g_maxc (t_grid t)) f_zero = false).
  { apply not_true_is_false. rewrite andb_true_iff.
    intros [A B]. apply feqb_zero in A. apply feqb_zero in B. destruct A as [s A]. destruct B as [s' B].
    pose proof (wf_cost _ W) as C. rewrite A, B in C. destruct s, s'; discriminate. }
  rewrite Lg, (wf_cost _ W), (cells_16bit _ W).
  pose proof (cells_16bit _ (tw_weights _ TW)) as F. cbn [wgrid g_cells] in F. rewrite F. cbn [andb]. f_equal.
  assert (B : (if box_empty (g_box (t_grid t)) then None else g_box (t_grid t)) = g_box (t_grid t)).
  { pose proof (wf_box _ W) as B. destruct (g_box (t_grid t)) as [b|]; [|reflexivity].
    now rewrite (box_empty_exact _ _ B). }
  rewrite B, <- U. destruct t as [g [m1 m2] ws]. destruct g. reflexivity.
Qed.
