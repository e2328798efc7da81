(* Properties of the truncated signed distance field (C60, C61, C62). *)
From Coq Require Import List ZArith QArith Bool Reals Lia Lra SpecFloat.
From Flocq Require Import IEEE754.BinarySingleNaN.
From Verif Require Import Vec Float32 FloatR Float32_Proofs PV_Model PV_Bounded PV_Proofs Properties_PV
  G2_Model G2_Round G2_Spec G2_Proofs G2_Grow G2_Embed G2_Crop
  TSD_Model TSD_Spec TSD_Conv TSD_Proofs TSD_Grid TSD_Crop TSD_Update.
Import ListNotations.
Open Scope Z_scope.

Definition T_of (c : converter) : R := fval (max_tsd c).
Definition W_of (c : converter) : R := fval (max_weight c).
Definition f_ratio (a b : Z) : f32 := fdiv (f_of_Z a) (f_of_Z b).

(* C60 *)
(* a value survives the way to a float and back, with or without its update marker, for
   every truncation distance and maximum weight from 2^-30 to 2^30 *)
Theorem C60_roundtrip : forall c v, usable_conv c -> 1 <= v <= 32767 ->
  tsd_to_value c (value_to_tsd c v) = Some v /\
  weight_to_value c (value_to_weight c v) = Some v /\
  tsd_to_value c (value_to_tsd c (v + 32768)) = Some v /\
  weight_to_value c (value_to_weight c (v + 32768)) = Some v.
Proof.
  intros c v U H. rewrite tsd_marked, weight_marked by lia.
  pose proof (tsd_round c U v H). pose proof (weight_round c U v H). auto.
Qed.

(* every float but NaN becomes a known value, and a NaN is an error *)
Theorem C60_total : forall c x, usable_conv c -> is_binary32 x ->
  (~ is_nan x -> (exists v, tsd_to_value c x = Some v /\ 1 <= v <= 32767) /\
                 (exists v, weight_to_value c x = Some v /\ 1 <= v <= 32767)) /\
  (is_nan x -> tsd_to_value c x = None /\ weight_to_value c x = None).
Proof.
  intros c x U V. split.
  - intros N. split; [now apply tsd_range | now apply weight_range].
  - intros ->. split.
    + destruct (tsd_to_value c S754_nan) eqn:E; [|reflexivity]. now apply conv_not_nan in E.
    + destruct (weight_to_value c S754_nan) eqn:E; [|reflexivity]. now apply conv_not_nan in E.
Qed.

(* order is kept: weakly into values, strictly out of them *)
Theorem C60_monotone : forall c x y u v, usable_conv c ->
  is_binary32 x -> is_binary32 y -> ~ is_nan x -> ~ is_nan y -> fleb x y = true ->
  (tsd_to_value c x = Some u -> tsd_to_value c y = Some v -> u <= v) /\
  (weight_to_value c x = Some u -> weight_to_value c y = Some v -> u <= v).
Proof. intros c x y u v U Vx Vy Nx Ny L. split; [now apply tsd_mono | now apply weight_mono]. Qed.
Theorem C60_strict : forall c u v, usable_conv c -> 1 <= u < v -> v <= 32767 ->
  fltb (value_to_tsd c u) (value_to_tsd c v) = true /\
  fltb (value_to_weight c u) (value_to_weight c v) = true.
Proof. intros c u v U H1 H2. split; [apply tsd_strict | apply weight_strict]; auto; lia. Qed.

(* storing a float and reading it back changes it by little more than half a step of the
   32766 steps, after clamping to the range *)
Theorem C60_accuracy : forall c x u v, usable_conv c -> is_binary32 x -> is_finite_SF x = true ->
  tsd_to_value c x = Some u -> weight_to_value c x = Some v ->
  (Rabs (fval (value_to_tsd c u) - Rmax (- T_of c) (Rmin (T_of c) (fval x))) <= T_of c / 30000)%R /\
  (Rabs (fval (value_to_weight c v) - Rmax 0 (Rmin (W_of c) (fval x))) <= W_of c / 60000)%R.
Proof. intros c x u v U V F E1 E2. split; [now apply tsd_loss | now apply weight_loss]. Qed.

(* the floats of the values: finite, evenly spaced over the range up to a millionth of it,
   and unknown is the smallest distance with weight zero *)
Theorem C60_values : forall c v, usable_conv c -> 1 <= v <= 32767 ->
  is_finite_SF (value_to_tsd c v) = true /\ is_finite_SF (value_to_weight c v) = true /\
  (Rabs (fval (value_to_tsd c v) - T_of c * ((IZR v - 16384) / 16383)) <= T_of c / 1000000)%R /\
  (Rabs (fval (value_to_weight c v) - W_of c * ((IZR v - 1) / 32766)) <= W_of c / 1000000)%R /\
  (0 <= fval (value_to_weight c v))%R /\
  value_to_tsd c 0 = fneg (max_tsd c) /\ value_to_weight c 0 = f_of_Z 0.
Proof.
  intros c v U H. destruct (tsd_float c U v H) as [_ [F E]]. destruct (weight_float c U v H) as [_ [Fw [Ew P]]].
  do 5 (split; [assumption|]). split; reflexivity.
Qed.

(* but they may lie outside [-T, T]: with a truncation distance of 35 cm the largest value
   is read as a larger distance, against the comment on ValueToTSD *)
Definition conv35 : converter := mk_converter (f_ratio 35 100) (f_of_Z 10).
Lemma conv35_usable : usable_conv conv35.
Proof. split; repeat split; vm_compute; reflexivity. Qed.
Theorem C60_bounds_refuted : exists c v, usable_conv c /\ 1 <= v <= 32767 /\
  fltb (max_tsd c) (value_to_tsd c v) = true.
Proof. exists conv35, 32767. split; [exact conv35_usable|]. split; [lia | vm_compute; reflexivity]. Qed.

(* the options of the default configuration: 30 cm and 10 *)
Definition conv30 : converter := mk_converter (f_ratio 3 10) (f_of_Z 10).
Lemma conv30_usable : usable_conv conv30.
Proof. split; repeat split; vm_compute; reflexivity. Qed.
Example C60_example :
  tsd_to_value conv30 (f_ratio 1 10) = Some 21845 /\
  value_to_tsd conv30 21845 = S754_finite false 13421772 (-27) /\ f_ratio 1 10 = S754_finite false 13421773 (-27) /\
  tsd_to_value conv30 (f_of_Z 7) = Some 32767 /\
  feqb (value_to_tsd conv30 32767) (f_ratio 3 10) = true /\
  tsd_to_value conv30 (f_of_Z (-7)) = Some 1 /\
  weight_to_value conv30 (f_of_Z 5) = Some 16384 /\
  feqb (value_to_weight conv30 16384) (f_of_Z 5) = true.
Proof. vm_compute. repeat split. Qed.

(* C61 *)
(* A TSDF reached from construction by any successful sequence of operations on floats. *)
Definition t_reachable (t : tsdf) : Prop :=
  exists r mx my nx ny l T W t0 os, new_limits r mx my nx ny = Some l /\ usable T /\ usable W /\
    new_tsdf l T W = Some t0 /\ Forall t_op_ok os /\ t_run t0 os = Some t.

Lemma t_reachable_wf t : t_reachable t -> twf t.
Proof.
  intros [r [mx [my [nx [ny [l [T [W [t0 [os [E1 [UT [UW [E2 [F R]]]]]]]]]]]]]]].
  assert (L : lim_ok l).
  { clear E2 R. unfold new_limits in E1. destruct (Qle_bool r 0) eqn:Q; [discriminate|].
    destruct (Z.ltb_spec 0 nx); [|discriminate]. destruct (Z.ltb_spec 0 ny); [|discriminate].
    injection E1 as <-. split; [now apply Qle_bool_false | auto]. }
  destruct (new_tsdf_ok l T W L UT UW) as [t1 [E [H _]]]. rewrite E in E2. injection E2 as <-.
  exact (t_run_wf os t1 t H F R).
Qed.
Lemma t_run_app os1 : forall os2 a b, t_run a os1 = Some b -> t_run a (os1 ++ os2) = t_run b os2.
Proof.
  induction os1 as [|o os1 IH]; intros os2 a b Q; cbn [t_run app] in *.
  - now injection Q as <-.
  - destruct (t_step a o); [now apply IH | discriminate].
Qed.
Lemma t_reachable_step t o t' : t_reachable t -> t_op_ok o -> t_step t o = Some t' -> t_reachable t'.
Proof.
  intros [r [mx [my [nx [ny [l [T [W [t0 [os [E1 [UT [UW [E2 [F R]]]]]]]]]]]]]]] O S.
  exists r, mx, my, nx, ny, l, T, W, t0, (os ++ [o]). do 4 (split; [assumption|]). split.
  - apply Forall_app. split; [exact F|]. constructor; [exact O | constructor].
  - rewrite (t_run_app _ _ _ _ R). cbn [t_run]. now rewrite S.
Qed.

Lemma updated_marked t x y : twf t -> contains (g_lim (t_grid t)) x y = true ->
  (cell_is_updated t x y = Some true /\ marked t x y) \/
  (cell_is_updated t x y = Some false /\ ~ marked t x y).
Proof.
  intros R C. destruct (cell_value_some (t_grid t) x y (wf_size _ (tw_grid _ R)) C) as [v Ev].
  unfold cell_value, flat_index in Ev. unfold cell_is_updated, flat_index, marked. rewrite C in *. rewrite Ev.
  destruct (in_dec Z.eq_dec (l_nx (g_lim (t_grid t)) * y + x) (g_upd (t_grid t))) as [I | N].
  - left. split; [|exact I]. pose proof (wf_marked _ (tw_grid _ R) _ _ I Ev). f_equal. unfold kUpdateMarker. apply Z.leb_le. lia.
  - right. split; [|exact N]. pose proof (wf_plain _ (tw_grid _ R) _ _ N Ev). f_equal. unfold kUpdateMarker. apply Z.leb_gt. lia.
Qed.

(* between two FinishUpdate calls the first store to a cell wins, further ones and other
   cells are left alone, and the cell counts as updated until FinishUpdate *)
Theorem C61_set_once : forall t ss, t_reachable t -> g_upd (t_grid t) = [] -> Forall (store_ok t) ss ->
  exists t1 t2, set_all t ss = Some t1 /\ t_finish t1 = Some t2 /\ g_upd (t_grid t2) = [] /\
    g_lim (t_grid t2) = g_lim (t_grid t) /\ t_conv t2 = t_conv t /\
    forall x y, contains (g_lim (t_grid t)) x y = true ->
      cell_is_updated t1 x y = Some (existsb (store_at x y) ss) /\
      cell_is_updated t2 x y = Some false /\
      cell_pair t1 x y = cell_pair t2 x y /\
      match find (store_at x y) ss with
      | Some s => exists a b, stored (t_conv t) s = Some (a, b) /\
                    cell_pair t2 x y = Some (a, b) /\ 1 <= a <= 32767 /\ 1 <= b <= 32767
      | None => cell_pair t2 x y = cell_pair t x y
      end.
Proof.
  intros t ss R U F. apply t_reachable_wf in R.
  destruct (set_all_mid t ss [] t (smid_start t R U) F) as [t1 [E1 M]]. cbn [app] in M.
  destruct (t_finish_ok t1 (sm_wf _ _ _ M)) as [t2 [E2 [R2 [L2 [C2 [U2 [_ [V2 W2]]]]]]]].
  exists t1, t2. do 3 (split; [assumption|]). split; [rewrite L2; apply (sm_lim _ _ _ M)|].
  split; [rewrite C2; apply (sm_conv _ _ _ M)|].
  intros x y C.
  assert (C1 : contains (g_lim (t_grid t1)) x y = true) by (rewrite (sm_lim _ _ _ M); exact C).
  assert (Q : cell_pair t2 x y = cell_pair t1 x y).
  { destruct (cell_value_some (t_grid t1) x y (wf_size _ (tw_grid _ (sm_wf _ _ _ M))) C1) as [v Ev].
    unfold cell_pair. rewrite V2, W2, Ev. cbn [option_map].
    destruct (unmark_range _ _ _ _ (tw_grid _ (sm_wf _ _ _ M)) Ev) as [B _].
    unfold unmark at 1. destruct (Z.ltb_spec (unmark v) 32768); [reflexivity | lia]. }
  split; [|split; [|split]].
  - pose proof (sm_upd _ _ _ M x y C) as S. destruct (updated_marked t1 x y (sm_wf _ _ _ M) C1) as [[-> I] | [-> I]].
    + apply S in I. now rewrite I.
    + destruct (existsb (store_at x y) ss); [|reflexivity]. exfalso. apply I. apply S. reflexivity.
  - destruct (updated_marked t2 x y R2) as [[E I] | [E _]]; [rewrite L2; exact C1 | | exact E].
    unfold marked in I. rewrite U2 in I. destruct I.
  - symmetry. exact Q.
  - rewrite Q, (sm_val _ _ _ M x y C). destruct (find (store_at x y) ss) as [[[[sx sy] d] w]|] eqn:Fd; [|reflexivity].
    apply find_some in Fd. destruct Fd as [I _]. rewrite Forall_forall in F. specialize (F _ I).
    destruct F as [_ [Vd [Nd [Vw Nw]]]].
    destruct (tsd_range _ (tw_conv _ R) d Vd Nd) as [a [Ea Ba]].
    destruct (weight_range _ (tw_conv _ R) w Vw Nw) as [b [Eb Bb]].
    exists a, b. unfold stored. rewrite Ea, Eb. auto.
Qed.

(* when SetCell aborts *)
Theorem C61_set_aborts : forall t x y d w, t_reachable t -> is_binary32 d -> is_binary32 w ->
  (set_cell t x y d w = None <->
   contains (g_lim (t_grid t)) x y = false \/
   (cell_is_updated t x y = Some false /\ (is_nan d \/ is_nan w))).
Proof.
  intros t x y d w R Vd Vw. apply t_reachable_wf in R. pose proof (tw_conv _ R) as U.
  destruct (contains (g_lim (t_grid t)) x y) eqn:C.
  2:{ split; [intros; now left|]. intros _. unfold set_cell, flat_index. rewrite C. reflexivity. }
  assert (ND : is_nan d \/ ~ is_nan d) by (destruct d; [right | right | left | right]; now try discriminate).
  assert (NW : is_nan w \/ ~ is_nan w) by (destruct w; [right | right | left | right]; now try discriminate).
  destruct (updated_marked t x y R C) as [[E M] | [E M]].
  - split; [|intros [H | [H _]]; congruence]. intros H. exfalso. revert H E.
    unfold set_cell, cell_is_updated, flat_index. rewrite C.
    destruct (vget _ _); [|discriminate]. intros H1 H2. injection H2 as H2. rewrite H2 in H1. discriminate.
  - assert (G : is_nan d \/ is_nan w -> set_cell t x y d w = None).
    { intros H. revert E. unfold set_cell, cell_is_updated, flat_index. rewrite C.
      destruct (vget _ _); [|discriminate]. intros E. injection E as ->.
      destruct (tsd_to_value (t_conv t) d) eqn:E1; [|reflexivity].
      destruct (weight_to_value (t_conv t) w) eqn:E2; [|reflexivity]. exfalso.
      destruct H as [-> | ->]; [now apply conv_not_nan in E1 | now apply conv_not_nan in E2]. }
    split; [|intros [H | [_ H]]; [discriminate | now apply G]].
    intros H. right. split; [exact E|]. destruct ND as [N | N]; [now left|]. destruct NW as [N' | N']; [now right|].
    exfalso. destruct (tsd_range _ U d Vd N) as [a [Ea Ba]]. destruct (weight_range _ U w Vw N') as [b [Eb Bb]].
    destruct (set_cell_ok t x y d w a b R C Ea Eb Ba Bb) as [t' [Et _]]. congruence.
Qed.

(* reading: the three getters agree; a distance without weight or the other way round
   does not occur; unknown and outside are the smallest distance and weight zero *)
Theorem C61_read : forall t x y, t_reachable t ->
  exists d w, get_tsd_and_weight t x y = Some (d, w) /\ get_tsd t x y = Some d /\ get_weight t x y = Some w /\
    (is_known (t_grid t) x y = false -> d = fneg (max_tsd (t_conv t)) /\ w = f_of_Z 0) /\
    (is_known (t_grid t) x y = true -> exists v u, cell_pair t x y = Some (v, u) /\
       1 <= v <= 32767 /\ 1 <= u <= 32767 /\
       d = value_to_tsd (t_conv t) v /\ w = value_to_weight (t_conv t) u).
Proof.
  intros t x y R. apply t_reachable_wf in R.
  destruct (contains (g_lim (t_grid t)) x y) eqn:C.
  - destruct (pair_read t x y R C) as [v [w [Ep [Bv [Bw [K G]]]]]].
    do 2 eexists. split; [exact G|].
    assert (G2 : get_tsd t x y = Some (value_to_tsd (t_conv t) v) /\
                 get_weight t x y = Some (value_to_weight (t_conv t) w)).
    { revert G. unfold get_tsd_and_weight, get_tsd, get_weight. rewrite C.
      destruct (cell_value (t_grid t) x y), (weight_value t x y); try discriminate.
      cbn [option_map]. intros G. injection G as A B. now rewrite A, B. }
    destruct G2 as [-> ->]. do 2 (split; [reflexivity|]).
    assert (Z0 : is_known (t_grid t) x y = negb (v =? 0)).
    { revert Ep. unfold is_known, cell_pair, kUnknown. rewrite C.
      destruct (cell_value (t_grid t) x y) as [v0|] eqn:Ev; [|discriminate].
      destruct (weight_value t x y); [|discriminate]. intros Ep. injection Ep as <- _.
      destruct (unmark_range _ _ _ _ (tw_grid _ R) Ev) as [_ [N _]]. f_equal.
      destruct (Z.eqb_spec v0 0) as [-> | Nz]; [reflexivity|]. specialize (N Nz).
      symmetry. apply Z.eqb_neq. lia. }
    rewrite Z0. split; intros Q.
    + destruct (Z.eqb_spec v 0) as [-> | Nz]; [|discriminate]. assert (w = 0) by tauto. subst w. split; reflexivity.
    + destruct (Z.eqb_spec v 0) as [-> | Nz]; [discriminate|]. exists v, w. split; [exact Ep|].
      split; [lia|]. split; [|auto]. assert (w <> 0) by tauto. lia.
  - exists (min_tsd (t_conv t)), min_weight. unfold get_tsd_and_weight, get_tsd, get_weight, is_known. rewrite C.
    do 3 (split; [reflexivity|]). split; [split; reflexivity | discriminate].
Qed.

Lemma pair_at_eq t px py : twf t -> pair_at t px py =
  match value_at (t_grid t) px py, value_at (wgrid t) px py with
  | Some v, Some w => Some (unmark v, w)
  | _, _ => None
  end.
Proof.
  intros R. unfold pair_at, value_at. change (g_lim (wgrid t)) with (g_lim (t_grid t)).
  destruct (cell_index _ _ _) as [x y]. destruct (contains _ _ _); [|reflexivity].
  unfold cell_pair. rewrite weight_value_eq. reflexivity.
Qed.

(* growing: terminates, covers the point, and changes neither number of any cell *)
Theorem C61_grow : forall t px py, t_reachable t ->
  (g_upd (t_grid t) <> [] -> forall n, t_grow n t px py = Aborted) /\
  (g_upd (t_grid t) = [] ->
   exists n t', (forall m, (n <= m)%nat -> t_grow m t px py = Done t') /\ t_reachable t' /\
    (let (x, y) := cell_index (g_lim (t_grid t')) px py in contains (g_lim (t_grid t')) x y = true) /\
    t_conv t' = t_conv t /\ g_upd (t_grid t') = [] /\
    box_exact (is_known (t_grid t')) (g_box (t_grid t')) /\
    (forall qx qy, ~ (qx == l_mx (g_lim (t_grid t)))%Q -> ~ (qy == l_my (g_lim (t_grid t)))%Q ->
       pair_at t' qx qy = pair_at t qx qy) /\
    (forall x y, contains (g_lim (t_grid t)) x y = true -> exists x' y',
       contains (g_lim (t_grid t')) x' y' = true /\
       (fst (cell_center (g_lim (t_grid t')) x' y') == fst (cell_center (g_lim (t_grid t)) x y))%Q /\
       (snd (cell_center (g_lim (t_grid t')) x' y') == snd (cell_center (g_lim (t_grid t)) x y))%Q /\
       cell_pair t' x' y' = cell_pair t x y)).
Proof.
  intros t px py R0. split.
  { intros H n. unfold t_grow. destruct (g_upd (t_grid t)); [congruence | reflexivity]. }
  intros U. pose proof (t_reachable_wf t R0) as R.
  destruct (t_grow_ok t px py R U) as [n [t' [ox [oy [H [R' [Ec [E1 [E2 C]]]]]]]]].
  exists n, t'. split; [exact H|]. split.
  { apply (t_reachable_step t (TGrow px py n) t' R0 I). cbn [t_step]. now rewrite H. }
  split; [exact C|]. split; [exact Ec|]. split; [rewrite (em_upd _ _ _ _ E1); exact U|].
  split; [apply (wf_box _ (tw_grid _ R'))|]. split.
  - intros qx qy Nx Ny. rewrite !pair_at_eq by assumption.
    rewrite (embeds_value_at _ _ ox oy qx qy E1 (tw_grid _ R) (tw_grid _ R') Nx Ny).
    rewrite (embeds_value_at _ _ ox oy qx qy E2 (tw_weights _ R) (tw_weights _ R') Nx Ny). reflexivity.
  - intros x y C1. exists (x + ox), (y + oy).
    destruct (embeds_center _ _ ox oy x y E1 C1) as [A1 [A2 [A3 A4]]].
    destruct (embeds_center _ _ ox oy x y E2 C1) as [_ [_ [_ B4]]].
    split; [exact A1|]. split; [exact A2|]. split; [exact A3|].
    unfold cell_pair. rewrite !weight_value_eq, A4, B4. reflexivity.
Qed.

(* cropping: also in the middle of an update; same numbers at the same place, no known
   cell lost, nothing superfluous *)
Theorem C61_crop : forall t, t_reachable t ->
  exists c ox oy, t_crop t = Some c /\ t_conv c = t_conv t /\ g_upd (t_grid c) = [] /\
    l_res (g_lim (t_grid c)) = l_res (g_lim (t_grid t)) /\
    (forall x y, contains (g_lim (t_grid c)) x y = true ->
       contains (g_lim (t_grid t)) (x + ox) (y + oy) = true /\
       cell_pair c x y = cell_pair t (x + ox) (y + oy) /\
       (fst (cell_center (g_lim (t_grid c)) x y) == fst (cell_center (g_lim (t_grid t)) (x + ox) (y + oy)))%Q /\
       (snd (cell_center (g_lim (t_grid c)) x y) == snd (cell_center (g_lim (t_grid t)) (x + ox) (y + oy)))%Q) /\
    (forall x y, is_known (t_grid t) x y = true -> contains (g_lim (t_grid c)) (x - ox) (y - oy) = true) /\
    (((forall x y, is_known (t_grid t) x y = false) /\ l_nx (g_lim (t_grid c)) = 1 /\ l_ny (g_lim (t_grid c)) = 1) \/
     ((exists y, is_known (t_grid t) ox y = true) /\
      (exists y, is_known (t_grid t) (ox + l_nx (g_lim (t_grid c)) - 1) y = true) /\
      (exists x, is_known (t_grid t) x oy = true) /\
      (exists x, is_known (t_grid t) x (oy + l_ny (g_lim (t_grid c)) - 1) = true))).
Proof.
  intros t R. apply t_reachable_wf in R.
  destruct (t_crop_ok t R) as [c [ox [oy [E [Rc [Uc [Cc [Er [Ex [Ey [V [K B]]]]]]]]]]]].
  exists c, ox, oy. do 4 (split; [assumption|]). split; [|split; assumption].
  intros x y C. destruct (V x y C) as [A1 A2]. do 2 (split; [assumption|]).
  unfold cell_center. cbn [fst snd]. rewrite Er. setoid_rewrite Ex. setoid_rewrite Ey.
  rewrite !inject_Z_plus. split; ring.
Qed.

(* a finished TSDF is reconstructed exactly from its proto, an unfinished one cannot be
   written *)
Theorem C61_proto : forall t, t_reachable t ->
  (g_upd (t_grid t) = [] -> exists p, t_to_proto t = Some p /\ t_from_proto p = Some t) /\
  (g_upd (t_grid t) <> [] -> t_to_proto t = None).
Proof.
  intros t R. apply t_reachable_wf in R. split; [intros U; now apply t_proto_roundtrip|].
  intros H. unfold t_to_proto. destruct (g_upd (t_grid t)); [congruence | reflexivity].
Qed.

Definition ex_tl : limits := mk_limits (1 # 2) 3 2 3 2.
Definition ex_t : option tsdf :=
  match new_tsdf ex_tl (f_ratio 3 10) (f_of_Z 10) with
  | Some t => t_run t [TSet 1 0 (f_ratio 1 10) (f_of_Z 5); TSet 1 0 (f_of_Z 0) (f_of_Z 1); TFinish]
  | None => None
  end.
Example C61_example :
  match ex_t with
  | Some t => g_cells (t_grid t) = [0; 21845; 0; 0; 0; 0] /\ t_weights t = [0; 16384; 0; 0; 0; 0] /\
      match t_crop t with
      | Some c => l_nx (g_lim (t_grid c)) = 1 /\ l_ny (g_lim (t_grid c)) = 1 /\ cell_pair c 0 0 = Some (21845, 16384)
      | None => False
      end /\
      match t_grow 5 t 4 2 with
      | Done t' => l_nx (g_lim (t_grid t')) = 12 /\ cell_pair t' 5 3 = Some (21845, 16384)
      | _ => False
      end
  | None => False
  end.
Proof. vm_compute. repeat split. Qed.

(* C62 *)
(* UpdateCell: the new distance is the weighted average of the old one and the
   measurement and the new weight the capped sum, both up to the quantization; a known
   cell never moves away from the measurement and overshoots it by at most one step of the
   quantization; weights never shrink; no other cell changes *)
Theorem C62_update : forall t x y s uw, t_reachable t -> cell_is_updated t x y = Some false ->
  is_binary32 s -> is_finite_SF s = true -> (Rabs (fval s) <= T_of (t_conv t))%R ->
  is_binary32 uw -> is_finite_SF uw = true -> (/ IZR (2 ^ 60) <= fval uw <= IZR (2 ^ 60))%R ->
  let c := t_conv t in
  exists v w vs t' a b, cell_pair t x y = Some (v, w) /\ tsd_to_value c s = Some vs /\
    update_cell t (max_weight c) x y s uw = Some t' /\ t_reachable t' /\
    cell_pair t' x y = Some (a, b) /\ 1 <= a <= 32767 /\ 1 <= b <= 32767 /\
    (forall x' y', (x', y') <> (x, y) -> cell_pair t' x' y' = cell_pair t x' y') /\
    (let d0 := fval (value_to_tsd c v) in let w0 := fval (value_to_weight c w) in
     (Rabs (fval (value_to_tsd c a) - (d0 * w0 + fval s * fval uw) / (w0 + fval uw)) <= T_of c / 25000)%R /\
     (Rabs (fval (value_to_weight c b) - Rmin (W_of c) (w0 + fval uw)) <= W_of c / 50000)%R) /\
    w <= b /\
    (v <> 0 -> fleb (value_to_tsd c v) s = true -> v <= a <= vs + 1) /\
    (v <> 0 -> fleb s (value_to_tsd c v) = true -> vs - 1 <= a <= v) /\
    (v = 0 -> vs - 1 <= a <= vs + 1).
Proof.
  intros t x y s uw R0 M Vs Fs Hs Vu Fu Hu c. pose proof (t_reachable_wf t R0) as R.
  assert (C : contains (g_lim (t_grid t)) x y = true).
  { unfold cell_is_updated, flat_index in M. destruct (contains _ _ _); [reflexivity | discriminate]. }
  assert (NM : ~ marked t x y) by (destruct (updated_marked t x y R C) as [[E _] | [_ N]]; [congruence | exact N]).
  destruct (update_ok t x y s uw R C NM Vs Fs Hs Vu Fu Hu)
    as [v [w [vs [t' [a [b [E1 [E2 [E3 [R' [_ [_ [E4 [Ba [Bb [O [A [L [U1 [U2 U3]]]]]]]]]]]]]]]]]]]].
  exists v, w, vs, t', a, b. do 3 (split; [assumption|]). split.
  { apply (t_reachable_step t (TUpdate (max_weight c) x y s uw) t' R0); [|exact E3].
    split; [apply (max_weight_valid _ (tw_conv _ R)) | split; assumption]. }
  do 4 (split; [assumption|]). split; [exact A|]. auto.
Qed.

(* an update weight of zero changes nothing, at a cell already updated neither *)
Theorem C62_update_skips : forall t m x y s uw, t_reachable t ->
  (feqb uw f_zero = true -> update_cell t m x y s uw = Some t) /\
  (cell_is_updated t x y = Some true -> update_cell t m x y s uw = Some t).
Proof.
  intros t m x y s uw R0. pose proof (t_reachable_wf t R0) as R. unfold update_cell. split.
  - now intros ->.
  - intros M. destruct (feqb uw f_zero); [reflexivity|].
    assert (C : contains (g_lim (t_grid t)) x y = true).
    { unfold cell_is_updated, flat_index in M. destruct (contains _ _ _); [reflexivity | discriminate]. }
    destruct (pair_read t x y R C) as [v [w [_ [_ [_ [_ ->]]]]]].
    unfold set_cell, cell_is_updated, flat_index in *. rewrite C in *.
    destruct (vget _ _); [|discriminate]. injection M as ->. reflexivity.
Qed.

(* the scan matcher's score of any scan, however long, lies in [0, 1] if the floats of the
   values do not leave [-T, T] *)
Theorem C62_score : forall t dx dy scan, t_reachable t ->
  fleb (value_to_tsd (t_conv t) 32767) (max_tsd (t_conv t)) = true ->
  fleb (fneg (max_tsd (t_conv t))) (value_to_tsd (t_conv t) 1) = true ->
  exists s, candidate_score t dx dy scan = Some s /\ fleb f_zero s = true /\ fleb s (f_of_Z 1) = true.
Proof.
  intros t dx dy scan R H1 H2. destruct (score_in t (t_reachable_wf t R) H1 H2 dx dy scan) as [s [E [_ H]]].
  exists s. auto.
Qed.

(* moving the candidate is moving the scan *)
Theorem C62_score_offset : forall t dx dy scan,
  candidate_score t dx dy scan = candidate_score t 0 0 (map (fun xy => (fst xy + dx, snd xy + dy)) scan).
Proof.
  intros t dx dy scan. unfold candidate_score.
  assert (E : forall s w, score_loop t dx dy scan s w =
    score_loop t 0 0 (map (fun xy => (fst xy + dx, snd xy + dy)) scan) s w).
  { induction scan as [|[x y] scan IH]; intros s w; cbn [map score_loop fst snd]; [reflexivity|].
    rewrite !Z.add_0_r. destruct (get_tsd_and_weight t (x + dx) (y + dy)) as [[a b]|]; [|reflexivity]. apply IH. }
  now rewrite E.
Qed.

(* where they do, the scan matcher aborts: a scan whose points all fall on cells at the
   truncation distance in front of the surface, with a truncation distance of 35 cm *)
Definition ex_t35 : option tsdf :=
  match new_tsdf ex_tl (f_ratio 35 100) (f_of_Z 10) with
  | Some t => t_run t [TSet 1 0 (f_ratio 35 100) (f_of_Z 5); TFinish]
  | None => None
  end.
Theorem C62_score_refuted : exists t scan, t_reachable t /\ candidate_score t 0 0 scan = None.
Proof.
  destruct (new_tsdf ex_tl (f_ratio 35 100) (f_of_Z 10)) as [t0|] eqn:E0; [|vm_compute in E0; discriminate].
  destruct (t_run t0 [TSet 1 0 (f_ratio 35 100) (f_of_Z 5); TFinish]) as [t|] eqn:E1.
  2:{ exfalso. revert E0 E1. assert (H : ex_t35 <> None) by (vm_compute; discriminate).
      intros E0 E1. unfold ex_t35 in H. rewrite E0 in H. congruence. }
  assert (E : ex_t35 = Some t) by (unfold ex_t35; rewrite E0; exact E1).
  exists t, [(1, 0)]. split.
  - exists (1 # 2)%Q, 3%Q, 2%Q, 3, 2, ex_tl, (f_ratio 35 100), (f_of_Z 10), t0,
      [TSet 1 0 (f_ratio 35 100) (f_of_Z 5); TFinish].
    split; [reflexivity|]. split; [apply conv35_usable|]. split; [apply conv35_usable|]. split; [exact E0|].
    split; [|exact E1]. repeat constructor; vm_compute; reflexivity.
  - assert (H : match ex_t35 with Some t => candidate_score t 0 0 [(1, 0)] | None => Some f_zero end = None)
      by (vm_compute; reflexivity).
    rewrite E in H. exact H.
Qed.

(* with 30 cm: half the weight at the surface and half a third of the truncation distance
   away gives 5/6 *)
Example C62_example :
  fleb (value_to_tsd conv30 32767) (max_tsd conv30) = true /\
  fleb (fneg (max_tsd conv30)) (value_to_tsd conv30 1) = true /\
  match ex_t with
  | Some t =>
      match t_run t [TUpdate (f_of_Z 10) 1 0 (f_of_Z 0) (f_of_Z 5); TFinish] with
      | Some t' => cell_pair t' 1 0 = Some (19115, 32767) /\
          match candidate_score t' 0 0 [(1, 0); (2, 1); (9, 9)], candidate_score t' 0 0 [(2, 1)] with
          | Some s, Some z => fltb (f_ratio 83 100) s = true /\ fltb s (f_ratio 84 100) = true /\ z = f_zero
          | _, _ => False
          end
      | None => False
      end
  | None => False
  end.
Proof. vm_compute. repeat split. Qed.

Print Assumptions C60_roundtrip.
Print Assumptions C60_total.
Print Assumptions C60_monotone.
Print Assumptions C60_strict.
Print Assumptions C60_accuracy.
Print Assumptions C60_values.
Print Assumptions C60_bounds_refuted.
Print Assumptions C61_set_once.
Print Assumptions C61_set_aborts.
Print Assumptions C61_read.
Print Assumptions C61_grow.
Print Assumptions C61_crop.
Print Assumptions C61_proto.
Print Assumptions C62_update.
Print Assumptions C62_update_skips.
Print Assumptions C62_score.
Print Assumptions C62_score_offset.
Print Assumptions C62_score_refuted.
