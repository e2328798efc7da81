(* The invariant of a TSDF2D: its distances and its weights are both well-formed grids
   with the same known cells. *)
From Coq Require Import List ZArith QArith Bool Lia SpecFloat.
From Verif Require Import Vec Float32 FloatR Float32_Proofs PV_Model PV_Bounded PV_Proofs
  G2_Model G2_Round G2_Spec G2_Proofs G2_Grow G2_Embed G2_Crop TSD_Model TSD_Spec TSD_Proofs.
Import ListNotations.
Open Scope Z_scope.

(* the weights as a grid of their own *)
Definition wgrid (t : tsdf) : grid :=
  mk_grid (g_lim (t_grid t)) (t_weights t) [] (g_box (t_grid t)) (g_minc (t_grid t)) (g_maxc (t_grid t)).

Lemma weight_value_eq t x y : weight_value t x y = cell_value (wgrid t) x y.
Proof. reflexivity. Qed.

Record twf (t : tsdf) : Prop := {
  tw_grid : wf (t_grid t);
  tw_weights : wf (wgrid t);
  tw_known : forall x y, is_known (wgrid t) x y = is_known (t_grid t) x y;
  tw_conv : usable_conv (t_conv t);
  tw_min : g_minc (t_grid t) = min_tsd (t_conv t);
  tw_max : g_maxc (t_grid t) = max_tsd (t_conv t)
}.

Lemma set_weight_ok g x y w : wf g -> g_upd g = [] -> contains (g_lim g) x y = true -> 1 <= w <= 32767 ->
  exists c, vset (g_cells g) (l_nx (g_lim g) * y + x) w = Some c /\
    wf (mk_grid (g_lim g) c [] (box_extend (g_box g) x y) (g_minc g) (g_maxc g)) /\
    (forall x' y', cell_value (mk_grid (g_lim g) c [] (box_extend (g_box g) x y) (g_minc g) (g_maxc g)) x' y' =
       if (x' =? x) && (y' =? y) then Some w else cell_value g x' y').
Proof.
  intros W U C Bw. destruct W as [WL WS WN WU WM WP WB WC]. set (i := l_nx (g_lim g) * y + x).
  assert (Bi : 0 <= i < vsize (g_cells g)) by (rewrite WS; now apply flat_bound).
  destruct (vset_ok (g_cells g) i w Bi) as [c [Ec [Sc Gc]]]. exists c. split; [exact Ec|]. split.
  - constructor; cbn [g_lim g_cells g_upd g_box g_minc g_maxc]; auto.
    + now rewrite Sc.
    + constructor.
    + intros j [].
    + intros j v [].
    + intros j v J Ej. rewrite Gc in Ej. destruct (Z.eqb_spec j i); [injection Ej as <-; lia|].
      apply (WP j v); [rewrite U; auto | exact Ej].
    + eapply box_exact_extend; [|exact WB]. intros x' y'. apply (known_set g x y w c); auto. lia.
  - now apply cell_value_set.
Qed.

Lemma vget_repeat_const (a : Z) v : 0 <= v < 32768 ->
  vget (repeat a (Z.to_nat 32768)) v = Some a.
Proof. intros H. apply vget_repeat. lia. Qed.
Lemma const_good a : 32768 < a < 65536 -> good_table (repeat a (Z.to_nat 32768)).
Proof. intros H v B. exists a. split; [now apply vget_repeat_const | exact H]. Qed.

Lemma set_cell_table t x y a b d w : tsd_to_value (t_conv t) d = Some a ->
  weight_to_value (t_conv t) w = Some b -> 1 <= a <= 32767 -> wf (t_grid t) ->
  set_cell t x y d w =
  match apply_table (t_grid t) x y (repeat (a + 32768) (Z.to_nat 32768)) with
  | None => None
  | Some (g, false) => Some t
  | Some (g, true) => match vset (t_weights t) (l_nx (g_lim (t_grid t)) * y + x) b with
                      | Some c => Some (mk_tsdf g (t_conv t) c)
                      | None => None
                      end
  end.
Proof.
  intros Ea Eb Ba W. unfold set_cell, apply_table. unfold flat_index.
  destruct (contains (g_lim (t_grid t)) x y) eqn:C; [|reflexivity].
  destruct (vget (g_cells (t_grid t)) (l_nx (g_lim (t_grid t)) * y + x)) as [v|] eqn:Ev; [|reflexivity].
  unfold kUpdateMarker. destruct (Z.leb_spec 32768 v) as [L | L]; [reflexivity|].
  assert (Bv : 0 <= v).
  { destruct (in_dec Z.eq_dec (l_nx (g_lim (t_grid t)) * y + x) (g_upd (t_grid t))) as [I | I].
    - pose proof (wf_marked _ W _ _ I Ev). lia.
    - pose proof (wf_plain _ W _ _ I Ev). lia. }
  rewrite Ea, Eb, vget_repeat_const by lia.
  destruct (vset (g_cells (t_grid t)) (l_nx (g_lim (t_grid t)) * y + x) (a + 32768)); [|reflexivity].
  destruct (vset (t_weights t) (l_nx (g_lim (t_grid t)) * y + x) b); reflexivity.
Qed.

Lemma apply_minmax g x y tb g' b : apply_table g x y tb = Some (g', b) ->
  g_minc g' = g_minc g /\ g_maxc g' = g_maxc g /\ (b = true -> g_box g' = box_extend (g_box g) x y).
Proof.
  unfold apply_table. destruct (flat_index (g_lim g) x y); [|discriminate].
  destruct (vget (g_cells g) z) as [v|]; [|discriminate].
  destruct (kUpdateMarker <=? v).
  - intros H. injection H as <- <-. repeat split. discriminate.
  - destruct (vget tb v); [|discriminate]. destruct (vset (g_cells g) z z0); [|discriminate].
    intros H. injection H as <- <-. repeat split.
Qed.

Definition marked (t : tsdf) (x y : Z) : Prop := In (l_nx (g_lim (t_grid t)) * y + x) (g_upd (t_grid t)).

Lemma set_cell_ok t x y d w a b : twf t -> contains (g_lim (t_grid t)) x y = true ->
  tsd_to_value (t_conv t) d = Some a -> weight_to_value (t_conv t) w = Some b ->
  1 <= a <= 32767 -> 1 <= b <= 32767 ->
  exists t', set_cell t x y d w = Some t' /\ twf t' /\
    g_lim (t_grid t') = g_lim (t_grid t) /\ t_conv t' = t_conv t /\
    (marked t x y -> t' = t) /\
    (~ marked t x y ->
       g_upd (t_grid t') = (l_nx (g_lim (t_grid t)) * y + x) :: g_upd (t_grid t) /\
       forall x' y', (cell_value (t_grid t') x' y' =
           if (x' =? x) && (y' =? y) then Some (a + 32768) else cell_value (t_grid t) x' y') /\
         (weight_value t' x' y' =
           if (x' =? x) && (y' =? y) then Some b else weight_value t x' y')).
Proof.
  intros [W WW K UC M1 M2] C Ea Eb Ba Bb.
  rewrite (set_cell_table t x y a b d w Ea Eb Ba W).
  destruct (apply_table_ok (t_grid t) x y (repeat (a + 32768) (Z.to_nat 32768)) W
              (const_good (a + 32768) ltac:(lia)) C) as [g [f [E [Wg [Lg [Bf [F1 F2]]]]]]].
  rewrite E. destruct (apply_minmax _ _ _ _ _ _ E) as [Q1 [Q2 Q3]].
  unfold marked. destruct f.
  - destruct (F2 eq_refl) as [Ug [v [w' [Ev [Ew [Bv [Bw V]]]]]]].
    rewrite vget_repeat_const in Ew by lia. injection Ew as <-.
    destruct (set_weight_ok (wgrid t) x y b WW eq_refl C Bb) as [c [Ec [Wc Vc]]].
    cbn [wgrid g_cells g_lim g_box g_minc g_maxc] in Ec, Wc, Vc. rewrite Ec.
    eexists. split; [reflexivity|].
    assert (Wq : wgrid (mk_tsdf g (t_conv t) c) =
      mk_grid (g_lim (t_grid t)) c [] (box_extend (g_box (t_grid t)) x y) (g_minc (t_grid t)) (g_maxc (t_grid t))).
    { unfold wgrid. cbn [t_grid t_weights]. now rewrite Lg, Q1, Q2, (Q3 eq_refl). }
    split.
    + constructor; cbn [t_grid t_conv]; try congruence.
      intros x' y'. rewrite Wq. apply eq_true_iff_eq. rewrite !is_known_iff. rewrite Vc. cbn [t_grid]. rewrite V.
      pose proof (K x' y') as K'. apply eq_iff_eq_true in K'. rewrite !is_known_iff in K'.
      destruct ((x' =? x) && (y' =? y)); [|exact K'].
      split; intros _; eexists; (split; [reflexivity | lia]).
    + cbn [t_grid t_conv]. do 2 (split; [auto|]). split; [tauto|]. intros _. split; [exact Ug|].
      intros x' y'. split; [apply V|]. rewrite weight_value_eq, Wq. apply Vc.
  - exists t. split; [reflexivity|]. split; [now constructor|]. do 2 (split; [auto|]). split; [auto|].
    intros N. assert (false = true) by tauto. discriminate.
Qed.

(* NaN and infinities *)
Lemma conv_not_nan lo hi v : bounded_float_to_value S754_nan lo hi = Some v -> False.
Proof.
  unfold bounded_float_to_value. replace (fclamp S754_nan lo hi) with S754_nan.
  - discriminate.
  - unfold fclamp. replace (fltb hi S754_nan) with false by (destruct hi as [|[]| |[]]; reflexivity).
    replace (fltb S754_nan lo) with false by (destruct lo as [|[]| |[]]; reflexivity). reflexivity.
Qed.
Lemma tsd_some_range c x v : usable_conv c -> valid32 x -> tsd_to_value c x = Some v -> 1 <= v <= 32767.
Proof.
  intros U V E. assert (N : x <> S754_nan) by (intros ->; now apply conv_not_nan in E).
  destruct (tsd_range c U x V N) as [v' [E' B]]. congruence.
Qed.
Lemma weight_some_range c x v : usable_conv c -> valid32 x -> weight_to_value c x = Some v -> 1 <= v <= 32767.
Proof.
  intros U V E. assert (N : x <> S754_nan) by (intros ->; now apply conv_not_nan in E).
  destruct (weight_range c U x V N) as [v' [E' B]]. congruence.
Qed.

Lemma set_cell_wf t x y d w t' : twf t -> valid32 d -> valid32 w -> set_cell t x y d w = Some t' -> twf t'.
Proof.
  intros TW Vd Vw H. pose proof H as H0. unfold set_cell, flat_index in H.
  destruct (contains (g_lim (t_grid t)) x y) eqn:C; [|discriminate].
  destruct (vget (g_cells (t_grid t)) _) as [v|]; [|discriminate].
  destruct (kUpdateMarker <=? v); [now injection H as <-|].
  destruct (tsd_to_value (t_conv t) d) as [a|] eqn:Ea; [|discriminate].
  destruct (weight_to_value (t_conv t) w) as [b|] eqn:Eb; [|discriminate].
  pose proof (tsd_some_range _ _ _ (tw_conv _ TW) Vd Ea) as Ba.
  pose proof (weight_some_range _ _ _ (tw_conv _ TW) Vw Eb) as Bb.
  destruct (set_cell_ok t x y d w a b TW C Ea Eb Ba Bb) as [t1 [E1 [W1 _]]].
  rewrite E1 in H0. now injection H0 as <-.
Qed.

(* validity of the floats read from the grid *)
Lemma table_valid unk lo hi v : valid32 unk -> valid32 lo -> valid32 hi -> valid32 (table_value unk lo hi v).
Proof.
  intros A B C. unfold table_value, slow_value. destruct (_ =? kUnknown); [exact A|]. cbv zeta.
  assert (D : valid32 (fdiv (fsub hi lo) (f_of_Z 32766)))
    by (apply fdiv_valid; [now apply fsub_valid | apply f_of_Z_valid]).
  apply fadd_valid; [apply fmul_valid; [apply f_of_Z_valid | exact D] | now apply fsub_valid].
Qed.
Lemma min_tsd_valid c : usable_conv c -> valid32 (min_tsd c).
Proof. intros U. now destruct (tsd_premises c U). Qed.
Lemma max_tsd_valid c : usable_conv c -> valid32 (max_tsd c).
Proof. intros [[V _] _]. exact V. Qed.
Lemma max_weight_valid c : usable_conv c -> valid32 (max_weight c).
Proof. intros [_ [V _]]. exact V. Qed.
Lemma get_both_valid t x y d w : usable_conv (t_conv t) -> get_tsd_and_weight t x y = Some (d, w) ->
  valid32 d /\ valid32 w.
Proof.
  intros U. unfold get_tsd_and_weight.
  destruct (contains (g_lim (t_grid t)) x y).
  - destruct (cell_value (t_grid t) x y); [|discriminate]. destruct (weight_value t x y); [|discriminate].
    intros H. injection H as <- <-. split; apply table_valid;
      auto using min_tsd_valid, max_tsd_valid, max_weight_valid; reflexivity.
  - intros H. injection H as <- <-. split; [now apply min_tsd_valid | reflexivity].
Qed.
Lemma fmin_valid a b : valid32 a -> valid32 b -> valid32 (fmin a b).
Proof. intros. unfold fmin. now destruct (fltb b a). Qed.

Lemma update_cell_wf t m x y d w t' : twf t -> valid32 m -> valid32 d -> valid32 w ->
  update_cell t m x y d w = Some t' -> twf t'.
Proof.
  intros TW Vm Vd Vw. unfold update_cell. destruct (feqb w f_zero); [now intros H; injection H as <-|].
  destruct (get_tsd_and_weight t x y) as [[a b]|] eqn:E; [|discriminate].
  destruct (get_both_valid _ _ _ _ _ (tw_conv _ TW) E) as [Va Vb]. cbv zeta.
  apply set_cell_wf; [exact TW | | ].
  - apply fdiv_valid; [apply fadd_valid; now apply fmul_valid | now apply fadd_valid].
  - apply fmin_valid; [now apply fadd_valid | exact Vm].
Qed.

(* FinishUpdate *)
Lemma finish_same g g' : finish_update g = Some g' -> g_minc g' = g_minc g /\ g_maxc g' = g_maxc g.
Proof.
  unfold finish_update. destruct (finish_loop (g_cells g) (g_upd g)); [|discriminate].
  intros H. injection H as <-. auto.
Qed.
Lemma wf_cell_range g x y v : wf g -> cell_value g x y = Some v -> 0 <= v < 65536 /\ v <> 32768.
Proof.
  intros W E. unfold cell_value, flat_index in E. destruct (contains (g_lim g) x y); [|discriminate].
  destruct (in_dec Z.eq_dec (l_nx (g_lim g) * y + x) (g_upd g)) as [I | I].
  - pose proof (wf_marked _ W _ _ I E). lia.
  - pose proof (wf_plain _ W _ _ I E). lia.
Qed.
Lemma t_finish_ok t : twf t -> exists t', t_finish t = Some t' /\ twf t' /\
  g_lim (t_grid t') = g_lim (t_grid t) /\ t_conv t' = t_conv t /\ g_upd (t_grid t') = [] /\
  t_weights t' = t_weights t /\
  (forall x y, cell_value (t_grid t') x y = option_map unmark (cell_value (t_grid t) x y)) /\
  (forall x y, weight_value t' x y = weight_value t x y).
Proof.
  intros [W WW K UC M1 M2]. destruct (finish_ok _ W) as [g [E [Wg [Lg [Ug [Bg V]]]]]].
  unfold t_finish. rewrite E. cbn [option_map]. eexists. split; [reflexivity|].
  destruct (finish_same _ _ E) as [Q1 Q2].
  assert (Eq : wgrid (mk_tsdf g (t_conv t) (t_weights t)) = wgrid t).
  { unfold wgrid. cbn [t_grid t_weights]. now rewrite Lg, Bg, Q1, Q2. }
  split.
  - constructor; cbn [t_grid t_conv t_weights]; try congruence.
    intros x y. rewrite Eq, K. apply eq_true_iff_eq. rewrite !is_known_iff, V. split.
    + intros [v [Ev Nv]]. rewrite Ev. cbn [option_map]. eexists. split; [reflexivity|].
      pose proof (wf_cell_range _ _ _ _ W Ev). destruct (Z.ltb_spec v 32768); lia.
    + intros [v [Ev Nv]]. destruct (cell_value (t_grid t) x y) as [u|]; [|discriminate].
      injection Ev as <-. exists u. split; [reflexivity|]. destruct (Z.ltb_spec u 32768); lia.
  - cbn [t_grid t_conv t_weights]. do 4 (split; [auto|]). split; [exact V|].
    intros x y. rewrite !weight_value_eq. now rewrite Eq.
Qed.

(* GrowLimits *)
Lemma grow_step_shape g g' : grow_step g = Some g' ->
  grow_limits (g_lim g) = Some (g_lim g') /\ g_upd g' = g_upd g /\
  g_box g' = (if box_empty (g_box g) then g_box g
              else box_translate (g_box g) (l_nx (g_lim g) / 2) (l_ny (g_lim g) / 2)) /\
  g_minc g' = g_minc g /\ g_maxc g' = g_maxc g.
Proof.
  unfold grow_step. destruct (grow_limits (g_lim g)) as [l'|]; [|discriminate]. cbv zeta.
  destruct (grow_writes _ _ _ _ _) as [ws|]; [|discriminate].
  destruct (vset_all _ ws) as [c|]; [|discriminate].
  intros H. injection H as <-. cbn [g_lim g_upd g_box g_minc g_maxc]. repeat split.
Qed.

Lemma t_grow_step_ok t : twf t -> g_upd (t_grid t) = [] ->
  exists t', t_grow_step t = Some t' /\ grow_step (t_grid t) = Some (t_grid t') /\ twf t' /\
    t_conv t' = t_conv t /\
    embeds (t_grid t) (t_grid t') (l_nx (g_lim (t_grid t)) / 2) (l_ny (g_lim (t_grid t)) / 2) /\
    embeds (wgrid t) (wgrid t') (l_nx (g_lim (t_grid t)) / 2) (l_ny (g_lim (t_grid t)) / 2).
Proof.
  intros [W WW K UC M1 M2] U.
  destruct (grow_step_ok _ W U) as [g [E [Wg [Em _]]]].
  destruct (grow_step_ok _ WW eq_refl) as [h [Eh [Wh [Emh _]]]].
  cbn [wgrid g_lim] in Emh.
  assert (Ew : with_cells (t_grid t) (t_weights t) = wgrid t) by (unfold with_cells, wgrid; now rewrite U).
  unfold t_grow_step. rewrite E, Ew, Eh. eexists. split; [reflexivity|].
  destruct (grow_step_shape _ _ E) as [A1 [A2 [A3 [A4 A5]]]].
  destruct (grow_step_shape _ _ Eh) as [B1 [B2 [B3 [B4 B5]]]].
  cbn [wgrid g_lim g_box g_minc g_maxc g_upd] in B1, B2, B3, B4, B5.
  assert (Eq : wgrid (mk_tsdf g (t_conv t) (g_cells h)) = h).
  { unfold wgrid. cbn [t_grid t_weights]. rewrite A1 in B1. injection B1 as B1.
    rewrite B1, A3, <- B3, A4, <- B4, A5, <- B5, <- B2. destruct h; reflexivity. }
  cbn [t_grid t_conv]. split; [reflexivity|]. split.
  - constructor; cbn [t_grid t_conv]; try congruence.
    intros x y. rewrite Eq. rewrite (embeds_known _ _ _ _ Emh), (embeds_known _ _ _ _ Em). apply K.
  - split; [reflexivity|]. split; [exact Em|]. now rewrite Eq.
Qed.

Lemma t_grow_sim n : forall t px py, twf t -> g_upd (t_grid t) = [] ->
  match grow_loop n (t_grid t) px py with
  | Done g' => exists t', t_grow_loop n t px py = Done t' /\ t_grid t' = g' /\ twf t' /\
      t_conv t' = t_conv t /\ exists ox oy,
      embeds (t_grid t) (t_grid t') ox oy /\ embeds (wgrid t) (wgrid t') ox oy
  | Aborted => False
  | OutOfFuel => t_grow_loop n t px py = OutOfFuel
  end.
Proof.
  induction n as [|n IH]; intros t px py TW U; cbn [grow_loop t_grow_loop];
    destruct (cell_index (g_lim (t_grid t)) px py) as [x y];
    destruct (contains (g_lim (t_grid t)) x y) eqn:C.
  1, 3: exists t; do 4 (split; [auto|]); exists 0, 0; split; apply embeds_refl; apply TW.
  - reflexivity.
  - destruct (t_grow_step_ok t TW U) as [t1 [E1 [E2 [W1 [Cv [M1 M2]]]]]]. rewrite E1, E2.
    assert (U1 : g_upd (t_grid t1) = []) by (rewrite (em_upd _ _ _ _ M1); exact U).
    specialize (IH t1 px py W1 U1). destruct (grow_loop n (t_grid t1) px py) as [g'| |]; auto.
    destruct IH as [t' [F1 [F2 [F3 [F4 [ox [oy [F5 F6]]]]]]]].
    exists t'. do 3 (split; [auto|]). split; [congruence|].
    eexists. eexists. split; eapply embeds_trans; eauto.
Qed.

Lemma t_grow_ok t px py : twf t -> g_upd (t_grid t) = [] ->
  exists n t' ox oy, (forall m, (n <= m)%nat -> t_grow m t px py = Done t') /\ twf t' /\
    t_conv t' = t_conv t /\
    embeds (t_grid t) (t_grid t') ox oy /\ embeds (wgrid t) (wgrid t') ox oy /\
    (let (x, y) := cell_index (g_lim (t_grid t')) px py in contains (g_lim (t_grid t')) x y = true).
Proof.
  intros TW U. destruct (grow_ok (t_grid t) px py (tw_grid _ TW) U) as [n [g' [ox [oy [H [W' [Em C]]]]]]].
  unfold grow, t_grow in *. rewrite U in H.
  assert (S : forall m, (n <= m)%nat -> exists t', t_grow_loop m t px py = Done t' /\ t_grid t' = g' /\ twf t' /\
      t_conv t' = t_conv t /\ exists ox oy,
      embeds (t_grid t) (t_grid t') ox oy /\ embeds (wgrid t) (wgrid t') ox oy).
  { intros m L. pose proof (t_grow_sim m t px py TW U) as G. now rewrite (H m L) in G. }
  destruct (S n (le_n n)) as [t' [E [E2 [W2 [Cv [ox' [oy' [M1 M2]]]]]]]].
  exists n, t', ox', oy'. rewrite U. split; [|rewrite E2; auto 10].
  - assert (Mono : forall k t px py t', t_grow_loop k t px py = Done t' ->
      forall m, (k <= m)%nat -> t_grow_loop m t px py = Done t').
    { clear. induction k as [|k IH]; intros t px py t' Q m L; destruct m as [|m]; try lia;
        cbn [t_grow_loop] in *; destruct (cell_index (g_lim (t_grid t)) px py) as [x y];
        destruct (contains (g_lim (t_grid t)) x y); auto; try discriminate.
      destruct (t_grow_step t) as [t1|]; [|discriminate]. apply (IH _ _ _ _ Q). lia. }
    intros m L. now apply (Mono n).
  - rewrite <- E2 in C |- *. auto 10.
Qed.

Lemma t_grow_wf n t px py t' : twf t -> t_grow n t px py = Done t' -> twf t'.
Proof.
  intros TW H. unfold t_grow in H. destruct (g_upd (t_grid t)) eqn:U; [|discriminate].
  pose proof (t_grow_sim n t px py TW U) as G. destruct (grow_loop n (t_grid t) px py) as [g'| |].
  - destruct G as [t1 [E [_ [W _]]]]. rewrite E in H. now injection H as <-.
  - contradiction.
  - rewrite G in H. discriminate.
Qed.

(* construction *)
Lemma opp_lt x : usable x -> fltb (fneg x) x = true.
Proof.
  intros [V [A B]]. destruct x as [s | [] | | [] m e]; try discriminate; reflexivity.
Qed.
Lemma new_tsdf_ok l T W : lim_ok l -> usable T -> usable W ->
  exists t, new_tsdf l T W = Some t /\ twf t /\ g_lim (t_grid t) = l /\ g_upd (t_grid t) = [] /\
    t_conv t = mk_converter T W /\
    forall x y, contains l x y = true -> cell_value (t_grid t) x y = Some 0 /\ weight_value t x y = Some 0.
Proof.
  intros L UT UW. unfold new_tsdf, new_grid. rewrite (opp_lt T UT). eexists. split; [reflexivity|].
  destruct (new_grid_ok l L) as [g [E [Wg [Lg [Ug [M1 [M2 V]]]]]]].
  unfold new_probability_grid, new_grid in E. destruct (fltb kMinCost kMaxCost); [|discriminate].
  injection E as <-. cbn [g_lim g_upd g_minc g_maxc] in *.
  assert (Wn : wf (mk_grid l (repeat kUnknown (Z.to_nat (l_nx l * l_ny l))) [] None (fneg T) T)).
  { destruct Wg as [a1 a2 a3 a4 a5 a6 a7 a8]. cbn [g_lim g_upd g_minc g_maxc g_cells g_box] in *.
    constructor; cbn [g_lim g_upd g_minc g_maxc g_cells g_box]; auto.
    now apply opp_lt. }
  split.
  - constructor; cbn [t_grid t_conv g_minc g_maxc]; try reflexivity; try assumption.
    split; assumption.
  - cbn [t_grid t_conv g_lim g_upd]. do 3 (split; [reflexivity|]). intros x y C. split; now apply V.
Qed.

(* reachable states *)
Definition t_op_ok (o : t_op) : Prop :=
  match o with
  | TSet _ _ d w => valid32 d /\ valid32 w
  | TUpdate m _ _ d w => valid32 m /\ valid32 d /\ valid32 w
  | _ => True
  end.
Lemma t_step_wf t o t' : twf t -> t_op_ok o -> t_step t o = Some t' -> twf t'.
Proof.
  intros TW O H. destruct o as [x y d w|m x y d w| |px py fuel]; cbn [t_step t_op_ok] in *.
  - destruct O as [V1 V2]. exact (set_cell_wf _ _ _ _ _ _ TW V1 V2 H).
  - destruct O as [V1 [V2 V3]]. exact (update_cell_wf _ _ _ _ _ _ _ TW V1 V2 V3 H).
  - destruct (t_finish_ok t TW) as [t1 [E [W1 _]]]. rewrite E in H. now injection H as <-.
  - destruct (t_grow fuel t px py) as [t1| |] eqn:E; [|discriminate|discriminate].
    injection H as <-. exact (t_grow_wf _ _ _ _ _ TW E).
Qed.
Lemma t_run_wf os : forall t t', twf t -> Forall t_op_ok os -> t_run t os = Some t' -> twf t'.
Proof.
  induction os as [|o os IH]; intros t t' TW F H; cbn [t_run] in H.
  - now injection H as <-.
  - inversion F; subst. destruct (t_step t o) as [t1|] eqn:E; [|discriminate].
    apply (IH t1); auto. now apply (t_step_wf t o).
Qed.
