(* SetProbability, ComputeCroppedGrid, serialization and reachability of the 2D
   probability grid. *)
From Coq Require Import List ZArith QArith Bool Lia Lqa SpecFloat.
From Verif Require Import Vec Float32 Float32_Proofs PV_Model PV_Bounded PV_Proofs
  G2_Model G2_Round G2_Spec G2_Proofs G2_Grow.
Import ListNotations.
Open Scope Z_scope.

Lemma set_probability_ok g x y p w : wf g -> cell_value g x y = Some 0 ->
  cost_to_value (one_minus p) = Some w -> 1 <= w <= 32767 ->
  exists g', set_probability g x y p = Some g' /\ wf g' /\ g_lim g' = g_lim g /\
    g_upd g' = g_upd g /\
    forall x' y', cell_value g' x' y' =
      if (x' =? x) && (y' =? y) then Some w else cell_value g x' y'.
Proof.
  intros W Cv Ew Bw. destruct W as [WL WS WN WU WM WP WB WC].
  pose proof (cell_value_contains _ _ _ _ Cv) as C.
  unfold cell_value, flat_index in Cv. rewrite C in Cv.
  unfold set_probability, flat_index. rewrite C, Cv, Ew. change (0 =? kUnknown) with true. cbv iota.
  set (i := l_nx (g_lim g) * y + x) in *.
  destruct (vset_ok (g_cells g) i w (vget_bound _ _ _ Cv)) as [c [Ec [Sc Gc]]]. rewrite Ec.
  assert (Ni : ~ In i (g_upd g)) by (intros I; pose proof (WM i 0 I Cv); lia).
  eexists. split; [reflexivity|]. split.
  - constructor; cbn [g_lim g_cells g_upd g_box g_minc g_maxc]; auto.
    + now rewrite Sc.
    + intros j J. rewrite Sc. auto.
    + intros j u J Ej. rewrite Gc in Ej. destruct (Z.eqb_spec j i); [subst; contradiction | eauto].
    + intros j u J Ej. rewrite Gc in Ej. destruct (Z.eqb_spec j i); [injection Ej as <-; lia | eauto].
    + eapply box_exact_extend; [|exact WB]. intros x' y'. apply (known_set g x y w c); auto. lia.
  - split; [reflexivity|]. split; [reflexivity|]. now apply cell_value_set.
Qed.

Lemma cost_some_range x w : valid32 x -> cost_to_value x = Some w -> 1 <= w <= 32767.
Proof.
  intros V E. assert (N : x <> S754_nan).
  { intros ->. assert (Q : cost_to_value S754_nan = None) by reflexivity. congruence. }
  destruct (range_of _ _ x cost_bounds V N) as [v [Ev B]]. unfold cost_to_value in E. congruence.
Qed.

(* the loop of ComputeCroppedGrid *)
Lemma crop_loop_ok g ox oy xys : wf g -> g_upd g = [] -> forall c, wf c -> g_upd c = [] ->
  NoDup xys ->
  (forall x y, In (x, y) xys -> cell_value c x y = Some 0 /\ contains (g_lim g) (x + ox) (y + oy) = true) ->
  exists c', crop_loop g c ox oy xys = Some c' /\ wf c' /\ g_lim c' = g_lim c /\ g_upd c' = [] /\
    forall x y, (In (x, y) xys -> cell_value c' x y = cell_value g (x + ox) (y + oy)) /\
                (~ In (x, y) xys -> cell_value c' x y = cell_value c x y).
Proof.
  intros W U. induction xys as [|[x y] r IH]; intros c Wc Uc N H; cbn [crop_loop].
  - exists c. split; [reflexivity|]. split; [exact Wc|]. split; [reflexivity|]. split; [exact Uc|].
    intros x y. split; [intros [] | reflexivity].
  - inversion N as [|? ? Nx Nr]; subst.
    destruct (H x y (or_introl eq_refl)) as [Z0 C].
    destruct (cell_value_some g _ _ (wf_size _ W) C) as [v Ev].
    assert (Bv : 0 <= v < 32768).
    { unfold cell_value, flat_index in Ev. rewrite C in Ev.
      apply (wf_plain _ W _ _ ltac:(rewrite U; auto) Ev). }
    destruct (is_known g (x + ox) (y + oy)) eqn:K.
    + apply is_known_iff in K. destruct K as [v' [Ev' Nv]]. rewrite Ev in Ev'. injection Ev' as <-.
      unfold get_probability. rewrite C, Ev.
      destruct (set_probability_ok c x y (one_minus (value_to_cost v)) v Wc Z0) as [c1 [E1 [W1 [L1 [U1 V1]]]]];
        [apply crop_value; lia | lia |].
      rewrite E1.
      destruct (IH c1 W1) as [c' [E' [W' [L' [U' V']]]]]; [congruence | exact Nr | |].
      { intros x' y' I. rewrite V1. destruct (H x' y' (or_intror I)) as [Z1 C1].
        destruct (Z.eqb_spec x' x); destruct (Z.eqb_spec y' y); cbn [andb]; auto.
        subst. contradiction. }
      exists c'. split; [exact E'|]. split; [exact W'|]. split; [congruence|]. split; [exact U'|].
      intros x' y'. destruct (V' x' y') as [A B]. split.
      * intros [Q | Q]; [|auto]. injection Q as <- <-. rewrite B by exact Nx.
        rewrite V1, !Z.eqb_refl. cbn [andb]. congruence.
      * intros Q. rewrite B by (intros I; apply Q; now right). rewrite V1.
        destruct (Z.eqb_spec x' x); destruct (Z.eqb_spec y' y); cbn [andb]; auto.
        subst. elim Q. now left.
    + assert (v = 0).
      { destruct (Z.eq_dec v 0) as [|Nv]; [assumption|].
        assert (is_known g (x + ox) (y + oy) = true) by (apply is_known_iff; eauto). congruence. }
      subst v.
      destruct (IH c Wc Uc Nr) as [c' [E' [W' [L' [U' V']]]]]; [intros; apply H; now right|].
      exists c'. split; [exact E'|]. split; [exact W'|]. split; [exact L'|]. split; [exact U'|].
      intros x' y'. destruct (V' x' y') as [A B]. split.
      * intros [Q | Q]; [|auto]. injection Q as <- <-. rewrite B by exact Nx. congruence.
      * intros Q. apply B. intros I. apply Q. now right.
Qed.

Lemma xy_range_In nx ny x y : In (x, y) (xy_range nx ny) <-> 0 <= x < nx /\ 0 <= y < ny.
Proof.
  unfold xy_range. rewrite in_map_iff. split.
  - intros [[b a] [E I]]. cbn [fst snd] in E. injection E as <- <-.
    rewrite in_prod_iff, !In_zrange in I. tauto.
  - intros [A B]. exists (y, x). split; [reflexivity|]. rewrite in_prod_iff, !In_zrange. tauto.
Qed.
Lemma xy_range_NoDup nx ny : NoDup (xy_range nx ny).
Proof.
  unfold xy_range. apply NoDup_map_in.
  - apply NoDup_list_prod; apply zrange_NoDup.
  - intros [a b] [a' b'] _ _ E. cbn [fst snd] in E. congruence.
Qed.

Lemma new_grid_ok l : lim_ok l -> exists g, new_probability_grid l = Some g /\ wf g /\
  g_lim g = l /\ g_upd g = [] /\ g_minc g = kMinCost /\ g_maxc g = kMaxCost /\
  forall x y, contains l x y = true -> cell_value g x y = Some 0.
Proof.
  intros L. pose proof L as [Hr [Hx Hy]]. unfold new_probability_grid, new_grid.
  assert (F : fltb kMinCost kMaxCost = true) by (vm_compute; reflexivity). rewrite F.
  eexists. split; [reflexivity|].
  assert (S : vsize (repeat kUnknown (Z.to_nat (l_nx l * l_ny l))) = l_nx l * l_ny l).
  { rewrite vsize_repeat, Z2Nat.id; nia. }
  assert (G : forall i v, vget (repeat kUnknown (Z.to_nat (l_nx l * l_ny l))) i = Some v -> v = 0).
  { intros i v E. pose proof (vget_bound _ _ _ E) as B. rewrite vsize_repeat in B.
    rewrite vget_repeat in E by exact B. injection E as <-. reflexivity. }
  split.
  - constructor; cbn [g_lim g_cells g_upd g_box g_minc g_maxc]; auto.
    + constructor.
    + intros i [].
    + intros i v [].
    + intros i v _ E. apply G in E. lia.
    + intros x y. apply not_true_is_false. rewrite is_known_iff. intros [v [E N]].
      unfold cell_value in E. cbn [g_lim g_cells] in E. destruct (flat_index l x y); [|discriminate].
      apply G in E. contradiction.
  - do 4 (split; [reflexivity|]). intros x y C. unfold cell_value, flat_index. cbn [g_lim g_cells].
    rewrite C. apply vget_repeat. rewrite Z2Nat.id by nia. now apply flat_bound.
Qed.

Lemma crop_ok g : wf g -> g_upd g = [] ->
  exists c ox oy, crop g = Some c /\ wf c /\ g_upd c = [] /\
    g_minc c = kMinCost /\ g_maxc c = kMaxCost /\
    l_res (g_lim c) = l_res (g_lim g) /\
    (l_mx (g_lim c) == l_mx (g_lim g) - l_res (g_lim g) * inject_Z oy)%Q /\
    (l_my (g_lim c) == l_my (g_lim g) - l_res (g_lim g) * inject_Z ox)%Q /\
    (forall x y, contains (g_lim c) x y = true ->
       contains (g_lim g) (x + ox) (y + oy) = true /\
       cell_value c x y = cell_value g (x + ox) (y + oy)) /\
    (forall x y, is_known g x y = true -> contains (g_lim c) (x - ox) (y - oy) = true) /\
    match g_box g with
    | None => ox = 0 /\ oy = 0 /\ l_nx (g_lim c) = 1 /\ l_ny (g_lim c) = 1
    | Some b => ox = b_x0 b /\ oy = b_y0 b /\
                l_nx (g_lim c) = b_x1 b - b_x0 b + 1 /\ l_ny (g_lim c) = b_y1 b - b_y0 b + 1
    end.
Proof.
  intros W U. pose proof (wf_lim _ W) as L. pose proof L as [Hr [Hx Hy]].
  assert (K : exists ox oy nx ny, cropped_limits g = (ox, oy, nx, ny) /\ 0 < nx /\ 0 < ny /\
    (forall x y, 0 <= x < nx -> 0 <= y < ny -> contains (g_lim g) (x + ox) (y + oy) = true) /\
    (forall x y, is_known g x y = true -> 0 <= x - ox < nx /\ 0 <= y - oy < ny) /\
    match g_box g with
    | None => ox = 0 /\ oy = 0 /\ nx = 1 /\ ny = 1
    | Some b => ox = b_x0 b /\ oy = b_y0 b /\ nx = b_x1 b - b_x0 b + 1 /\ ny = b_y1 b - b_y0 b + 1
    end).
  { unfold cropped_limits. pose proof (wf_box _ W) as B. destruct (g_box g) as [b|].
    - rewrite (box_empty_exact _ _ B). destruct B as [B [[y1 K1] [[y2 K2] [[x3 K3] [x4 K4]]]]].
      pose proof (B _ _ K1). pose proof (B _ _ K2). pose proof (B _ _ K3). pose proof (B _ _ K4).
      assert (Kc : forall x y, is_known g x y = true -> contains (g_lim g) x y = true).
      { intros x y. unfold is_known. destruct (contains (g_lim g) x y); auto. }
      apply Kc in K1. apply Kc in K2. apply Kc in K3. apply Kc in K4.
      rewrite contains_iff in K1, K2, K3, K4.
      do 4 eexists. split; [reflexivity|]. split; [lia|]. split; [lia|]. split.
      + intros x y Qx Qy. apply contains_iff. lia.
      + split; [intros x y Q; specialize (B _ _ Q); lia | auto].
    - do 4 eexists. split; [reflexivity|]. split; [lia|]. split; [lia|]. split.
      + intros x y Qx Qy. apply contains_iff. lia.
      + split; [intros x y Q; cbn [box_exact] in B; rewrite B in Q; discriminate | auto]. }
  destruct K as [ox [oy [nx [ny [E [Px [Py [In1 [In2 Bx]]]]]]]]].
  unfold crop. rewrite E. rewrite (lim_new _ L) by assumption.
  match goal with |- context [new_probability_grid ?l'] => set (l := l') end.
  destruct (new_grid_ok l) as [c0 [E0 [W0 [L0 [U0 [M1 [M2 Z0]]]]]]]; [split; [exact Hr | split; assumption]|].
  rewrite E0.
  destruct (crop_loop_ok g ox oy (xy_range nx ny) W U c0 W0 U0 (xy_range_NoDup nx ny)) as [c [Ec [Wc [Lc [Uc Vc]]]]].
  { intros x y I. apply xy_range_In in I. split.
    - apply Z0. apply contains_iff. cbn [l l_nx l_ny]. tauto.
    - apply In1; tauto. }
  assert (Mc : forall xys c0 c, crop_loop g c0 ox oy xys = Some c -> g_minc c = g_minc c0 /\ g_maxc c = g_maxc c0).
  { clear. induction xys as [|[x y] r IH]; intros c0 c H; cbn [crop_loop] in H.
    - injection H as <-. auto.
    - destruct (is_known g (x + ox) (y + oy)); [|auto].
      destruct (get_probability g (x + ox) (y + oy)) as [p|]; [|discriminate].
      destruct (set_probability c0 x y p) as [c1|] eqn:S; [|discriminate].
      destruct (IH _ _ H) as [-> ->]. unfold set_probability in S.
      destruct (flat_index (g_lim c0) x y); [|discriminate].
      destruct (vget (g_cells c0) z); [|discriminate]. destruct (z0 =? kUnknown); [|discriminate].
      destruct (cost_to_value (one_minus p)); [|discriminate].
      destruct (vset (g_cells c0) z z1); [|discriminate]. injection S as <-. auto. }
  exists c, ox, oy. split; [exact Ec|]. split; [exact Wc|]. split; [exact Uc|].
  split; [now rewrite (proj1 (Mc _ _ _ Ec))|]. split; [now rewrite (proj2 (Mc _ _ _ Ec))|].
  rewrite Lc, L0. cbn [l l_res l_mx l_my l_nx l_ny].
  split; [reflexivity|]. split; [reflexivity|]. split; [reflexivity|]. split; [|split; [|exact Bx]].
  - intros x y C. apply contains_iff in C. cbn [l_nx l_ny] in C. split; [apply In1; tauto|].
    apply Vc. now apply xy_range_In.
  - intros x y Q. apply contains_iff. cbn [l_nx l_ny]. auto.
Qed.

(* serialization *)
Lemma feqb_zero a : feqb a f_zero = true -> exists s, a = S754_zero s.
Proof. destruct a as [s|s| |s m e]; [eauto | destruct s | | destruct s]; discriminate. Qed.

Lemma proto_roundtrip g : wf g -> g_upd g = [] ->
  exists p, to_proto g = Some p /\ from_proto p = Some g.
Proof.
  intros W U. unfold to_proto. rewrite U. eexists. split; [reflexivity|].
  unfold from_proto. cbn [p_lim p_cells p_box p_minc p_maxc p_is_probability_grid].
  assert (Lg : legacy (mk_proto (g_lim g) (g_cells g) (if box_empty (g_box g) then None else g_box g)
      (g_minc g) (g_maxc g) true) = false).
  { unfold legacy. cbn [p_minc p_maxc]. apply not_true_is_false. rewrite andb_true_iff.
    intros [A B]. apply feqb_zero in A. apply feqb_zero in B. destruct A as [s A]. destruct B as [s' B].
    pose proof (wf_cost _ W) as C. rewrite A, B in C. destruct s, s'; discriminate. }
  rewrite Lg, (wf_cost _ W).
  assert (F : forallb (fun c => c <=? 65535) (g_cells g) = true).
  { apply forallb_forall. intros v I. apply In_nth_error in I. destruct I as [n E].
    assert (Ev : vget (g_cells g) (Z.of_nat n) = Some v).
    { unfold vget. destruct (Z.leb_spec 0 (Z.of_nat n)); [|lia]. now rewrite Nat2Z.id. }
    apply Z.leb_le. pose proof (wf_plain _ W _ _ ltac:(rewrite U; auto) Ev). lia. }
  rewrite F. cbn [andb]. f_equal. rewrite <- U.
  replace (if box_empty (g_box g) then None else g_box g) with (g_box g); [destruct g; reflexivity|].
  pose proof (wf_box _ W) as B. destruct (g_box g) as [b|]; [|reflexivity].
  now rewrite (box_empty_exact _ _ B).
Qed.

(* every operation keeps the invariant *)
Definition op_ok (o : op) : Prop :=
  match o with
  | OApply _ _ t => good_table t
  | OSet _ _ p => valid32 p
  | _ => True
  end.

Lemma grow_loop_wf fuel : forall g px py g', wf g -> g_upd g = [] ->
  grow_loop fuel g px py = Done g' -> wf g'.
Proof.
  induction fuel as [|n IH]; intros g px py g' W U; cbn [grow_loop];
    destruct (cell_index (g_lim g) px py) as [x y]; destruct (contains (g_lim g) x y).
  - intros H. injection H as <-. exact W.
  - discriminate.
  - intros H. injection H as <-. exact W.
  - destruct (grow_step_ok g W U) as [g1 [E1 [W1 [EM _]]]]. rewrite E1. apply IH; auto.
    now rewrite (em_upd _ _ _ _ EM).
Qed.

Lemma step_wf g o g' : wf g -> op_ok o -> step g o = Some g' -> wf g'.
Proof.
  intros W O H. destruct o as [x y t | x y p | | px py n]; cbn [step op_ok] in *.
  - destruct (contains (g_lim g) x y) eqn:C.
    + destruct (apply_table_ok g x y t W O C) as [g1 [b [E [W1 _]]]]. rewrite E in H.
      cbn in H. now injection H as <-.
    + unfold apply_table, flat_index in H. rewrite C in H. discriminate.
  - unfold set_probability in H. destruct (flat_index (g_lim g) x y) as [i|] eqn:F; [|discriminate].
    destruct (vget (g_cells g) i) as [v|] eqn:Ev; [|discriminate].
    destruct (Z.eqb_spec v kUnknown) as [-> | ]; [|discriminate].
    destruct (cost_to_value (one_minus p)) as [w|] eqn:Ew; [|discriminate].
    assert (Cv : cell_value g x y = Some 0) by (unfold cell_value; now rewrite F).
    destruct (set_probability_ok g x y p w W Cv Ew (cost_some_range _ _ (one_minus_valid _ O) Ew))
      as [g1 [E1 [W1 _]]].
    unfold set_probability in E1. rewrite F, Ev, Ew in E1. change (kUnknown =? kUnknown) with true in E1.
    cbv iota in E1. rewrite E1 in H. now injection H as <-.
  - destruct (finish_ok g W) as [g1 [E1 [W1 _]]]. rewrite E1 in H. now injection H as <-.
  - unfold grow in H. destruct (g_upd g) eqn:U; [|discriminate].
    destruct (grow_loop n g px py) as [g1| |] eqn:E; try discriminate.
    injection H as <-. exact (grow_loop_wf n g px py g1 W U E).
Qed.

Lemma run_wf os : forall g g', wf g -> Forall op_ok os -> run g os = Some g' -> wf g'.
Proof.
  induction os as [|o os IH]; intros g g' W F H; cbn [run] in H.
  - now injection H as <-.
  - inversion F; subst. destruct (step g o) as [g1|] eqn:E; [|discriminate].
    apply (IH g1); auto. now apply (step_wf g o).
Qed.
