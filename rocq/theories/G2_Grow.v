(* GrowLimits of the 2D probability grid. *)
From Coq Require Import List ZArith QArith Qfield Bool Lia Lqa.
From Verif Require Import Vec Float32 PV_Model G2_Model G2_Round G2_Spec G2_Proofs.
Import ListNotations.
Open Scope Z_scope.

Lemma lim_new l : lim_ok l -> forall mx my nx ny, 0 < nx -> 0 < ny ->
  new_limits (l_res l) mx my nx ny = Some (mk_limits (l_res l) mx my nx ny).
Proof.
  intros [H _] mx my nx ny Hx Hy. unfold new_limits.
  destruct (Qle_bool (l_res l) 0) eqn:E; [apply Qle_bool_iff in E; lra|].
  destruct (Z.ltb_spec 0 nx); [|lia]. destruct (Z.ltb_spec 0 ny); [|lia]. reflexivity.
Qed.

Lemma half_bound n : 0 < n -> 0 <= n / 2 /\ n / 2 * 2 <= n.
Proof. intros H. pose proof (Z.div_mod n 2 ltac:(lia)). pose proof (Z.mod_pos_bound n 2 ltac:(lia)). lia. Qed.

Lemma grow_writes_ok cells nx ny stride offset : 0 < nx -> vsize cells = nx * ny ->
  forall ij, (forall i j, In (i, j) ij -> 0 <= i < ny /\ 0 <= j < nx) ->
  exists ws, grow_writes cells nx stride offset ij = Some ws /\
    map fst ws = map (fun q => offset + snd q + fst q * stride) ij /\
    forall k v, In (k, v) ws -> exists i j, In (i, j) ij /\ k = offset + j + i * stride /\
                                   vget cells (j + i * nx) = Some v.
Proof.
  intros Hn S ij. induction ij as [|[i j] r IH]; intros B; cbn [grow_writes].
  - exists []. split; [reflexivity|]. split; [reflexivity|]. intros k v [].
  - destruct (B i j (or_introl eq_refl)) as [Bi Bj].
    destruct (vget_some cells (j + i * nx)) as [v Ev]; [rewrite S; nia|]. rewrite Ev.
    destruct IH as [ws [E [F G]]]; [intros; apply B; now right|]. rewrite E.
    eexists. split; [reflexivity|]. split; [cbn [map fst snd]; now rewrite F|].
    intros k u [Q | Q].
    + injection Q as <- <-. exists i, j. split; [now left|]. auto.
    + destruct (G k u Q) as [i' [j' [I [K V]]]]. exists i', j'. split; [now right|]. auto.
Qed.

Lemma NoDup_map_in {A B} (f : A -> B) l : NoDup l ->
  (forall a b, In a l -> In b l -> f a = f b -> a = b) -> NoDup (map f l).
Proof.
  induction l as [|a l IH]; intros N I; cbn; [constructor|].
  inversion N as [|? ? Na Nl]; subst. constructor.
  - rewrite in_map_iff. intros [b [E Ib]]. apply Na.
    rewrite (I a b); [exact Ib | now left | now right | auto].
  - apply IH; auto. intros x y X Y. apply I; now right.
Qed.

Lemma NoDup_list_prod {A B} (l : list A) (m : list B) : NoDup l -> NoDup m -> NoDup (list_prod l m).
Proof.
  induction l as [|a l IH]; intros N M; cbn; [constructor|].
  inversion N as [|? ? Na Nl]; subst.
  assert (D : forall l1 l2 : list (A * B), NoDup l1 -> NoDup l2 ->
            (forall x, In x l1 -> ~ In x l2) -> NoDup (l1 ++ l2)).
  { induction l1 as [|x l1 IH1]; intros l2 N1 N2 Dj; cbn; [exact N2|].
    inversion N1; subst. constructor.
    - rewrite in_app_iff. intros [Q | Q]; [contradiction|]. apply (Dj x); [now left | exact Q].
    - apply IH1; auto. intros z Z. apply Dj. now right. }
  apply D; auto.
  - apply NoDup_map_in; auto. intros x y _ _ E. congruence.
  - intros [x y] I. rewrite in_map_iff in I. destruct I as [b [E I]]. injection E as <- <-.
    rewrite in_prod_iff. tauto.
Qed.

Lemma box_empty_exact k b : box_exact k (Some b) -> box_empty (Some b) = false.
Proof.
  intros [H [[y1 K1] _]]. pose proof (H _ _ K1). cbn [box_empty].
  apply orb_false_iff. rewrite !Z.ltb_ge. lia.
Qed.

Lemma box_exact_shift k k' b ox oy : (forall x y, k' x y = k (x - ox) (y - oy)) ->
  box_exact k b -> box_exact k' (if box_empty b then b else box_translate b ox oy).
Proof.
  intros E H. destruct b as [b|].
  - rewrite (box_empty_exact k b H). destruct H as [H [[a1 H1] [[a2 H2] [[a3 H3] [a4 H4]]]]].
    cbn [box_translate box_exact b_x0 b_x1 b_y0 b_y1]. split.
    + intros x y K. rewrite E in K. specialize (H _ _ K). lia.
    + split; [exists (a1 + oy) | split; [exists (a2 + oy) | split; [exists (a3 + ox) | exists (a4 + ox)]]];
        rewrite E, !Z.add_simpl_r; assumption.
  - cbn [box_empty box_exact] in *. intros x y. now rewrite E.
Qed.

Lemma embeds_known g g' ox oy : embeds g g' ox oy -> forall x y,
  is_known g' x y = is_known g (x - ox) (y - oy).
Proof.
  intros [ER EX EY Bx By V _ _ _] x y. unfold is_known.
  destruct (contains (g_lim g') x y) eqn:C'.
  - rewrite V by exact C'. destruct (contains (g_lim g) (x - ox) (y - oy)) eqn:C; reflexivity.
  - destruct (contains (g_lim g) (x - ox) (y - oy)) eqn:C; [|reflexivity].
    exfalso. apply contains_iff in C.
    assert (contains (g_lim g') x y = true) by (apply contains_iff; lia). congruence.
Qed.

Lemma grow_step_ok g : wf g -> g_upd g = [] ->
  exists g', grow_step g = Some g' /\ wf g' /\
    embeds g g' (l_nx (g_lim g) / 2) (l_ny (g_lim g) / 2) /\
    l_nx (g_lim g') = 2 * l_nx (g_lim g) /\ l_ny (g_lim g') = 2 * l_ny (g_lim g).
Proof.
  intros W U. destruct W as [WL WS WN WU WM WP WB WC].
  pose proof WL as [Hr [Hnx Hny]].
  unfold grow_step, grow_limits. rewrite (lim_new _ WL) by lia. cbn [l_nx l_ny].
  set (nx := l_nx (g_lim g)) in *. set (ny := l_ny (g_lim g)) in *.
  set (ox := nx / 2). set (oy := ny / 2).
  destruct (half_bound nx Hnx) as [Ox1 Ox2]. destruct (half_bound ny Hny) as [Oy1 Oy2].
  fold ox in Ox1, Ox2. fold oy in Oy1, Oy2.
  set (ij := list_prod (zrange ny) (zrange nx)).
  assert (Iij : forall i j, In (i, j) ij <-> 0 <= i < ny /\ 0 <= j < nx).
  { intros i j. unfold ij. rewrite in_prod_iff, !In_zrange. tauto. }
  destruct (grow_writes_ok (g_cells g) nx ny (2 * nx) (ox + 2 * nx * oy) Hnx WS ij) as [ws [E [F G]]];
    [intros i j; apply Iij|].
  rewrite E.
  set (base := repeat kUnknown (Z.to_nat (2 * nx * (2 * ny)))).
  assert (Sb : vsize base = 2 * nx * (2 * ny)).
  { unfold base. rewrite vsize_repeat. rewrite Z2Nat.id; [reflexivity|]. nia. }
  destruct (vset_all_ok ws base) as [c [Ec [Sc [Gin Gout]]]].
  { intros k v I. destruct (G k v I) as [i [j [I' [-> _]]]]. apply Iij in I'. rewrite Sb. nia. }
  { rewrite F. apply NoDup_map_in; [unfold ij; apply NoDup_list_prod; apply zrange_NoDup|].
    intros [i j] [i' j'] I I' Q. apply Iij in I. apply Iij in I'. cbn [fst snd] in Q.
    assert (i = i') by nia. subst. f_equal. lia. }
  rewrite Ec. eexists. split; [reflexivity|].
  match goal with |- wf ?gg /\ _ => set (g' := gg) end.
  assert (EM : embeds g g' ox oy).
  { constructor; cbn [g' g_lim g_upd g_minc g_maxc l_res l_mx l_my l_nx l_ny]; fold nx ny; try reflexivity; try lia.
    intros x y C. unfold cell_value at 1. unfold flat_index. cbn [g' g_lim g_cells]. rewrite C.
    cbn [g' g_lim g_cells l_nx]. apply contains_iff in C. cbn [g' g_lim l_nx l_ny] in C.
    destruct (contains (g_lim g) (x - ox) (y - oy)) eqn:C2.
    - unfold cell_value, flat_index. rewrite C2. fold nx. apply contains_iff in C2. fold nx ny in C2.
      destruct (vget_some (g_cells g) (nx * (y - oy) + (x - ox))) as [v Ev]; [rewrite WS; nia|].
      rewrite Ev.
      assert (I : In (2 * nx * y + x) (map fst ws)).
      { rewrite F. apply in_map_iff. exists (y - oy, x - ox). split; [cbn [fst snd]; ring|]. now apply Iij. }
      apply in_map_iff in I. destruct I as [[k u] [K I]]. cbn [fst] in K. subst k.
      rewrite (Gin _ _ I). destruct (G _ _ I) as [i [j [I' [Q V]]]]. apply Iij in I'.
      assert (i = y - oy) by nia. subst i. assert (j = x - ox) by lia. subst j.
      rewrite <- Ev, <- V. f_equal. ring.
    - rewrite Gout.
      + unfold base. apply vget_repeat. rewrite Z2Nat.id by nia. nia.
      + rewrite F. rewrite in_map_iff. intros [[i j] [Q I]]. apply Iij in I. cbn [fst snd] in Q.
        assert (i = y - oy) by nia. subst i. assert (j = x - ox) by lia. subst j.
        assert (contains (g_lim g) (x - ox) (y - oy) = true) by (apply contains_iff; fold nx ny; lia).
        congruence. }
  split; [|auto].
  constructor; cbn [g' g_lim g_cells g_upd g_box g_minc g_maxc l_nx l_ny]; auto.
  - split; [exact Hr|]. cbn [l_nx l_ny]. lia.
  - now rewrite Sc, Sb.
  - rewrite U. intros i [].
  - rewrite U. intros i v [].
  - intros i v _ Ei. destruct (in_dec Z.eq_dec i (map fst ws)) as [I | I].
    + apply in_map_iff in I. destruct I as [[k u] [K I]]. cbn [fst] in K. subst k.
      rewrite (Gin _ _ I) in Ei. injection Ei as <-. destruct (G _ _ I) as [a [b [_ [_ V]]]].
      apply (WP _ _ ltac:(rewrite U; auto) V).
    + rewrite (Gout _ I) in Ei. pose proof (vget_bound _ _ _ Ei) as Bi.
      unfold base in Ei, Bi. rewrite vsize_repeat in Bi. rewrite vget_repeat in Ei by exact Bi.
      injection Ei as <-. unfold kUnknown. lia.
  - apply (box_exact_shift (is_known g)); [|exact WB]. intros x y. now apply embeds_known.
Qed.

Lemma embeds_refl g : wf g -> embeds g g 0 0.
Proof.
  intros W. constructor; try reflexivity; try lia; try ring.
  intros x y C. rewrite !Z.sub_0_r, C. reflexivity.
Qed.

Lemma embeds_trans g1 g2 g3 ox oy ox' oy' : embeds g1 g2 ox oy -> embeds g2 g3 ox' oy' ->
  embeds g1 g3 (ox + ox') (oy + oy').
Proof.
  intros [A1 A2 A3 A4 A5 A6 A7 A8 A9] [B1 B2 B3 B4 B5 B6 B7 B8 B9].
  constructor; try congruence; try lia.
  - rewrite B2, A2, A1, inject_Z_plus. ring.
  - rewrite B3, A3, A1, inject_Z_plus. ring.
  - intros x y C. rewrite B6 by exact C. rewrite !Z.sub_add_distr.
    replace (x - ox - ox') with (x - ox' - ox) by ring.
    replace (y - oy - oy') with (y - oy' - oy) by ring.
    destruct (contains (g_lim g2) (x - ox') (y - oy')) eqn:C2.
    + now rewrite A6 by exact C2.
    + destruct (contains (g_lim g1) (x - ox' - ox) (y - oy' - oy)) eqn:C1; [|reflexivity].
      exfalso. apply contains_iff in C1.
      assert (contains (g_lim g2) (x - ox') (y - oy') = true) by (apply contains_iff; lia). congruence.
Qed.

(* contained iff in the open rectangle *)
Lemma contained_iff l px py : lim_ok l ->
  (let (x, y) := cell_index l px py in contains l x y = true) <->
  ((l_mx l - inject_Z (l_ny l) * l_res l < px < l_mx l)%Q /\
   (l_my l - inject_Z (l_nx l) * l_res l < py < l_my l)%Q).
Proof.
  intros [Hr [Hx Hy]]. rewrite cell_index_frac, contains_iff.
  rewrite !(index_nonneg _ _ _ Hr), (index_lt _ _ _ _ Hr Hx), (index_lt _ _ _ _ Hr Hy). tauto.
Qed.

(* termination: the rectangle grows by at least floor(n/2) cells on the max side and
   by the remaining n - floor(n/2) >= 1 cells on the other; after one step n is even *)
Definition room (l : limits) (k : Z) (px py : Q) : Prop :=
  (l_mx l - inject_Z (l_ny l + k) * l_res l < px < l_mx l + inject_Z k * l_res l)%Q /\
  (l_my l - inject_Z (l_nx l + k) * l_res l < py < l_my l + inject_Z k * l_res l)%Q.

Lemma room_exists l px py : lim_ok l -> exists k, 0 <= k /\ room l k px py.
Proof.
  intros [Hr [Hx Hy]].
  assert (A : forall a, exists k, 0 <= k /\ (a < inject_Z k * l_res l)%Q).
  { intros a. exists (Z.max 0 (Qround.Qfloor (a / l_res l) + 1)). split; [lia|].
    assert (L : (a / l_res l < inject_Z (Z.max 0 (Qround.Qfloor (a / l_res l) + 1)))%Q).
    { apply Qlt_le_trans with (inject_Z (Qround.Qfloor (a / l_res l) + 1)).
      - apply Qround.Qlt_floor.
      - apply inject_le. lia. }
    apply (Qmult_lt_r _ _ (l_res l) Hr) in L.
    assert (E : (a / l_res l * l_res l == a)%Q) by (field; lra). rewrite E in L. exact L. }
  destruct (A (px - l_mx l)%Q) as [k1 [P1 H1]]. destruct (A (l_mx l - px)%Q) as [k2 [P2 H2]].
  destruct (A (py - l_my l)%Q) as [k3 [P3 H3]]. destruct (A (l_my l - py)%Q) as [k4 [P4 H4]].
  exists (k1 + k2 + k3 + k4). split; [lia|]. unfold room.
  assert (Q : forall a b, 0 <= a -> a <= b -> (inject_Z a * l_res l <= inject_Z b * l_res l)%Q).
  { intros a b _ L. apply Qmult_le_r; [exact Hr | now apply inject_le]. }
  pose proof (Q k1 (k1 + k2 + k3 + k4) ltac:(lia) ltac:(lia)).
  pose proof (Q k2 (l_ny l + (k1 + k2 + k3 + k4)) ltac:(lia) ltac:(lia)).
  pose proof (Q k3 (k1 + k2 + k3 + k4) ltac:(lia) ltac:(lia)).
  pose proof (Q k4 (l_nx l + (k1 + k2 + k3 + k4)) ltac:(lia) ltac:(lia)).
  split; split; lra.
Qed.

(* the room needed shrinks *)
Lemma room_step g g' k k' px py : embeds g g' (l_nx (g_lim g) / 2) (l_ny (g_lim g) / 2) ->
  l_nx (g_lim g') = 2 * l_nx (g_lim g) -> l_ny (g_lim g') = 2 * l_ny (g_lim g) ->
  (0 < l_res (g_lim g))%Q ->
  k - k' <= l_nx (g_lim g) / 2 -> k - k' <= l_ny (g_lim g) / 2 ->
  0 < l_nx (g_lim g) -> 0 < l_ny (g_lim g) ->
  room (g_lim g) k px py -> room (g_lim g') k' px py.
Proof.
  intros [E1 E2 E3 _ _ _ _ _ _] Nx Ny Hr Kx Ky Hx Hy [[A1 A2] [B1 B2]]. unfold room.
  rewrite E1, E2, E3, Nx, Ny.
  set (r := l_res (g_lim g)) in *. set (nx := l_nx (g_lim g)) in *. set (ny := l_ny (g_lim g)) in *.
  destruct (half_bound nx Hx) as [_ Hx2]. destruct (half_bound ny Hy) as [_ Hy2].
  set (ox := nx / 2) in *. set (oy := ny / 2) in *.
  assert (Q : forall a b, a <= b -> (inject_Z a * r <= inject_Z b * r)%Q).
  { intros a b L. apply Qmult_le_r; [exact Hr | now apply inject_le]. }
  pose proof (Q (ny + k) (2 * ny + k' - oy) ltac:(lia)) as L1.
  pose proof (Q k (k' + oy) ltac:(lia)) as L2.
  pose proof (Q (nx + k) (2 * nx + k' - ox) ltac:(lia)) as L3.
  pose proof (Q k (k' + ox) ltac:(lia)) as L4.
  unfold Z.sub in L1, L3. rewrite ?inject_Z_plus, ?inject_Z_opp in *.
  split; split; lra.
Qed.

Lemma room_0 l px py : lim_ok l -> room l 0 px py ->
  let (x, y) := cell_index l px py in contains l x y = true.
Proof.
  intros L [A B]. apply contained_iff; [exact L|]. rewrite !Z.add_0_r in *.
  change (inject_Z 0) with 0%Q in *. split; split; lra.
Qed.

Lemma grow_loop_ok n : forall g px py, wf g -> g_upd g = [] ->
  2 <= l_nx (g_lim g) -> 2 <= l_ny (g_lim g) -> room (g_lim g) (Z.of_nat n) px py ->
  exists g' ox oy, (forall m, (n <= m)%nat -> grow_loop m g px py = Done g') /\ wf g' /\
    embeds g g' ox oy /\
    (let (x, y) := cell_index (g_lim g') px py in contains (g_lim g') x y = true).
Proof.
  induction n as [|n IH]; intros g px py W U Nx Ny R.
  - assert (C := room_0 _ _ _ (wf_lim _ W) R).
    exists g, 0, 0. split; [|split; [exact W | split; [now apply embeds_refl | exact C]]].
    intros m _. destruct m; cbn [grow_loop]; destruct (cell_index (g_lim g) px py) as [x y]; now rewrite C.
  - destruct (cell_index (g_lim g) px py) as [x y] eqn:EC.
    destruct (contains (g_lim g) x y) eqn:C.
    + exists g, 0, 0. split; [|split; [exact W | split; [now apply embeds_refl | now rewrite EC]]].
      intros m _. destruct m; cbn [grow_loop]; rewrite EC, C; reflexivity.
    + destruct (grow_step_ok g W U) as [g1 [E1 [W1 [EM [Nx1 Ny1]]]]].
      assert (Hx : 1 <= l_nx (g_lim g) / 2) by (apply Z.div_le_lower_bound; lia).
      assert (Hy : 1 <= l_ny (g_lim g) / 2) by (apply Z.div_le_lower_bound; lia).
      destruct (IH g1 px py W1) as [g' [ox [oy [H [W' [EM' C']]]]]].
      * now rewrite (em_upd _ _ _ _ EM).
      * lia.
      * lia.
      * apply (room_step g g1 (Z.of_nat (S n))); auto; try lia. apply (wf_lim _ W).
      * exists g'. eexists. eexists.
        split; [|split; [exact W' | split; [exact (embeds_trans _ _ _ _ _ _ _ EM EM') | exact C']]].
        intros m Hm. destruct m as [|m]; [lia|]. cbn [grow_loop]. rewrite EC, C, E1. apply H. lia.
Qed.

Lemma grow_ok g px py : wf g -> g_upd g = [] ->
  exists n g' ox oy, (forall m, (n <= m)%nat -> grow m g px py = Done g') /\ wf g' /\
    embeds g g' ox oy /\
    (let (x, y) := cell_index (g_lim g') px py in contains (g_lim g') x y = true).
Proof.
  intros W U. unfold grow. rewrite U.
  destruct (cell_index (g_lim g) px py) as [x y] eqn:EC.
  destruct (contains (g_lim g) x y) eqn:C.
  - exists 0%nat, g, 0, 0. split; [|split; [exact W | split; [now apply embeds_refl | now rewrite EC]]].
    intros m _. destruct m; cbn [grow_loop]; rewrite EC, C; reflexivity.
  - destruct (grow_step_ok g W U) as [g1 [E1 [W1 [EM [Nx1 Ny1]]]]].
    pose proof (wf_lim _ W) as [_ [Hx Hy]].
    destruct (room_exists (g_lim g1) px py (wf_lim _ W1)) as [k [Hk R]].
    destruct (grow_loop_ok (Z.to_nat k) g1 px py W1) as [g' [ox [oy [H [W' [EM' C']]]]]].
    + now rewrite (em_upd _ _ _ _ EM).
    + lia.
    + lia.
    + now rewrite Z2Nat.id.
    + exists (S (Z.to_nat k)), g'. eexists. eexists.
      split; [|split; [exact W' | split; [exact (embeds_trans _ _ _ _ _ _ _ EM EM') | exact C']]].
      intros m Hm. destruct m as [|m]; [lia|]. cbn [grow_loop]. rewrite EC, C, E1. apply H. lia.
Qed.

(* points keep their value, except those exactly on the old max borders *)
Lemma embeds_index g g' ox oy px py : embeds g g' ox oy -> lim_ok (g_lim g) ->
  (px < l_mx (g_lim g))%Q -> (py < l_my (g_lim g))%Q ->
  cell_index (g_lim g') px py =
  (fst (cell_index (g_lim g) px py) + ox, snd (cell_index (g_lim g) px py) + oy).
Proof.
  intros [E1 E2 E3 Bx By _ _ _ _] [Hr _] Hpx Hpy. unfold cell_index. cbn [fst snd].
  rewrite E1. set (r := l_res (g_lim g)) in *.
  assert (Sh : forall m m' p o, 0 <= o -> (p < m)%Q -> (m' == m + r * inject_Z o)%Q ->
    round_away ((m' - p) / r - (1 # 2)) = round_away ((m - p) / r - (1 # 2)) + o).
  { intros m m' p o Ho Hp Em. rewrite <- round_away_shift.
    - apply round_away_comp. rewrite Em. field. lra.
    - exact Ho.
    - assert (P : (0 < (m - p) / r)%Q) by (apply Qlt_shift_div_l; lra). lra. }
  f_equal; apply Sh; auto; lia.
Qed.
