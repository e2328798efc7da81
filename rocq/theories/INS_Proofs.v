(* Proofs about range data insertion. *)
From Coq Require Import List ZArith QArith Qround Qminmax Bool Lia Lqa.
From Verif Require Import Vec Float32 PV_Model G2_Model G2_Round G2_Spec G2_Proofs G2_Grow
  RTP_Model RTP_Spec INS_Model INS_Spec.
Import ListNotations.
Open Scope Z_scope.

Lemma index_floor m r p : (0 < r)%Q -> (p < m)%Q ->
  round_away (frac m r p - (1 # 2)) = Qfloor ((m - p) / r).
Proof.
  intros Hr Hp. assert (P : (0 < (m - p) / r)%Q) by (apply Qlt_shift_div_l; lra).
  unfold frac. remember ((m - p) / r)%Q as z. apply round_away_spec.
  pose proof (proj1 (Qfloor_spec z _) eq_refl) as [L U].
  assert (N0 : 0 <= Qfloor z).
  { assert (H : 0 < Qfloor z + 1); [|lia]. apply inject_lt.
    rewrite inject_Z_minus1. change (inject_Z 0) with 0%Q. lra. }
  assert (N : (0 <= inject_Z (Qfloor z))%Q) by (change 0%Q with (inject_Z 0); now apply inject_le).
  destruct (Qlt_le_dec (z - (1 # 2)) 0) as [H | H]; [right | left]; (split; [exact H|]); [|lra].
  assert (K : Qfloor z < 1) by (apply inject_lt; change (inject_Z 1) with 1%Q; lra).
  assert (K0 : Qfloor z = 0) by lia. rewrite K0 in *. change (inject_Z 0) with 0%Q in *. lra.
Qed.

(* bounding box *)
Definition in_bb (b : (Q * Q) * (Q * Q)) (p : Q * Q) : Prop :=
  (fst (fst b) <= fst p <= fst (snd b))%Q /\ (snd (fst b) <= snd p <= snd (snd b))%Q.

Lemma bb_extend_in b p : in_bb (bb_extend b p) p.
Proof.
  unfold in_bb, bb_extend. cbn [fst snd].
  repeat split; (apply Q.le_min_r || apply Q.le_max_r).
Qed.
Lemma bb_extend_keep b p q : in_bb b q -> in_bb (bb_extend b p) q.
Proof.
  intros [[A B] [C D]]. unfold in_bb, bb_extend. cbn [fst snd].
  pose proof (Q.le_min_l (fst (fst b)) (fst p)). pose proof (Q.le_min_l (snd (fst b)) (snd p)).
  pose proof (Q.le_max_l (fst (snd b)) (fst p)). pose proof (Q.le_max_l (snd (snd b)) (snd p)).
  repeat split; lra.
Qed.
Lemma bb_fold ps : forall b q, in_bb b q \/ In q ps -> in_bb (fold_left bb_extend ps b) q.
Proof.
  induction ps as [|p ps IH]; intros b q H; cbn [fold_left].
  - destruct H as [H | []]. exact H.
  - apply IH. destruct H as [H | [<- | H]]; [left; now apply bb_extend_keep | left; apply bb_extend_in | now right].
Qed.
Lemma bb_scan rd p : In p (scan_points rd) -> in_bb (bounding_box rd) p.
Proof.
  intros I. unfold bounding_box. apply bb_fold. destruct I as [<- | I].
  - left. apply bb_fold. left. unfold in_bb. cbn [fst snd]. lra.
  - apply in_app_or in I. destruct I as [I | I]; [left | now right]. apply bb_fold. now right.
Qed.

(* the open rectangle of a grid *)
Definition inside (l : limits) (px py : Q) : Prop :=
  (l_mx l - inject_Z (l_ny l) * l_res l < px < l_mx l)%Q /\
  (l_my l - inject_Z (l_nx l) * l_res l < py < l_my l)%Q.

Lemma embeds_inside g g' ox oy px py : embeds g g' ox oy -> lim_ok (g_lim g) ->
  inside (g_lim g) px py -> inside (g_lim g') px py.
Proof.
  intros [E1 E2 E3 [X1 X2] [Y1 Y2] _ _ _ _] [Hr _] [[A B] [C D]].
  unfold inside. rewrite E1, E2, E3.
  apply inject_le in X1, X2, Y1, Y2. rewrite inject_Z_plus in X2, Y2. change (inject_Z 0) with 0%Q in *.
  set (r := l_res (g_lim g)) in *.
  set (nx := inject_Z (l_nx (g_lim g))) in *. set (nx' := inject_Z (l_nx (g_lim g'))) in *.
  set (ny := inject_Z (l_ny (g_lim g))) in *. set (ny' := inject_Z (l_ny (g_lim g'))) in *.
  set (x := inject_Z ox) in *. set (y := inject_Z oy) in *.
  assert (0 <= r * x)%Q by nra. assert (0 <= r * y)%Q by nra.
  assert (0 <= r * (nx' - x - nx))%Q by nra. assert (0 <= r * (ny' - y - ny))%Q by nra.
  repeat split; lra.
Qed.

Lemma grow_as_needed_ok rd g : wf g -> g_upd g = [] ->
  exists n ox oy g', (forall m, (n <= m)%nat -> grow_as_needed m rd g = Done g') /\ wf g' /\
    embeds g g' ox oy /\ forall p, In p (scan_points rd) -> inside (g_lim g') (fst p) (snd p).
Proof.
  intros W U. unfold grow_as_needed. pose proof (bb_scan rd) as B.
  destruct (bounding_box rd) as [lo hi].
  destruct (grow_ok g (fst lo - kPadding) (snd lo - kPadding) W U) as [n1 [g1 [ox1 [oy1 [G1 [W1 [E1 C1]]]]]]].
  assert (U1 : g_upd g1 = []) by (rewrite (em_upd _ _ _ _ E1); exact U).
  destruct (grow_ok g1 (fst hi + kPadding) (snd hi + kPadding) W1 U1) as [n2 [g2 [ox2 [oy2 [G2 [W2 [E2 C2]]]]]]].
  exists (n1 + n2)%nat, (ox1 + ox2), (oy1 + oy2), g2. split.
  { intros m Hm. rewrite G1 by lia. apply G2. lia. }
  split; [exact W2|]. split; [exact (embeds_trans _ _ _ _ _ _ _ E1 E2)|].
  intros p I. destruct (B p I) as [[A1 A2] [A3 A4]]. cbn [fst snd] in *.
  apply (contained_iff _ _ _ (wf_lim _ W1)) in C1. apply (contained_iff _ _ _ (wf_lim _ W2)) in C2.
  apply (embeds_inside _ _ _ _ _ _ E2 (wf_lim _ W1)) in C1.
  destruct C1 as [[D1 D2] [D3 D4]]. destruct C2 as [[F1 F2] [F3 F4]].
  unfold inside, kPadding in *. repeat split; lra.
Qed.

(* indices in the subpixel grid *)
Lemma floor_div z n : 0 < n -> Qfloor (inject_Z n * z) / n = Qfloor z.
Proof.
  intros Hn. symmetry. apply Qfloor_spec.
  pose proof (proj1 (Qfloor_spec (inject_Z n * z) _) eq_refl) as [L U].
  set (k := Qfloor (inject_Z n * z)) in *.
  assert (P : (1 <= inject_Z n)%Q) by (change 1%Q with (inject_Z 1); apply inject_le; lia).
  assert (H1 : n * (k / n) <= k) by (apply Z.mul_div_le; lia).
  assert (H2 : k + 1 <= n * (k / n + 1)) by (pose proof (Z.mul_succ_div_gt k n Hn); lia).
  apply inject_le in H1, H2. rewrite inject_Z_mult in H1, H2. rewrite inject_Z_plus in H2.
  rewrite inject_Z_minus1 in H2.
  split; [apply Qnot_lt_le; intros Q | apply Qnot_le_lt; intros Q].
  - apply (Qmult_lt_l _ _ (inject_Z n)) in Q; lra.
  - apply (Qmult_le_l _ _ (inject_Z n)) in Q; [|lra]. change (inject_Z 1) with 1%Q in H2. lra.
Qed.

Lemma floor_range m r p n : (0 < r)%Q -> 0 < n -> (m - inject_Z n * r < p < m)%Q ->
  0 <= Qfloor ((m - p) / r) < n.
Proof.
  intros Hr Hn [A B]. rewrite <- (index_floor _ _ _ Hr B). split.
  - now apply index_nonneg.
  - now apply index_lt.
Qed.

Lemma superscaled_ok l : lim_ok l -> l_nx l * 1000 < 2 ^ 31 -> l_ny l * 1000 < 2 ^ 31 ->
  superscaled l = Some (mk_limits (l_res l / inject_Z 1000) (l_mx l) (l_my l) (l_nx l * 1000) (l_ny l * 1000)).
Proof.
  intros [Hr [Hx Hy]] H1 H2. unfold superscaled, kSubpixelScale, new_limits.
  destruct (Z.ltb_spec (l_nx l * 1000) (2 ^ 31)); [|lia].
  destruct (Z.ltb_spec (l_ny l * 1000) (2 ^ 31)); [|lia]. cbn [andb].
  destruct (Qle_bool (l_res l / inject_Z 1000) 0) eqn:Q.
  - exfalso. apply Qle_bool_iff in Q. assert (0 < l_res l / inject_Z 1000)%Q; [|lra].
    apply Qlt_shift_div_l; [reflexivity|]. lra.
  - destruct (Z.ltb_spec 0 (l_nx l * 1000)); [|lia]. destruct (Z.ltb_spec 0 (l_ny l * 1000)); [|lia]. reflexivity.
Qed.

Lemma sub_index l p : lim_ok l -> inside l (fst p) (snd p) ->
  cell_index (mk_limits (l_res l / inject_Z 1000) (l_mx l) (l_my l) (l_nx l * 1000) (l_ny l * 1000)) (fst p) (snd p)
    = cell_at 1000 l p.
Proof.
  intros [Hr [Hx Hy]] [A B]. rewrite cell_index_frac. unfold cell_at. cbn [l_mx l_my l_res].
  assert (0 < l_res l / inject_Z 1000)%Q by (apply Qlt_shift_div_l; [reflexivity | lra]).
  rewrite !index_floor by (try assumption; tauto).
  f_equal; apply Qfloor_comp; field; lra.
Qed.

Lemma Qmul1 a b : (inject_Z 1 * a / b == a / b)%Q.
Proof. change (inject_Z 1) with 1%Q. unfold Qdiv. ring. Qed.
Lemma Qmuldiv n a b : (inject_Z n * a / b == inject_Z n * (a / b))%Q.
Proof. unfold Qdiv. ring. Qed.

Lemma cell_at_div l p : pixel_of 1000 (cell_at 1000 l p) = cell_at 1 l p.
Proof.
  unfold pixel_of, cell_at. cbn [fst snd].
  rewrite (Qfloor_comp _ _ (Qmuldiv 1000 (l_my l - snd p) (l_res l))).
  rewrite (Qfloor_comp _ _ (Qmuldiv 1000 (l_mx l - fst p) (l_res l))).
  rewrite !floor_div by lia.
  now rewrite (Qfloor_comp _ _ (Qmul1 _ _)), (Qfloor_comp _ _ (Qmul1 _ _)).
Qed.

Lemma cell_at_range l p : lim_ok l -> inside l (fst p) (snd p) ->
  0 <= fst (cell_at 1 l p) < l_nx l /\ 0 <= snd (cell_at 1 l p) < l_ny l.
Proof.
  intros [Hr [Hx Hy]] [A B]. unfold cell_at. cbn [fst snd].
  rewrite (Qfloor_comp _ _ (Qmul1 _ _)), (Qfloor_comp _ _ (Qmul1 _ _)).
  split; now apply floor_range.
Qed.
Lemma cell_at_sub_range l p : lim_ok l -> inside l (fst p) (snd p) ->
  0 <= fst (cell_at 1000 l p) < l_nx l * 1000 /\ 0 <= snd (cell_at 1000 l p) < l_ny l * 1000.
Proof.
  intros L I. destruct (cell_at_range l p L I) as [A B]. rewrite <- cell_at_div in A, B.
  unfold pixel_of in A, B. cbn [fst snd] in A, B.
  set (x := fst (cell_at 1000 l p)) in *. set (y := snd (cell_at 1000 l p)) in *.
  split; [pose proof (Z.mul_div_le x 1000 ltac:(lia)); pose proof (Z.mul_succ_div_gt x 1000 ltac:(lia))
         |pose proof (Z.mul_div_le y 1000 ltac:(lia)); pose proof (Z.mul_succ_div_gt y 1000 ltac:(lia))]; lia.
Qed.

(* crossed pixels are inside *)
Lemma along_range b e n t : 0 <= b < n -> 0 <= e < n -> (0 <= t <= 1)%Q ->
  (0 < along b e t < inject_Z n)%Q.
Proof.
  intros [B0 B1] [E0 E1] [T0 T1]. unfold along.
  assert (B2 : b + 1 <= n) by lia. assert (E2 : e + 1 <= n) by lia.
  apply inject_le in B0, E0, B2, E2. rewrite inject_Z_minus1 in B2, E2. change (inject_Z 0) with 0%Q in *.
  split; nra.
Qed.
Lemma in_pixel_range p n v : (0 < v < inject_Z (n * 1000))%Q -> in_pixel 1000 p v -> 0 <= p < n.
Proof.
  intros [A B] [C D].
  assert (H1 : 1000 * p < n * 1000) by (apply inject_lt; lra).
  assert (H2 : 0 < 1000 * (p + 1)) by (apply inject_lt; change (inject_Z 0) with 0%Q; lra). lia.
Qed.
Lemma crosses_inside l b e c : lim_ok l ->
  0 <= fst b < l_nx l * 1000 -> 0 <= snd b < l_ny l * 1000 ->
  0 <= fst e < l_nx l * 1000 -> 0 <= snd e < l_ny l * 1000 ->
  crosses b e 1000 c -> contains l (fst c) (snd c) = true.
Proof.
  intros L B1 B2 E1 E2 [t [T [P1 P2]]]. apply contains_iff.
  pose proof (in_pixel_range _ _ _ (along_range _ _ _ t B1 E1 T) P1).
  pose proof (in_pixel_range _ _ _ (along_range _ _ _ t B2 E2 T) P2). lia.
Qed.

(* the sequence of accesses *)
Definition app (g : grid) (acc : list access) : option grid := option_map fst (apply_all g acc).
Definition accs (t : list Z) (cells : list (Z * Z)) : list access :=
  map (fun c => (fst c, snd c, t)) cells.

Lemma app_app a : forall g b, app g (a ++ b) = match app g a with Some g' => app g' b | None => None end.
Proof.
  unfold app. induction a as [|[[x y] t] a IH]; intros g b; cbn [apply_all List.app].
  - reflexivity.
  - destruct (apply_table g x y t) as [[g' f]|]; [|reflexivity]. specialize (IH g' b).
    destruct (apply_all g' a) as [[g1 f1]|]; cbn [option_map fst] in *;
    destruct (apply_all g' (a ++ b)) as [[g2 f2]|]; cbn [option_map fst] in *; assumption.
Qed.
Lemma app_cons g x y t a : app g ((x, y, t) :: a) =
  match apply_table g x y t with Some (g', _) => app g' a | None => None end.
Proof.
  unfold app. cbn [apply_all]. destruct (apply_table g x y t) as [[g' f]|]; [|reflexivity].
  destruct (apply_all g' a) as [[g1 f1]|]; reflexivity.
Qed.

Lemma apply_cells_app t cells : forall g, apply_cells g t cells = app g (accs t cells).
Proof.
  induction cells as [|[x y] r IH]; intros g; cbn [apply_cells accs map]; [reflexivity|].
  cbn [fst snd]. rewrite app_cons. destruct (apply_table g x y t) as [[g' f]|]; [apply IH | reflexivity].
Qed.
Lemma apply_hits_app sl t hits : forall g, apply_hits sl g t hits =
  option_map (fun g' => (g', map (fun h => cell_index sl (fst h) (snd h)) hits))
    (app g (accs t (map (fun h => (Z.quot (fst (cell_index sl (fst h) (snd h))) kSubpixelScale,
                                   Z.quot (snd (cell_index sl (fst h) (snd h))) kSubpixelScale)) hits))).
Proof.
  induction hits as [|h r IH]; intros g; cbn [apply_hits accs map]; [reflexivity|].
  cbn [fst snd]. rewrite app_cons.
  destruct (apply_table g _ _ t) as [[g' f]|]; [|reflexivity].
  rewrite IH. unfold accs. destruct (app g' _); reflexivity.
Qed.
Lemma apply_rays_app t b ends masks :
  Forall2 (fun e l => ray_to_pixel_mask b e kSubpixelScale = Some l) ends masks ->
  forall g, apply_rays g t b ends = app g (accs t (concat masks)).
Proof.
  induction 1 as [|e l ends masks E F IH]; intros g; cbn [apply_rays concat]; [reflexivity|].
  rewrite E, apply_cells_app. unfold accs in *. rewrite map_app, app_app.
  destruct (app g _); [apply IH | reflexivity].
Qed.

Lemma first_access_app x y a b : first_access x y (a ++ b) =
  match first_access x y a with Some t => Some t | None => first_access x y b end.
Proof.
  unfold first_access. induction a as [|c a IH]; cbn [find List.app]; [reflexivity|].
  destruct (acc_at x y c); [reflexivity | exact IH].
Qed.
Lemma first_access_accs x y t cells :
  (In (x, y) cells -> first_access x y (accs t cells) = Some t) /\
  (~ In (x, y) cells -> first_access x y (accs t cells) = None).
Proof.
  unfold first_access. induction cells as [|[a b] r IH]; cbn [accs map find In].
  - split; [contradiction | reflexivity].
  - cbn [acc_at fst snd]. destruct (Z.eqb_spec a x) as [-> | N]; [destruct (Z.eqb_spec b y) as [-> | N]|]; cbn [andb].
    + split; [reflexivity | intros H; exfalso; apply H; now left].
    + split; intros H; apply IH; [destruct H as [H|H]; [congruence | exact H] | tauto].
    + split; intros H; apply IH; [destruct H as [H|H]; [congruence | exact H] | tauto].
Qed.
