(* Properties of the 2D probability grid (C15, C17, C18, C19, C20). *)
From Coq Require Import List ZArith QArith Bool Lia Lqa SpecFloat.
From Verif Require Import Vec Float32 Float32_Proofs PV_Model PV_Bounded PV_Proofs Properties_PV
  G2_Model G2_Round G2_Spec G2_Proofs G2_Grow G2_Embed G2_Crop.
Import ListNotations.
Open Scope Z_scope.

(* A grid reached from construction by any successful sequence of operations with
   lookup tables whose entries are marked known values and binary32 probabilities. *)
Definition reachable (g : grid) : Prop :=
  exists r mx my nx ny l g0 os, new_limits r mx my nx ny = Some l /\
    new_probability_grid l = Some g0 /\ Forall op_ok os /\ run g0 os = Some g.

Lemma reachable_wf g : reachable g -> wf g.
Proof.
  intros [r [mx [my [nx [ny [l [g0 [os [E1 [E2 [F R]]]]]]]]]]].
  assert (L : lim_ok l).
  { clear E2 R. unfold new_limits in E1. destruct (Qle_bool r 0) eqn:Q; [discriminate|].
    destruct (Z.ltb_spec 0 nx); [|discriminate]. destruct (Z.ltb_spec 0 ny); [|discriminate].
    injection E1 as <-. split; [now apply Qle_bool_false | auto]. }
  destruct (new_grid_ok l L) as [g1 [E [W _]]]. rewrite E in E2. injection E2 as <-.
  exact (run_wf os g1 g W F R).
Qed.

(* the tables of the range data inserter are good: all odds in [0, 2^64] *)
Lemma vget_map_zrange (f : Z -> Z) n v : 0 <= v < n -> vget (map f (zrange n)) v = Some (f v).
Proof.
  intros H. unfold vget. rewrite zrange_seq. destruct (Z.leb_spec 0 v); [|lia].
  rewrite nth_error_map, nth_error_map.
  assert (E : nth_error (seq 0 (Z.to_nat n)) (Z.to_nat v) = Some (Z.to_nat v)).
  { rewrite nth_error_nth' with (d := O) by (rewrite seq_length; lia). f_equal. apply seq_nth. lia. }
  rewrite E. cbn. now rewrite Z2Nat.id.
Qed.
Theorem C15_tables_good : forall o, is_binary32 o -> fleb fzero o = true -> fleb o two64 = true ->
  exists t, good_table t /\ forall v, 0 <= v < 32768 -> vget t v = apply_cost_odds o v.
Proof.
  intros o V L1 L2.
  exists (map (fun v => match apply_cost_odds o v with Some w => w | None => 0 end) (zrange 32768)).
  assert (G : forall v, 0 <= v < 32768 -> exists w, apply_cost_odds o v = Some w /\ 32768 < w < 65536).
  { intros v H. destruct (C16_range o v V L1 L2 ltac:(lia)) as [_ [r [E B]]].
    exists (r + kUpdateMarker). split; [exact E|]. unfold kUpdateMarker. lia. }
  split; intros v H; rewrite vget_map_zrange by exact H; destruct (G v H) as [w [E B]]; rewrite E; eauto.
Qed.

(* C15 *)
Theorem C15_update_once : forall g acc, reachable g -> g_upd g = [] ->
  (forall x y t, In (x, y, t) acc -> contains (g_lim g) x y = true /\ good_table t) ->
  exists g1 g2, apply_all g acc = Some (g1, first_flags [] acc) /\
    finish_update g1 = Some g2 /\
    g_upd g2 = [] /\ g_lim g2 = g_lim g /\
    forall x y, contains (g_lim g) x y = true ->
      exists v, cell_value g x y = Some v /\ 0 <= v < 32768 /\
        match first_access x y acc with
        | None => cell_value g2 x y = Some v
        | Some t => exists r, vget t v = Some (r + kUpdateMarker) /\ 1 <= r < 32768 /\
                              cell_value g2 x y = Some r
        end.
Proof.
  intros g acc R U H. apply reachable_wf in R.
  assert (F : Forall (in_grid g) acc).
  { apply Forall_forall. intros [[x y] t] I. exact (H x y t I). }
  destruct (apply_all_mid g acc [] g (mid_start g R U) F) as [g1 [E1 [W1 L1 U1 V1]]].
  destruct (finish_ok g1 W1) as [g2 [E2 [W2 [L2 [U2 [_ V2]]]]]].
  exists g1, g2. do 3 (split; [assumption|]). split; [congruence|].
  intros x y C. cbn [app] in V1.
  destruct (cell_value_some g x y (wf_size _ R) C) as [v Ev].
  assert (B : 0 <= v < 32768).
  { unfold cell_value, flat_index in Ev. rewrite C in Ev.
    apply (wf_plain _ R _ _ ltac:(rewrite U; auto) Ev). }
  exists v. split; [exact Ev|]. split; [exact B|].
  specialize (V1 x y C). rewrite Ev in V1. rewrite V2, V1.
  destruct (first_access x y acc) as [t|] eqn:Fa; cbn [option_map].
  - assert (G : good_table t).
    { unfold first_access in Fa. destruct (find (acc_at x y) acc) as [[[a b] t']|] eqn:Fd; [|discriminate].
      injection Fa as <-. apply find_some in Fd. destruct Fd as [I _]. apply (H _ _ _ I). }
    destruct (G v B) as [w [Ew Bw]]. exists (w - 32768). rewrite Ew. unfold kUpdateMarker.
    split; [f_equal; lia|]. split; [lia|]. cbn [option_map].
    destruct (Z.ltb_spec w 32768); [lia | reflexivity].
  - destruct (Z.ltb_spec v 32768); [reflexivity | lia].
Qed.

(* exactly the touched cells become known *)
Theorem C15_known : forall g acc g1 bs g2, reachable g -> g_upd g = [] ->
  (forall x y t, In (x, y, t) acc -> contains (g_lim g) x y = true /\ good_table t) ->
  apply_all g acc = Some (g1, bs) -> finish_update g1 = Some g2 ->
  forall x y, is_known g2 x y = true <->
    is_known g x y = true \/ exists t, In (x, y, t) acc.
Proof.
  intros g acc g1 bs g2 R U H E1 E2 x y.
  destruct (C15_update_once g acc R U H) as [h1 [h2 [A1 [A2 [_ [L V]]]]]].
  rewrite E1 in A1. injection A1 as <- _. rewrite E2 in A2. injection A2 as <-.
  assert (T : forall t, first_access x y acc = Some t -> In (x, y, t) acc).
  { intros t Fa. unfold first_access in Fa.
    destruct (find (acc_at x y) acc) as [[[a b] t']|] eqn:Fd; [|discriminate].
    injection Fa as <-. apply find_some in Fd. destruct Fd as [I Q]. cbn [acc_at] in Q.
    apply andb_true_iff in Q. rewrite !Z.eqb_eq in Q. destruct Q as [-> ->]. exact I. }
  destruct (contains (g_lim g) x y) eqn:C.
  - destruct (V x y C) as [v [Ev [B M]]]. destruct (first_access x y acc) as [t|] eqn:Fa.
    + destruct M as [r [_ [Br Er]]]. split.
      * intros _. right. exists t. now apply T.
      * intros _. apply is_known_iff. exists r. split; [exact Er | lia].
    + split.
      * intros K. left. apply is_known_iff in K. apply is_known_iff. now rewrite Ev, <- M.
      * intros [K | [t I]].
        -- apply is_known_iff in K. apply is_known_iff. now rewrite M, <- Ev.
        -- exfalso. unfold first_access in Fa.
           destruct (find (acc_at x y) acc) eqn:Fd; [discriminate|].
           pose proof (find_none _ _ Fd _ I) as Q. cbn [acc_at] in Q. rewrite !Z.eqb_refl in Q. discriminate.
  - split.
    + intros K. unfold is_known in K. rewrite L, C in K. discriminate.
    + intros [K | [t I]].
      * unfold is_known in K. rewrite C in K. discriminate.
      * destruct (H _ _ _ I). congruence.
Qed.

Definition ex_table : list Z := map (fun v => if v =? 0 then 40000 else 32768 + v) (zrange 32768).
Definition ex_lim : limits := mk_limits (1 # 2) 3 2 3 2.
Definition ex_ops : list op := [OSet 1 0 (fdiv (f_of_Z 55) (f_of_Z 100))].
Definition ex_grid : option grid :=
  match new_probability_grid ex_lim with Some g => run g ex_ops | None => None end.
Example C15_example :
  option_map g_cells ex_grid = Some [0; 14336; 0; 0; 0; 0] /\
  match ex_grid with
  | Some g => match apply_all g [(1, 0, ex_table); (2, 1, ex_table); (1, 0, ex_table)] with
              | Some (g1, bs) => bs = [true; true; false] /\
                                 g_cells g1 = [0; 47104; 0; 0; 0; 40000] /\
                                 option_map g_cells (finish_update g1) = Some [0; 14336; 0; 0; 0; 7232]
              | None => False
              end
  | None => False
  end.
Proof. vm_compute. repeat split. Qed.

(* C17 *)
Theorem C17_grow : forall g px py, reachable g -> g_upd g = [] ->
  exists n g', (forall m, (n <= m)%nat -> grow m g px py = Done g') /\
    reachable g' /\
    (let (x, y) := cell_index (g_lim g') px py in contains (g_lim g') x y = true) /\
    l_res (g_lim g') = l_res (g_lim g) /\ g_upd g' = [] /\
    box_exact (is_known g') (g_box g') /\
    (forall qx qy, ~ (qx == l_mx (g_lim g))%Q -> ~ (qy == l_my (g_lim g))%Q ->
       value_at g' qx qy = value_at g qx qy) /\
    (* cell centres coincide *)
    (forall x y, contains (g_lim g) x y = true -> exists x' y',
       contains (g_lim g') x' y' = true /\
       (fst (cell_center (g_lim g') x' y') == fst (cell_center (g_lim g) x y))%Q /\
       (snd (cell_center (g_lim g') x' y') == snd (cell_center (g_lim g) x y))%Q /\
       cell_value g' x' y' = cell_value g x y).
Proof.
  intros g px py R U. pose proof (reachable_wf g R) as W.
  destruct (grow_ok g px py W U) as [n [g' [ox [oy [H [W' [EM C]]]]]]].
  exists n, g'. split; [exact H|]. split.
  { destruct R as [r [mx [my [nx [ny [l [g0 [os [E1 [E2 [F Rn]]]]]]]]]]].
    exists r, mx, my, nx, ny, l, g0, (os ++ [OGrow px py n]). do 2 (split; [assumption|]). split.
    - apply Forall_app. split; [exact F|]. constructor; [exact I | constructor].
    - assert (RA : forall os1 os2 a b, run a os1 = Some b -> run a (os1 ++ os2) = run b os2).
      { induction os1 as [|o os1 IH]; intros os2 a b Q; cbn [run app] in *.
        - now injection Q as <-.
        - destruct (step a o); [now apply IH | discriminate]. }
      rewrite (RA _ _ _ _ Rn). cbn [run step]. now rewrite H. }
  split; [exact C|]. split; [apply (em_res _ _ _ _ EM)|].
  split; [rewrite (em_upd _ _ _ _ EM); exact U|]. split; [apply (wf_box _ W')|]. split.
  - intros qx qy Nx Ny. exact (embeds_value_at g g' ox oy qx qy EM W W' Nx Ny).
  - intros x y C1. exists (x + ox), (y + oy). now apply embeds_center.
Qed.

Definition ex_g0 : grid := mk_grid ex_lim [0; 0; 0; 0; 0; 0] [] None kMinCost kMaxCost.
Definition ex_g : grid := mk_grid ex_lim [0; 14336; 0; 0; 0; 0] [] (Some (mk_box 1 0 1 0)) kMinCost kMaxCost.
Definition ex_g' : grid := match grow 9 ex_g 10 10 with Done g => g | _ => ex_g end.
(* a point exactly on the old max border changes from outside to the value of an old cell *)
Theorem C17_border_refuted : exists g px py m g' qx qy,
  reachable g /\ g_upd g = [] /\ grow m g px py = Done g' /\
  value_at g qx qy = Some kUnknown /\ value_at g' qx qy <> Some kUnknown.
Proof.
  exists ex_g, 10%Q, 10%Q, 9%nat, ex_g', 3%Q, (5 # 4)%Q. split.
  { exists (1 # 2)%Q, 3%Q, 2%Q, 3, 2, ex_lim, ex_g0, ex_ops. split; [reflexivity|].
    split; [vm_compute; reflexivity|]. split; [|vm_compute; reflexivity].
    constructor; [vm_compute; reflexivity | constructor]. }
  split; [reflexivity|]. split; [vm_compute; reflexivity|]. split; [vm_compute; reflexivity|].
  vm_compute. discriminate.
Qed.

Example C17_example :
  match ex_grid with
  | Some g => match grow 5 g 4 2 with
              | Done g' => l_nx (g_lim g') = 12 /\ l_ny (g_lim g') = 8 /\
                           (l_mx (g_lim g') == 9 # 2)%Q /\ (l_my (g_lim g') == 4)%Q /\
                           value_at g (11 # 4) (5 # 4) = Some 14336 /\
                           value_at g' (11 # 4) (5 # 4) = Some 14336 /\
                           g_box g' = Some (mk_box 5 3 5 3)
              | _ => False
              end
  | None => False
  end.
Proof. vm_compute. repeat split. Qed.

(* C18 *)
Theorem C18_crop : forall g, reachable g -> g_upd g = [] ->
  exists c ox oy, crop g = Some c /\ wf c /\ g_upd c = [] /\
    l_res (g_lim c) = l_res (g_lim g) /\
    (* same world position and same 16 bit value for every cell of the cropped grid *)
    (forall x y, contains (g_lim c) x y = true ->
       contains (g_lim g) (x + ox) (y + oy) = true /\
       cell_value c x y = cell_value g (x + ox) (y + oy) /\
       (fst (cell_center (g_lim c) x y) == fst (cell_center (g_lim g) (x + ox) (y + oy)))%Q /\
       (snd (cell_center (g_lim c) x y) == snd (cell_center (g_lim g) (x + ox) (y + oy)))%Q) /\
    (* no known cell is lost *)
    (forall x y, is_known g x y = true ->
       contains (g_lim c) (x - ox) (y - oy) = true /\
       cell_value c (x - ox) (y - oy) = cell_value g x y) /\
    (* tight: every outermost row and column has a known cell, or 1 x 1 if none is known *)
    (((forall x y, is_known g x y = false) /\ l_nx (g_lim c) = 1 /\ l_ny (g_lim c) = 1) \/
     ((exists y, is_known c 0 y = true) /\ (exists y, is_known c (l_nx (g_lim c) - 1) y = true) /\
      (exists x, is_known c x 0 = true) /\ (exists x, is_known c x (l_ny (g_lim c) - 1) = true))).
Proof.
  intros g R U. apply reachable_wf in R.
  destruct (crop_ok g R U) as [c [ox [oy [E [W [Uc [_ [_ [Er [Ex [Ey [V [K B]]]]]]]]]]]]].
  exists c, ox, oy. do 4 (split; [assumption|]).
  assert (KV : forall x y, is_known g x y = true ->
       contains (g_lim c) (x - ox) (y - oy) = true /\
       cell_value c (x - ox) (y - oy) = cell_value g x y).
  { intros x y Q. pose proof (K x y Q) as C. split; [exact C|].
    destruct (V _ _ C) as [_ ->]. now rewrite !Z.sub_add. }
  split; [|split; [exact KV|]].
  - intros x y C. destruct (V x y C) as [C1 C2]. do 2 (split; [assumption|]).
    unfold cell_center. cbn [fst snd]. rewrite Er, Ex, Ey, !inject_Z_plus. split; ring.
  - pose proof (wf_box _ R) as X. destruct (g_box g) as [b|].
    + right. destruct B as [-> [-> [Bx By]]]. destruct X as [X [[y1 K1] [[y2 K2] [[x3 K3] [x4 K4]]]]].
      assert (KK : forall x y, is_known g x y = true -> is_known c (x - b_x0 b) (y - b_y0 b) = true).
      { intros x y Q. destruct (KV x y Q) as [_ Q2]. apply is_known_iff in Q. apply is_known_iff.
        now rewrite Q2. }
      apply KK in K1. apply KK in K2. apply KK in K3. apply KK in K4.
      rewrite Z.sub_diag in K1, K3. rewrite Bx, By.
      split; [eauto|]. split; [|split; [eauto|]].
      * exists (y2 - b_y0 b). replace (b_x1 b - b_x0 b + 1 - 1) with (b_x1 b - b_x0 b) by ring. exact K2.
      * exists (x4 - b_x0 b). replace (b_y1 b - b_y0 b + 1 - 1) with (b_y1 b - b_y0 b) by ring. exact K4.
    + left. tauto.
Qed.

Example C18_example :
  match ex_grid with
  | Some g => match run g [OSet 2 1 (fdiv (f_of_Z 12) (f_of_Z 100)); OGrow 9 9 5] with
              | Some g' => l_nx (g_lim g') = 48 /\
                  match crop g' with
                  | Some c => l_nx (g_lim c) = 2 /\ l_ny (g_lim c) = 2 /\
                              g_cells c = [14336; 0; 0; 31948] /\ (l_mx (g_lim c) == 3)%Q
                  | None => False
                  end
              | None => False
              end
  | None => False
  end.
Proof. vm_compute. repeat split. Qed.

(* C19 *)
Theorem C19_roundtrip : forall g, reachable g -> g_upd g = [] ->
  exists p, to_proto g = Some p /\ from_proto p = Some g.
Proof. intros g R. apply proto_roundtrip. now apply reachable_wf. Qed.

(* serializing during an update fails a CHECK *)
Theorem C19_pending_aborts : forall g, g_upd g <> [] -> to_proto g = None.
Proof. intros g H. unfold to_proto. destruct (g_upd g); [contradiction | reflexivity]. Qed.

(* messages of old versions without cost bounds get the default ones *)
Theorem C19_legacy_defaults : forall l cells b, (forall c, In c cells -> c <= 65535) ->
  from_proto (mk_proto l cells b (f_of_Z 0) (f_of_Z 0) true) =
  Some (mk_grid l cells [] b kMinCost kMaxCost).
Proof.
  intros l cells b H. unfold from_proto, legacy. cbn [p_minc p_maxc p_cells p_lim p_box p_is_probability_grid].
  assert (E : feqb (f_of_Z 0) f_zero = true) by reflexivity. rewrite E. cbn [andb].
  assert (F : fltb kMinCost kMaxCost = true) by (vm_compute; reflexivity). rewrite F. cbn [andb].
  assert (G : forallb (fun c => c <=? 65535) cells = true)
    by (apply forallb_forall; intros c I; apply Z.leb_le; auto).
  now rewrite G.
Qed.

Example C19_example :
  match ex_grid with
  | Some g => match to_proto g with
              | Some p => p_cells p = [0; 14336; 0; 0; 0; 0] /\ p_box p = Some (mk_box 1 0 1 0) /\
                          from_proto p = Some g
              | None => False
              end
  | None => False
  end.
Proof. vm_compute. repeat split. Qed.

(* C20 *)
Theorem C20_center : forall l x y, (0 < l_res l)%Q ->
  cell_index l (fst (cell_center l x y)) (snd (cell_center l x y)) = (x, y).
Proof.
  intros l x y Hr. unfold cell_index, cell_center. cbn [fst snd].
  f_equal.
  - rewrite <- (round_away_Z x) at 2. apply round_away_comp. field. lra.
  - rewrite <- (round_away_Z y) at 2. apply round_away_comp. field. lra.
Qed.

(* strictly inside a cell: the cell's square has its centre in the middle *)
Theorem C20_interior : forall l x y px py, (0 < l_res l)%Q ->
  (l_mx l - l_res l * (inject_Z y + 1) < px < l_mx l - l_res l * inject_Z y)%Q ->
  (l_my l - l_res l * (inject_Z x + 1) < py < l_my l - l_res l * inject_Z x)%Q ->
  cell_index l px py = (x, y).
Proof.
  intros l x y px py Hr Hx Hy. unfold cell_index.
  assert (G : forall m p k, (m - l_res l * (inject_Z k + 1) < p < m - l_res l * inject_Z k)%Q ->
    round_away ((m - p) / l_res l - (1 # 2)) = k).
  { intros m p k [A B].
    assert (A' : ((m - p) / l_res l < inject_Z k + 1)%Q) by (apply Qlt_shift_div_r; lra).
    assert (B' : (inject_Z k < (m - p) / l_res l)%Q) by (apply Qlt_shift_div_l; lra).
    apply round_away_spec. destruct (Qlt_le_dec ((m - p) / l_res l - (1 # 2)) 0); [right | left]; split; lra. }
  f_equal; apply G; assumption.
Qed.

Theorem C20_contained : forall l px py, (0 < l_res l)%Q -> 0 < l_nx l -> 0 < l_ny l ->
  (let (x, y) := cell_index l px py in contains l x y = true) <->
  ((l_mx l - inject_Z (l_ny l) * l_res l < px < l_mx l)%Q /\
   (l_my l - inject_Z (l_nx l) * l_res l < py < l_my l)%Q).
Proof. intros l px py Hr Hx Hy. apply contained_iff. repeat split; assumption. Qed.

Example C20_example :
  let l := mk_limits (1 # 20) 10 (21 # 2) 100 80 in
  cell_index l (397 # 40) (419 # 40) = (0, 1) /\
  contains l 0 1 = true /\
  fst (cell_center l 0 1) == (397 # 40) /\
  cell_index l 10 (419 # 40) = (0, -1) /\          (* on the max border: outside *)
  cell_index l 6 (419 # 40) = (0, 80) /\           (* on the min border: outside *)
  cell_index l (399 # 40) (219 # 20) = (-10, 0).
Proof. vm_compute. repeat split. Qed.

Print Assumptions C15_tables_good.
Print Assumptions C15_update_once.
Print Assumptions C15_known.
Print Assumptions C17_grow.
Print Assumptions C17_border_refuted.
Print Assumptions C18_crop.
Print Assumptions C19_roundtrip.
Print Assumptions C19_pending_aborts.
Print Assumptions C19_legacy_defaults.
Print Assumptions C20_center.
Print Assumptions C20_interior.
Print Assumptions C20_contained.
