(* C22: inserting range data into a probability grid. *)
From Coq Require Import List ZArith QArith Bool Lia Lqa.
From Verif Require Import Vec Float32 PV_Model G2_Model G2_Round G2_Spec G2_Proofs G2_Grow G2_Crop Properties_G2
  RTP_Model RTP_Spec Properties_RTP INS_Model INS_Spec INS_Proofs.
Import ListNotations.
Open Scope Z_scope.

Lemma run_app os1 : forall os2 a b, run a os1 = Some b -> run a (os1 ++ os2) = run b os2.
Proof.
  induction os1 as [|o os1 IH]; intros os2 a b Q; cbn [run List.app] in *.
  - now injection Q as <-.
  - destruct (step a o); [now apply IH | discriminate].
Qed.
Lemma reach_run os g g' : reachable g -> Forall op_ok os -> run g os = Some g' -> reachable g'.
Proof.
  intros [r [mx [my [nx [ny [l [g0 [os0 [E1 [E2 [F Rn]]]]]]]]]]] F' R'.
  exists r, mx, my, nx, ny, l, g0, (os0 ++ os). do 2 (split; [assumption|]). split.
  - apply Forall_app. now split.
  - now rewrite (run_app _ _ _ _ Rn).
Qed.
Lemma reach_app acc : forall g g', reachable g -> Forall (fun a => good_table (snd a)) acc ->
  app g acc = Some g' -> reachable g'.
Proof.
  induction acc as [|[[x y] t] acc IH]; intros g g' R F E.
  - injection E as <-. exact R.
  - inversion F as [|? ? T F']; subst. rewrite app_cons in E.
    destruct (apply_table g x y t) as [[g1 f]|] eqn:A; [|discriminate].
    apply (IH g1); auto. apply (reach_run [OApply x y t] g g1 R).
    + constructor; [exact T | constructor].
    + cbn [run step]. now rewrite A.
Qed.
Lemma reach_grow m rd g g' : reachable g -> grow_as_needed m rd g = Done g' -> reachable g'.
Proof.
  intros R. unfold grow_as_needed. destruct (bounding_box rd) as [lo hi].
  destruct (grow m g _ _) as [g1| |] eqn:E1; try discriminate. intros E2.
  eapply (reach_run [OGrow _ _ m; OGrow _ _ m] g g' R); [repeat constructor|].
  cbn [run step]. rewrite E1. rewrite E2. reflexivity.
Qed.

(* For every grid and every scan: growing succeeds and keeps all cells; then, as long
   as the subpixel grid fits into int, insertion succeeds, every point of the scan is
   in the grid, and every cell has received exactly the update it should. *)
Theorem C22_insert : forall g rd hit_table miss_table free,
  reachable g -> g_upd g = [] -> good_table hit_table -> good_table miss_table ->
  exists n g1 ox oy, (forall m, (n <= m)%nat -> grow_as_needed m rd g = Done g1) /\
    embeds g g1 ox oy /\
    let l := g_lim g1 in
    (forall p, In p (scan_points rd) ->
       contains l (fst (cell_at 1 l p)) (snd (cell_at 1 l p)) = true) /\
    (l_nx l * 1000 < 2 ^ 31 -> l_ny l * 1000 < 2 ^ 31 ->
     exists g2, (forall m, (n <= m)%nat -> insert m rd hit_table miss_table free g = Done g2) /\
       reachable g2 /\ g_upd g2 = [] /\ g_lim g2 = l /\
       forall x y, contains l x y = true ->
         exists v h s, cell_value g1 x y = Some v /\
           vget hit_table v = Some (h + kUpdateMarker) /\ 1 <= h < 32768 /\
           vget miss_table v = Some (s + kUpdateMarker) /\ 1 <= s < 32768 /\
           (is_hit l rd (x, y) -> cell_value g2 x y = Some h) /\
           (~ is_hit l rd (x, y) -> free = true -> is_crossed l rd (x, y) -> cell_value g2 x y = Some s) /\
           (~ is_hit l rd (x, y) -> free = false \/ ~ is_crossed l rd (x, y) -> cell_value g2 x y = Some v)).
Proof.
  intros g rd ht mt free R U HT MT.
  destruct (grow_as_needed_ok rd g (reachable_wf _ R) U) as [n [ox [oy [g1 [G [W [EM I]]]]]]].
  exists n, g1, ox, oy. split; [exact G|]. split; [exact EM|].
  pose proof (wf_lim _ W) as L. split.
  { intros p Ip. destruct (cell_at_range _ p L (I p Ip)). apply contains_iff. lia. }
  intros Nx Ny. pose proof (reach_grow n rd g g1 R (G n (le_n _))) as R1.
  assert (U1 : g_upd g1 = []) by (rewrite (em_upd _ _ _ _ EM); exact U).
  set (l := g_lim g1) in *.
  set (b := cell_at 1000 l (rd_origin rd)).
  set (sl := mk_limits (l_res l / inject_Z 1000) (l_mx l) (l_my l) (l_nx l * 1000) (l_ny l * 1000)).
  assert (Isub : forall p, In p (scan_points rd) -> cell_index sl (fst p) (snd p) = cell_at 1000 l p)
    by (intros p Ip; apply sub_index; auto).
  assert (Ir : forall p, In p (rd_returns rd) -> In p (scan_points rd))
    by (intros p Ip; right; apply in_or_app; now left).
  assert (Im : forall p, In p (rd_misses rd) -> In p (scan_points rd))
    by (intros p Ip; right; apply in_or_app; now right).
  assert (Hrays : forall ps, (forall p, In p ps -> In p (scan_points rd)) ->
    exists masks, Forall2 (fun e m => ray_to_pixel_mask b e kSubpixelScale = Some m)
                    (map (fun h => cell_index sl (fst h) (snd h)) ps) masks /\
      forall c, In c (concat masks) <-> exists p, In p ps /\ crosses b (cell_at 1000 l p) 1000 c).
  { induction ps as [|p ps IH]; intros Hp.
    - exists []. split; [constructor|]. intros c. cbn. split; [contradiction | now intros [? [[] _]]].
    - destruct IH as [masks [F M]]; [intros; apply Hp; now right|].
      destruct (cell_at_sub_range l (rd_origin rd) L (I _ (or_introl eq_refl))) as [B1 B2]. fold b in B1, B2.
      destruct (cell_at_sub_range l p L (I _ (Hp p (or_introl eq_refl)))) as [E1 E2].
      destruct (C21_ray b (cell_at 1000 l p) 1000) as [m [Em [Gm _]]]; try (unfold int32; lia).
      exists (m :: masks). split.
      + cbn [map]. constructor; [|exact F]. rewrite Isub by (apply Hp; now left). exact Em.
      + intros c. cbn [concat]. rewrite in_app_iff, M, Gm. split.
        * intros [H | [q [Iq H]]]; [exists p | exists q]; split; auto; [now left | now right].
        * intros [q [[<- | Iq] H]]; [now left | right; now exists q]. }
  destruct (Hrays _ Ir) as [mr [Fr Mr]]. destruct (Hrays _ Im) as [mm [Fm Mm]].
  set (hits := map (fun p => cell_at 1 l p) (rd_returns rd)).
  set (acc := accs ht hits ++ if free then accs mt (concat mr ++ concat mm) else []).
  assert (Ecast : cast_rays rd ht mt free g1 = app g1 acc).
  { unfold cast_rays. fold l. rewrite (superscaled_ok l L Nx Ny). fold sl.
    rewrite (Isub _ (or_introl eq_refl)). fold b. rewrite apply_hits_app.
    assert (EH : map (fun h => (Z.quot (fst (cell_index sl (fst h) (snd h))) kSubpixelScale,
                                Z.quot (snd (cell_index sl (fst h) (snd h))) kSubpixelScale)) (rd_returns rd) = hits).
    { apply map_ext_in. intros p Ip. rewrite (Isub p (Ir p Ip)).
      destruct (cell_at_sub_range l p L (I _ (Ir p Ip))) as [[A1 _] [A2 _]].
      unfold kSubpixelScale. rewrite !Z.quot_div_nonneg by lia.
      exact (cell_at_div l p). }
    rewrite EH. unfold acc. rewrite app_app. destruct (app g1 (accs ht hits)) as [g2|]; [|reflexivity].
    cbn [option_map]. destruct free; [|reflexivity].
    rewrite (apply_rays_app mt b _ _ Fr). unfold accs at 2. rewrite map_app, app_app. fold (accs mt (concat mr)).
    destruct (app g2 (accs mt (concat mr))) as [g3|]; [|reflexivity].
    apply (apply_rays_app mt b _ _ Fm). }
  assert (Cont : forall c, In c (concat mr ++ concat mm) -> contains l (fst c) (snd c) = true).
  { intros c Ic. rewrite in_app_iff, Mr, Mm in Ic.
    assert (H : exists p, In p (scan_points rd) /\ crosses b (cell_at 1000 l p) 1000 c)
      by (destruct Ic as [[p [Ip H]] | [p [Ip H]]]; exists p; split; auto).
    destruct H as [p [Ip H]].
    destruct (cell_at_sub_range l (rd_origin rd) L (I _ (or_introl eq_refl))) as [B1 B2].
    destruct (cell_at_sub_range l p L (I _ Ip)) as [E1 E2].
    now apply (crosses_inside l b (cell_at 1000 l p) c L). }
  assert (Hacc : forall x y t, In (x, y, t) acc -> contains l x y = true /\ good_table t).
  { intros x y t Ia. unfold acc in Ia. apply in_app_or in Ia. destruct Ia as [Ia | Ia].
    - apply in_map_iff in Ia. destruct Ia as [[cx cy] [E Ic]]. injection E as <- <- <-. cbn [fst snd].
      split; [|exact HT]. apply in_map_iff in Ic. destruct Ic as [p [E Ip]].
      destruct (cell_at_range l p L (I _ (Ir p Ip))). rewrite E in *. cbn [fst snd] in *. apply contains_iff. lia.
    - destruct free; [|contradiction]. apply in_map_iff in Ia. destruct Ia as [[cx cy] [E Ic]].
      injection E as <- <- <-. cbn [fst snd]. split; [exact (Cont _ Ic) | exact MT]. }
  destruct (C15_update_once g1 acc R1 U1 Hacc) as [g2 [g3 [A [Fi [U3 [L3 V]]]]]].
  exists g3. split.
  { intros m Hm. unfold insert. rewrite (G m Hm), Ecast. unfold app. rewrite A. cbn [option_map fst]. now rewrite Fi. }
  split.
  { apply (reach_run [OFinish] g2).
    - apply (reach_app acc g1 g2 R1).
      + apply Forall_forall. intros [[x y] t] Ia. apply (Hacc _ _ _ Ia).
      + unfold app. now rewrite A.
    - repeat constructor.
    - cbn [run step]. now rewrite Fi. }
  split; [exact U3|]. split; [exact L3|].
  intros x y C. destruct (V x y C) as [v [Ev [Bv M]]].
  destruct (HT v Bv) as [wh [Eh Bh]]. destruct (MT v Bv) as [wm [Emm Bm]].
  exists v, (wh - 32768), (wm - 32768). unfold kUpdateMarker.
  split; [exact Ev|]. split; [rewrite Eh; f_equal; lia|]. split; [lia|].
  split; [rewrite Emm; f_equal; lia|]. split; [lia|].
  assert (Hit : is_hit l rd (x, y) <-> In (x, y) hits).
  { unfold is_hit, hits. rewrite in_map_iff. split; intros [p [A1 A2]]; exists p; now split. }
  assert (Cr : is_crossed l rd (x, y) <-> In (x, y) (concat mr ++ concat mm)).
  { unfold is_crossed. rewrite in_app_iff, Mr, Mm. fold b. split.
    - intros [p [Ip Hp]]. apply in_app_or in Ip. destruct Ip; [left | right]; now exists p.
    - intros [[p [Ip Hp]] | [p [Ip Hp]]]; exists p; (split; [apply in_or_app; auto | exact Hp]). }
  unfold acc in M. rewrite first_access_app in M.
  destruct (first_access_accs x y ht hits) as [Fh Fh'].
  destruct (first_access_accs x y mt (concat mr ++ concat mm)) as [Fc Fc'].
  split; [|split].
  - intros H. rewrite Fh in M by now apply Hit. destruct M as [r [E1 [_ E2]]].
    rewrite E2. f_equal. unfold kUpdateMarker in E1. rewrite Eh in E1. injection E1. lia.
  - intros H -> K. rewrite Fh' in M by (rewrite <- Hit; exact H).
    rewrite Fc in M by now apply Cr. destruct M as [r [E1 [_ E2]]].
    rewrite E2. f_equal. unfold kUpdateMarker in E1. rewrite Emm in E1. injection E1. lia.
  - intros H K. rewrite Fh' in M by (rewrite <- Hit; exact H). destruct free.
    + destruct K as [K | K]; [discriminate|]. rewrite Fc' in M by (rewrite <- Cr; exact K). exact M.
    + exact M.
Qed.

(* a 4 x 4 grid of cells of 1/2 m; a return two cells away and a miss; tables which
   take unknown to 1 (hit) and 2 (miss) *)
Definition ex_hit : list Z := map (fun v => if v =? 0 then 32769 else 32768 + v) (zrange 32768).
Definition ex_miss : list Z := map (fun v => if v =? 0 then 32770 else 32768 + v) (zrange 32768).
Definition ex_rd : range_data :=
  mk_range_data (1 # 4, 1 # 4)%Q [(5 # 4, 1 # 4)%Q] [(1 # 4, 7 # 4)%Q].
Example C22_example :
  match new_limits (1 # 2) 2 2 4 4 with
  | Some l =>
      match new_probability_grid l with
      | Some g => match insert 5 ex_rd ex_hit ex_miss true g with
                  | Done g2 => g_cells g2 = [0; 0; 0; 0;  0; 0; 0; 1;  0; 0; 0; 2;  2; 2; 2; 2] /\
                               is_hit l ex_rd (3, 1)
                  | _ => False
                  end
      | None => False
      end
  | None => False
  end.
Proof.
  vm_compute. split; [reflexivity|]. exists (5 # 4, 1 # 4)%Q. split; [now left | reflexivity].
Qed.

Print Assumptions C22_insert.
