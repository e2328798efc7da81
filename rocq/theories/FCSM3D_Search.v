(* Branch and bound over the stack of 3D grids. *)
From Coq Require Import List ZArith Bool Lia Sorted Permutation.
From Verif Require Import Float32 PV_Model G2_Model G2_Spec HG_Model HG_Spec HG_Wrap HG_Dyn HG_Proofs
  FCSM2D_Model FCSM2D_Proofs FCSM3D_Model FCSM3D_Spec FCSM3D_Grid FCSM3D_Stack.
Import ListNotations.
Open Scope Z_scope.

(* ---- sums ---- *)
Definition big (p : Z3) : Prop := within (- 2 ^ 30) (2 ^ 30) p.
Fixpoint psum (g : pgrid3) (e : Z) (cells : list Z3) (o : Z3) : Z :=
  match cells with [] => 0 | c :: r => pv g (shr3 e (add3 c o)) + psum g e r o end.
Definition aligned (w : window3) (e : Z) (o : Z3) : Prop :=
  (exists a, vx o = - w_xy w + a * 2 ^ e) /\ (exists b, vy o = - w_xy w + b * 2 ^ e) /\ (exists c, vz o = - w_z w + c * 2 ^ e).
Lemma aligned_le w d e o : 0 <= e <= d -> aligned w d o -> aligned w e o.
Proof.
  intros H ((a & A) & (b & B) & (c & C)). rewrite (pow_half d e H) in A, B, C.
  split; [|split]; [exists (a * 2 ^ (d - e)) | exists (b * 2 ^ (d - e)) | exists (c * 2 ^ (d - e))]; rewrite <- Z.mul_assoc; assumption.
Qed.
Lemma int_shr e p : 0 <= e -> big p -> int_index (shr3 e p).
Proof.
  intros He H. unfold big, int_index, within, shr3, map3 in *. cbn [vx vy vz fst snd].
  assert (Q : forall c, - 2 ^ 30 <= c < 2 ^ 30 -> - 2 ^ 30 <= Z.shiftr c e < 2 ^ 30) by (intros c Hc; apply shr_bound; lia).
  pose proof (Q (vx p)). pose proof (Q (vy p)). pose proof (Q (vz p)). lia.
Qed.
Lemma index_shift w e c o : 0 <= e -> aligned w e o ->
  zip3 Z.add (zip3 Z.sub (map3 (fun a => Z.shiftr a e) (zip3 Z.add c (window_start w)))
                         (map3 (fun a => Z.shiftr a e) (window_start w)))
             (map3 (fun a => Z.shiftr a e) o) = shr3 e (add3 c o).
Proof.
  intros He ((a & A) & (b & B) & (d & D)). unfold shr3, add3, zip3, map3, window_start. cbn [vx vy vz fst snd]. rewrite A, B, D.
  rewrite !Z.add_assoc, !shift_add by exact He. f_equal; [f_equal|]; lia.
Qed.
Lemma low_cells_0 w cells : low_cells w 0 cells = cells.
Proof.
  unfold low_cells. erewrite map_ext; [apply map_id|]. intros [[x y] z]. unfold zip3, map3, window_start. cbn [vx vy vz fst snd].
  rewrite !Z.shiftr_0_r. f_equal; [f_equal|]; lia.
Qed.
Lemma sum_cells_ok g w e cells o : hdwf g -> 0 <= e -> aligned w e o ->
  (forall c, In c cells -> big (add3 c o)) ->
  sum_cells g (map3 (fun a => Z.shiftr a e) o) (low_cells w e cells) = Some (psum g e cells o).
Proof.
  intros D He A. unfold low_cells. induction cells as [|c r IH]; intros B; [reflexivity|]. cbn [map sum_cells psum].
  rewrite (index_shift w e c o He A). rewrite (pv_eq g _ D) by (apply int_shr; [exact He | apply B; now left]).
  rewrite IH by (intros k K; apply B; now right). reflexivity.
Qed.

Section Scores.
Variable h : hybrid.
Variables fd lo : Z.
Hypothesis Hh : hwf h.
Hypothesis Hfd : 1 <= fd.
Lemma scan_sum_range cells o : (forall c, In c cells -> big (add3 c o)) ->
  0 <= scan_sum3 h cells o <= 255 * Z.of_nat (length cells).
Proof.
  induction cells as [|c r IH]; intros B; cbn [scan_sum3 length]; [lia|].
  assert (R : 0 <= voxel8 h (vx c + vx o, vy c + vy o, vz c + vz o) <= 255).
  { apply voxel8_range; [exact Hh|]. specialize (B c (or_introl eq_refl)). unfold big, int_index, within, add3, zip3 in *. cbn [vx vy vz fst snd] in *. lia. }
  specialize (IH (fun k K => B k (or_intror K))). lia.
Qed.
Lemma psum_range d g cells o : level3 h fd lo d g -> 0 <= exp3 fd d -> (forall c, In c cells -> big (add3 c o)) ->
  0 <= psum g (exp3 fd d) cells o <= 255 * Z.of_nat (length cells).
Proof.
  intros L He. induction cells as [|c r IH]; intros B; cbn [psum length]; [lia|].
  pose proof (l_range _ _ _ _ _ L _ (int_shr (exp3 fd d) _ He (B c (or_introl eq_refl)))).
  specialize (IH (fun k K => B k (or_intror K))). lia.
Qed.
(* the sum at level d is at least the sum at every offset of the cube *)
Lemma sum_dom d g cells o o' : level3 h fd lo d g -> (forall c, In c cells -> big (add3 c o)) ->
  within 0 (2 ^ d) (vx o' - vx o, vy o' - vy o, vz o' - vz o) ->
  scan_sum3 h cells o' <= psum g (exp3 fd d) cells o.
Proof.
  intros L B T. induction cells as [|c r IH]; cbn [scan_sum3 psum]; [lia|].
  pose proof (l_dom _ _ _ _ _ L (add3 c o) _ (B c (or_introl eq_refl)) T) as H.
  replace (add3 (add3 c o) (vx o' - vx o, vy o' - vy o, vz o' - vz o)) with (vx c + vx o', vy c + vy o', vz c + vz o') in H
    by (unfold add3, zip3; cbn [vx vy vz fst snd]; f_equal; [f_equal|]; lia).
  specialize (IH (fun k K => B k (or_intror K))). lia.
Qed.
Lemma sum_zero g cells o : (forall i, int_index i -> pv g i = voxel8 h i) -> (forall c, In c cells -> big (add3 c o)) ->
  psum g 0 cells o = scan_sum3 h cells o.
Proof.
  intros V B. induction cells as [|c r IH]; cbn [scan_sum3 psum]; [reflexivity|].
  rewrite IH by (intros k K; apply B; now right). f_equal. specialize (B c (or_introl eq_refl)).
  assert (E : shr3 0 (add3 c o) = (vx c + vx o, vy c + vy o, vz c + vz o)).
  { unfold shr3, map3, add3, zip3. cbn [vx vy vz fst snd]. now rewrite !Z.shiftr_0_r. }
  rewrite E, V; [reflexivity|]. unfold big, int_index, within, add3, zip3 in *. cbn [vx vy vz fst snd] in *. lia.
Qed.
End Scores.

(* ---- scans ---- *)
Lemma discretize_ok bd fd w cells rot : 1 <= fd -> (1 <= bd)%nat -> exists s, discretize bd fd w cells rot = Some s /\ ds_rot s = rot /\
  forall d, (d < bd)%nat -> nth_error (ds_cells s) d = Some (low_cells w (exp3 fd (Z.of_nat d)) cells).
Proof.
  intros Hf Hb. unfold discretize. set (full := Z.min fd (Z.of_nat bd)).
  replace ((1 <=? full) && (0 <=? Z.of_nat bd - full)) with true by (symmetry; apply andb_true_intro; lia).
  eexists. split; [reflexivity|]. split; [reflexivity|]. intros d Hd. cbn [ds_cells].
  destruct (Nat.lt_ge_cases d (Z.to_nat full)) as [L | G].
  - rewrite nth_error_app1 by (rewrite repeat_length; exact L). rewrite nth_error_repeat by exact L. f_equal.
    replace (exp3 fd (Z.of_nat d)) with 0 by (unfold exp3; lia). now rewrite low_cells_0.
  - rewrite nth_error_app2 by (rewrite repeat_length; exact G). rewrite repeat_length.
    rewrite nth_error_map. assert (E : nth_error (seq 0 (Z.to_nat (Z.of_nat bd - full))) (d - Z.to_nat full) = Some (d - Z.to_nat full)%nat).
    { rewrite nth_error_nth' with (d := 0%nat) by (rewrite seq_length; lia). rewrite seq_nth by lia. reflexivity. }
    rewrite E. cbn [option_map]. f_equal. f_equal. unfold exp3. lia.
Qed.
Definition scan_ok (bd : nat) (fd : Z) (w : window3) (s : dscan3) (cr : Z * list Z3) : Prop :=
  ds_rot s = fst cr /\ forall d, (d < bd)%nat -> nth_error (ds_cells s) d = Some (low_cells w (exp3 fd (Z.of_nat d)) (snd cr)).
Lemma discretize_all_ok bd fd w min_rot rots : 1 <= fd -> (1 <= bd)%nat -> exists ss,
  discretize_all bd fd w min_rot rots = Some ss /\
  Forall2 (scan_ok bd fd w) ss (filter (fun r => min_rot <=? fst r) rots).
Proof.
  intros Hf Hb. induction rots as [|[rot cells] r IH]; cbn [discretize_all filter].
  - exists []. split; [reflexivity | constructor].
  - destruct IH as (ss & E & F). cbn [fst]. rewrite Z.ltb_antisym. destruct (min_rot <=? rot); cbn [negb]; [|now exists ss].
    destruct (discretize_ok bd fd w cells rot Hf Hb) as (s & Es & R & N). rewrite Es, E. exists (s :: ss). split; [reflexivity|].
    constructor; [split; assumption | exact F].
Qed.
Lemma F2_len {A B} (P : A -> B -> Prop) l l' : Forall2 P l l' -> length l = length l'.
Proof. intros H. induction H as [|a b l l' Hab H IH]; cbn; [reflexivity | now rewrite IH]. Qed.
Lemma F2_nth {A B} (P : A -> B -> Prop) l l' : Forall2 P l l' -> forall i, 
  match nth_error l i, nth_error l' i with Some a, Some b => P a b | None, None => True | _, _ => False end.
Proof. intros H. induction H as [|a b l l' Hab H IH]; intros [|i]; cbn; auto. apply IH. Qed.

(* ---- the search ---- *)
Section Search.
Variable to_score : Z -> Z -> Z.
Variable sort : list cand3 -> list cand3.
Variable low_score : Z -> Z3 -> Z.
Variable min_low : Z.
Variable h : hybrid.
Variable bd : nat.
Variables fd lo : Z.
Variable w : window3.
Variable rs : list (Z * list Z3).          (* the rotations that scored well enough *)
Variable ss : list dscan3.
Variable grids : list pgrid3.
Hypothesis Hh : hwf h.
Hypothesis Hfd : 1 <= fd.
Hypothesis score_mono : forall n a b, 1 <= n < 2 ^ 23 -> 0 <= a <= b -> b <= 255 * n -> to_score n a <= to_score n b.
Hypothesis sort_perm : forall l, Permutation l (sort l).
Hypothesis sort_sorted : forall l, StronglySorted (fun a b => score_lt (k_score a) (k_score b) = false) (sort l).
Hypothesis Hw : 0 <= w_xy w <= 2 ^ 29 /\ 0 <= w_z w <= 2 ^ 29.
Hypothesis Hrs : forall rot cells, In (rot, cells) rs -> cells_within (2 ^ 29 - 1) cells /\ 1 <= Z.of_nat (length cells) < 2 ^ 23.
Hypothesis Hss : Forall2 (scan_ok bd fd w) ss rs.
Hypothesis Hgl : length grids = bd.
Hypothesis Hg0 : forall g, nth_error grids 0 = Some g -> forall i, int_index i -> pv g i = voxel8 h i.
Hypothesis Hg : forall d g, nth_error grids d = Some g -> level3 h fd lo (Z.of_nat d) g.
Notation psc := (pose_score3 to_score h).

Lemma big_add rot cells c o : In (rot, cells) rs -> In c cells -> in_window3 w o -> big (add3 c o).
Proof.
  intros I C W. destruct (Hrs rot cells I) as [Q _]. specialize (Q c C). unfold in_window3, big, within, add3, zip3 in *. cbn [vx vy vz fst snd]. lia.
Qed.

(* a scored candidate of depth d *)
Definition vcand (d : nat) (c : cand3) : Prop :=
  exists g rot cells, nth_error grids d = Some g /\ 0 <= k_scan c /\ nth_error rs (Z.to_nat (k_scan c)) = Some (rot, cells) /\
    in_window3 w (k_off c) /\ aligned w (Z.of_nat d) (k_off c) /\
    k_score c = Some (to_score (Z.of_nat (length cells)) (psum g (exp3 fd (Z.of_nat d)) cells (k_off c))).
(* the offsets a candidate stands for *)
Definition cleaf (d : nat) (c : cand3) (o : Z3) : Prop :=
  within 0 (2 ^ Z.of_nat d) (vx o - vx (k_off c), vy o - vy (k_off c), vz o - vz (k_off c)) /\ in_window3 w o.

Lemma leaf_bound d c o rot cells : vcand d c -> cleaf d c o -> nth_error rs (Z.to_nat (k_scan c)) = Some (rot, cells) ->
  exists z, k_score c = Some z /\ psc cells o <= z.
Proof.
  intros (g & rot' & cells' & G & I & N & W & A & E) (L & Wo) N'. rewrite N in N'. injection N' as -> ->.
  pose proof (nth_error_In _ _ N) as In1. eexists. split; [exact E|]. unfold pose_score3.
  pose proof (fun c0 I0 => big_add rot cells c0 _ In1 I0 W) as B. apply score_mono.
  - apply (Hrs rot cells In1).
  - split; [apply (scan_sum_range h Hh); intros; eapply big_add; eassumption|].
    eapply (sum_dom h fd lo); [apply Hg; exact G | exact B | exact L].
  - apply (psum_range h fd lo (Z.of_nat d)); [apply Hg; exact G | unfold exp3; lia | exact B].
Qed.
Lemma leaf_zero c o rot cells : vcand 0 c -> cleaf 0 c o -> nth_error rs (Z.to_nat (k_scan c)) = Some (rot, cells) ->
  o = k_off c /\ k_score c = Some (psc cells o).
Proof.
  intros (g & rot' & cells' & G & I & N & W & A & E) (L & Wo) N'. rewrite N in N'. injection N' as -> ->.
  assert (Eo : o = k_off c).
  { destruct o as [[ox oy] oz], (k_off c) as [[kx ky] kz]. unfold within in L. cbn in L. f_equal; [f_equal|]; lia. }
  split; [exact Eo|]. subst o. rewrite E. unfold pose_score3. do 2 f_equal. change (exp3 fd (Z.of_nat 0)) with (Z.max 0 (0 - fd + 1)).
  replace (Z.max 0 (0 - fd + 1)) with 0 by lia. apply sum_zero; [apply (Hg0 g G)|].
  intros c0 I0. eapply big_add; [apply (nth_error_In _ _ N) | exact I0 | exact W].
Qed.

Lemma score3_ok d g i o rot cells : nth_error grids d = Some g -> 0 <= i -> nth_error rs (Z.to_nat i) = Some (rot, cells) ->
  in_window3 w o -> aligned w (Z.of_nat d) o ->
  exists k, score3 to_score g fd d ss (i, o) = Some k /\ k_scan k = i /\ k_off k = o /\ vcand d k.
Proof.
  intros G I N W A. unfold score3. cbn [fst snd]. unfold scan3. replace (i <? 0) with false by lia.
  pose proof (F2_nth _ _ _ Hss (Z.to_nat i)) as F. rewrite N in F. destruct (nth_error ss (Z.to_nat i)) as [s|]; [|contradiction].
  destruct F as [_ F]. rewrite F by (rewrite <- Hgl; apply nth_error_Some; congruence).
  cbn [snd]. fold (exp3 fd (Z.of_nat d)).
  assert (He : 0 <= exp3 fd (Z.of_nat d) <= Z.of_nat d) by (unfold exp3; lia).
  rewrite (sum_cells_ok g w (exp3 fd (Z.of_nat d)) cells o).
  - eexists. split; [reflexivity|]. split; [reflexivity|]. split; [reflexivity|]. exists g, rot, cells. cbn [k_scan k_off k_score].
    do 5 (split; [assumption|]). unfold low_cells. now rewrite map_length.
  - apply (Hg d g G).
  - lia.
  - apply (aligned_le w (Z.of_nat d)); assumption.
  - intros c C. eapply big_add; [apply (nth_error_In _ _ N) | exact C | exact W].
Qed.
Definition good_ref (d : nat) (c : Z * Z3) : Prop :=
  0 <= fst c /\ (Z.to_nat (fst c) < length rs)%nat /\ in_window3 w (snd c) /\ aligned w (Z.of_nat d) (snd c).
Lemma score_list_ok d g cs : nth_error grids d = Some g -> (forall c, In c cs -> good_ref d c) ->
  exists ks, score_list to_score g fd d ss cs = Some ks /\ (forall k, In k ks -> vcand d k) /\
    map (fun k => (k_scan k, k_off k)) ks = cs.
Proof.
  intros G. induction cs as [|[i o] cs IH]; intros R; cbn [score_list].
  - exists []. split; [reflexivity|]. split; [intros ? [] | reflexivity].
  - destruct (R (i, o) (or_introl eq_refl)) as (I & L & W & A). cbn [fst snd] in *.
    destruct (nth_error rs (Z.to_nat i)) as [[rot cells]|] eqn:N; [|apply nth_error_None in N; lia].
    destruct (score3_ok d g i o rot cells G I N W A) as (k & -> & Ei & Eo & V).
    destruct IH as (ks & -> & Vs & Em). { intros c C. apply R. now right. }
    exists (k :: ks). split; [reflexivity|]. split; [intros k' [<- | K]; auto|]. cbn [map]. now rewrite Ei, Eo, Em.
Qed.
Lemma candidates_ok d cs : (d < bd)%nat -> (forall c, In c cs -> good_ref d c) ->
  exists ks, score_candidates3 to_score sort grids fd d ss cs = Some ks /\ (forall k, In k ks -> vcand d k) /\
    StronglySorted (fun a b => score_lt (k_score a) (k_score b) = false) ks /\
    (forall k, In k ks -> In (k_scan k, k_off k) cs) /\
    (forall c, In c cs -> exists k, In k ks /\ (k_scan k, k_off k) = c).
Proof.
  intros Hd R. unfold score_candidates3. destruct (nth_error grids d) as [g|] eqn:G; [|apply nth_error_None in G; lia].
  destruct (score_list_ok d g cs G R) as (ks & -> & V & M). exists (sort ks). split; [reflexivity|].
  assert (P : forall k, In k (sort ks) <-> In k ks).
  { intros k. split; apply Permutation_in; [apply Permutation_sym|]; apply sort_perm. }
  split; [intros k K; apply V, P, K|]. split; [apply sort_sorted|]. split.
  - intros k K. rewrite <- M. apply (in_map (fun k => (k_scan k, k_off k))). now apply P.
  - intros c C. rewrite <- M in C. apply in_map_iff in C as (k & E & K). exists k. split; [now apply P | exact E].
Qed.

Lemma children3_In half c i o : 0 < half -> In (i, o) (children3 w half c) <-> i = k_scan c /\
  ((vx o = vx (k_off c) \/ vx o = vx (k_off c) + half) /\ vx o <= w_xy w) /\
  ((vy o = vy (k_off c) \/ vy o = vy (k_off c) + half) /\ vy o <= w_xy w) /\
  ((vz o = vz (k_off c) \/ vz o = vz (k_off c) + half) /\ vz o <= w_z w).
Proof.
  intros Hh'. unfold children3. rewrite in_flat_map. split.
  - intros (z & Z & Q). apply in_flat_map in Q as (y & Y & Q). apply in_map_iff in Q as (x & E & X). injection E as <- <-.
    apply offsets_In in X, Y, Z; auto.
  - intros (-> & X & Y & Z). destruct o as [[x y] z]. cbn [vx vy vz fst snd] in *. exists z. split; [now apply offsets_In|].
    apply in_flat_map. exists y. split; [now apply offsets_In|]. apply in_map_iff. exists x. split; [reflexivity | now apply offsets_In].
Qed.
Lemma children_ok d c : (S d < bd)%nat -> vcand (S d) c ->
  exists hs, score_candidates3 to_score sort grids fd d ss (children3 w (Z.shiftl 1 (Z.of_nat d)) c) = Some hs /\
    (forall k, In k hs -> vcand d k) /\ StronglySorted (fun a b => score_lt (k_score a) (k_score b) = false) hs /\
    (forall o, cleaf (S d) c o -> exists k, In k hs /\ cleaf d k o /\ k_scan k = k_scan c) /\
    (forall k o, In k hs -> cleaf d k o -> cleaf (S d) c o /\ k_scan k = k_scan c).
Proof.
  intros Hd (g & rot & cells & G & I & N & W & A & E). rewrite Z.shiftl_1_l.
  assert (Hp : 0 < 2 ^ Z.of_nat d) by (apply Z.pow_pos_nonneg; lia).
  assert (Hk : 2 ^ Z.of_nat (S d) = 2 * 2 ^ Z.of_nat d) by (rewrite Nat2Z.inj_succ, Z.pow_succ_r; lia).
  destruct (candidates_ok d (children3 w (2 ^ Z.of_nat d) c)) as (hs & Es & V & S & R1 & R2).
  - lia.
  - intros [i o] C. apply children3_In in C; [|exact Hp]. destruct C as (-> & X & Y & Z). split; [exact I|].
    split; [apply nth_error_Some; cbn [fst]; congruence|]. cbn [snd]. split; [unfold in_window3 in *; lia|].
    destruct A as ((ax & Ax) & (ay & Ay) & (az & Az)). rewrite Hk in *. split; [|split].
    + destruct X as [[-> | ->] _]; [exists (2 * ax) | exists (2 * ax + 1)]; lia.
    + destruct Y as [[-> | ->] _]; [exists (2 * ay) | exists (2 * ay + 1)]; lia.
    + destruct Z as [[-> | ->] _]; [exists (2 * az) | exists (2 * az + 1)]; lia.
  - exists hs. split; [exact Es|]. split; [exact V|]. split; [exact S|]. split.
    + intros o (L & Wo). unfold within in L. cbn [vx vy vz fst snd] in L. rewrite Hk in L.
      set (pick := fun a b => if a <? b + 2 ^ Z.of_nat d then b else b + 2 ^ Z.of_nat d).
      destruct (R2 (k_scan c, (pick (vx o) (vx (k_off c)), pick (vy o) (vy (k_off c)), pick (vz o) (vz (k_off c))))) as (k & K & Ek).
      { apply children3_In; [exact Hp|]. cbn [vx vy vz fst snd]. unfold in_window3 in *. unfold pick. split; [reflexivity|].
        split; [|split].
        - destruct (Z.ltb_spec (vx o) (vx (k_off c) + 2 ^ Z.of_nat d)); lia.
        - destruct (Z.ltb_spec (vy o) (vy (k_off c) + 2 ^ Z.of_nat d)); lia.
        - destruct (Z.ltb_spec (vz o) (vz (k_off c) + 2 ^ Z.of_nat d)); lia. }
      injection Ek as E1 E2. exists k. split; [exact K|]. split; [|exact E1]. split; [|exact Wo]. rewrite E2.
      unfold within, pick. cbn [vx vy vz fst snd]. split; [|split].
      * destruct (Z.ltb_spec (vx o) (vx (k_off c) + 2 ^ Z.of_nat d)); lia.
      * destruct (Z.ltb_spec (vy o) (vy (k_off c) + 2 ^ Z.of_nat d)); lia.
      * destruct (Z.ltb_spec (vz o) (vz (k_off c) + 2 ^ Z.of_nat d)); lia.
    + intros k o K (L & Wo). apply R1 in K. apply children3_In in K; [|exact Hp]. destruct K as (Ek & X & Y & Z). split; [|exact Ek].
      split; [|exact Wo]. unfold within in *. cbn [vx vy vz fst snd] in *. rewrite Hk. lia.
Qed.

Notation okl c o := (min_low <= low_score (k_scan c) o).
Definition at_scan (c : cand3) (o : Z3) (z : Z) : Prop :=
  exists rot cells, nth_error rs (Z.to_nat (k_scan c)) = Some (rot, cells) /\ z = psc cells o.
Definition found (d : nat) (cs : list cand3) (r : cand3) : Prop :=
  vcand 0 r /\ okl r (k_off r) /\ exists c, In c cs /\ cleaf d c (k_off r) /\ k_scan c = k_scan r.
Definition good (d : nat) (cs : list cand3) (m : Z) (r : cand3) : Prop :=
  (forall c o z, In c cs -> cleaf d c o -> okl c o -> at_scan c o z -> z <= m \/ exists s, k_score r = Some s /\ z <= s) /\
  (forall s, k_score r = Some s -> m < s -> found d cs r).
Lemma cleaf_self c : vcand 0 c -> cleaf 0 c (k_off c).
Proof.
  intros (g & rot & cells & _ & _ & _ & W & _). split; [|exact W]. unfold within. cbn [vx vy vz fst snd].
  change (2 ^ Z.of_nat 0) with 1. lia.
Qed.
Lemma first_good_ok cs m : (forall c, In c cs -> vcand 0 c) ->
  StronglySorted (fun a b => score_lt (k_score a) (k_score b) = false) cs -> good 0 cs m (first_good low_score min_low cs (Some m)).
Proof.
  intros V S. induction S as [|c r S IH F]; cbn [first_good].
  - split; [intros ? ? ? [] | discriminate].
  - assert (V0 : vcand 0 c) by (apply V; now left). rewrite Forall_forall in F.
    assert (Sc : exists z, k_score c = Some z) by (destruct V0 as (g & rot & cells & _ & _ & _ & _ & _ & E); eauto).
    destruct Sc as [z Ez]. rewrite Ez. cbn [score_lt].
    assert (Leq : forall k o y, In k (c :: r) -> cleaf 0 k o -> at_scan k o y -> y <= z).
    { intros k o y K L (rot & cells & N & ->). destruct (leaf_zero k o rot cells (V k K) L N) as [_ Es].
      destruct K as [<- | K]; [rewrite Ez in Es; injection Es as <-; lia|].
      specialize (F k K). rewrite Ez, Es in F. cbn [score_lt] in F. lia. }
    destruct (Z.ltb_spec m z) as [Hz | Hz].
    + destruct (Z.leb_spec min_low (low_score (k_scan c) (k_off c))) as [Ok | Ok].
      * split.
        -- intros k o y K L _ A. right. exists z. split; [exact Ez|]. now apply (Leq k o).
        -- intros s Es Hs. split; [exact V0|]. split; [exact Ok|]. exists c. split; [now left|]. split; [now apply cleaf_self | reflexivity].
      * destruct IH as [I1 I2]. { intros k K. apply V. now right. }
        split.
        -- intros k o y [<- | K] L Okk A; [|now apply (I1 k o)]. exfalso. destruct A as (rot & cells & N & ->).
           destruct (leaf_zero c o rot cells V0 L N) as [-> _]. lia.
        -- intros s Es Hs. destruct (I2 s Es Hs) as (Vr & Okr & k & K & L & Q). split; [exact Vr|]. split; [exact Okr|].
           exists k. split; [now right | auto].
    + split.
      * intros k o y K L _ A. left. specialize (Leq k o y K L A). lia.
      * discriminate.
Qed.

Definition loop3 (d : nat) (m : Z) :=
  fix loop (cs : list cand3) (best : cand3) : option cand3 :=
    match cs with
    | [] => Some best
    | c :: r =>
        if score_lt (Some m) (k_score c) then
          match score_candidates3 to_score sort grids fd d ss (children3 w (Z.shiftl 1 (Z.of_nat d)) c) with
          | None => None
          | Some hs =>
              match bnb3 to_score sort low_score min_low grids fd w ss d hs (k_score best) with
              | None => None
              | Some h => loop r (if score_lt (k_score best) (k_score h) then h else best)
              end
          end
        else Some best
    end.
Lemma bnb3_S d cs m : bnb3 to_score sort low_score min_low grids fd w ss (S d) cs (Some m) =
  loop3 d m cs (mk_cand3 0 (0, 0, 0) (Some m)).
Proof. reflexivity. Qed.

Lemma bnb3_good d : forall cs m, (d < bd)%nat -> (forall c, In c cs -> vcand d c) ->
  StronglySorted (fun a b => score_lt (k_score a) (k_score b) = false) cs ->
  exists r, bnb3 to_score sort low_score min_low grids fd w ss d cs (Some m) = Some r /\ good d cs m r.
Proof.
  induction d as [|d IH]; intros cs m Hd V S.
  - eexists. split; [reflexivity|]. now apply first_good_ok.
  - rewrite bnb3_S.
    assert (HL : forall cs2 cs1 best b,
      (forall c, In c (cs1 ++ cs2) -> vcand (Datatypes.S d) c) ->
      StronglySorted (fun a b => score_lt (k_score a) (k_score b) = false) cs2 ->
      k_score best = Some b -> m <= b -> good (Datatypes.S d) cs1 m best ->
      exists r, loop3 d m cs2 best = Some r /\ good (Datatypes.S d) (cs1 ++ cs2) m r).
    { clear cs V S. induction cs2 as [|c cs2 IH2]; intros cs1 best b V S Eb Hb G; cbn [loop3].
      - exists best. rewrite app_nil_r. auto.
      - apply StronglySorted_inv in S as [S' F]. rewrite Forall_forall in F.
        assert (Vc : vcand (Datatypes.S d) c) by (apply V, in_or_app; right; now left).
        assert (Sc : exists z, k_score c = Some z) by (destruct Vc as (g & rot & cells & _ & _ & _ & _ & _ & E); eauto).
        destruct Sc as [z Ez]. rewrite Ez. cbn [score_lt].
        destruct (Z.ltb_spec m z) as [Hz | Hz].
        + destruct (children_ok d c Hd Vc) as (hs & -> & C2 & C1 & C3 & C4).
          rewrite Eb. destruct (IH hs b ltac:(lia) C2 C1) as (r1 & -> & H1 & H2).
          destruct G as [G1 G2].
          set (best' := if score_lt (Some b) (k_score r1) then r1 else best).
          assert (Bs : exists b', k_score best' = Some b' /\ b <= b' /\
                       (b' = b \/ k_score r1 = Some b') /\ forall s, k_score r1 = Some s -> s <= b').
          { unfold best'. destruct (k_score r1) as [s1|] eqn:E1; cbn [score_lt].
            - destruct (Z.ltb_spec b s1).
              + exists s1. split; [exact E1|]. split; [lia|]. split; [now right|]. intros s Es. injection Es as <-. lia.
              + exists b. split; [exact Eb|]. split; [lia|]. split; [now left|]. intros s Es. injection Es as <-. lia.
            - exists b. split; [exact Eb|]. split; [lia|]. split; [now left | discriminate]. }
          destruct Bs as (b' & Eb' & Hbb & _ & Mx).
          destruct (IH2 (cs1 ++ [c]) best' b') as (r & Er & Gr).
          * rewrite <- app_assoc. exact V.
          * exact S'.
          * exact Eb'.
          * lia.
          * split.
            -- intros k o y K L Ok A. apply in_app_or in K as [K | [<- | []]].
               ++ destruct (G1 k o y K L Ok A) as [Q | (s & Es & Q)]; [now left|]. right. exists b'. split; [exact Eb'|].
                  rewrite Eb in Es. injection Es as <-. lia.
               ++ right. exists b'. split; [exact Eb'|]. destruct (C3 o L) as (k & K & Lk & Qk).
                  destruct (H1 k o y K Lk) as [Q | (s & Es & Q)].
                  ** now rewrite Qk.
                  ** destruct A as (rot & cells & N & ->). exists rot, cells. now rewrite Qk.
                  ** lia.
                  ** specialize (Mx s Es). lia.
            -- intros s Es Hs. unfold best' in *. destruct (score_lt (Some b) (k_score r1)) eqn:Lt.
               ++ assert (b < s) by (rewrite Es in Lt; cbn [score_lt] in Lt; lia).
                  destruct (H2 s Es ltac:(lia)) as (Vr & Okr & k & K & L & Q). split; [exact Vr|]. split; [exact Okr|].
                  destruct (C4 k _ K L) as [L' Q']. exists c. split; [apply in_or_app; right; now left|]. split; [exact L' | congruence].
               ++ destruct (G2 s Es Hs) as (Vr & Okr & k & K & L & Q). split; [exact Vr|]. split; [exact Okr|].
                  exists k. split; [apply in_or_app; now left | auto].
          * exists r. rewrite <- app_assoc in Gr. split; [exact Er | exact Gr].
        + exists best. split; [reflexivity|]. destruct G as [G1 G2]. split.
          * intros k o y K L Ok A. apply in_app_or in K as [K | K]; [now apply (G1 k o)|]. left.
            assert (Vk : vcand (Datatypes.S d) k) by (apply V, in_or_app; now right).
            destruct A as (rot & cells & N & ->). destruct (leaf_bound (Datatypes.S d) k o rot cells Vk L N) as (zk & Ek & Q).
            destruct K as [<- | K]; [rewrite Ez in Ek; injection Ek as <-; lia|].
            specialize (F k K). rewrite Ez, Ek in F. cbn [score_lt] in F. lia.
          * intros s Es Hs. destruct (G2 s Es Hs) as (Vr & Okr & k & K & L & Q). split; [exact Vr|]. split; [exact Okr|].
            exists k. split; [apply in_or_app; now left | auto]. }
    destruct (HL cs [] (mk_cand3 0 (0, 0, 0) (Some m)) m) as (r & Er & Gr).
    + exact V.
    + exact S.
    + reflexivity.
    + lia.
    + split; [intros ? ? ? [] | intros s Es; cbn [k_score] in Es; injection Es as <-; lia].
    + exists r. split; [exact Er | exact Gr].
Qed.

(* the first candidates cover the window *)
Lemma steps_In lo0 hi step v : 1 <= step -> In v (step_list lo0 hi step) -> lo0 <= v <= hi /\ exists a, v = lo0 + a * step.
Proof.
  intros Hs I. split; [eapply step_list_In; eassumption|]. revert I. unfold step_list. generalize (Z.to_nat (hi - lo0 + 1)). intros f.
  revert lo0. induction f as [|f IH]; cbn [steps]; [intros ? []|]. intros l. destruct (l <=? hi); [|intros []].
  intros [<- | I]; [exists 0; lia|]. destruct (IH _ I) as [a ->]. exists (a + 1). lia.
Qed.
Lemma generate3_ok top : exists cs, generate3 w top (length ss) = Some cs /\
  (forall c, In c cs -> good_ref top c) /\
  (forall i o, 0 <= i -> (Z.to_nat i < length rs)%nat -> in_window3 w o -> exists o', In (i, o') cs /\
     within 0 (2 ^ Z.of_nat top) (vx o - vx o', vy o - vy o', vz o - vz o')).
Proof.
  unfold generate3. rewrite Z.shiftl_1_l. set (step := 2 ^ Z.of_nat top).
  assert (Hs : 1 <= step) by (pose proof (Z.pow_pos_nonneg 2 (Z.of_nat top)); unfold step; lia).
  set (cs := flat_map _ (seq 0 (length ss))).
  assert (Len : length ss = length rs) by exact (F2_len _ _ _ Hss).
  assert (Lx : Z.of_nat (length (step_list (- w_xy w) (w_xy w) step)) = Z.quot (2 * w_xy w + step) step).
  { rewrite step_list_length by lia. unfold num_steps. f_equal. lia. }
  assert (Lz : Z.of_nat (length (step_list (- w_z w) (w_z w) step)) = Z.quot (2 * w_z w + step) step).
  { rewrite step_list_length by lia. unfold num_steps. f_equal. lia. }
  assert (Lc : Z.of_nat (length cs) = Z.of_nat (length ss) * Z.quot (2 * w_xy w + step) step ^ 2 * Z.quot (2 * w_z w + step) step).
  { unfold cs. set (lx := length (step_list (- w_xy w) (w_xy w) step)) in *. set (lz := length (step_list (- w_z w) (w_z w) step)) in *.
    rewrite flat_map_length with (n := (lz * (lx * lx))%nat).
    - rewrite seq_length. rewrite <- Lx, <- Lz, !Nat2Z.inj_mul. ring.
    - intros i. rewrite flat_map_length with (n := (lx * lx)%nat); [reflexivity|]. intros z.
      rewrite flat_map_length with (n := lx); [reflexivity|]. intros y. apply map_length. }
  rewrite Lc, Z.eqb_refl. exists cs. split; [reflexivity|].
  assert (In_cs : forall i o, In (i, o) cs <-> (exists n, (n < length rs)%nat /\ i = Z.of_nat n) /\
    In (vx o) (step_list (- w_xy w) (w_xy w) step) /\ In (vy o) (step_list (- w_xy w) (w_xy w) step) /\ In (vz o) (step_list (- w_z w) (w_z w) step)).
  { intros i o. unfold cs. rewrite in_flat_map. split.
    - intros (n & Sn & Q). apply in_seq in Sn. apply in_flat_map in Q as (z & Z & Q). apply in_flat_map in Q as (y & Y & Q).
      apply in_map_iff in Q as (x & E & X). injection E as <- <-. cbn [vx vy vz fst snd]. split; [exists n; split; [lia | reflexivity] | auto].
    - intros ((n & Ln & ->) & X & Y & Z). destruct o as [[x y] z]. cbn [vx vy vz fst snd] in *. exists n. split; [apply in_seq; lia|].
      apply in_flat_map. exists z. split; [exact Z|]. apply in_flat_map. exists y. split; [exact Y|]. apply in_map_iff. exists x. auto. }
  split.
  - intros [i o] I. apply In_cs in I as ((n & Ln & ->) & X & Y & Z).
    apply steps_In in X as [X1 X2]; [|exact Hs]. apply steps_In in Y as [Y1 Y2]; [|exact Hs]. apply steps_In in Z as [Z1 Z2]; [|exact Hs].
    unfold good_ref. cbn [fst snd]. split; [lia|]. split; [now rewrite Nat2Z.id|]. split; [unfold in_window3; lia|].
    unfold aligned. fold step. auto.
  - intros i o I Li (X & Y & Z).
    destruct (step_list_cover _ _ step (vx o) Hs X) as (x & Ix & Bx). destruct (step_list_cover _ _ step (vy o) Hs Y) as (y & Iy & By).
    destruct (step_list_cover _ _ step (vz o) Hs Z) as (z & Iz & Bz). exists (x, y, z). split.
    + apply In_cs. split; [exists (Z.to_nat i); split; [exact Li | lia]|]. auto.
    + unfold within. cbn [vx vy vz fst snd]. lia.
Qed.
End Search.

(* ---- the whole match ---- *)
Theorem match3_ok to_score sort low_score min_low bd fd h w min_rot rots min_score :
  hwf h -> 1 <= fd -> (1 <= bd <= 30)%nat -> Z.min fd (Z.of_nat bd) <= 14 ->
  room h (2 ^ (Z.min fd (Z.of_nat bd) - 1) - 1) ->
  (forall n a b, 1 <= n < 2 ^ 23 -> 0 <= a <= b -> b <= 255 * n -> to_score n a <= to_score n b) ->
  (forall l, Permutation l (sort l)) ->
  (forall l, StronglySorted (fun a b => score_lt (k_score a) (k_score b) = false) (sort l)) ->
  0 <= w_xy w <= 2 ^ 29 -> 0 <= w_z w <= 2 ^ 29 ->
  (forall rot cells, In (rot, cells) rots -> cells_within (2 ^ 29 - 1) cells /\ 1 <= Z.of_nat (length cells) < 2 ^ 23) ->
  exists N r, (forall n, (N <= n)%nat -> match3 to_score sort low_score min_low n bd fd h w min_rot rots min_score = Some r) /\
    match r with
    | None => forall i o cells rot, acceptable low_score min_low w rots min_rot i o cells rot -> pose_score3 to_score h cells o <= min_score
    | Some (sc, i, o, rot) =>
        (exists cells, acceptable low_score min_low w rots min_rot i o cells rot /\ sc = pose_score3 to_score h cells o) /\
        min_score < sc /\
        forall i' o' cells' rot', acceptable low_score min_low w rots min_rot i' o' cells' rot' -> pose_score3 to_score h cells' o' <= sc
    end.
Proof.
  intros Hh Hf Hb Hm Rm SM SP SS W1 W2 HR.
  destruct (stack3_ok h bd fd Hh Hf Hb Hm Rm) as (N & grids & EG & GL & G0 & G).
  destruct (discretize_all_ok bd fd w min_rot rots Hf ltac:(lia)) as (ss & ES & FS).
  set (rs := filter (fun r => min_rot <=? fst r) rots) in *.
  assert (Hrs : forall rot cells, In (rot, cells) rs -> cells_within (2 ^ 29 - 1) cells /\ 1 <= Z.of_nat (length cells) < 2 ^ 23).
  { intros rot cells I. apply filter_In in I as [I _]. now apply (HR rot). }
  set (top := Nat.pred bd).
  destruct (generate3_ok bd fd w rs ss grids (conj W1 W2) FS GL top) as (cs & Ec & R & Cov).
  destruct (candidates_ok to_score sort h bd fd _ w rs ss grids Hf SP SS (conj W1 W2) Hrs FS GL G top cs ltac:(lia) R) as (ks & Ek & V & S & _ & K2).
  destruct (bnb3_good to_score sort low_score min_low h bd fd _ w rs ss grids Hh Hf SM SP SS (conj W1 W2) Hrs FS GL G0 G top ks min_score ltac:(lia) V S)
    as (b & Eb & H1 & H2).
  assert (Opt : forall i o cells rot, acceptable low_score min_low w rots min_rot i o cells rot ->
    pose_score3 to_score h cells o <= min_score \/ exists s, k_score b = Some s /\ pose_score3 to_score h cells o <= s).
  { intros i o cells rot ((I & N1) & Wo & Ok). fold rs in N1.
    destruct (Cov i o I) as (o' & Io & L); [apply nth_error_Some; congruence | exact Wo|].
    destruct (K2 _ Io) as (k & Kk & Ekk). injection Ekk as E1 E2.
    apply (H1 k o); [exact Kk | split; [now rewrite E2 | exact Wo] | now rewrite E1 |]. exists rot, cells. now rewrite E1. }
  assert (Run : forall n, (N <= n)%nat -> match3 to_score sort low_score min_low n bd fd h w min_rot rots min_score =
    match k_score b with
    | Some sc => if min_score <? sc then match scan3 ss (k_scan b) with Some s => Some (Some (sc, k_scan b, k_off b, ds_rot s)) | None => None end
                 else Some None
    | None => Some None end).
  { intros n Hn. unfold match3. rewrite (EG n Hn), ES, GL. fold top. now rewrite Ec, Ek, Eb. }
  destruct (k_score b) as [sc|] eqn:Esc.
  2:{ exists N, None. split; [exact Run|]. intros i o cells rot A. destruct (Opt _ _ _ _ A) as [Q | (s & Q & _)]; [exact Q | discriminate]. }
  destruct (Z.ltb_spec min_score sc) as [L | L].
  2:{ exists N, None. split; [exact Run|]. intros i o cells rot A. destruct (Opt _ _ _ _ A) as [Q | (s & Q & P)]; [exact Q|]. injection Q as <-. lia. }
  destruct (H2 sc eq_refl L) as (Vb & Okb & _).
  pose proof (cleaf_self to_score bd fd w rs grids GL b Vb) as Lb. pose proof Vb as (g & rot & cells & _ & I & Nb & Wb & _ & _).
  pose proof (F2_nth _ _ _ FS (Z.to_nat (k_scan b))) as F. rewrite Nb in F.
  assert (Esn : scan3 ss (k_scan b) = nth_error ss (Z.to_nat (k_scan b))) by (unfold scan3; replace (k_scan b <? 0) with false by lia; reflexivity).
  destruct (nth_error ss (Z.to_nat (k_scan b))) as [s|] eqn:Es; [|contradiction]. destruct F as [Fr _]. rewrite Esn in Run. cbn [fst] in Fr.
  exists N, (Some (sc, k_scan b, k_off b, ds_rot s)). split; [exact Run|]. split; [|split; [exact L|]].
  - exists cells. destruct (leaf_zero to_score h bd fd w rs grids Hf (conj W1 W2) Hrs GL G0 b (k_off b) rot cells Vb Lb Nb) as [_ Ez].
    rewrite Esc in Ez. injection Ez as Ez. split; [|exact Ez]. rewrite Fr. split; [split; [exact I | exact Nb]|]. auto.
  - intros i' o' cells' rot' A. destruct (Opt _ _ _ _ A) as [Q | (s' & Q & P)]; [lia|]. injection Q as <-. exact P.
Qed.
