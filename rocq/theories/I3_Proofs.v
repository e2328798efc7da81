(* The 3D inserter as a sequence of accesses; geometry of the samples. *)
From Coq Require Import List ZArith Bool Lia SpecFloat.
From Verif Require Import Vec Float32 PV_Model G2_Model G2_Spec HG_Model HG_Spec HG_Wrap HG_Dyn HG_Proofs
  I3_Model I3_Spec.
Import ListNotations.
Open Scope Z_scope.

(* one coordinate *)
Lemma toward_unique o d k n c c' : 0 < n -> toward o d k n c -> toward o d k n c' -> c = c'.
Proof.
  intros N [A B] [A' B']. destruct (Z_lt_le_dec d 0) as [H | H].
  - specialize (B H). specialize (B' H). nia.
  - specialize (A H). specialize (A' H). nia.
Qed.
Lemma toward_quot o d k n : 0 < n -> 0 <= k -> toward o d k n (o + Z.quot (d * k) n).
Proof.
  intros N K. split; intros H; replace (o + d * k ÷ n - o) with (d * k ÷ n) by ring;
    pose proof (Z.quot_rem (d * k) n ltac:(lia)) as Q.
  - assert (0 <= d * k) by (apply Z.mul_nonneg_nonneg; lia).
    pose proof (Z.rem_bound_pos (d * k) n ltac:(assumption) N). lia.
  - assert (0 <= - (d * k)) by (rewrite <- Z.mul_opp_l; apply Z.mul_nonneg_nonneg; lia).
    pose proof (Z.rem_nonpos (d * k) n ltac:(lia) ltac:(lia)).
    pose proof (Z.rem_bound_abs (d * k) n ltac:(lia)). lia.
Qed.
Lemma toward_between o d k n c : 0 < n -> 0 <= k <= n -> Z.abs d <= n -> toward o d k n c ->
  Z.min o (o + d) <= c <= Z.max o (o + d) /\ (k = 0 -> c = o) /\ (k = n -> c = o + d) /\
  (d = n -> c = o + k) /\ (d = - n -> c = o - k).
Proof.
  intros N K D [A B]. destruct (Z_lt_le_dec d 0) as [H | H].
  - specialize (B H). clear A. repeat split; intros; nia.
  - specialize (A H). clear B. repeat split; intros; nia.
Qed.
Lemma toward_step o d k n c c' : 0 < n -> 0 <= k -> Z.abs d <= n -> toward o d k n c -> toward o d (k + 1) n c' ->
  Z.abs (c' - c) <= 1.
Proof.
  intros N K D [A B] [A' B']. destruct (Z_lt_le_dec d 0) as [H | H].
  - specialize (B H). specialize (B' H). clear A A'. nia.
  - specialize (A H). specialize (A' H). clear B B'. nia.
Qed.

Lemma distance_max_abs o p : distance o p = max_abs (zip3 Z.sub p o).
Proof. unfold distance, max_abs, zip3, vx, vy, vz. cbn [fst snd]. lia. Qed.
Lemma sample_cell o p k i : 0 <= k < distance o p ->
  (sample o p k i <-> i = miss_cell o (zip3 Z.sub p o) k (distance o p)).
Proof.
  intros K. set (n := distance o p) in *. unfold sample. fold n.
  assert (T : forall a b, toward a (b - a) k n (a + Z.quot ((b - a) * k) n)).
  { intros a b. apply toward_quot; lia. }
  unfold miss_cell. split.
  - intros [X [Y Z']]. apply ext3; eapply toward_unique; try eassumption; try lia; apply T.
  - intros ->. repeat split; apply T; assumption.
Qed.

Lemma zfrom_In n : forall a k, In k (zfrom a n) <-> a <= k < a + Z.of_nat n.
Proof.
  induction n as [|n IH]; intros a k; cbn [zfrom In]; [lia|]. rewrite IH. lia.
Qed.
Lemma positions_In n free k : 0 <= n -> (In k (positions n free) <-> 0 <= k < n /\ n - free <= k).
Proof. intros N. unfold positions. rewrite zfrom_In. lia. Qed.

(* the accesses of an insertion *)
Definition hit_acc (t : list Z) (hs : list Z3) : list vaccess := map (fun c => (c, t)) hs.
Definition ray_acc (t : list Z) (o : Z3) (free : Z) (hc : Z3) : list vaccess :=
  map (fun k => (miss_cell o (zip3 Z.sub hc o) k (distance o hc), t)) (positions (distance o hc) free).
Definition miss_acc (t : list Z) (o : Z3) (free : Z) (hs : list Z3) : list vaccess :=
  flat_map (ray_acc t o free) hs.

Lemma vapply_all_app a : forall b h, vapply_all h (a ++ b) =
  match vapply_all h a with
  | None => None
  | Some (h', bs) => match vapply_all h' b with
                     | None => None
                     | Some (h'', cs) => Some (h'', bs ++ cs)
                     end
  end.
Proof.
  induction a as [|[i t] r IH]; intros b h; cbn [vapply_all app].
  - destruct (vapply_all h b) as [[h' bs]|]; reflexivity.
  - destruct (hy_apply h i t) as [[h1 f]|]; [|reflexivity]. rewrite IH.
    destruct (vapply_all h1 r) as [[h' bs]|]; [|reflexivity].
    destruct (vapply_all h' b) as [[h'' cs]|]; reflexivity.
Qed.
Lemma hy_apply_res h i t h' b : hy_apply h i t = Some (h', b) -> h_res h' = h_res h.
Proof.
  unfold hy_apply, hy_modify. destruct (dyn_modify _ _ _ _ _) as [[a d] | | ]; try discriminate.
  intros E. injection E as <- _. reflexivity.
Qed.
Lemma vapply_res acc : forall h h' bs, vapply_all h acc = Some (h', bs) -> h_res h' = h_res h.
Proof.
  induction acc as [|[i t] r IH]; intros h h' bs E; cbn [vapply_all] in E; [congruence|].
  destruct (hy_apply h i t) as [[h1 f]|] eqn:A; [|discriminate].
  destruct (vapply_all h1 r) as [[h2 cs]|] eqn:B; [|discriminate]. injection E as <- _.
  rewrite (IH _ _ _ B). now apply hy_apply_res in A.
Qed.

Definition cells_of (res : f32) : list F3 -> list Z3 -> Prop := Forall2 (fun p c => cell_index3 res p = Some c).
Lemma insert_hits_acc res t pts hs : cells_of res pts hs -> forall h, h_res h = res ->
  insert_hits h t pts = option_map fst (vapply_all h (hit_acc t hs)).
Proof.
  induction 1 as [|p c pts hs E F IH]; intros h R; cbn [insert_hits hit_acc map vapply_all]; [reflexivity|].
  rewrite R, E. destruct (hy_apply h c t) as [[h1 b]|] eqn:A; [|reflexivity].
  rewrite IH by (apply hy_apply_res in A; congruence). unfold hit_acc.
  destruct (vapply_all h1 _) as [[h2 bs]|]; reflexivity.
Qed.
Lemma apply_misses_acc t o d n ks : forall h,
  apply_misses h t o d n ks = option_map fst (vapply_all h (map (fun k => (miss_cell o d k n, t)) ks)).
Proof.
  induction ks as [|k r IH]; intros h; cbn [apply_misses map vapply_all]; [reflexivity|].
  destruct (hy_apply h _ t) as [[h1 b]|]; [|reflexivity]. rewrite IH.
  destruct (vapply_all h1 _) as [[h2 bs]|]; reflexivity.
Qed.
Lemma insert_misses_acc res t o free pts hs : cells_of res pts hs ->
  (forall c, In c hs -> distance o c < 2 ^ 15) -> - 2 ^ 31 + 2 ^ 15 <= free < 2 ^ 31 ->
  forall h, h_res h = res ->
  insert_misses h t o pts free = option_map fst (vapply_all h (miss_acc t o free hs)).
Proof.
  intros F D Fr. induction F as [|p c pts hs E F IH]; intros h R; cbn [insert_misses miss_acc flat_map]; [reflexivity|].
  rewrite R, E. rewrite <- distance_max_abs. pose proof (D c (or_introl eq_refl)) as Dc.
  assert (0 <= distance o c) by (unfold distance; lia).
  destruct (Z.ltb_spec (distance o c) (2 ^ 15)); [|lia].
  assert (Ir : int_range (distance o c - free) = true).
  { unfold int_range. apply andb_true_intro. rewrite Z.leb_le, Z.ltb_lt. lia. }
  rewrite Ir. cbn [andb]. rewrite apply_misses_acc, vapply_all_app. unfold ray_acc.
  destruct (vapply_all h _) as [[h1 bs]|] eqn:A; [|reflexivity]. cbn [option_map fst].
  rewrite IH.
  - unfold miss_acc, ray_acc. destruct (vapply_all h1 _) as [[h2 cs]|]; reflexivity.
  - intros x X. apply D. now right.
  - apply vapply_res in A. congruence.
Qed.

(* every return of a successful insertion is near the origin *)
Lemma insert_misses_near t o free pts : forall h h', insert_misses h t o pts free = Some h' ->
  forall p, In p pts -> exists c, cell_index3 (h_res h) p = Some c /\ distance o c < 2 ^ 15.
Proof.
  induction pts as [|q r IH]; intros h h' E p []; cbn [insert_misses] in E.
  - subst q. destruct (cell_index3 (h_res h) p) as [c|]; [|discriminate]. rewrite <- distance_max_abs in E.
    exists c. split; [reflexivity|]. destruct (Z.ltb_spec (distance o c) (2 ^ 15)); [assumption | discriminate].
  - destruct (cell_index3 (h_res h) q) as [c|]; [|discriminate]. destruct (_ && _); [|discriminate].
    rewrite apply_misses_acc in E. destruct (vapply_all h _) as [[h1 bs]|] eqn:A; [|discriminate].
    cbn [option_map fst] in E. apply vapply_res in A. rewrite <- A. now apply (IH h1 h').
Qed.

(* intensities *)
Lemma avg_default a : avg_is0 a = true <-> a = avg0.
Proof.
  destruct a as [s c]. unfold avg_is0, avg0. cbn [fst snd]. rewrite andb_true_iff, Z.eqb_eq. split.
  - intros [-> H]. destruct s as [[]| | | ]; try discriminate. reflexivity.
  - intros H. injection H as -> ->. auto.
Qed.
Definition iok := base_ok avg avg0 avg_is0 avg_default.
Definition isz := base_size avg avg0 avg_is0.
Definition iwf (g : ihybrid) : Prop := dwf (base_wf avg) (ih_grid g).
Lemma add_intensity_ok g i x s c : iwf g -> representable i ->
  dyn_value avg0 int_ops (ih_grid g) i = Some (s, c) -> c + 1 < 2 ^ 31 ->
  exists g', add_intensity g i x = Some g' /\ iwf g' /\ ih_res g' = ih_res g /\
    forall j, int_index j -> dyn_value avg0 int_ops (ih_grid g') j =
      if same3 j i then Some (fadd s x, c + 1) else dyn_value avg0 int_ops (ih_grid g) j.
Proof.
  intros W R E L. unfold add_intensity.
  destruct (dyn_modify_ok avg0 int_ops _ iok isz unit
     (fun a => if snd a + 1 <? 2 ^ 31 then Some (tt, (fadd (fst a) x, snd a + 1)) else None)
     i (s, c) tt (fadd s x, c + 1) R) with (fuel := grow_fuel) (d := ih_grid g) as [d' [Em [D' V]]].
  - cbn [fst snd]. destruct (Z.ltb_spec (c + 1) (2 ^ 31)); [reflexivity | lia].
  - exact W.
  - exact E.
  - destruct W as [B _]. unfold grow_fuel. lia.
  - rewrite Em. eexists. split; [reflexivity|]. split; [exact D'|]. split; [reflexivity | exact V].
Qed.
