(* Properties of 3D range data insertion (C27), voxel centres (C52) and intensities (C53). *)
From Coq Require Import List ZArith Reals Lra Bool Lia SpecFloat.
From Verif Require Import Vec Float32 FloatR Float32_Proofs PV_Model PV_Bounded Properties_PV G2_Model G2_Spec
  HG_Model HG_Spec HG_Wrap HG_Dyn HG_Proofs Properties_HG I3_Model I3_Spec I3_Proofs I3_Float.
Import ListNotations.
Open Scope Z_scope.

Lemma vfirst_app i l1 l2 : vfirst i (l1 ++ l2) = match vfirst i l1 with Some t => Some t | None => vfirst i l2 end.
Proof.
  unfold vfirst. induction l1 as [|a r IH]; cbn [List.app find]; [reflexivity|].
  destruct (same3 (fst a) i); [reflexivity | exact IH].
Qed.
Lemma vfirst_nohit i t hs : ~ In i hs -> vfirst i (hit_acc t hs) = None.
Proof.
  intros N. apply vfirst_none. intros I. apply N. unfold hit_acc in I. rewrite map_map, map_id in I. exact I.
Qed.
Lemma vfirst_hit i t hs : In i hs -> vfirst i (hit_acc t hs) = Some t.
Proof.
  unfold vfirst, hit_acc. induction hs as [|c r IH]; intros I; [destruct I|]. cbn [map find fst].
  destruct (same3_spec c i) as [-> | N]; [reflexivity|]. apply IH. destruct I; [congruence | assumption].
Qed.

(* C27: what one insertion does to every voxel *)
Theorem C27_insert : forall hit_table miss_table free threshold rd h o,
  hreachable h -> h_upd h = [] -> good_table hit_table -> good_table miss_table ->
  - 2 ^ 31 + 2 ^ 15 <= free < 2 ^ 31 ->
  cell_index3 (h_res h) (r3_origin rd) = Some o ->
  (forall p, In p (r3_returns rd) -> exists c, cell_index3 (h_res h) p = Some c /\ representable c /\ distance o c < 2 ^ 15) ->
  (forall i, free_voxel (h_res h) rd free i -> representable i) ->
  exists h2, insert3 hit_table miss_table free threshold rd h None = Some (h2, None) /\
    h_upd h2 = [] /\ h_res h2 = h_res h /\
    forall i, int_index i ->
      exists v, hy_value h i = Some v /\ 0 <= v < 32768 /\
      exists a b, vget hit_table v = Some (a + kUpdateMarker) /\ 1 <= a < 32768 /\
        vget miss_table v = Some (b + kUpdateMarker) /\ 1 <= b < 32768 /\
        (hit_voxel (h_res h) rd i -> hy_value h2 i = Some a) /\
        (~ hit_voxel (h_res h) rd i -> free_voxel (h_res h) rd free i -> hy_value h2 i = Some b) /\
        (~ hit_voxel (h_res h) rd i -> ~ free_voxel (h_res h) rd free i -> hy_value h2 i = Some v).
Proof.
  intros ht mt free thr rd h o R U TH TM Fr Eo Hp Hf.
  assert (Hs : exists hs, cells_of (h_res h) (r3_returns rd) hs /\ forall c, In c hs -> representable c /\ distance o c < 2 ^ 15).
  { clear - Hp. induction (r3_returns rd) as [|p r IH].
    - exists []. split; [constructor | intros c []].
    - destruct (Hp p (or_introl eq_refl)) as [c [Ec Rc]]. destruct IH as [hs [F D]]; [intros q Q; apply Hp; now right|].
      exists (c :: hs). split; [now constructor|]. intros x [<- | X]; [exact Rc | now apply D]. }
  destruct Hs as [hs [F D]].
  assert (Ih : forall i, hit_voxel (h_res h) rd i <-> In i hs).
  { intros i. unfold hit_voxel. clear - F. induction F as [|p c ps cs E F IH].
    - split; [intros [p [[] _]] | intros []].
    - split.
      + intros [q [[<- | Q] Eq]]; [left; congruence|]. right. apply IH. eauto.
      + intros [<- | I]; [exists p; split; [now left | exact E]|]. apply IH in I. destruct I as [q [Q Eq]].
        exists q. split; [now right | exact Eq]. }
  assert (Im : forall i t, In (i, t) (miss_acc mt o free hs) <-> t = mt /\ free_voxel (h_res h) rd free i).
  { intros i t. unfold miss_acc. rewrite in_flat_map. unfold free_voxel. split.
    - intros [c [Ic I]]. unfold ray_acc in I. apply in_map_iff in I. destruct I as [k [E K]].
      injection E as E1 E2. split; [congruence|]. assert (N : 0 <= distance o c) by (unfold distance; lia).
      apply positions_In in K; [|exact N]. exists o, c. split; [exact Eo|]. split; [now apply Ih|].
      exists k. split; [apply K|]. split; [apply K|]. apply sample_cell; [apply K | congruence].
    - intros [-> [o' [c [Eo' [Hc [k [K1 [K2 S]]]]]]]]. assert (o' = o) as -> by congruence.
      exists c. split; [now apply Ih|]. unfold ray_acc. apply in_map_iff. exists k.
      apply sample_cell in S; [|exact K1]. split; [congruence|]. apply positions_In; [unfold distance; lia | auto]. }
  set (acc := hit_acc ht hs ++ miss_acc mt o free hs).
  destruct (C15_update_once_3d h acc R U) as [h1 [h2 [E1 [E2 [U2 [R2 V]]]]]].
  { intros i t I. unfold acc in I. apply in_app_or in I. destruct I as [I | I].
    - unfold hit_acc in I. apply in_map_iff in I. destruct I as [c [E I]]. injection E as <- <-.
      split; [now apply D | exact TH].
    - apply Im in I. destruct I as [-> I]. split; [now apply Hf | exact TM]. }
  exists h2. split; [|split; [exact U2 | split; [exact R2|]]].
  - unfold insert3. rewrite (insert_hits_acc (h_res h) ht _ hs F h eq_refl).
    unfold acc in E1. rewrite vapply_all_app in E1.
    destruct (vapply_all h (hit_acc ht hs)) as [[ha bs]|] eqn:A; [|discriminate]. cbn [option_map fst].
    pose proof (vapply_res _ _ _ _ A) as Ra. rewrite Ra, Eo.
    rewrite (insert_misses_acc (h_res h) mt o free _ hs F) by (auto || (intros c C; now apply D)).
    destruct (vapply_all ha (miss_acc mt o free hs)) as [[hb cs]|]; [|discriminate]. cbn [option_map fst].
    injection E1 as E1 _. subst hb. now rewrite E2.
  - intros i I. destruct (V i I) as [v [Ev [Bv M]]]. exists v. split; [exact Ev|]. split; [exact Bv|].
    destruct (TH v Bv) as [a [Ea Ba]]. destruct (TM v Bv) as [b [Eb Bb]].
    exists (a - kUpdateMarker), (b - kUpdateMarker). unfold kUpdateMarker in *.
    split; [rewrite Ea; f_equal; lia|]. split; [lia|]. split; [rewrite Eb; f_equal; lia|]. split; [lia|].
    assert (Fi : vfirst i acc = if in_dec (fun a b => Bool.reflect_dec _ _ (same3_spec a b)) i hs then Some ht
                                else vfirst i (miss_acc mt o free hs)).
    { unfold acc. rewrite vfirst_app. destruct (in_dec _ i hs) as [Q | Q].
      - now rewrite vfirst_hit.
      - now rewrite vfirst_nohit. }
    assert (Fm : forall t, vfirst i (miss_acc mt o free hs) = Some t -> t = mt /\ free_voxel (h_res h) rd free i).
    { intros t E. unfold vfirst in E. destruct (find _ _) as [[c u]|] eqn:Fd; [|discriminate]. injection E as <-.
      apply find_some in Fd. destruct Fd as [Ic S]. cbn [fst] in S. apply same3_iff in S. subst c. now apply Im. }
    rewrite Fi in M. split; [|split].
    + intros Hi. apply Ih in Hi. destruct (in_dec _ i hs) as [_ | Q]; [|contradiction].
      destruct M as [r [Er [_ Vr]]]. rewrite Vr. f_equal. rewrite Ea in Er. injection Er as Er. lia.
    + intros Ni Fv. destruct (in_dec _ i hs) as [Q | _]; [elim Ni; now apply Ih|].
      destruct (vfirst i (miss_acc mt o free hs)) as [t|] eqn:E.
      * destruct (Fm t eq_refl) as [-> _]. destruct M as [r [Er [_ Vr]]]. rewrite Vr. f_equal.
        rewrite Eb in Er. injection Er as Er. lia.
      * apply vfirst_none in E. elim E. apply in_map_iff. exists (i, mt). split; [reflexivity|]. now apply Im.
    + intros Ni Nf. destruct (in_dec _ i hs) as [Q | _]; [elim Ni; now apply Ih|].
      destruct (vfirst i (miss_acc mt o free hs)) as [t|] eqn:E; [|exact M].
      destruct (Fm t eq_refl) as [_ Q]. contradiction.
Qed.

Lemma limit_pos n k d x : 0 < n -> 0 <= k <= n -> 0 <= d <= n -> n * x <= d * k < n * (x + 1) ->
  0 <= x <= k /\ 0 <= d - x <= n - k.
Proof.
  intros N K D [L U].
  assert (A : 0 <= d * k) by (apply Z.mul_nonneg_nonneg; lia).
  assert (B : d * k <= n * k) by (apply Z.mul_le_mono_nonneg_r; lia).
  assert (C : d * k <= n * d) by (rewrite (Z.mul_comm n d); apply Z.mul_le_mono_nonneg_l; lia).
  assert (E : 0 <= (n - d) * (n - k)) by (apply Z.mul_nonneg_nonneg; lia).
  assert (0 < x + 1) by (apply (Z.mul_pos_cancel_l n); lia).
  assert (x <= k) by (apply (Z.mul_le_mono_pos_l x k n N); lia).
  assert (x <= d) by (apply (Z.mul_le_mono_pos_l x d n N); lia).
  split; [lia|]. split; [lia|].
  enough (d - n + k < x + 1) by lia. apply (Z.mul_lt_mono_pos_l n _ _ N). lia.
Qed.
Lemma toward_limit a b k n c : 0 < n -> 0 <= k <= n -> Z.abs (b - a) <= n -> toward a (b - a) k n c ->
  Z.abs (c - a) <= k /\ Z.abs (b - c) <= n - k.
Proof.
  intros N K D [P Q]. destruct (Z_lt_le_dec (b - a) 0) as [L | L].
  - specialize (Q L). pose proof (limit_pos n k (a - b) (a - c) N K ltac:(lia) ltac:(lia)). lia.
  - specialize (P L). pose proof (limit_pos n k (b - a) (c - a) N K ltac:(lia) ltac:(lia)). lia.
Qed.

(* C27: the samples form a chain of touching voxels from the origin to the hit *)
Theorem C27_samples : forall o p k i, 0 <= k <= distance o p -> 0 < distance o p -> sample o p k i ->
  (Z.min (vx o) (vx p) <= vx i <= Z.max (vx o) (vx p)) /\
  (Z.min (vy o) (vy p) <= vy i <= Z.max (vy o) (vy p)) /\
  (Z.min (vz o) (vz p) <= vz i <= Z.max (vz o) (vz p)) /\
  distance o i = k /\ distance i p = distance o p - k /\
  forall j, k < distance o p -> sample o p (k + 1) j -> distance i j = 1.
Proof.
  intros o p k i K N [X [Y Z']]. set (n := distance o p) in *.
  assert (Dx : Z.abs (vx p - vx o) <= n /\ Z.abs (vy p - vy o) <= n /\ Z.abs (vz p - vz o) <= n)
    by (unfold n, distance; lia).
  destruct Dx as [Dx [Dy Dz]].
  assert (Mx : Z.abs (vx p - vx o) = n \/ Z.abs (vy p - vy o) = n \/ Z.abs (vz p - vz o) = n)
    by (unfold n, distance; lia).
  pose proof (toward_between _ _ _ _ _ N K Dx X) as Bx.
  pose proof (toward_between _ _ _ _ _ N K Dy Y) as By.
  pose proof (toward_between _ _ _ _ _ N K Dz Z') as Bz.
  assert (Lim : forall a b c, Z.abs (b - a) <= n -> toward a (b - a) k n c -> Z.abs (c - a) <= k /\ Z.abs (b - c) <= n - k).
  { intros a b c D T. now apply toward_limit. }
  pose proof (Lim _ _ _ Dx X) as Lx. pose proof (Lim _ _ _ Dy Y) as Ly. pose proof (Lim _ _ _ Dz Z') as Lz.
  assert (Tri : forall a b c, Z.abs (b - a) = n -> Z.abs (c - a) <= k /\ Z.abs (b - c) <= n - k ->
                Z.abs (c - a) = k /\ Z.abs (b - c) = n - k) by (clear; intros; lia).
  assert (Max3 : forall m a b c, a <= m -> b <= m -> c <= m -> a = m \/ b = m \/ c = m -> Z.max a (Z.max b c) = m)
    by (clear; intros; lia).
  assert (Di : distance o i = k /\ distance i p = n - k).
  { unfold distance. split; apply Max3; try apply Lx; try apply Ly; try apply Lz;
      (destruct Mx as [M | [M | M]]; [left | right; left | right; right];
       [destruct (Tri _ _ _ M Lx) | destruct (Tri _ _ _ M Ly) | destruct (Tri _ _ _ M Lz)]; assumption). }
  destruct Di as [Di Dp].
  assert (Mid : forall a b c, Z.min a (a + (b - a)) <= c <= Z.max a (a + (b - a)) -> Z.min a b <= c <= Z.max a b)
    by (clear; intros; lia).
  split; [apply Mid, Bx|]. split; [apply Mid, By|]. split; [apply Mid, Bz|]. split; [exact Di|]. split; [exact Dp|].
  intros j Kn [X' [Y' W']].
  assert (K' : 0 <= k + 1 <= n) by lia.
  pose proof (toward_between _ _ _ _ _ N K' Dx X') as Bx'.
  pose proof (toward_between _ _ _ _ _ N K' Dy Y') as By'.
  pose proof (toward_between _ _ _ _ _ N K' Dz W') as Bz'.
  pose proof (toward_step _ _ _ _ _ _ N (proj1 K) Dx X X') as Sx.
  pose proof (toward_step _ _ _ _ _ _ N (proj1 K) Dy Y Y') as Sy.
  pose proof (toward_step _ _ _ _ _ _ N (proj1 K) Dz Z' W') as Sz.
  destruct Bx as [_ [_ [_ Bx]]], By as [_ [_ [_ By]]], Bz as [_ [_ [_ Bz]]].
  destruct Bx' as [_ [_ [_ Bx']]], By' as [_ [_ [_ By']]], Bz' as [_ [_ [_ Bz']]].
  assert (St : forall a b c c', Z.abs (b - a) = n -> (b - a = n -> c = a + k) /\ (b - a = - n -> c = a - k) ->
               (b - a = n -> c' = a + (k + 1)) /\ (b - a = - n -> c' = a - (k + 1)) -> Z.abs (c' - c) = 1)
    by (clear; intros; lia).
  unfold distance. apply Max3; auto.
  destruct Mx as [M | [M | M]]; [left | right; left | right; right]; eapply St; eauto.
Qed.

(* there is exactly one sample for every position *)
Theorem C27_sample_exists : forall o p k, 0 <= k < distance o p -> exists i, sample o p k i /\
  forall j, sample o p k j -> j = i.
Proof.
  intros o p k K. exists (miss_cell o (zip3 Z.sub p o) k (distance o p)). split.
  - now apply sample_cell.
  - intros j S. now apply sample_cell in S.
Qed.

(* returns 2^15 voxels or more away from the origin abort *)
Theorem C27_far_aborts : forall hit_table miss_table free threshold rd h ig r o,
  insert3 hit_table miss_table free threshold rd h ig = Some r ->
  cell_index3 (h_res h) (r3_origin rd) = Some o ->
  forall p, In p (r3_returns rd) -> exists c, cell_index3 (h_res h) p = Some c /\ distance o c < 2 ^ 15.
Proof.
  intros ht mt free thr rd h ig r o E Eo p I. unfold insert3 in E.
  destruct (insert_hits h ht (r3_returns rd)) as [h1|] eqn:A; [|discriminate].
  assert (R1 : h_res h1 = h_res h).
  { clear - A. revert h h1 A. induction (r3_returns rd) as [|q l IH]; intros h h1 A; cbn [insert_hits] in A; [congruence|].
    destruct (cell_index3 (h_res h) q) as [c|]; [|discriminate].
    destruct (hy_apply h c ht) as [[h' b]|] eqn:Q; [|discriminate]. rewrite (IH _ _ A). now apply hy_apply_res in Q. }
  rewrite R1, Eo in E.
  destruct (insert_misses h1 mt o (r3_returns rd) free) as [h2|] eqn:B; [|discriminate].
  destruct (insert_misses_near _ _ _ _ _ _ B p I) as [c [Ec Dc]]. rewrite R1 in Ec. eauto.
Qed.

(* C52: a voxel's centre is in that voxel *)
Definition res_lo : f32 := S754_finite false 8388608 (-73).   (* 2^-50 *)
Definition res_hi : f32 := S754_finite false 8388608 27.      (* 2^50 *)
Theorem C52_center : forall r i, is_binary32 r -> fleb res_lo r = true -> fleb r res_hi = true ->
  within (- 2 ^ 20) (2 ^ 20) i -> cell_index3 r (center3 r i) = Some i.
Proof.
  intros r i V L U [X [Y Z']].
  assert (F : ffin r) by (apply (between_fin res_lo r res_hi); auto; reflexivity).
  apply fleb_ok in L; [|reflexivity | exact V | reflexivity | exact F].
  apply fleb_ok in U; [|exact V | reflexivity | exact F | reflexivity].
  apply center_index; auto; try lia.
  unfold res_lo, res_hi in *. rewrite fval_pos in L, U.
  change (Flocq.Core.Raux.bpow Flocq.Core.Zaux.radix2 (-73)) with (/ IZR (2 ^ 73))%R in L.
  change (Flocq.Core.Raux.bpow Flocq.Core.Zaux.radix2 27) with (IZR (2 ^ 27))%R in U.
  rewrite <- mult_IZR in U. change (Zpos 8388608 * 2 ^ 27) with (2 ^ 50) in U. split; [|exact U].
  eapply Rle_trans; [|exact L]. change (2 ^ 73) with (8388608 * 2 ^ 50). rewrite mult_IZR. right. field.
  apply IZR_neq; lia.
Qed.

(* C53: the intensity of a voxel is the average of what was recorded there *)
Fixpoint add_all (g : ihybrid) (adds : list (Z3 * f32)) : option ihybrid :=
  match adds with
  | [] => Some g
  | (i, x) :: r => match add_intensity g i x with Some g' => add_all g' r | None => None end
  end.
Lemma add_all_ok adds : forall g, iwf g -> (forall i x, In (i, x) adds -> representable i) ->
  (forall i s c, int_index i -> dyn_value avg0 int_ops (ih_grid g) i = Some (s, c) -> 0 <= c /\ c + Z.of_nat (length adds) < 2 ^ 31) ->
  exists g', add_all g adds = Some g' /\ iwf g' /\ ih_res g' = ih_res g /\
    forall i s c, int_index i -> dyn_value avg0 int_ops (ih_grid g) i = Some (s, c) ->
      dyn_value avg0 int_ops (ih_grid g') i =
      Some (fold_left fadd (recorded i adds) s, c + Z.of_nat (length (recorded i adds))).
Proof.
  induction adds as [|[k x] r IH]; intros g W H B; cbn [add_all recorded filter map].
  - exists g. split; [reflexivity|]. split; [exact W|]. split; [reflexivity|]. intros i s c I E. cbn. now rewrite Z.add_0_r.
  - assert (R : representable k) by (apply (H k x); now left).
    destruct (dyn_value_some avg0 int_ops _ iok isz (ih_grid g) k W (rep_int _ R)) as [[s0 c0] E0].
    pose proof (B k s0 c0 (rep_int _ R) E0) as B0. cbn [length] in B0.
    destruct (add_intensity_ok g k x s0 c0 W R E0 ltac:(lia)) as [g1 [E1 [W1 [R1 V1]]]]. rewrite E1.
    destruct (IH g1 W1) as [g' [E' [W' [R' V']]]].
    + intros i y I. apply (H i y). now right.
    + intros i s c I E. rewrite V1 in E by exact I. destruct (same3_spec i k) as [-> | N].
      * injection E as <- <-. lia.
      * pose proof (B i s c I E) as Bi. cbn [length] in Bi. lia.
    + exists g'. split; [exact E'|]. split; [exact W'|]. split; [congruence|]. intros i s c I E.
      specialize (V1 i I). cbn [fst].
      destruct (same3_spec i k) as [Q | N].
      * subst k. rewrite same3_refl. cbn [map snd fold_left length]. rewrite E0 in E. injection E as -> ->.
        rewrite (V' i _ _ I V1). unfold recorded. f_equal. f_equal. lia.
      * destruct (same3_spec k i) as [Q | _]; [congruence|]. rewrite E in V1. exact (V' i _ _ I V1).
Qed.
Theorem C53_intensity : forall res adds, (forall i x, In (i, x) adds -> representable i) ->
  Z.of_nat (length adds) < 2 ^ 31 ->
  exists g, add_all (ih_new res) adds = Some g /\
    forall i, int_index i -> get_intensity g i =
      Some match recorded i adds with
           | [] => S754_zero false
           | xs => fdiv (fold_left fadd xs (S754_zero false)) (f_of_Z (Z.of_nat (length xs)))
           end.
Proof.
  intros res adds H L.
  assert (W0 : iwf (ih_new res)) by exact (dyn_new_wf avg0 int_ops _ iok).
  assert (V0 : forall i, int_index i -> dyn_value avg0 int_ops (ih_grid (ih_new res)) i = Some avg0)
    by exact (dyn_new_value avg0 int_ops _ iok isz).
  destruct (add_all_ok adds (ih_new res) W0 H) as [g [E [W [R V]]]].
  { intros i s c I Ei. rewrite V0 in Ei by exact I. injection Ei as <- <-. lia. }
  exists g. split; [exact E|]. intros i I. unfold get_intensity. rewrite (V i _ _ I (V0 i I)). f_equal.
  destruct (recorded i adds) as [|x xs]; [reflexivity|].
  destruct (Z.eqb_spec (0 + Z.of_nat (length (x :: xs))) 0) as [Q | Q]; [cbn [length] in Q; lia|].
  now rewrite Z.add_0_l.
Qed.

(* insertion records exactly the returns whose intensity is not above the threshold *)
Theorem C53_insert : forall threshold pts ints cells g,
  Forall2 (fun p c => cell_index3 (ih_res g) p = Some c) pts cells -> length ints = length pts ->
  insert_intensities g threshold pts ints =
    add_all g (filter (fun a => negb (fltb threshold (snd a))) (combine cells ints)).
Proof.
  intros thr pts ints cells g F Ln. unfold insert_intensities.
  assert (A : insert_intensities_loop g thr pts ints =
              add_all g (filter (fun a => negb (fltb thr (snd a))) (combine cells ints))).
  { revert cells ints g Ln F. induction pts as [|p ps IH]; intros cells ints g Ln F.
    - inversion F; subst. reflexivity.
    - inversion F as [|? c ? cs Ec Fs]; subst. destruct ints as [|x xs]; [discriminate|].
      cbn [insert_intensities_loop combine filter snd]. destruct (fltb thr x) eqn:T; cbn [negb].
      + apply IH; [now injection Ln | exact Fs].
      + rewrite Ec. cbn [add_all]. destruct (add_intensity g c x) as [g'|] eqn:E; [|reflexivity].
        apply IH; [now injection Ln|].
        assert (Rg : ih_res g' = ih_res g).
        { unfold add_intensity in E. destruct (dyn_modify _ _ _ _ _) as [[u d]| |]; try discriminate. now injection E as <-. }
        now rewrite Rg. }
  destruct ints as [|x xs]; [|exact A]. destruct pts; [|discriminate]. inversion F; subst. reflexivity.
Qed.

(* the intensity grid does not influence the voxels and is updated along with them *)
Theorem C53_beside : forall hit_table miss_table free threshold rd h h2 g,
  insert3 hit_table miss_table free threshold rd h None = Some (h2, None) ->
  insert3 hit_table miss_table free threshold rd h (Some g) =
    option_map (fun g2 => (h2, Some g2)) (insert_intensities g threshold (r3_returns rd) (r3_intensities rd)).
Proof.
  intros ht mt free thr rd h h2 g. unfold insert3.
  destruct (insert_hits _ _ _) as [h1|]; [|discriminate]. destruct (cell_index3 _ _) as [o|]; [|discriminate].
  destruct (insert_misses _ _ _ _ _) as [h3|]; [|discriminate]. destruct (hy_finish h3) as [h4|]; [|discriminate].
  intros E. assert (h4 = h2) as -> by congruence. destruct (insert_intensities _ _ _ _); reflexivity.
Qed.

(* a scan of one return, five voxels from the origin, two free-space voxels *)
Definition ex_scan : range_data3 :=
  mk_range_data3 (f_of_Z 0, f_of_Z 0, f_of_Z 0) [(f_of_Z 5, f_of_Z (-3), f_of_Z 0)] [f_of_Z 7].
Example C27_example :
  match insert3 [40000] [34000] 2 f_one ex_scan (hy_new f_one) None with
  | Some (h, None) => (map (hy_value h) [(5, -3, 0); (4, -2, 0); (3, -1, 0); (2, -1, 0); (0, 0, 0)]) =
                      [Some 7232; Some 1232; Some 1232; Some 0; Some 0]
  | _ => False
  end.
Proof. vm_compute. reflexivity. Qed.
Example C27_example_samples : sample (0, 0, 0) (5, -3, 0) 4 (4, -2, 0) /\ sample (0, 0, 0) (5, -3, 0) 3 (3, -1, 0).
Proof.
  split; unfold sample, toward, distance, vx, vy, vz; cbn [fst snd]; repeat split; intros; lia.
Qed.
Example C52_example :
  let r := fdiv (f_of_Z 1) (f_of_Z 10) in cell_index3 r (center3 r (8191, -8192, 3)) = Some (8191, -8192, 3).
Proof. vm_compute. reflexivity. Qed.
Example C53_example :
  match add_all (ih_new f_one) [((1, 2, 3), f_of_Z 4); ((0, 0, 0), f_of_Z 9); ((1, 2, 3), f_of_Z 8)] with
  | Some g => (get_intensity g (1, 2, 3), get_intensity g (0, 1, 0)) = (Some (f_of_Z 6), Some (f_of_Z 0))
  | None => False
  end.
Proof. vm_compute. reflexivity. Qed.

Print Assumptions C27_insert.
Print Assumptions C27_samples.
Print Assumptions C27_sample_exists.
Print Assumptions C27_far_aborts.
Print Assumptions C52_center.
Print Assumptions C53_intensity.
Print Assumptions C53_insert.
Print Assumptions C53_beside.
