(* Properties of the voxel filters (C33, C34, C35). *)
From Coq Require Import ZArith List Bool Lia Reals Lra.
From Verif Require Import Float32 FloatR Float32_Proofs PV_Bounded ZMap VF_Model VF_Spec
  VF_Proofs VF_Adaptive.
Import ListNotations.
Open Scope Z_scope.

(* --- C33: one point of every occupied voxel --- *)
Theorem C33_one_per_voxel : forall T (pos : T -> vec3f) draw resolution (l : list T),
  (forall p, In p l -> point_ok resolution (pos p)) ->
  exists out, voxel_filter pos draw resolution l = Some out /\
    subsequence out l /\ one_per_voxel pos resolution out l.
Proof.
  intros T pos draw r l H. destruct (filter_flags pos draw r l H) as (flags & E & L & O).
  exists (keep flags l). unfold voxel_filter. rewrite E. split; auto.
  split; auto. apply keep_subsequence.
Qed.

Lemma subsequence_In {T} (out l : list T) : subsequence out l -> forall p, In p out -> In p l.
Proof. induction 1; simpl; intros; intuition (subst; auto). Qed.

(* Filtering again changes nothing, whatever the generator does in either run *)
Theorem C33_idempotent : forall T (pos : T -> vec3f) draw draw' resolution (l out : list T),
  (forall p, In p l -> point_ok resolution (pos p)) ->
  voxel_filter pos draw resolution l = Some out ->
  voxel_filter pos draw' resolution out = Some out.
Proof.
  intros T pos draw draw' r l out H E.
  destruct (C33_one_per_voxel T pos draw r l H) as (out' & E' & S & U & _).
  rewrite E in E'. inversion E'; subst out'.
  unfold voxel_filter. rewrite (filter_fixed pos draw' r out); auto.
  - f_equal. apply keep_all; [apply repeat_length|].
    intros i Li. apply (repeat_spec (length out) true). apply nth_In. now rewrite repeat_length.
  - intros p I. apply H. eapply subsequence_In; eauto.
Qed.

(* A PointCloud has no intensities or one per point *)
Definition wf_cloud (c : cloud) : Prop :=
  intensities c = [] \/ length (intensities c) = length (points c).

Lemma keep_nil {T} flags : @keep T flags [] = [].
Proof. destruct flags; auto. Qed.

Lemma make_keep flags c : wf_cloud c ->
  make_cloud (keep flags (points c)) (keep flags (intensities c)) =
  Some {| points := keep flags (points c); intensities := keep flags (intensities c) |}.
Proof.
  intros [E|E]; unfold make_cloud.
  - rewrite E, keep_nil. auto.
  - destruct (keep flags (intensities c)) eqn:K; auto. rewrite <- K.
    rewrite (keep_length flags (points c) (intensities c)) by auto.
    now rewrite Nat.eqb_refl.
Qed.

Theorem C33_cloud : forall draw resolution c, wf_cloud c ->
  (forall p, In p (points c) -> point_ok resolution p) ->
  exists out, voxel_filter_cloud draw resolution c = Some out /\ wf_cloud out /\
    subsequence (points out) (points c) /\
    one_per_voxel (fun p => p) resolution (points out) (points c) /\
    (* every kept point keeps its intensity *)
    match intensities c with
    | [] => intensities out = []
    | _ => length (intensities out) = length (points out) /\
           subsequence (combine (points out) (intensities out))
                       (combine (points c) (intensities c))
    end /\
    forall draw', voxel_filter_cloud draw' resolution out = Some out.
Proof.
  intros draw r c W H.
  destruct (filter_flags (fun p => p) draw r (points c) H) as (flags & E & L & O).
  rewrite map_id in E. unfold voxel_filter_cloud at 1. rewrite E.
  assert (Lb : Nat.leb (length (intensities c)) (length (points c)) = true).
  { apply Nat.leb_le. destruct W as [W|W]; rewrite W; simpl; lia. }
  rewrite Lb, make_keep by auto. eexists. split; [reflexivity|]. simpl.
  assert (W' : wf_cloud {| points := keep flags (points c); intensities := keep flags (intensities c) |}).
  { destruct W as [W|W]; [left|right]; simpl; [rewrite W; apply keep_nil|].
    apply keep_length; auto. }
  split; auto. split; [apply keep_subsequence|]. split; auto. split.
  - destruct W as [W|W]; [rewrite W; apply keep_nil|].
    destruct (intensities c) eqn:Ei; [apply keep_nil|]. rewrite <- Ei in *.
    split; [apply keep_length; auto|].
    rewrite keep_combine by auto. apply keep_subsequence.
  - intros draw'. unfold voxel_filter_cloud. simpl.
    pose proof (filter_fixed (fun p => p) draw' r (keep flags (points c))) as F.
    rewrite map_id in F. rewrite F; clear F.
    + assert (Lb' : Nat.leb (length (keep flags (intensities c))) (length (keep flags (points c))) = true).
      { apply Nat.leb_le. destruct W' as [W'|W']; simpl in W'; rewrite W'; simpl; lia. }
      rewrite Lb'.
      assert (A : forall n (T : Type) (l : list T), (length l <= n)%nat -> keep (repeat true n) l = l).
      { induction n; destruct l; simpl; intros; auto; [lia|]. f_equal. apply IHn. lia. }
      rewrite (A _ _ (keep flags (points c))) by lia.
      rewrite (A _ _ (keep flags (intensities c))) by (apply Nat.leb_le; auto).
      unfold make_cloud. destruct (keep flags (intensities c)) eqn:K; auto. rewrite <- K in *.
      destruct W' as [W'|W']; simpl in W'; [congruence|]. rewrite W', Nat.eqb_refl. auto.
    + intros p I. apply H. eapply subsequence_In; [apply keep_subsequence|exact I].
    + intros a p b q d v Eo. apply (proj1 O a p b q d v Eo).
Qed.

(* three points in two voxels of side 1/2, with intensities *)
Definition fz (z : Z) : f32 := f_of_Z z.
Definition half1 : f32 := fdiv (fz 1) (fz 2).
Definition ex_cloud : cloud :=
  {| points := [(fz 1, fz 0, fz 0); (fz 3, fz 0, fz 0); (fz 1, fz 0, fz 0)];
     intensities := [fz 10; fz 20; fz 30] |}.
Example C33_case_last :   (* the generator draws 2: the third point replaces the first *)
  voxel_filter_cloud (fun _ _ => 2) half1 ex_cloud =
  Some {| points := [(fz 3, fz 0, fz 0); (fz 1, fz 0, fz 0)]; intensities := [fz 20; fz 30] |}.
Proof. vm_compute. reflexivity. Qed.
Example C33_case_first :   (* the generator draws 1: the first point stays *)
  voxel_filter_cloud (fun _ _ => 1) half1 ex_cloud =
  Some {| points := [(fz 1, fz 0, fz 0); (fz 3, fz 0, fz 0)]; intensities := [fz 10; fz 20] |}.
Proof. vm_compute. reflexivity. Qed.

(* --- C34: different voxels are never confused ---
   in the 22 + 21 + 21 bit range of the key *)
Theorem C34_keys : forall resolution p q u v,
  in_voxel resolution p u -> in_voxel resolution q v ->
  in_key_range u -> in_key_range v ->
  exists k l, voxel_key resolution p = Some k /\ voxel_key resolution q = Some l /\
    0 <= k < 2 ^ 64 /\ (k = l <-> u = v).
Proof.
  intros r p q u v Vp Vq Ku Kv. unfold voxel_key.
  rewrite (cell_index_of _ _ _ Vp Ku), (cell_index_of _ _ _ Vq Kv).
  exists (pack_key u), (pack_key v). split; [auto|]. split; [auto|]. split.
  - destruct u as [[a b] c]. rewrite pack_key_eq. apply Z.mod_pos_bound. lia.
  - split; [now apply pack_key_inj|now intros ->].
Qed.

(* Beyond the range keys collide: at a resolution of 1/64 m a point 65.536 km away
   is dropped as if it were in the voxel of the origin; so is, of two points
   16.384 km above and below, one of them next to a third. *)
Definition res64 : f32 := fdiv (fz 1) (fz 64).
Theorem C34_refuted : exists p q u v,
  in_voxel res64 p u /\ in_voxel res64 q v /\ u <> v /\
  voxel_key res64 p = voxel_key res64 q /\
  forall draw, draw 1%nat 2 <> 2 -> voxel_filter (fun p => p) draw res64 [p; q] = Some [p].
Proof.
  exists (fz 0, fz 0, fz 0), (fz 65536, fz 0, fz 0), (0, 0, 0), (4194304, 0, 0).
  assert (N0 : ffin (fdiv (fz 0) res64) /\ nearest_away (fval (fdiv (fz 0) res64)) 0).
  { replace (fdiv (fz 0) res64) with (SpecFloat.S754_zero false) by (vm_compute; reflexivity).
    split; [reflexivity|].
    destruct (round_to_int_ok (SpecFloat.S754_zero false)) as (w & E & N); [reflexivity| |].
    - simpl. rewrite Rabs_R0. apply IZR_lt. lia.
    - simpl in E. inversion E; subst. exact N. }
  assert (N1 : ffin (fdiv (fz 65536) res64) /\ nearest_away (fval (fdiv (fz 65536) res64)) 4194304).
  { replace (fdiv (fz 65536) res64) with (f_of_Z 4194304) by (vm_compute; reflexivity).
    destruct (f_of_Z_exact 4194304) as (V & F & E); [lia|]. split; auto.
    destruct (round_to_int_ok (f_of_Z 4194304) F) as (w & Ew & N).
    - rewrite E. rewrite Rabs_pos_eq by lra. apply IZR_lt. lia.
    - replace (f_round_to_int (f_of_Z 4194304)) with (Some 4194304) in Ew by (vm_compute; reflexivity).
      inversion Ew; subst. exact N. }
  split; [exact (conj N0 (conj N0 N0))|]. split; [exact (conj N1 (conj N0 N0))|].
  split; [congruence|]. split; [vm_compute; reflexivity|].
  intros draw D. unfold voxel_filter, filter_indices. rewrite map_id.
  replace (keys_of res64 [(fz 0, fz 0, fz 0); (fz 65536, fz 0, fz 0)]) with (Some [0; 0])
    by (vm_compute; reflexivity).
  cbn [sample zfind zput length Z.eqb Z.add Pos.add Pos.succ Pos.eqb Z.ltb Z.compare].
  destruct (Z.eqb_spec (draw 1%nat 2) 2); [contradiction|]. reflexivity.
Qed.
(* the carry between z and y *)
Example C34_carry : pack_key (0, 0, 2 ^ 20) = pack_key (0, 1, - 2 ^ 20).
Proof. vm_compute. reflexivity. Qed.
Example C34_case : pack_key (3, -7, 11) <> pack_key (3, -6, 11) /\ in_key_range (3, -7, 11).
Proof. split; [vm_compute; congruence|]. unfold in_key_range. lia. Qed.

(* --- C35: the adaptive filter --- *)
Lemma sample3 draw k : exists i, (i < 3)%nat /\ sample draw 0 [k; k; k] [] = [(k, (3, i))].
Proof.
  cbn -[Z.eqb Z.ltb Z.add]. rewrite !Z.eqb_refl, !Z.ltb_irrefl. cbn -[Z.eqb Z.ltb Z.add].
  rewrite !Z.eqb_refl. 
  change (0 + 1 =? 1) with true. change (0 + 1 + 1 =? 1) with false. change (0 + 1 + 1 + 1 =? 1) with false.
  change (0 + 1 + 1 + 1) with 3. change (0+1+1) with 2. rewrite !Z.ltb_irrefl.
  destruct (draw 1%nat 2 =? 2), (draw 2%nat 3 =? 3); eexists; (split; [|reflexivity]); lia.
Qed.
Lemma sample3' draw k l : k < l -> exists i, (1 <= i < 3)%nat /\ sample draw 0 [k; l; l] [] = [(k, (1, O)); (l, (2, i))].
Proof.
  intros H.
  assert (A : (l =? k) = false) by (apply Z.eqb_neq; lia).
  assert (B : (l <? k) = false) by (apply Z.ltb_ge; lia).
  cbn -[Z.eqb Z.ltb Z.add]. rewrite !A, !B. cbn -[Z.eqb Z.ltb Z.add].
  rewrite !A, !B, !Z.eqb_refl, !Z.ltb_irrefl.
  change (0 + 1 =? 1) with true. change (0 + 1 + 1 =? 1) with false. 
  change (0+1+1) with 2. change (0 + 1) with 1.
  destruct (draw 2%nat 2 =? 2); eexists; (split; [|reflexivity]); lia.
Qed.
Lemma filter_indices_length draw r ps flags :
  filter_indices draw r ps = Some flags -> length flags = length ps.
Proof.
  unfold filter_indices. destruct (keys_of r ps); [|discriminate].
  intros [= <-]. apply points_used_length.
Qed.

Lemma vfc_props draw r c f : voxel_filter_cloud draw r c = Some f ->
  subsequence (points f) (points c).
Proof.
  unfold voxel_filter_cloud. destruct (filter_indices draw r (points c)) as [flags|]; [|discriminate].
  destruct (Nat.leb _ _); [|discriminate]. unfold make_cloud.
  destruct (keep flags (intensities c)).
  - intros [= <-]. apply keep_subsequence.
  - destruct (Nat.eqb _ _); [|discriminate]. intros [= <-]. apply keep_subsequence.
Qed.

Lemma subsequence_length {T} (a b : list T) : subsequence a b -> (length a <= length b)%nat.
Proof. induction 1; simpl; lia. Qed.

(* Coordinates so large that the voxel index could overflow are excluded *)
Definition coord_ok (m : R) (x : f32) : Prop :=
  valid32 x /\ ffin x /\ (Rabs (fval x) <= IZR (2 ^ 22) * m)%R.
Definition coords_ok (m : R) (p : vec3f) : Prop :=
  let '(x, y, z) := p in coord_ok m x /\ coord_ok m y /\ coord_ok m z.

Lemma div_total m x l : (/ IZR (2 ^ 100) <= m)%R -> coord_ok m x -> valid32 l -> ffin l ->
  (m / 128 <= fval l)%R -> exists i, f_round_to_int (fdiv x l) = Some i.
Proof.
  intros Lm (V & F & B) Vl Fl Ll.
  assert (P : (0 < / IZR (2 ^ 100))%R) by (apply Rinv_0_lt_compat; apply IZR_lt; lia).
  assert (Q : (Rabs (fval x / fval l) <= IZR (2 ^ 29))%R).
  { unfold Rdiv. rewrite Rabs_mult, Rabs_inv, (Rabs_pos_eq (fval l)) by lra.
    apply Rmult_le_reg_r with (fval l); [lra|].
    rewrite Rmult_assoc, Rinv_l, Rmult_1_r by lra.
    eapply Rle_trans; [exact B|].
    replace (IZR (2 ^ 29)) with (IZR (2 ^ 22) * 128)%R by (rewrite <- mult_IZR; reflexivity).
    rewrite Rmult_assoc. apply Rmult_le_compat_l; [apply IZR_le; lia|]. lra. }
  destruct (fdiv_ok x l V Vl F) as (Fq & Eq); [lra| |].
  { apply rnd32_small. eapply Rle_trans; [exact Q|]. apply IZR_le; lia. }
  destruct (round_to_int_ok (fdiv x l) Fq) as (i & E & _); [|eauto].
  rewrite Eq. pose proof (rnd32_err (fval x / fval l)) as R.
  set (q := (fval x / fval l)%R) in *.
  assert (T2 : (/ IZR (2 ^ 150) <= 1)%R)
    by (rewrite <- Rinv_1; apply Rinv_le_contravar; [lra|apply IZR_le; lia]).
  assert (Rabs (rnd32 q) <= Rabs q + Rabs (rnd32 q - q))%R.
  { replace (rnd32 q) with (q + (rnd32 q - q))%R at 1 by ring. apply Rabs_triang. }
  assert (2 * IZR (2 ^ 29) + 1 < IZR (2 ^ 31 - 1))%R.
  { rewrite <- mult_IZR, <- plus_IZR. apply IZR_lt. lia. }
  lra.
Qed.

Lemma keys_total m l : (/ IZR (2 ^ 100) <= m)%R -> valid32 l -> ffin l -> (m / 128 <= fval l)%R ->
  forall ps, (forall p, In p ps -> coords_ok m p) -> keys_of l ps <> None.
Proof.
  intros Lm Vl Fl Ll. induction ps as [|[[x y] z] ps IH]; intros H; [discriminate|].
  destruct (H (x, y, z)) as (Hx & Hy & Hz); [simpl; auto|].
  destruct (div_total m x l Lm Hx Vl Fl Ll) as (i & Ei).
  destruct (div_total m y l Lm Hy Vl Fl Ll) as (j & Ej).
  destruct (div_total m z l Lm Hz Vl Fl Ll) as (k & Ek).
  simpl. unfold voxel_key, cell_index. rewrite Ei, Ej, Ek.
  destruct (keys_of l ps) eqn:E; [discriminate|]. exfalso. apply IH; auto.
  intros; apply H; simpl; auto.
Qed.

Lemma vfc_total draw m l c : (/ IZR (2 ^ 100) <= m)%R -> valid32 l -> ffin l ->
  (m / 128 <= fval l)%R -> wf_cloud c -> (forall p, In p (points c) -> coords_ok m p) ->
  voxel_filter_cloud draw l c <> None.
Proof.
  intros Lm Vl Fl Ll W H. pose proof (keys_total m l Lm Vl Fl Ll (points c) H) as K.
  unfold voxel_filter_cloud, filter_indices. destruct (keys_of l (points c)); [|congruence].
  assert (Lb : Nat.leb (length (intensities c)) (length (points c)) = true).
  { apply Nat.leb_le. destruct W as [W|W]; rewrite W; simpl; lia. }
  rewrite Lb, make_keep by auto. discriminate.
Qed.

Lemma wf_filtered pred c out : wf_cloud c -> copy_if pred c = Some out ->
  wf_cloud out /\ points out = filter pred (points c).
Proof.
  unfold copy_if, make_cloud. intros W. destruct (intensities c) eqn:E.
  - intros [= <-]. split; [left|]; auto.
  - destruct (keep (map pred (points c)) (f :: l)) eqn:K.
    + intros [= <-]. split; [left|]; auto.
    + destruct (Nat.eqb_spec (length (filter pred (points c))) (length (f0 :: l0)));
        [|discriminate].
      intros [= <-]. split; [right|]; simpl in *; auto.
Qed.

Lemma copy_if_total pred c : wf_cloud c -> exists out, copy_if pred c = Some out.
Proof.
  intros W. unfold copy_if, make_cloud. destruct (intensities c) eqn:E; [eauto|].
  destruct W as [W|W]; [congruence|]. rewrite E in W.
  destruct (keep (map pred (points c)) (f :: l)) eqn:K; [eauto|].
  assert (L : length (filter pred (points c)) = length (f0 :: l0)).
  { rewrite <- K, <- keep_filter. apply keep_length. auto. }
  rewrite L, Nat.eqb_refl. eauto.
Qed.

(* The search ends after at most seven halvings and four bisections.  The result is
   the range-filtered cloud if that has at most m points; otherwise its voxel-filtered
   version for max_length if dense enough, for a length l that is dense enough while
   one at most 10.0001% larger is not if one of the seven halvings of max_length is
   dense enough, and for max_length / 128 if none is. *)
Theorem C35_adaptive : forall norm draw m max_length max_range c,
  wf_cloud c -> 0 <= m <= 2 ^ 24 -> cloud_size c <= 2 ^ 24 ->
  valid32 max_length -> ffin max_length ->
  (/ IZR (2 ^ 100) <= fval max_length <= IZR (2 ^ 85))%R ->
  (forall p, In p (points c) -> coords_ok (fval max_length) p) ->
  exists input out,
    filter_by_max_range norm max_range c = Some input /\
    points input = filter (fun p => fleb (norm p) max_range) (points c) /\
    adaptive_voxel_filter norm draw 7 4 (f_of_Z m) max_length max_range c = Done out /\
    subsequence (points out) (points input) /\
    let filtered l f := voxel_filter_cloud draw l input = Some f in
    let at_least l := exists f, filtered l f /\ m <= cloud_size f in
    let fewer l := exists f, filtered l f /\ cloud_size f < m in
    if cloud_size input <=? m then out = input
    else
      (at_least max_length -> filtered max_length out) /\
      ((exists k, (k <= 7)%nat /\ at_least (halve k max_length)) -> m <= cloud_size out) /\
      (fewer max_length -> (exists k, (k <= 7)%nat /\ at_least (halve k max_length)) ->
       exists l h, filtered l out /\ fewer h /\
         (fval l <= fval h <= 1.100001 * fval l)%R) /\
      ((forall k, (k <= 7)%nat -> fewer (halve k max_length)) ->
       filtered (halve 7 max_length) out /\ cloud_size out < m).
Proof.
  intros norm draw m max_length max_range c W Hm Hs Vm Fm Bm Hc.
  unfold adaptive_voxel_filter, filter_by_max_range.
  set (pred := fun p => fleb (norm p) max_range).
  destruct (copy_if_total pred c W) as (input & Ei).
  destruct (wf_filtered pred c input W Ei) as (Wi & Pi).
  exists input. rewrite Ei.
  assert (Ls : forall l : list vec3f, (length (filter pred l) <= length l)%nat).
  { induction l; simpl; auto. destruct (pred a); simpl; lia. }
  assert (Si : 0 <= cloud_size input <= 2 ^ 24).
  { unfold cloud_size in *. rewrite Pi. specialize (Ls (points c)). lia. }
  assert (Hci : forall p, In p (points input) -> coords_ok (fval max_length) p).
  { intros p I. rewrite Pi in I. apply filter_In in I. now apply Hc. }
  set (vf := fun l => voxel_filter_cloud draw l input).
  assert (T : forall l, valid32 l -> ffin l ->
    (fval max_length / 128 <= fval l <= fval max_length)%R -> vf l <> None).
  { intros l Vl Fl Bl. eapply vfc_total; eauto; lra. }
  assert (Sub : forall l f, vf l = Some f ->
    subsequence (points f) (points input) /\ 0 <= cloud_size f <= 2 ^ 24).
  { intros l f E. apply vfc_props in E. split; auto.
    apply subsequence_length in E. unfold cloud_size in *. lia. }
  assert (De : forall l f, vf l = Some f ->
    dense cloud_size (f_of_Z m) f = (m <=? cloud_size f)).
  { intros l f E. apply Sub in E. unfold dense. apply fleb_of_Z; lia. }
  assert (Refl : forall l : list vec3f, subsequence l l)
    by (induction l; [apply ss_nil|apply ss_take]; auto).
  assert (Pm : (0 < / IZR (2 ^ 100))%R) by (apply Rinv_0_lt_compat; apply IZR_lt; lia).
  unfold adaptively. rewrite fleb_of_Z by lia.
  destruct (Z.leb_spec (cloud_size input) m) as [Lm|Lm].
  - exists input. split; auto.
  - change (voxel_filter_cloud draw max_length input) with (vf max_length).
    destruct (vf max_length) as [f0|] eqn:E0; [|exfalso; revert E0; apply T; auto; lra].
    rewrite (De _ _ E0). destruct (Z.leb_spec m (cloud_size f0)) as [D0|D0].
    + exists f0. split; [auto|]. split; [auto|]. split; [auto|]. split; [eapply Sub; eauto|].
      cbv zeta. split; [auto|]. split; [auto|]. split.
      * intros (f & Ef & Lf). exfalso. inversion Ef; subst. lia.
      * intros A. exfalso. destruct (A O ltac:(lia)) as (f & Ef & Lf).
        change (vf max_length = Some f) in Ef. rewrite E0 in Ef. inversion Ef; subst. lia.
    + assert (D0' : dense cloud_size (f_of_Z m) f0 = false).
      { rewrite (De _ _ E0). apply Z.leb_gt. auto. }
      destruct (search_done vf cloud_size (f_of_Z m) (fval max_length / 128) (fval max_length)
                  T max_length Vm Fm Bm (Rle_refl _) (Rle_refl _) 7 0 f0)
        as (r & o & E & B); [reflexivity|exists f0; auto|exact E0|].
      change (halve 0 max_length) with max_length in E.
      exists r. split; auto. split; auto. split.
      { fold vf. rewrite E. reflexivity. }
      assert (N0 : ~ exists f, Some f0 = Some f /\ m <= cloud_size f).
      { intros (f & Ef & Lf). inversion Ef; subst. lia. }
      destruct o as [[l h]|].
      * destruct B as (B1 & B2 & (ch & B3 & B4) & B5).
        destruct (search_found vf cloud_size (f_of_Z m) max_length 7 0 f0 r l h E)
          as (j & cj & Lj & Ej & Dj).
        rewrite (De _ _ B1) in B2. rewrite (De _ _ B3) in B4. apply Z.leb_le in B2. apply Z.leb_gt in B4.
        split; [eapply Sub; eauto|]. cbv zeta. split; [tauto|]. split; [auto|]. split.
        -- intros _ _. exists l, h. split; [exact B1|]. split; [exists ch; auto|auto].
        -- intros A. exfalso.
           assert (Lj7 : (j <= 7)%nat \/ (7 < j)%nat) by lia. destruct Lj7 as [Lj7|Lj7].
           ++ destruct (A j Lj7) as (f & Ef & Lf). change (vf (halve j max_length) = Some f) in Ef.
              rewrite (De _ _ Ej) in Dj. rewrite Ej in Ef. inversion Ef; subst.
              apply Z.leb_le in Dj. lia.
           ++ (* a dense halving beyond the seventh is not reached *)
              clear - E Lj7 A De T Vm Fm Bm vf.
              assert (G : forall n k f, (k + n = 7)%nat ->
                search vf cloud_size (f_of_Z m) n 4 max_length (halve k max_length) f = Done (r, Some (l, h)) -> False).
              { induction n as [|n IH]; intros k f K Es.
                - unfold search in Es. destruct (fltb _ _); discriminate.
                - cbn [search] in Es. destruct (fltb _ _); [|discriminate].
                  change (fdiv (halve k max_length) f_two) with (halve (S k) max_length) in Es.
                  destruct (A (S k) ltac:(lia)) as (f' & Ef & Lf).
                  change (vf (halve (S k) max_length) = Some f') in Ef.
                  rewrite Ef, (De _ _ Ef) in Es.
                  rewrite (proj2 (Z.leb_gt m (cloud_size f')) Lf) in Es.
                  eapply IH; [|exact Es]. lia. }
              apply (G 7%nat O f0); auto.
      * destruct B as (B1 & B2).
        assert (NK : ~ exists k, (k <= 7)%nat /\
           exists f, voxel_filter_cloud draw (halve k max_length) input = Some f /\ m <= cloud_size f).
        { intros (k & Lk & f & Ef & Lf). pose proof (B2 k f ltac:(lia) Ef) as D.
          rewrite (De _ _ Ef) in D. apply Z.leb_gt in D. lia. }
        split; [eapply Sub; eauto|]. cbv zeta. split; [tauto|]. split; [tauto|]. split; [tauto|].
        intros A. split; [exact B1|].
        pose proof (B2 7%nat r ltac:(lia) B1) as D. rewrite (De _ _ B1) in D.
        now apply Z.leb_gt in D.
Qed.

(* As the comment in voxel_filter.cc:50-53 has it, the full cloud is used when even
   the smallest length is not dense enough.  It is not: of three points in one place
   only one is left although two were asked for. *)
Definition ex_dup : cloud :=
  {| points := [(fz 0, fz 0, fz 0); (fz 0, fz 0, fz 0); (fz 0, fz 0, fz 0)]; intensities := [] |}.
Theorem C35_full_cloud_refuted : exists c m max_length max_range,
  m <= cloud_size c /\
  forall norm draw, norm (fz 0, fz 0, fz 0) = fz 0 ->
  filter_by_max_range norm max_range c = Some c /\
  exists out, adaptive_voxel_filter norm draw 7 4 (f_of_Z m) max_length max_range c = Done out /\
    cloud_size out < m.
Proof.
  exists ex_dup, 2, half1, (fz 10). split; [vm_compute; congruence|].
  intros norm draw N.
  assert (K : filter_by_max_range norm (fz 10) ex_dup = Some ex_dup).
  { unfold filter_by_max_range, copy_if. change (intensities ex_dup) with (@nil f32). cbv iota.
    change (points ex_dup) with [(fz 0, fz 0, fz 0); (fz 0, fz 0, fz 0); (fz 0, fz 0, fz 0)].
    cbn [filter]. rewrite N.
    replace (fleb (fz 0) (fz 10)) with true by (vm_compute; reflexivity). reflexivity. }
  split; [exact K|].
  assert (Wc : wf_cloud ex_dup) by (left; reflexivity).
  assert (Hh : valid32 half1 /\ ffin half1 /\ fval half1 = (1 / 2)%R).
  { replace half1 with (SpecFloat.S754_finite false 8388608 (-24)) by (vm_compute; reflexivity).
    split; [vm_compute; reflexivity|]. split; [reflexivity|].
    rewrite fval_pos. change (-24)%Z with (- (24))%Z. rewrite bpow_neg.
    replace (IZR (2 ^ 24)) with 16777216%R by (simpl; lra). lra. }
  destruct Hh as (Vh & Fh & Eh).
  destruct (f_of_Z_exact 0) as (V0 & F0 & Z0); [lia|].
  destruct (C35_adaptive norm draw 2 half1 (fz 10) ex_dup Wc) as (input & out & A & B & C & D & R);
    auto; try lia.
  - vm_compute. congruence.
  - rewrite Eh. split.
    + apply Rle_trans with (/ 2)%R; [|lra]. apply Rinv_le_contravar; [lra|apply IZR_le; lia].
    + apply Rle_trans with 1%R; [lra|apply IZR_le; lia].
  - intros p I. assert (p = (fz 0, fz 0, fz 0)) by (destruct I as [I|[I|[I|[]]]]; symmetry; exact I). subst p.
    assert (Ok : coord_ok (fval half1) (fz 0)).
    { split; [exact V0|]. split; [exact F0|]. unfold fz. rewrite Z0, Rabs_R0, Eh.
      apply Rmult_le_pos; [apply IZR_le; lia|lra]. }
    split; [exact Ok|split; exact Ok].
  - exists out. split; [exact C|]. rewrite K in A. inversion A; subst input.
    cbv zeta in R. replace (cloud_size ex_dup <=? 2) with false in R by (vm_compute; reflexivity).
    apply R. intros k Lk.
    assert (Kk : keys_of (halve k half1) (points ex_dup) = Some [0; 0; 0]).
    { do 8 (destruct k as [|k]; [vm_compute; reflexivity|]). lia. }
    unfold voxel_filter_cloud, filter_indices. rewrite Kk.
    destruct (sample3 draw 0) as (i & Li & ->).
    do 3 (destruct i as [|i]; [eexists; split; [reflexivity|vm_compute; reflexivity]|]). lia.
Qed.

(* The binary search does not end for lengths near the smallest subnormal number:
   max_length = 2^-148 and three points within 2^-148 of the origin. *)
Definition sub1 : f32 := SpecFloat.S754_finite false 1 (-149).
Definition sub2 : f32 := SpecFloat.S754_finite false 2 (-149).
Definition ex_sub : cloud :=
  {| points := [(sub1, fz 0, fz 0); (sub2, fz 0, fz 0); (sub2, fz 0, fz 0)]; intensities := [] |}.
Theorem C35_terminates_refuted : exists c m max_length,
  is_true (fltb (fz 0) max_length) /\
  forall norm draw fuel ifuel, (forall p, In p (points c) -> fleb (norm p) (fz 10) = true) ->
  adaptive_voxel_filter norm draw fuel ifuel (f_of_Z m) max_length (fz 10) c = Running.
Proof.
  exists ex_sub, 2, sub2. split; [vm_compute; reflexivity|].
  intros norm draw fuel ifuel N.
  assert (K : filter_by_max_range norm (fz 10) ex_sub = Some ex_sub).
  { unfold filter_by_max_range, copy_if. change (intensities ex_sub) with (@nil f32). cbv iota.
    change (points ex_sub) with [(sub1, fz 0, fz 0); (sub2, fz 0, fz 0); (sub2, fz 0, fz 0)].
    cbn [filter]. rewrite !N by (simpl; auto). reflexivity. }
  unfold adaptive_voxel_filter. rewrite K.
  set (vf := fun l => voxel_filter_cloud draw l ex_sub).
  assert (D1 : exists f, vf sub1 = Some f /\ dense cloud_size (f_of_Z 2) f = true).
  { unfold vf, voxel_filter_cloud, filter_indices.
    replace (keys_of sub1 (points ex_sub)) with (Some [2 ^ 42; 2 ^ 43; 2 ^ 43])
      by (vm_compute; reflexivity).
    destruct (sample3' draw (2 ^ 42) (2 ^ 43) ltac:(lia)) as (i & Li & ->).
    destruct i as [|[|[|i]]]; [lia| | |lia];
      (eexists; split; [reflexivity|vm_compute; reflexivity]). }
  assert (D2 : exists f, vf sub2 = Some f /\ dense cloud_size (f_of_Z 2) f = false).
  { unfold vf, voxel_filter_cloud, filter_indices.
    replace (keys_of sub2 (points ex_sub)) with (Some [2 ^ 42; 2 ^ 42; 2 ^ 42])
      by (vm_compute; reflexivity).
    destruct (sample3 draw (2 ^ 42)) as (i & Li & ->).
    do 3 (destruct i as [|i]; [eexists; split; [reflexivity|vm_compute; reflexivity]|]). lia. }
  destruct D1 as (f1 & E1 & D1), D2 as (f2 & E2 & D2).
  assert (BR : forall n r, bisect vf cloud_size (f_of_Z 2) n sub1 sub2 r = Running).
  { induction n as [|n IH]; intros r.
    - cbn [bisect]. replace (fltb f_1e_1 (fdiv (fsub sub2 sub1) sub1)) with true by (vm_compute; reflexivity).
      reflexivity.
    - cbn [bisect]. replace (fltb f_1e_1 (fdiv (fsub sub2 sub1) sub1)) with true by (vm_compute; reflexivity).
      replace (fdiv (fadd sub1 sub2) f_two) with sub2 by (vm_compute; reflexivity).
      rewrite E2, D2. apply IH. }
  unfold adaptively.
  replace (fleb (f_of_Z (cloud_size ex_sub)) (f_of_Z 2)) with false by (vm_compute; reflexivity).
  fold vf. change (voxel_filter_cloud draw sub2 ex_sub) with (vf sub2).
  rewrite E2, D2. destruct fuel as [|fuel].
  - cbn [search]. replace (fltb (fmul f_1e_2 sub2) sub2) with true by (vm_compute; reflexivity). reflexivity.
  - cbn [search]. replace (fltb (fmul f_1e_2 sub2) sub2) with true by (vm_compute; reflexivity).
    replace (fdiv sub2 f_two) with sub1 by (vm_compute; reflexivity).
    rewrite E1, D1, BR. reflexivity.
Qed.

(* four points on a line, at least three wanted: 8 is too coarse, halving and
   bisecting finds a length at which two of them share a voxel *)
Example C35_case :
  let line := {| points := [(fz 0, fz 0, fz 0); (fz 2, fz 0, fz 0); (fz 3, fz 0, fz 0); (fz 9, fz 0, fz 0)];
                 intensities := [] |} in
  exists out, adaptive_voxel_filter (fun p => fst (fst p)) (fun _ _ => 1) 7 4 (fz 3) (fz 8) (fz 10) line
    = Done out /\ length (points out) = 3%nat.
Proof.
  exists {| points := [(fz 0, fz 0, fz 0); (fz 3, fz 0, fz 0); (fz 9, fz 0, fz 0)]; intensities := [] |}.
  split; vm_compute; reflexivity.
Qed.

Print Assumptions C33_one_per_voxel.
Print Assumptions C33_idempotent.
Print Assumptions C33_cloud.
Print Assumptions C34_keys.
Print Assumptions C34_refuted.
Print Assumptions C35_adaptive.
Print Assumptions C35_full_cloud_refuted.
Print Assumptions C35_terminates_refuted.
