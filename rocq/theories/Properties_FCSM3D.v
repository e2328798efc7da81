(* Property theorems for the 3D branch-and-bound scan matcher (C40). *)
From Coq Require Import List ZArith Bool Reals Lia Lra Sorted Permutation.
From Verif Require Import Float32 FloatR Float32_Proofs PV_Model PV_Bounded PV_Proofs G2_Model G2_Spec HG_Model HG_Spec HG_Wrap
  HG_Dyn HG_Proofs Properties_HG FCSM2D_Model FCSM_Float FCSM3D_Model FCSM3D_Spec FCSM3D_Grid FCSM3D_Stack FCSM3D_Search.
Import ListNotations.
Open Scope Z_scope.

(* C40: for every hybrid grid whose known voxels leave room below, every depth and split into full
   and half resolutions, every window, list of rotations, monotone score, low resolution score and
   way of sorting equal scores: given enough fuel the matcher does not abort; it answers nullptr
   only if no acceptable pose scores above min_score; otherwise it returns an acceptable pose with
   its score by direct lookup, which no acceptable pose exceeds. *)
Theorem C40_branch_and_bound to_score sort low_score min_low bd fd h w min_rot rots min_score :
  hreachable h -> 1 <= fd -> (1 <= bd <= 30)%nat -> Z.min fd (Z.of_nat bd) <= 14 ->
  room h (2 ^ (Z.min fd (Z.of_nat bd) - 1) - 1) ->
  (forall n a b, 1 <= n < 2 ^ 23 -> 0 <= a <= b -> b <= 255 * n -> to_score n a <= to_score n b) ->
  (forall l, Permutation l (sort l)) ->
  (forall l, StronglySorted (fun a b => score_lt (k_score a) (k_score b) = false) (sort l)) ->
  0 <= w_xy w <= 2 ^ 29 -> 0 <= w_z w <= 2 ^ 29 ->
  (forall rot cells, In (rot, cells) rots -> cells_within (2 ^ 29 - 1) cells /\ 1 <= Z.of_nat (length cells) < 2 ^ 23) ->
  exists N r, (forall n, (N <= n)%nat -> match3 to_score sort low_score min_low n bd fd h w min_rot rots min_score = Some r) /\
    match r with
    | None => forall i o cells rot, acceptable low_score min_low w rots min_rot i o cells rot ->
                pose_score3 to_score h cells o <= min_score
    | Some (sc, i, o, rot) =>
        (exists cells, acceptable low_score min_low w rots min_rot i o cells rot /\ sc = pose_score3 to_score h cells o) /\
        min_score < sc /\
        forall i' o' cells' rot', acceptable low_score min_low w rots min_rot i' o' cells' rot' ->
          pose_score3 to_score h cells' o' <= sc
    end.
Proof. intros R. apply match3_ok. now apply hreachable_wf. Qed.

(* The same with ToProbability in float32. *)
Notation score3f := (score_f kMinProbability kMaxProbability).
Theorem C40_float sort low_score min_low bd fd h w min_rot rots min_score :
  hreachable h -> 1 <= fd -> (1 <= bd <= 30)%nat -> Z.min fd (Z.of_nat bd) <= 14 ->
  room h (2 ^ (Z.min fd (Z.of_nat bd) - 1) - 1) ->
  valid32 min_score -> ffin min_score ->
  (forall l, Permutation l (sort l)) ->
  (forall l, StronglySorted (fun a b => score_lt (k_score a) (k_score b) = false) (sort l)) ->
  0 <= w_xy w <= 2 ^ 29 -> 0 <= w_z w <= 2 ^ 29 ->
  (forall rot cells, In (rot, cells) rots -> cells_within (2 ^ 29 - 1) cells /\ 1 <= Z.of_nat (length cells) < 2 ^ 23) ->
  exists N r, (forall n, (N <= n)%nat -> match3 (fun n a => fkey (score3f n a)) sort low_score min_low n bd fd h w min_rot rots
                                           (fkey min_score) = Some r) /\
    match r with
    | None => forall i o cells rot, acceptable low_score min_low w rots min_rot i o cells rot ->
                fleb (score3f (Z.of_nat (length cells)) (scan_sum3 h cells o)) min_score = true
    | Some (sc, i, o, rot) =>
        exists cells, acceptable low_score min_low w rots min_rot i o cells rot /\
          let s := score3f (Z.of_nat (length cells)) (scan_sum3 h cells o) in
          sc = fkey s /\ fltb min_score s = true /\
          forall i' o' cells' rot', acceptable low_score min_low w rots min_rot i' o' cells' rot' ->
            fleb (score3f (Z.of_nat (length cells')) (scan_sum3 h cells' o')) s = true
    end.
Proof.
  intros R Hf Hb Hm Rm Vm Fm SP SS W1 W2 HR.
  destruct (C40_branch_and_bound (fun n a => fkey (score3f n a)) sort low_score min_low bd fd h w min_rot rots (fkey min_score))
    as (N & r & E & Q); auto.
  { intros n a b Hn Hab Hb'. apply score_key_mono; [exact prob_range | lia | lia | lia]. }
  assert (Hfin : forall i o cells rot, acceptable low_score min_low w rots min_rot i o cells rot ->
    valid32 (score3f (Z.of_nat (length cells)) (scan_sum3 h cells o)) /\ ffin (score3f (Z.of_nat (length cells)) (scan_sum3 h cells o))).
  { intros i o cells rot ((I & Nt) & Wo & _). apply nth_error_In, filter_In in Nt as [Nt _]. destruct (HR rot cells Nt) as [Cw Ln].
    pose proof (scan_sum_range h (hreachable_wf _ R) cells o) as Sr.
    destruct (score_f_val _ _ prob_range (Z.of_nat (length cells)) (scan_sum3 h cells o)) as (V & F & _); [lia | | now split].
    assert (0 <= scan_sum3 h cells o <= 255 * Z.of_nat (length cells)); [|lia]. apply Sr.
    intros c C. specialize (Cw c C). unfold in_window3, big, within, add3, zip3 in *. cbn [vx vy vz fst snd]. lia. }
  exists N, r. split; [exact E|]. destruct r as [[[[sc i] o] rot]|].
  - destruct Q as ((cells & A & ->) & L & M). exists cells. split; [exact A|]. destruct (Hfin _ _ _ _ A) as [V F].
    split; [reflexivity|]. unfold pose_score3 in *. split.
    + apply fltb_ok; auto. apply Rnot_le_lt. intros Q. apply fkey_le in Q; auto. lia.
    + intros i' o' cells' rot' A'. destruct (Hfin _ _ _ _ A') as [V' F']. rewrite <- fkey_order by assumption. apply Z.leb_le.
      exact (M _ _ _ _ A').
  - intros i o cells rot A. destruct (Hfin _ _ _ _ A) as [V F]. rewrite <- fkey_order by assumption. apply Z.leb_le. exact (Q _ _ _ _ A).
Qed.

(* The grids of the stack: the first holds the 8-bit values of the voxels, and the one of depth d
   bounds at the shifted index of p every voxel of the cube of side 2^d from p on. *)
Theorem C40_precomputed h bd fd : hreachable h -> 1 <= fd -> (1 <= bd <= 30)%nat -> Z.min fd (Z.of_nat bd) <= 14 ->
  room h (2 ^ (Z.min fd (Z.of_nat bd) - 1) - 1) ->
  exists N gs, (forall n, (N <= n)%nat -> stack3 n bd fd h = Some gs) /\ length gs = bd /\
    (forall g i, nth_error gs 0 = Some g -> int_index i -> p_value g i = Some (voxel8 h i)) /\
    forall d g p t, nth_error gs d = Some g -> within (- 2 ^ 30) (2 ^ 30) p -> within 0 (2 ^ Z.of_nat d) t ->
      let e := Z.max 0 (Z.of_nat d - fd + 1) in
      exists v, p_value g (Z.shiftr (vx p) e, Z.shiftr (vy p) e, Z.shiftr (vz p) e) = Some v /\
                voxel8 h (vx p + vx t, vy p + vy t, vz p + vz t) <= v <= 255.
Proof.
  intros R Hf Hb Hm Rm. destruct (stack3_ok h bd fd (hreachable_wf _ R) Hf Hb Hm Rm) as (N & gs & E & L & Z0 & Ld).
  exists N, gs. split; [exact E|]. split; [exact L|]. split.
  - intros g i G I. rewrite (pv_eq g i (l_wf _ _ _ _ _ (Ld 0%nat g G)) I). now rewrite (Z0 g G i I).
  - intros d g p t G Wp Wt e. pose proof (Ld d g G) as Lv. fold e. 
    assert (I : int_index (shr3 e p)) by (apply int_shr; [unfold e; lia | exact Wp]).
    exists (pv g (shr3 e p)). split; [exact (pv_eq g _ (l_wf _ _ _ _ _ Lv) I)|].
    split; [exact (l_dom _ _ _ _ _ Lv p t Wp Wt) | apply (l_range _ _ _ _ _ Lv _ I)].
Qed.

(* Without room below the constructor aborts although the grid is a legal one: a voxel at the lower
   border, visible in the 8-bit grid, is written one step outside of what a grid can hold. *)
Theorem C40_border_aborts h bd fd i : hreachable h -> 2 <= fd -> (2 <= bd)%nat -> representable i -> voxel8 h i <> 0 ->
  vx i = -8192 \/ vy i = -8192 \/ vz i = -8192 ->
  exists N g, forall n, (N <= n)%nat -> convert n h = Some g /\ stack3 n bd fd h = None.
Proof. intros R. apply border_abort. now apply hreachable_wf. Qed.

Theorem C40_room_refuted : exists h bd fd, hreachable h /\ 1 <= fd /\ (1 <= bd <= 30)%nat /\ Z.min fd (Z.of_nat bd) <= 14 /\
  exists N, forall n to_score sort low_score min_low w min_rot rots min_score, (N <= n)%nat ->
    match3 to_score sort low_score min_low n bd fd h w min_rot rots min_score = None.
Proof.
  assert (R : representable (-8192, 0, 0)) by (unfold representable, within, vx, vy, vz; cbn [fst snd]; lia).
  assert (P : prob_to_value kMaxProbability = Some 32767) by (vm_compute; reflexivity).
  destruct (set_ok (hy_new f_one) (-8192, 0, 0) kMaxProbability 32767 (hy_new_wf _) eq_refl R P ltac:(lia)) as (h & E & W & _ & U & V).
  assert (Rh : hreachable h).
  { eapply hr_set; [apply hr_new | reflexivity | | exact E]. reflexivity. }
  exists h, 2%nat, 2. split; [exact Rh|]. do 3 (split; [cbn; lia|]).
  assert (V8 : voxel8 h (-8192, 0, 0) <> 0).
  { unfold voxel8. rewrite (V (-8192, 0, 0) (rep_int _ R)). rewrite same3_refl.
    match goal with |- context [f_round_to_int ?x] => replace (f_round_to_int x) with (Some 255) by (vm_compute; reflexivity) end.
    change (32767 =? 0) with false. cbv iota. discriminate. }
  destruct (C40_border_aborts h 2 2 (-8192, 0, 0) Rh ltac:(lia) ltac:(lia) R V8) as (N & g & Ab); [left; reflexivity|].
  exists N. intros n to_score sort low_score min_low w min_rot rots min_score Hn. unfold match3. now rewrite (proj2 (Ab n Hn)).
Qed.

(* ---- a concrete match ---- *)
Fixpoint ins3 (c : cand3) (l : list cand3) : list cand3 :=
  match l with
  | [] => [c]
  | d :: r => if score_lt (k_score d) (k_score c) then c :: l else d :: ins3 c r
  end.
Definition isort3 (l : list cand3) : list cand3 := fold_right ins3 [] l.
Lemma score_le_trans a b c : score_lt a b = false -> score_lt b c = false -> score_lt a c = false.
Proof. destruct a, b, c; cbn; try congruence. intros. lia. Qed.
Lemma isort3_perm l : Permutation l (isort3 l).
Proof.
  induction l as [|a l IH]; simpl; auto. change (Permutation (a :: l) (ins3 a (isort3 l))). apply perm_trans with (a :: isort3 l); auto.
  generalize (isort3 l). clear. intros l. induction l as [|b l IH]; simpl; auto.
  destruct (score_lt _ _); auto. eapply perm_trans; [apply perm_swap|]. auto.
Qed.
Lemma isort3_sorted l : StronglySorted (fun a b => score_lt (k_score a) (k_score b) = false) (isort3 l).
Proof.
  induction l as [|a l IH]; simpl; [constructor|]. change (StronglySorted (fun a b => score_lt (k_score a) (k_score b) = false) (ins3 a (isort3 l))). revert IH. generalize (isort3 l). clear. intros l H.
  induction H as [|b l Hs IH Hf]; simpl; [repeat constructor|]. destruct (score_lt (k_score b) (k_score a)) eqn:E.
  - assert (L : score_lt (k_score a) (k_score b) = false) by (destruct (k_score a), (k_score b); cbn in *; congruence || lia).
    constructor; [constructor; auto|]. constructor; [exact L|].
    eapply Forall_impl; [|exact Hf]. simpl. intros x Hx. eapply score_le_trans; eassumption.
  - constructor; auto. rewrite Forall_forall in *. intros x Hx.
    assert (P : In x (a :: l)).
    { revert Hx. clear. induction l as [|c l IH]; simpl; auto. destruct (score_lt _ _); simpl; [tauto|]. intros [-> | H]; auto.
      apply IH in H. destruct H; auto. }
    destruct P as [<- | P]; [exact E | auto].
Qed.

(* two voxels; the scan of two points fits them exactly at offset (1, 1, 0) *)
Definition ex_h : option hybrid :=
  match hy_set_probability (hy_new f_one) (2, 1, 0) kMaxProbability with
  | Some h => hy_set_probability h (-3, 1, 0) kMaxProbability
  | None => None
  end.
Definition ex_rots : list (Z * list Z3) := [(10, [(0, 0, 0)]); (70, [(1, 0, 0); (-4, 0, 0)]); (90, [(0, 0, 0); (0, 3, 0)])].
Definition ex_low (ok : bool) (i : Z) (o : Z3) : Z := if ok || negb (same3 o (1, 1, 0)) then 60 else 0.
Definition ex_match (ok : bool) (min_score : Z) : option (option (Z * Z * Z3 * Z)) :=
  match ex_h with
  | Some h => match3 (fun n a => fkey (score3f n a)) isort3 (ex_low ok) 50 20 2 1 h (mk_window3 1 0) 50 ex_rots min_score
  | None => None
  end.
Example C40_example : ex_match true (fkey kMinProbability) = Some (Some (fkey kMaxProbability, 0, (1, 1, 0), 70)).
Proof. vm_compute. reflexivity. Qed.
(* nullptr if the score is asked to be higher *)
Example C40_example_none : ex_match true (fkey kMaxProbability) = Some None.
Proof. vm_compute. reflexivity. Qed.
(* the low resolution matcher vetoes the best offset *)
Example C40_example_low : option_map (option_map (fun r => snd (fst r))) (ex_match false (fkey kMinProbability)) = Some None.
Proof. vm_compute. reflexivity. Qed.
Example C40_example_hypotheses : forall h, ex_h = Some h -> hreachable h /\ room h 0 /\
  (forall rot cells, In (rot, cells) ex_rots -> cells_within (2 ^ 29 - 1) cells /\ 1 <= Z.of_nat (length cells) < 2 ^ 23).
Proof.
  intros h E. unfold ex_h in E.
  destruct (hy_set_probability (hy_new f_one) (2, 1, 0) kMaxProbability) as [h1|] eqn:E1; [|discriminate].
  assert (Rh : hreachable h).
  { assert (Rp : representable (2, 1, 0)) by (unfold representable, within, vx, vy, vz; cbn [fst snd]; lia).
    assert (P : prob_to_value kMaxProbability = Some 32767) by (vm_compute; reflexivity).
    destruct (set_ok (hy_new f_one) (2, 1, 0) kMaxProbability 32767 (hy_new_wf _) eq_refl Rp P ltac:(lia)) as (h' & E' & _ & _ & U & _).
    rewrite E1 in E'. injection E' as <-.
    eapply hr_set; [|exact U | | exact E]; [|reflexivity]. eapply hr_set; [apply hr_new | reflexivity | | exact E1]. reflexivity. }
  split; [exact Rh|]. split.
  - intros i v R _ _. exact R.
  - intros rot cells [Q | [Q | [Q | []]]]; injection Q as <- <-; (split; [|cbn; lia]); intros c C; cbn in C;
      repeat (destruct C as [<- | C]; [unfold within, vx, vy, vz; cbn [fst snd]; lia|]); contradiction.
Qed.

Print Assumptions C40_branch_and_bound.
Print Assumptions C40_float.
Print Assumptions C40_precomputed.
Print Assumptions C40_border_aborts.
Print Assumptions C40_room_refuted.
