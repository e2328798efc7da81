(* The discrete part: blocks, encoding and decoding. *)
From Coq Require Import ZArith List Bool Lia Permutation.
From Verif Require Import Vec Float32 G2_Model HG_Model HG_Spec HG_Wrap HG_Dyn HG_Proofs CPC_Model.
Import ListNotations.
Open Scope Z_scope.

Lemma empty_ok (v : list Z3) : is_empty v = true <-> v = [].
Proof. destruct v; simpl; split; congruence. Qed.
Definition bok := base_ok (list Z3) [] is_empty empty_ok.
Definition bsz := base_size (list Z3) [] is_empty.
Definition bwf (g : blocks) : Prop := dwf (base_wf (list Z3)) g.
Definition bvalue (g : blocks) (i : Z3) : option (list Z3) := dyn_value [] block_ops g i.

(* the points of one block, in order *)
Definition item : Type := (Z3 * Z3)%type.
Definition group (its : list item) (i : Z3) : list Z3 :=
  map snd (filter (fun t => same3 (fst t) i) its).

Lemma eq3_dec (a b : Z3) : {a = b} + {a <> b}.
Proof. repeat decide equality. Qed.
Definition distinct (its : list item) : Z := vsize (nodup eq3_dec (map fst its)).

Lemma distinct_snoc its t : distinct (its ++ [t]) =
  distinct its + (if is_empty (group its (fst t)) then 1 else 0).
Proof.
  unfold distinct, vsize. rewrite map_app. simpl.
  assert (G : is_empty (group its (fst t)) = true <-> ~ In (fst t) (map fst its)).
  { unfold group. rewrite empty_ok. split.
    - intros E I. apply in_map_iff in I. destruct I as (u & E1 & I).
      assert (In u (filter (fun t0 => same3 (fst t0) (fst t)) its)).
      { apply filter_In. split; auto. rewrite E1. apply same3_refl. }
      apply map_eq_nil in E. rewrite E in H. destruct H.
    - intros N. destruct (filter (fun t0 => same3 (fst t0) (fst t)) its) as [|u r] eqn:F; auto.
      exfalso. apply N. assert (I : In u (u :: r)) by (simpl; auto). rewrite <- F in I.
      apply filter_In in I. destruct I as (I & S). apply same3_iff in S. rewrite <- S.
      now apply in_map. }
  destruct (is_empty (group its (fst t))).
  - assert (N : ~ In (fst t) (map fst its)) by now apply G.
    assert (P : Permutation (nodup eq3_dec (map fst its ++ [fst t])) (fst t :: nodup eq3_dec (map fst its))).
    { apply NoDup_Permutation.
      - apply NoDup_nodup.
      - constructor; [rewrite nodup_In; auto|apply NoDup_nodup].
      - intros x. rewrite nodup_In, in_app_iff. simpl. rewrite nodup_In. tauto. }
    apply Permutation_length in P. simpl length in P. unfold item in *. lia.
  - assert (I : In (fst t) (map fst its)).
    { destruct (in_dec eq3_dec (fst t) (map fst its)); auto. apply G in n. discriminate. }
    assert (P : Permutation (nodup eq3_dec (map fst its ++ [fst t])) (nodup eq3_dec (map fst its))).
    { apply NoDup_Permutation; try apply NoDup_nodup.
      intros x. rewrite !nodup_In, in_app_iff. simpl. split; [intros [?|[<-|[]]]; auto|auto]. }
    apply Permutation_length in P. unfold item in *. lia.
Qed.

Lemma group_snoc its t i : group (its ++ [t]) i =
  if same3 (fst t) i then group its i ++ [snd t] else group its i.
Proof.
  unfold group. rewrite filter_app, map_app. simpl.
  destruct (same3 (fst t) i); simpl; auto. apply app_nil_r.
Qed.

Definition binv (its : list item) (st : blocks * Z) : Prop :=
  bwf (fst st) /\ (forall i, int_index i -> bvalue (fst st) i = Some (group its i)) /\
  snd st = distinct its.

Lemma binv_new : binv [] (dyn_new, 0).
Proof.
  split; [exact (dyn_new_wf [] block_ops _ bok)|]. split; [|reflexivity].
  intros i I. exact (dyn_new_value [] block_ops _ bok bsz i I).
Qed.

Lemma same3_sym i j : same3 i j = same3 j i.
Proof. destruct (same3_spec i j), (same3_spec j i); congruence. Qed.

Lemma add_point_ok its st p b l : binv its st -> in_bounds p = true ->
  raster p = Some (b, l) -> representable b ->
  exists st', add_point st p = Done st' /\ binv (its ++ [(b, l)]) st'.
Proof.
  destruct st as [g nb]. intros (W & V & N) B R Rb. cbn [fst snd] in *.
  unfold add_point. rewrite B, R.
  destruct (dyn_modify_ok [] block_ops _ bok bsz bool
              (fun v => Some (is_empty v, v ++ [l])) b (group its b) (is_empty (group its b))
              (group its b ++ [l]) Rb eq_refl grow_fuel g W (V b (rep_int _ Rb)))
    as (g' & E & W' & V').
  { destruct W as [Bt _]. unfold grow_fuel. lia. }
  rewrite E. eexists. split; [reflexivity|].
  split; [exact W'|]. split.
  - intros i I. cbn [fst]. unfold bvalue. rewrite V' by exact I. rewrite group_snoc. cbn [fst snd].
    rewrite (same3_sym b i). destruct (same3_spec i b) as [->|]; auto.
  - cbn [snd]. rewrite distinct_snoc, N. reflexivity.
Qed.

Lemma add_points_ok : forall ps its its0 st, binv its0 st ->
  Forall2 (fun p t => in_bounds p = true /\ raster p = Some t /\ representable (fst t)) ps its ->
  exists st', add_points st ps = Done st' /\ binv (its0 ++ its) st'.
Proof.
  induction ps as [|p ps IH]; intros its its0 st I F; inversion F; subst.
  - exists st. rewrite app_nil_r. auto.
  - destruct H1 as (B & R & Rb). destruct y as [b l].
    destruct (add_point_ok its0 st p b l I B R Rb) as (st1 & E1 & I1).
    simpl. rewrite E1. destruct (IH l' _ _ I1 H3) as (st' & E' & I').
    exists st'. split; auto. now rewrite <- app_assoc in I'.
Qed.

(* The blocks visited partition the items *)
Definition items_of (l : list (Z3 * list Z3)) : list item :=
  flat_map (fun b => map (fun x => (fst b, x)) (snd b)) l.

Lemma partition_perm {T} (f : T -> bool) : forall l,
  Permutation l (filter f l ++ filter (fun x => negb (f x)) l).
Proof.
  induction l as [|x l IH]; simpl; auto. destruct (f x); simpl.
  - now constructor.
  - etransitivity; [constructor; exact IH|]. apply Permutation_middle.
Qed.

Lemma group_items its i : map (fun x => (i, x)) (group its i) =
  filter (fun t => same3 (fst t) i) its.
Proof.
  unfold group. induction its as [|[b l] its IH]; simpl; auto.
  destruct (same3_spec b i) as [->|]; simpl; auto. now rewrite IH.
Qed.

Lemma blocks_perm : forall l its, NoDup (map fst l) ->
  (forall i v, In (i, v) l -> v = group its i) ->
  (forall t, In t its -> In (fst t) (map fst l)) ->
  Permutation (items_of l) its.
Proof.
  induction l as [|[i v] l IH]; intros its N G C; simpl.
  - destruct its as [|t its]; auto. destruct (C t); simpl; auto.
  - simpl in N. inversion N; subst.
    rewrite (G i v) by (simpl; auto). rewrite group_items.
    etransitivity; [|symmetry; apply (partition_perm (fun t => same3 (fst t) i))].
    apply Permutation_app_head. apply IH; auto.
    + intros j w I. rewrite (G j w) by (simpl; auto). unfold group. f_equal.
      assert (j <> i) by (intros ->; apply H1; change i with (fst (i, w)); now apply in_map).
      clear - H. induction its as [|t its IH]; simpl; auto.
      destruct (same3_spec (fst t) i) as [E|E]; simpl.
      * destruct (same3_spec (fst t) j); [congruence|auto].
      * destruct (same3 (fst t) j); [now rewrite <- IH|auto].
    + intros t I. apply filter_In in I. destruct I as (I & S).
      destruct (C t I) as [E|E]; auto. simpl in E. rewrite E, same3_refl in S. discriminate.
Qed.

Lemma visits_perm its g l : binv its (g, distinct its) ->
  (forall t, In t its -> representable (fst t)) ->
  NoDup (map fst l) ->
  (forall i v, In (i, v) l <->
     within (- half g) (half g) i /\ dyn_value [] block_ops g i = Some v /\ v <> []) ->
  Permutation (items_of l) its /\ vsize l = distinct its /\
  (forall i v, In (i, v) l -> v = group its i).
Proof.
  intros (W & V & _) R N I. simpl in *.
  assert (B := half_bound _ _ W).
  assert (G : forall i v, In (i, v) l -> v = group its i).
  { intros i v H. apply I in H. destruct H as (Wi & E & _).
    assert (Ri : int_index i) by (unfold int_index, within in *; lia).
    pose proof (V i Ri) as Ev. unfold bvalue in Ev. congruence. }
  assert (C : forall t, In t its -> In (fst t) (map fst l)).
  { intros t H. assert (Rt := R t H).
    assert (Ev := V _ (rep_int _ Rt)).
    assert (Ne : group its (fst t) <> []).
    { unfold group. intros E. assert (Q : In t (filter (fun u => same3 (fst u) (fst t)) its)).
      { apply filter_In. split; auto. apply same3_refl. }
      apply map_eq_nil in E. rewrite E in Q. destruct Q. }
    change (fst t) with (fst (fst t, group its (fst t))). apply in_map.
    apply I. split; [|split; auto].
    destruct (within_dec (- half g) (half g) (fst t)) as [Q|Q]; auto.
    exfalso. unfold bvalue in Ev.
    rewrite (dyn_value_out [] block_ops _ bsz g (fst t) W (rep_int _ Rt) Q) in Ev. congruence. }
  split; [now apply blocks_perm|]. split; auto.
  unfold distinct, vsize. f_equal. rewrite <- (map_length fst).
  apply Permutation_length. apply NoDup_Permutation; auto; [apply NoDup_nodup|].
  intros x. rewrite nodup_In. split; intros H.
  - apply in_map_iff in H. destruct H as ((i & v) & <- & H). simpl.
    pose proof (G _ _ H) as Ev. apply I in H. destruct H as (_ & _ & Ne).
    destruct v as [|y v]; [congruence|].
    assert (Q : In y (group its i)) by (rewrite <- Ev; simpl; auto).
    unfold group in Q. apply in_map_iff in Q. destruct Q as (t & _ & Q). apply filter_In in Q.
    destruct Q as (Q & S). apply same3_iff in S. rewrite <- S. now apply in_map.
  - apply in_map_iff in H. destruct H as (t & <- & H). now apply C.
Qed.

Lemma distinct_le its : distinct its <= vsize its.
Proof.
  unfold distinct, vsize.
  assert (length (nodup eq3_dec (map fst its)) <= length (map fst its))%nat;
    [|rewrite map_length in H; unfold item in *; lia].
  apply NoDup_incl_length; [apply NoDup_nodup|]. intros x. now rewrite nodup_In.
Qed.

(* Encoding and decoding *)
Definition low (l : Z3) : Prop := within 0 1024 l.
Definition value_of (t : item) : Z3 :=
  (vx (fst t) * 1024 + vx (snd t), vy (fst t) * 1024 + vy (snd t), vz (fst t) * 1024 + vz (snd t)).
Definition coords (n : Z3) : vec3f := (coord (vx n), coord (vy n), coord (vz n)).

Lemma decode_encode b l : low l ->
  decode_point (map3 (fun c => Z.shiftl c kBits) b) (encode_point l) = coords (value_of (b, l)).
Proof.
  destruct b as [[bx by'] bz], l as [[x y] z]. unfold low, within.
  intros (X & Y & Zz). unfold decode_point, encode_point, coords, value_of, map3, kBits, kMask, kBits in *.
  cbn [vx vy vz fst snd] in *.
  change (Z.shiftl 1 10 - 1) with (Z.ones 10).
  rewrite !Z.land_ones by lia. rewrite !Z.shiftr_div_pow2 by lia. rewrite !Z.shiftl_mul_pow2 by lia.
  change (2 ^ (2 * 10)) with (2 ^ 10 * 2 ^ 10). rewrite <- Z.div_div by lia.
  set (M := 2 ^ 10).
  assert (A : ((z * M + y) * M + x) mod M = x) by (unfold M; Z.div_mod_to_equations; lia).
  assert (B : ((z * M + y) * M + x) / M = z * M + y) by (unfold M; Z.div_mod_to_equations; lia).
  assert (C : (z * M + y) mod M = y) by (unfold M; Z.div_mod_to_equations; lia).
  assert (D : (z * M + y) / M = z) by (unfold M; Z.div_mod_to_equations; lia).
  rewrite A, B, C, D. reflexivity.
Qed.

Lemma decode_block n blk b pts rest : blk = map3 (fun c => Z.shiftl c kBits) b ->
  Forall low pts ->
  decode (length pts + n) (vsize pts, blk, map encode_point pts ++ rest) =
  match decode n (0, blk, rest) with
  | Some l => Some (map (fun x => coords (value_of (b, x))) pts ++ l)
  | None => None
  end.
Proof.
  intros -> H. induction H as [|p pts Hp H IH].
  - simpl. destruct (decode n _); reflexivity.
  - simpl length. simpl Nat.add. cbn [decode read_next map app].
    assert (S0 : vsize (p :: pts) =? 0 = false) by (apply Z.eqb_neq; unfold vsize; simpl; lia).
    rewrite S0. rewrite (decode_encode b p Hp).
    replace (vsize (p :: pts) - 1) with (vsize pts) by (unfold vsize; simpl length; lia).
    rewrite IH. destruct (decode n _); reflexivity.
Qed.

Lemma decode_header n blk m x y z input : m <> 0 ->
  decode n (0, blk, m :: x :: y :: z :: input) =
  match n with O => Some [] | _ => decode n (m, map3 (fun c => Z.shiftl c kBits) (x, y, z), input) end.
Proof.
  intros H. destruct n; auto. cbn [decode read_next]. rewrite Z.eqb_refl.
  rewrite (proj2 (Z.eqb_neq m 0)) by auto. reflexivity.
Qed.

Lemma decode_blocks : forall l data blk, encode_blocks l = Some data ->
  (forall i v, In (i, v) l -> v <> [] /\ Forall low v) ->
  decode (length (items_of l)) (0, blk, data) =
  Some (map (fun t => coords (value_of t)) (items_of l)).
Proof.
  induction l as [|[i v] l IH]; intros data blk E H.
  - reflexivity.
  - cbn [encode_blocks] in E. unfold encode_block in E.
    destruct (vsize v <=? 2 ^ 31 - 1); [|discriminate].
    destruct (encode_blocks l) as [e|] eqn:El; [|discriminate].
    injection E as <-. destruct (H i v) as (Nv & Lv); [simpl; auto|].
    cbn [app]. rewrite decode_header by (destruct v; [congruence|unfold vsize; simpl; lia]).
    assert (Len : length (items_of ((i, v) :: l)) = (length v + length (items_of l))%nat).
    { unfold items_of. simpl. now rewrite app_length, map_length. }
    rewrite Len. destruct i as [[a b] c]. cbn [vx vy vz fst snd].
    rewrite (decode_block (length (items_of l)) _ (a, b, c) v e eq_refl Lv).
    rewrite (IH e _ eq_refl) by (intros j w I; apply (H j w); simpl; auto).
    destruct (length v + length (items_of l))%nat eqn:Q.
    { destruct v; [congruence|simpl in Q; lia]. }
    unfold items_of. simpl. rewrite map_app, map_map. reflexivity.
Qed.

Lemma encode_blocks_ok : forall l, (forall i v, In (i, v) l -> vsize v <= 2 ^ 31 - 1) ->
  exists data, encode_blocks l = Some data.
Proof.
  induction l as [|[i v] l IH]; intros H; [simpl; eauto|].
  destruct IH as (e & E); [intros j w I; apply (H j w); simpl; auto|].
  cbn [encode_blocks]. unfold encode_block.
  rewrite (proj2 (Z.leb_le _ _) (H i v ltac:(simpl; auto))), E. eauto.
Qed.

(* The whole round trip on raster points *)
Lemma compress_ok ps its :
  Forall2 (fun p t => in_bounds p = true /\ raster p = Some t /\ representable (fst t) /\ low (snd t)) ps its ->
  vsize ps <= 2 ^ 31 - 1 ->
  exists c, (forall n, (length ps <= n)%nat -> compress n ps = Done c) /\ num_points c = vsize ps /\
    exists its', Permutation its' its /\
      decompress c = Some (map (fun t => coords (value_of t)) its').
Proof.
  intros F Ls.
  assert (Len : length ps = length its) by (clear - F; induction F; simpl; auto).
  destruct (add_points_ok ps its [] (dyn_new, 0) binv_new) as ((g & nb) & Ea & Inv).
  { clear - F. induction F; constructor; auto; tauto. }
  simpl app in Inv. pose proof Inv as (W & V & Nb). simpl in W, V, Nb. subst nb.
  destruct (dyn_iter_ok [] block_ops _ bok bsz g W) as (l & El & Nd & Il).
  assert (R : forall t, In t its -> representable (fst t) /\ low (snd t)).
  { clear - F. intros t I. induction F; destruct I; subst; tauto. }
  destruct (visits_perm its g l Inv) as (P & Sz & G); auto.
  { intros t I. now apply R. }
  assert (Dl := distinct_le its).
  assert (Gl : forall its i, vsize (group its i) <= vsize its).
  { clear. intros its i. unfold vsize, group. rewrite map_length.
    assert (length (filter (fun t => same3 (fst t) i) its) <= length its)%nat; [|lia].
    induction its; simpl; auto. destruct (same3 (fst a) i); simpl; lia. }
  destruct (encode_blocks_ok l) as (data & Ed).
  { intros i v I. rewrite (G i v I). specialize (Gl its i). unfold vsize, item in *. lia. }
  exists {| num_points := vsize ps; point_data := data |}. split; [|split; [reflexivity|]].
  - intros n Hn. unfold compress. rewrite (proj2 (Z.leb_le _ _) Ls), Ea.
    fold block_ops in El. rewrite El by (unfold vsize, item in *; lia). rewrite Ed, Sz, Z.sub_diag. reflexivity.
  - exists (items_of l). split; auto. unfold decompress. cbn [num_points point_data].
    replace (Z.to_nat (vsize ps)) with (length (items_of l)).
    + apply decode_blocks; auto. intros i v I. split.
      * apply Il in I. tauto.
      * rewrite (G i v I). apply Forall_forall. intros x Hx. unfold group in Hx.
        apply in_map_iff in Hx. destruct Hx as (t & <- & Hx). apply filter_In in Hx. now apply R.
    + rewrite (Permutation_length P). unfold vsize, item in *. lia.
Qed.

(* A point whose block does not fit the grid aborts *)
Lemma raster_split n : n = Z.shiftr n kBits * 1024 + Z.land n kMask /\ 0 <= Z.land n kMask < 1024.
Proof.
  unfold kBits, kMask, kBits. change (Z.shiftl 1 10 - 1) with (Z.ones 10).
  rewrite Z.land_ones, Z.shiftr_div_pow2 by lia. change (2 ^ 10) with 1024.
  Z.div_mod_to_equations. lia.
Qed.
