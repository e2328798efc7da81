(* DynamicGrid is a total map on the int indices; growing changes no value. *)
From Coq Require Import List ZArith Bool Lia.
From Verif Require Import Vec G2_Model G2_Grow HG_Model HG_Spec HG_Wrap.
Import ListNotations.
Open Scope Z_scope.

Section Dyn.
Context {V G It : Type}.
Variable dflt : V.
Variable W : gops V G It.
Variable wf : G -> Prop.
Hypothesis WO : ops_ok dflt W wf.
Hypothesis size64 : o_size W = 64.

Definition dwf (d : dynamic G) : Prop := 1 <= d_bits d <= 8 /\ cells_wf wf (d_bits d) (d_cells d).
Definition half (d : dynamic G) : Z := 32 * 2 ^ d_bits d.
Definition shift3 (h : Z) (i : Z3) : Z3 := map3 (fun c => c + h) i.

Lemma bits_pow b : 1 <= b <= 8 -> 2 <= 2 ^ b <= 256 /\ 2 ^ b = 2 * 2 ^ (b - 1).
Proof.
  intros H. split.
  - change 2 with (2 ^ 1) at 1. change 256 with (2 ^ 8). split; apply Z.pow_le_mono_r; lia.
  - replace b with (1 + (b - 1)) at 1 by ring. rewrite Z.pow_add_r by lia. reflexivity.
Qed.
Lemma dyn_size_eq d : dwf d -> dyn_size W d = 64 * 2 ^ d_bits d.
Proof. intros [B _]. unfold dyn_size. rewrite Z.shiftl_mul_pow2, size64 by lia. reflexivity. Qed.
Lemma half_eq d : dwf d -> Z.shiftr (dyn_size W d) 1 = half d.
Proof.
  intros D. rewrite dyn_size_eq by exact D. rewrite Z.shiftr_div_pow2 by lia. unfold half.
  replace (64 * 2 ^ d_bits d) with (32 * 2 ^ d_bits d * 2) by ring. now rewrite Z.div_mul by lia.
Qed.
Lemma half_bound d : dwf d -> 64 <= half d <= 8192.
Proof. intros [B _]. destruct (bits_pow _ B). unfold half. lia. Qed.

Lemma all3_iff f i : all3 f i = true <-> f (vx i) = true /\ f (vy i) = true /\ f (vz i) = true.
Proof. unfold all3. rewrite !andb_true_iff. tauto. Qed.

Lemma dyn_shifted_ok d i : dwf d -> int_index i -> dyn_shifted W d i = Some (shift3 (half d) i).
Proof.
  intros D [A [B C]]. unfold dyn_shifted. rewrite half_eq by exact D. pose proof (half_bound d D).
  fold (shift3 (half d) i).
  assert (E : all3 int_range (shift3 (half d) i) = true).
  { apply all3_iff. unfold int_range. cbn [shift3 map3 vx vy vz fst snd].
    rewrite !andb_true_iff, !Z.leb_le, !Z.ltb_lt. unfold shift3, map3, vx, vy, vz in *. cbn [fst snd] in *. lia. }
  now rewrite E.
Qed.

Lemma dyn_inside_iff d i : dwf d -> int_index i ->
  (dyn_inside W d (shift3 (half d) i) = true <-> within (- half d) (half d) i).
Proof.
  intros D [A [B C]]. unfold dyn_inside. rewrite all3_iff, dyn_size_eq, !Z.ltb_lt by exact D.
  pose proof (half_bound d D).
  assert (M : forall c, - 2 ^ 31 <= c < 2 ^ 31 - 8192 ->
            ((c + half d) mod 2 ^ 32 < 64 * 2 ^ d_bits d <-> - half d <= c < half d)).
  { intros c Hc. assert (E : 64 * 2 ^ d_bits d = 2 * half d) by (unfold half; ring). rewrite E.
    destruct (Z_lt_le_dec (c + half d) 0) as [L | L].
    - rewrite <- (Z_mod_plus_full (c + half d) 1), Z.mod_small by lia. lia.
    - rewrite Z.mod_small by lia. lia. }
  unfold shift3, map3, vx, vy, vz, within in *. cbn [fst snd] in *. rewrite !M by assumption. tauto.
Qed.

Lemma shift_within d i : dwf d ->
  (within (- half d) (half d) i <-> within 0 (o_size W * 2 ^ d_bits d) (shift3 (half d) i)).
Proof.
  intros D. rewrite size64. assert (E : 64 * 2 ^ d_bits d = 2 * half d) by (unfold half; ring). rewrite E.
  unfold shift3, map3, within, vx, vy, vz. cbn [fst snd]. lia.
Qed.

Lemma dyn_value_in d i : dwf d -> int_index i -> within (- half d) (half d) i ->
  dyn_value dflt W d i = cells_value dflt W (d_bits d) (d_cells d) (shift3 (half d) i).
Proof.
  intros D I H. unfold dyn_value. rewrite dyn_shifted_ok by assumption.
  now rewrite (proj2 (dyn_inside_iff d i D I)).
Qed.
Lemma dyn_value_out d i : dwf d -> int_index i -> ~ within (- half d) (half d) i ->
  dyn_value dflt W d i = Some dflt.
Proof.
  intros D I H. unfold dyn_value. rewrite dyn_shifted_ok by assumption.
  destruct (dyn_inside W d (shift3 (half d) i)) eqn:E; [|reflexivity].
  elim H. now apply (dyn_inside_iff d i D I).
Qed.
Lemma within_dec lo hi i : {within lo hi i} + {~ within lo hi i}.
Proof.
  unfold within. destruct (Z_le_gt_dec lo (vx i)), (Z_lt_ge_dec (vx i) hi), (Z_le_gt_dec lo (vy i)),
    (Z_lt_ge_dec (vy i) hi), (Z_le_gt_dec lo (vz i)), (Z_lt_ge_dec (vz i) hi); (left; lia) || (right; lia).
Qed.
Lemma dyn_value_some d i : dwf d -> int_index i -> exists v, dyn_value dflt W d i = Some v.
Proof.
  intros D I. destruct (within_dec (- half d) (half d) i) as [H | H].
  - rewrite dyn_value_in by assumption. destruct D as [B C].
    apply (cells_value_some dflt W wf WO); [lia | exact C|]. now apply shift_within.
  - rewrite dyn_value_out by assumption. eauto.
Qed.

(* the new grid *)
Lemma dyn_new_wf : dwf dyn_new.
Proof.
  split; [cbn; lia|]. destruct (cells_new dflt W wf WO 1 ltac:(lia)) as [H _]. exact H.
Qed.
Lemma dyn_new_value i : int_index i -> dyn_value dflt W dyn_new i = Some dflt.
Proof.
  intros I. destruct (within_dec (- half dyn_new) (half dyn_new) i) as [H | H].
  - rewrite dyn_value_in by (assumption || apply dyn_new_wf).
    destruct (cells_new dflt W wf WO 1 ltac:(lia)) as [_ E]. apply E.
    exact (proj1 (shift_within dyn_new i dyn_new_wf) H).
  - apply dyn_value_out; [apply dyn_new_wf | assumption | assumption].
Qed.

(* Grow *)
Lemma meta_range_In b i : 0 <= b -> (In i (meta_range b) <-> within 0 (2 ^ b) i).
Proof.
  intros Hb. unfold meta_range. rewrite shiftl1 by exact Hb. rewrite in_map_iff. split.
  - intros [[[z y] x] [<- H]]. apply in_prod_iff in H. destruct H as [H Hx].
    apply in_prod_iff in H. destruct H as [Hz Hy]. apply In_zrange in Hx, Hy, Hz.
    unfold within, vx, vy, vz. cbn [fst snd]. auto.
  - intros [A [B C]]. exists ((vz i, vy i), vx i). split; [now apply ext3|].
    apply in_prod_iff. split; [apply in_prod_iff; split|]; now apply In_zrange.
Qed.
Lemma meta_range_NoDup b : NoDup (meta_range b).
Proof.
  unfold meta_range. apply NoDup_map_in.
  - repeat apply NoDup_list_prod; apply zrange_NoDup.
  - intros [[a b'] c] [[d e] f] _ _ E. cbn [fst snd] in E. congruence.
Qed.
Lemma grow_moves_ok (cells : list (option G)) b nb : 0 <= b -> vsize cells = 2 ^ (3 * b) ->
  forall l, (forall i, In i l -> within 0 (2 ^ b) i) ->
  exists ws, grow_moves cells b nb l = Some ws /\
    map fst ws = map (fun o => to_flat (shift3 (Z.shiftl 1 (b - 1)) o) nb) l /\
    (forall k c, In (k, c) ws -> exists o, In o l /\ k = to_flat (shift3 (Z.shiftl 1 (b - 1)) o) nb /\
                                  vget cells (to_flat o b) = Some c) /\
    (forall o, In o l -> exists c, vget cells (to_flat o b) = Some c /\
                                   In (to_flat (shift3 (Z.shiftl 1 (b - 1)) o) nb, c) ws).
Proof.
  intros Hb S l. induction l as [|o r IH]; intros B; cbn [grow_moves].
  - exists []. repeat split; try (intros ? ? []); intros ? [].
  - destruct (vget_some cells (to_flat o b)) as [c Ec].
    { rewrite S. apply to_flat_range; [exact Hb|]. apply B. now left. }
    rewrite Ec. destruct IH as [ws [E [F [Q1 Q2]]]]; [intros; apply B; now right|].
    cbn [grow_moves] in E. rewrite E. eexists. split; [reflexivity|]. split; [|split].
    + cbn [map fst]. now rewrite F.
    + intros k u [Q | Q].
      * injection Q as <- <-. exists o. split; [now left|]. split; [reflexivity | exact Ec].
      * destruct (Q1 k u Q) as [o' [I [K V']]]. exists o'. split; [now right|]. auto.
    + intros o' [<- | I].
      * exists c. split; [exact Ec | now left].
      * destruct (Q2 o' I) as [c' [E1 E2]]. exists c'. split; [exact E1 | now right].
Qed.

Lemma dyn_grow_cells d : dwf d -> d_bits d < 8 ->
  exists d', dyn_grow d = Some d' /\ d_bits d' = d_bits d + 1 /\ dwf d' /\
    forall m, within 0 (2 ^ (d_bits d + 1)) m ->
      vget (d_cells d') (to_flat m (d_bits d + 1)) =
      if within_dec 0 (2 ^ d_bits d) (shift3 (- 2 ^ (d_bits d - 1)) m)
      then vget (d_cells d) (to_flat (shift3 (- 2 ^ (d_bits d - 1)) m) (d_bits d))
      else Some None.
Proof.
  intros [B [S Wf]] L. unfold dyn_grow. destruct (Z.leb_spec (d_bits d + 1) 8); [|lia].
  set (b := d_bits d) in *. set (p := 2 ^ (b - 1)).
  destruct (bits_pow b B) as [P1 P2]. fold p in P2.
  assert (Pn : 2 ^ (b + 1) = 4 * p) by (rewrite Z.pow_add_r by lia; lia).
  destruct (grow_moves_ok (d_cells d) b (b + 1) ltac:(lia) S (meta_range b)) as [ws [E [F [Q1 Q2]]]].
  { intros i Hi. apply meta_range_In in Hi; [exact Hi | lia]. }
  rewrite E. rewrite shiftl1 in F, Q1, Q2 by lia. fold p in F, Q1, Q2.
  assert (N8 : 8 * vsize (d_cells d) = 2 ^ (3 * (b + 1))).
  { rewrite S. replace (3 * (b + 1)) with (3 + 3 * b) by ring. rewrite Z.pow_add_r by lia. reflexivity. }
  pose proof (pow_pos (3 * (b + 1)) ltac:(lia)) as Pp.
  assert (Ws : forall o, within 0 (2 ^ b) o -> within 0 (2 ^ (b + 1)) (shift3 p o)).
  { intros o H'. unfold within, shift3, map3, vx, vy, vz in *. cbn [fst snd] in *. lia. }
  destruct (vset_all_ok ws (repeat None (Z.to_nat (8 * vsize (d_cells d))))) as [c [Ec [Sc [G1 G2]]]].
  { intros i a I. rewrite vsize_repeat. destruct (Q1 i a I) as [o [Io [-> _]]].
    apply meta_range_In in Io; [|lia]. pose proof (to_flat_range _ (b + 1) ltac:(lia) (Ws o Io)). lia. }
  { rewrite F. apply NoDup_map_in; [apply meta_range_NoDup|]. intros o o' I I' Eq.
    apply meta_range_In in I, I'; try lia. apply to_flat_inj in Eq; auto; [|lia].
    apply ext3; [apply (f_equal vx) in Eq | apply (f_equal vy) in Eq | apply (f_equal vz) in Eq];
      unfold shift3, map3, vx, vy, vz in *; cbn [fst snd] in *; lia. }
  rewrite Ec. exists (mk_dynamic (b + 1) c). split; [reflexivity|]. split; [reflexivity|].
  assert (Get : forall m, within 0 (2 ^ (b + 1)) m -> vget c (to_flat m (b + 1)) =
      if within_dec 0 (2 ^ b) (shift3 (- p) m) then vget (d_cells d) (to_flat (shift3 (- p) m) b) else Some None).
  { intros m M.
    assert (SS : shift3 p (shift3 (- p) m) = m).
    { apply ext3; unfold shift3, map3, vx, vy, vz; cbn [fst snd]; ring. }
    destruct (within_dec 0 (2 ^ b) (shift3 (- p) m)) as [Wm | Wm].
    - destruct (Q2 (shift3 (- p) m)) as [x [X1 X2]]; [apply meta_range_In; [lia | exact Wm]|].
      rewrite SS in X2. rewrite X1. now apply G1.
    - rewrite G2.
      + apply vget_repeat. pose proof (to_flat_range m (b + 1) ltac:(lia) M). lia.
      + rewrite F, in_map_iff. intros [o [Eq I]]. apply meta_range_In in I; [|lia].
        apply to_flat_inj in Eq; auto; [|lia]. apply Wm. rewrite <- Eq.
        assert (shift3 (- p) (shift3 p o) = o) as ->; [|exact I].
        apply ext3; unfold shift3, map3, vx, vy, vz; cbn [fst snd]; ring. }
  split; [|exact Get].
  split; [cbn; lia|]. cbn [d_bits d_cells]. split; [rewrite Sc, vsize_repeat; lia|].
  intros n g Eg. pose proof (vget_bound _ _ _ Eg) as Bn. rewrite Sc, vsize_repeat in Bn.
  destruct (to_3d_ok n (b + 1) ltac:(lia) ltac:(lia)) as [T1 T2].
  rewrite <- T2, Get in Eg by exact T1. destruct (within_dec _ _ _); [eauto | discriminate].
Qed.

Lemma dyn_grow_ok d : dwf d -> d_bits d < 8 ->
  exists d', dyn_grow d = Some d' /\ d_bits d' = d_bits d + 1 /\ dwf d' /\
    forall i, int_index i -> dyn_value dflt W d' i = dyn_value dflt W d i.
Proof.
  intros D L. destruct (dyn_grow_cells d D L) as [d' [E [Eb [D' Get]]]].
  exists d'. do 3 (split; [assumption|]). intros i I.
  pose proof D as [B C]. pose proof D' as [B' C'].
  destruct (bits_pow _ B) as [P1 P2].
  assert (Hh : half d' = 2 * half d) by (unfold half; rewrite Eb, Z.pow_add_r by lia; lia).
  pose proof (half_bound d D) as Hb.
  destruct (within_dec (- half d') (half d') i) as [H' | H'].
  - rewrite (dyn_value_in d') by assumption.
    pose proof (proj1 (shift_within d' i D') H') as I'.
    destruct (split_ok dflt W wf WO (d_bits d') ltac:(lia) _ I') as [M [J EQ]].
    set (m := meta_index W (shift3 (half d') i)) in *. set (j := inner_index W (shift3 (half d') i)) in *.
    rewrite <- EQ. rewrite (cells_value_compose dflt W wf WO) by (lia || assumption).
    rewrite Eb in *. rewrite Get by exact M. set (p := 2 ^ (d_bits d - 1)) in *.
    assert (EQ0 : shift3 (half d) i = compose W (shift3 (- p) m) j).
    { assert (Hp : half d = 64 * p) by (unfold half; lia).
      assert (EQx := f_equal vx EQ). assert (EQy := f_equal vy EQ). assert (EQz := f_equal vz EQ).
      clear - EQx EQy EQz Hp Hh size64.
      apply ext3; unfold shift3, compose, map3, zip3, vx, vy, vz in *; cbn [fst snd] in *; rewrite size64 in *; lia. }
    destruct (within_dec 0 (2 ^ d_bits d) (shift3 (- p) m)) as [Wm | Wm].
    + destruct (compose_ok dflt W wf WO (d_bits d) ltac:(lia) _ _ Wm J) as [Wc _].
      rewrite <- EQ0 in Wc. apply shift_within in Wc; [|exact D].
      rewrite (dyn_value_in d) by assumption. rewrite EQ0.
      now rewrite (cells_value_compose dflt W wf WO) by (lia || assumption).
    + rewrite (dyn_value_out d); [reflexivity | assumption | assumption |]. intros Q. apply Wm.
      apply shift_within in Q; [|exact D]. rewrite EQ0 in Q. clear - Q J size64 P2.
      unfold within, compose, zip3, vx, vy, vz in *. cbn [fst snd] in *. rewrite size64 in *. lia.
  - rewrite (dyn_value_out d') by assumption. symmetry. apply dyn_value_out; auto.
    intros Q. apply H'. clear - Q Hh Hb. unfold within in *. lia.
Qed.

(* mutable_value *)
Lemma dyn_modify_ok A (f : V -> option (A * V)) i v a w : representable i -> f v = Some (a, w) ->
  forall fuel d, dwf d -> dyn_value dflt W d i = Some v -> 8 - d_bits d <= Z.of_nat fuel ->
  exists d', dyn_modify W fuel f d i = Done (a, d') /\ dwf d' /\
    forall j, int_index j ->
      dyn_value dflt W d' j = if same3 j i then Some w else dyn_value dflt W d j.
Proof.
  intros R F. assert (I : int_index i) by (unfold representable, int_index, within in *; lia).
  induction fuel as [|n IH]; intros d D E Fu; cbn [dyn_modify];
    rewrite dyn_shifted_ok by assumption;
    (destruct (dyn_inside W d (shift3 (half d) i)) eqn:In;
     [|assert (O : ~ within (- half d) (half d) i)
        by (intros Q; apply (dyn_inside_iff d i D I) in Q; congruence)]).
  1, 3: apply (dyn_inside_iff d i D I) in In; rewrite (dyn_value_in d) in E by assumption;
    pose proof (proj1 (shift_within d i D) In) as I'; pose proof D as [B C];
    destruct (cells_modify_ok dflt W wf WO (d_bits d) ltac:(lia) A f (d_cells d) _ v a w C I' E F) as [c' [Em [Wc Vc]]];
    rewrite Em; exists (mk_dynamic (d_bits d) c'); split; [reflexivity|];
    assert (D' : dwf (mk_dynamic (d_bits d) c')) by (split; assumption);
    split; [exact D'|]; intros j J;
    destruct (within_dec (- half d) (half d) j) as [Hj | Hj];
    [ rewrite (dyn_value_in (mk_dynamic (d_bits d) c')) by assumption; cbn [d_bits d_cells];
      change (half (mk_dynamic (d_bits d) c')) with (half d);
      rewrite Vc by (now apply shift_within); rewrite (dyn_value_in d) by assumption;
      destruct (same3_spec j i) as [-> | Nj]; [now rewrite same3_refl|];
      destruct (same3_spec (shift3 (half d) j) (shift3 (half d) i)) as [Q | _]; [|reflexivity];
      elim Nj; apply ext3; [apply (f_equal vx) in Q | apply (f_equal vy) in Q | apply (f_equal vz) in Q];
      unfold shift3, map3, vx, vy, vz in *; cbn [fst snd] in *; lia
    | destruct (same3_spec j i) as [-> | Nj]; [contradiction|];
      rewrite (dyn_value_out d), (dyn_value_out (mk_dynamic (d_bits d) c')) by assumption; reflexivity ].
  - (* no fuel: the grid has its full size *)
    exfalso. apply O. destruct D as [B _]. assert (Eb : d_bits d = 8) by lia. unfold half. rewrite Eb. exact R.
  - assert (Lb : d_bits d < 8).
    { destruct (Z_lt_le_dec (d_bits d) 8) as [|Q]; [assumption|]. exfalso. apply O.
      destruct D as [B _]. assert (Eb : d_bits d = 8) by lia. unfold half. rewrite Eb. exact R. }
    destruct (dyn_grow_ok d D Lb) as [d1 [Eg [Eb [D1 V1]]]]. rewrite Eg.
    destruct (IH d1 D1) as [d' [Em [D' V']]]; [rewrite V1 by exact I; exact E | lia|].
    exists d'. split; [exact Em|]. split; [exact D'|]. intros j J. rewrite V' by exact J. now rewrite V1 by exact J.
Qed.

(* an index outside aborts, after any number of growths *)
Lemma dyn_modify_out A (f : V -> option (A * V)) i : ~ representable i ->
  forall fuel d, dwf d -> 8 - d_bits d < Z.of_nat fuel -> dyn_modify W fuel f d i = Aborted.
Proof.
  intros NR. induction fuel as [|n IH]; intros d D Fu; cbn [dyn_modify]; [destruct D; lia|].
  destruct (dyn_shifted W d i) as [s|] eqn:Sh; [|reflexivity].
  unfold dyn_shifted in Sh. rewrite half_eq in Sh by exact D.
  destruct (all3 int_range _) eqn:Ir in Sh; [|discriminate]. injection Sh as <-. fold (shift3 (half d) i) in *.
  assert (O : dyn_inside W d (shift3 (half d) i) = false).
  { destruct (dyn_inside W d (shift3 (half d) i)) eqn:In; [|reflexivity]. elim NR.
    unfold dyn_inside in In. rewrite all3_iff, dyn_size_eq, !Z.ltb_lt in In by exact D.
    apply all3_iff in Ir. unfold int_range in Ir. rewrite !andb_true_iff, !Z.leb_le, !Z.ltb_lt in Ir.
    pose proof (half_bound d D) as Hb.
    assert (E : 64 * 2 ^ d_bits d = 2 * half d) by (unfold half; ring). rewrite E in In.
    assert (M : forall c, - 2 ^ 31 <= c + half d < 2 ^ 31 -> (c + half d) mod 2 ^ 32 < 2 * half d ->
              - 8192 <= c < 8192).
    { intros c Hc. destruct (Z_lt_le_dec (c + half d) 0) as [L | L].
      - rewrite <- (Z_mod_plus_full (c + half d) 1), Z.mod_small by lia. lia.
      - rewrite Z.mod_small by lia. lia. }
    destruct Ir as [I1 [I2 I3]], In as [N1 [N2 N3]].
    exact (conj (M _ I1 N1) (conj (M _ I2 N2) (M _ I3 N3))). }
  rewrite O.
  destruct (Z_lt_le_dec (d_bits d) 8) as [Lb | Lb].
  - destruct (dyn_grow_ok d D Lb) as [d1 [Eg [Eb [D1 V1]]]]. rewrite Eg. apply IH; [exact D1 | lia].
  - unfold dyn_grow. destruct (Z.leb_spec (d_bits d + 1) 8); [lia | reflexivity].
Qed.

Lemma dyn_modify_fail A (f : V -> option (A * V)) i v : representable i -> f v = None ->
  forall fuel d, dwf d -> dyn_value dflt W d i = Some v -> 8 - d_bits d <= Z.of_nat fuel ->
  dyn_modify W fuel f d i = Aborted.
Proof.
  intros R F. assert (I : int_index i) by (unfold representable, int_index, within in *; lia).
  induction fuel as [|n IH]; intros d D E Fu; cbn [dyn_modify];
    rewrite dyn_shifted_ok by assumption;
    (destruct (dyn_inside W d (shift3 (half d) i)) eqn:In;
     [|assert (O : ~ within (- half d) (half d) i)
        by (intros Q; apply (dyn_inside_iff d i D I) in Q; congruence)]).
  1, 3: apply (dyn_inside_iff d i D I) in In; rewrite (dyn_value_in d) in E by assumption;
    pose proof (proj1 (shift_within d i D) In) as I'; pose proof D as [B C];
    rewrite (cells_modify_fail dflt W wf WO (d_bits d) ltac:(lia) A f (d_cells d) _ v C I' E F); reflexivity.
  - exfalso. apply O. destruct D as [B _]. assert (Eb : d_bits d = 8) by lia. unfold half. rewrite Eb. exact R.
  - assert (Lb : d_bits d < 8).
    { destruct (Z_lt_le_dec (d_bits d) 8) as [|Q]; [assumption|]. exfalso. apply O.
      destruct D as [B _]. assert (Eb : d_bits d = 8) by lia. unfold half. rewrite Eb. exact R. }
    destruct (dyn_grow_ok d D Lb) as [d1 [Eg [Eb [D1 V1]]]]. rewrite Eg.
    apply IH; [exact D1 | rewrite V1 by exact I; exact E | lia].
Qed.

(* the iterator *)
Lemma dyn_iterate_walk d it l : walk cells_done (cells_next W) (dyn_index W d) (cells_get W) it l ->
  forall n, (length l <= n)%nat -> dyn_iterate W n d it = Done l.
Proof.
  induction 1 as [it D | it v l D E Hw IH]; intros n Hn.
  - destruct n; cbn [dyn_iterate]; now rewrite D.
  - cbn [length] in Hn. destruct n as [|n]; [lia|]. cbn [dyn_iterate]. rewrite D, E.
    rewrite IH by lia. reflexivity.
Qed.
Lemma dyn_iter_ok d : dwf d -> exists l,
  (forall n, (length l <= n)%nat -> dyn_iterate W n d (dyn_begin W d) = Done l) /\
  NoDup (map fst l) /\
  forall i v, In (i, v) l <-> within (- half d) (half d) i /\ dyn_value dflt W d i = Some v /\ v <> dflt.
Proof.
  intros D. pose proof D as [B C].
  destruct (cells_iter dflt W wf WO (d_bits d) ltac:(lia) (d_cells d) C) as [L [Hw [Nd Il]]].
  apply (walk_map _ _ _ _ (shift3 (- half d))) in Hw.
  exists (map (fun p => (shift3 (- half d) (fst p), snd p)) L). split.
  - apply dyn_iterate_walk.
    assert (E : forall it, shift3 (- half d) (cells_index W (d_bits d) it) = dyn_index W d it).
    { intros it. unfold dyn_index, shift3. rewrite shiftl1, size64 by lia.
      destruct (bits_pow _ B) as [_ P2]. unfold half. unfold map3.
      f_equal; [f_equal|]; lia. }
    clear - Hw E. unfold dyn_begin.
    induction Hw as [it D | it v l D Ev Hw IH]; [now constructor|]. rewrite E. now constructor.
  - pose proof (half_bound d D) as Hb.
    assert (Inj : forall i j, shift3 (- half d) i = shift3 (- half d) j -> i = j).
    { intros i j Q. apply ext3; [apply (f_equal vx) in Q | apply (f_equal vy) in Q | apply (f_equal vz) in Q];
        unfold shift3, map3, vx, vy, vz in *; cbn [fst snd] in *; lia. }
    assert (SS : forall i, shift3 (half d) (shift3 (- half d) i) = i).
    { intros i. apply ext3; unfold shift3, map3, vx, vy, vz; cbn [fst snd]; ring. }
    assert (SS' : forall i, shift3 (- half d) (shift3 (half d) i) = i).
    { intros i. apply ext3; unfold shift3, map3, vx, vy, vz; cbn [fst snd]; ring. }
    split.
    + rewrite map_map. cbn [fst]. rewrite <- (map_map fst (shift3 (- half d))).
      apply NoDup_map_in; [exact Nd|]. intros a b _ _. apply Inj.
    + intros i v.
      assert (Ii : within (- half d) (half d) i -> int_index i) by (unfold int_index, within; lia).
      rewrite in_map_iff. split.
      * intros [[k w] [E I]]. cbn [fst snd] in E. injection E as <- <-. apply Il in I. destruct I as [I [E N]].
        assert (Wi : within (- half d) (half d) (shift3 (- half d) k))
          by (apply shift_within; [exact D|]; now rewrite SS).
        split; [exact Wi|]. rewrite dyn_value_in by auto. rewrite SS. auto.
      * intros [Wi [E N]]. exists (shift3 (half d) i, v). cbn [fst snd]. rewrite SS'. split; [reflexivity|].
        apply Il. rewrite dyn_value_in in E by auto. split; [now apply shift_within | auto].
Qed.
End Dyn.
