(* The stack of precomputed 3D grids: level d bounds all voxels of a cube of 2^d. *)
From Coq Require Import List ZArith Bool Reals Lia Lra.
From Verif Require Import Vec Float32 FloatR Float32_Proofs PV_Model PV_Bounded PV_Proofs G2_Model G2_Spec G2_Grow
  HG_Model HG_Spec HG_Wrap HG_Dyn HG_Proofs FCSM2D_Model FCSM_Float FCSM3D_Model FCSM3D_Spec FCSM3D_Grid.
Import ListNotations.
Open Scope Z_scope.

(* ---- the conversion to 8 bits ---- *)
Lemma value_to_prob_mod v : value_to_prob (v mod 32768) = value_to_prob v.
Proof. unfold value_to_prob, table_value. now rewrite Z.mod_mod by lia. Qed.
Lemma quant_value_ok v : 1 <= v mod 32768 -> exists c,
  quant_f kMinProbability kMaxProbability (value_to_prob v) = Some c /\ 0 <= c <= 255.
Proof.
  intros H. assert (B : 1 <= v mod 32768 <= 32767) by (pose proof (Z.mod_pos_bound v 32768); lia).
  destruct (in_bounds _ B) as (L & U & _). rewrite value_to_prob_mod in L, U.
  destruct prob_pre as (V1 & V2 & F1 & F2 & _).
  pose proof (between_fin _ _ _ F1 F2 L U) as F. pose proof (value_to_prob_valid v) as V.
  apply fleb_ok in L; auto. apply fleb_ok in U; auto.
  destruct (quant_f_ok _ _ prob_range _ V F (conj L U)) as (c & E & R & _). eauto.
Qed.
Lemma convert_value_ok v : 1 <= v mod 32768 -> exists c,
  quant_f kMinProbability kMaxProbability (value_to_prob v) = Some c /\ 0 <= c <= 255 /\ convert_value v = Some c.
Proof.
  intros H. destruct (quant_value_ok v H) as (c & E & R). exists c. split; [exact E|]. split; [exact R|].
  unfold convert_value. unfold quant_f in E. rewrite E. replace ((0 <=? c) && (c <=? 255)) with true by lia. reflexivity.
Qed.
Lemma z3_eq_dec (a b : Z3) : {a = b} + {a <> b}.
Proof. repeat decide equality. Defined.
Lemma known_mod h i v : hwf h -> int_index i -> hy_value h i = Some v -> v <> 0 -> 1 <= v mod 32768.
Proof.
  intros W I E N. destruct (in_dec z3_eq_dec i (h_upd h)) as [U | U].
  - pose proof (hw_marked _ W i v U E). rewrite <- (Z.mod_unique v 32768 1 (v - 32768)); lia.
  - pose proof (hw_plain _ W i v I U E). rewrite Z.mod_small; lia.
Qed.
Lemma voxel8_range h i : hwf h -> int_index i -> 0 <= voxel8 h i <= 255.
Proof.
  intros W I. unfold voxel8. destruct (hy_value_some h i (hw_grid _ W) I) as [v E]. rewrite E. destruct (Z.eqb_spec v 0); [lia|].
  destruct (quant_value_ok v (known_mod h i v W I E n)) as (c & Eq & R). unfold quant_f in Eq. rewrite Eq. lia.
Qed.
Lemma voxel8_known h i : hwf h -> int_index i -> voxel8 h i <> 0 ->
  representable i /\ exists v, hy_value h i = Some v /\ v <> 0.
Proof.
  intros W I N. destruct (rep_dec i) as [R | R].
  - split; [exact R|]. unfold voxel8 in N. destruct (hy_value h i) as [v|]; [|lia]. exists v. split; [reflexivity|].
    intros ->. now cbn in N.
  - unfold voxel8 in N. rewrite (hy_value_out h i (hw_grid _ W) I R) in N. now cbn in N.
Qed.

Definition conv (v : Z) : Z := match convert_value v with Some c => c | None => 0 end.
Lemma convert_cells_ok l : forall g, hdwf g -> NoDup (map fst l) ->
  (forall i v, In (i, v) l -> representable i /\ 1 <= v mod 32768) ->
  exists g', convert_cells l g = Some g' /\ hdwf g' /\
    (forall i v, In (i, v) l -> pv g' i = conv v) /\
    (forall i, int_index i -> ~ In i (map fst l) -> pv g' i = pv g i).
Proof.
  induction l as [|[i v] l IH]; intros g D N R; cbn [convert_cells].
  - exists g. split; [reflexivity|]. split; [exact D|]. split; [intros ? ? []|]. reflexivity.
  - destruct (R i v (or_introl eq_refl)) as [Ri M]. destruct (convert_value_ok v M) as (c & _ & _ & Ec). rewrite Ec.
    destruct (put_ok (fun _ => c) g i D Ri) as (g1 & -> & D1 & V1). cbn [map fst] in N. inversion N as [|? ? Nin N']; subst.
    destruct (IH g1 D1 N') as (g' & -> & D' & A & B). { intros j u I. apply R. now right. }
    exists g'. split; [reflexivity|]. split; [exact D'|]. split.
    + intros j u [E | I]; [|now apply A]. injection E as <- <-. rewrite B; [|now apply rep_int | exact Nin].
      rewrite V1 by now apply rep_int. destruct (same3_spec i i); [|congruence]. unfold conv. now rewrite Ec.
    + intros j J Nj. cbn [map fst] in Nj. rewrite B; [|exact J | intros Q; apply Nj; now right].
      rewrite V1 by exact J. destruct (same3_spec j i) as [->|]; [|reflexivity]. exfalso. apply Nj. now left.
Qed.
Lemma convert_ok h : hwf h -> exists N g, (forall n, (N <= n)%nat -> convert n h = Some g) /\ hdwf g /\
  forall i, int_index i -> pv g i = voxel8 h i.
Proof.
  intros W. destruct (cells_ok (h_grid h) (hw_grid _ W)) as (l & E & Nd & V).
  assert (Val : forall i, int_index i -> hy_value h i = Some (pv (h_grid h) i)) by (intros i I; exact (pv_eq _ _ (hw_grid _ W) I)).
  destruct (convert_cells_ok l dyn_new new_wf Nd) as (g & Eg & D & A & B).
  { intros i v I. apply V in I as (R & Ev & Nv). split; [exact R|]. apply (known_mod h i); auto; [now apply rep_int|].
    rewrite Val by now apply rep_int. now rewrite Ev. }
  exists (length l), g. split; [intros n H; unfold convert; now rewrite (E n H)|]. split; [exact D|].
  intros i I. destruct (Z.eq_dec (pv (h_grid h) i) 0) as [E0 | N0].
  - rewrite B; [|exact I|].
    + rewrite pv_new by exact I. unfold voxel8. now rewrite (Val i I), E0.
    + intros Q. apply in_map_iff in Q as ([j u] & Ej & Q). cbn in Ej. subst j. apply V in Q. destruct Q as (_ & Eu & Nu). congruence.
  - assert (Rp : representable i).
    { destruct (rep_dec i) as [R | R]; [exact R|]. exfalso. apply N0. apply pv_out; [exact (hw_grid _ W) | exact I | exact R]. }
    rewrite (A i (pv (h_grid h) i)); [|apply V; auto].
    unfold voxel8. rewrite (Val i I). replace (pv (h_grid h) i =? 0) with false by lia.
    destruct (convert_value_ok (pv (h_grid h) i)) as (c & Eq & _ & Ec).
    { apply (known_mod h i); auto. }
    unfold conv. rewrite Ec. unfold quant_f in Eq. now rewrite Eq.
Qed.

(* ---- one more level ---- *)
Definition exp3 (fd d : Z) : Z := Z.max 0 (d - fd + 1).
Definition shr3 (e : Z) (i : Z3) : Z3 := map3 (fun c => Z.shiftr c e) i.
Definition add3 (i j : Z3) : Z3 := zip3 Z.add i j.

Record level3 (h : hybrid) (fd lo d : Z) (g : pgrid3) : Prop := {
  l_wf : hdwf g;
  l_range : forall i, int_index i -> 0 <= pv g i <= 255;
  l_dom : forall p t, within (- 2 ^ 30) (2 ^ 30) p -> within 0 (2 ^ d) t ->
            voxel8 h (add3 p t) <= pv g (shr3 (exp3 fd d) p);
  l_low : forall i, representable i -> pv g i <> 0 -> within (Z.shiftr (lo - 2 ^ d + 1) (exp3 fd d)) 8192 i
}.

Lemma pow_half d e : 0 <= e <= d -> 2 ^ d = 2 ^ (d - e) * 2 ^ e.
Proof. intros H. rewrite <- Z.pow_add_r by lia. f_equal. lia. Qed.
Lemma shift_add p e k : 0 <= e -> Z.shiftr (p + k * 2 ^ e) e = Z.shiftr p e + k.
Proof. intros H. rewrite !Z.shiftr_div_pow2 by exact H. apply Z.div_add. apply Z.pow_nonzero; lia. Qed.
Lemma split_bit d t : 0 <= d -> 0 <= t < 2 ^ (d + 1) -> exists b : bool, 0 <= t - Z.b2z b * 2 ^ d < 2 ^ d.
Proof.
  intros Hd H. rewrite Z.pow_add_r in H by lia. change (2 ^ 1) with 2 in H. exists (2 ^ d <=? t).
  destruct (Z.leb_spec (2 ^ d) t); cbn [Z.b2z]; lia.
Qed.
Lemma stack_shift_eq fd d : 1 <= fd -> 0 <= d -> stack_shift fd (d + 1) = 2 ^ (d - exp3 fd d).
Proof.
  intros Hf Hd. unfold stack_shift. rewrite !Z.shiftl_1_l.
  replace (Z.max 0 (d + 1 - fd)) with (exp3 fd d) by (unfold exp3; lia).
  replace (d + 1 - 1) with d by lia. rewrite Z.pow_add_r by lia. change (2 ^ 1) with 2.
  set (e := exp3 fd d). assert (He : 0 <= e <= d) by (unfold e, exp3; lia).
  pose proof (pow_half d e He) as E. set (a := 2 ^ e) in *. assert (0 < a) by (apply Z.pow_pos_nonneg; lia).
  set (q := 2 ^ (d - e)) in *. assert (0 < q) by (apply Z.pow_pos_nonneg; lia).
  rewrite Z.quot_div_nonneg by nia. rewrite E. replace (q * a * 2 - q * a + (a - 1)) with (a - 1 + q * a) by lia.
  rewrite Z.div_add by lia. rewrite Z.div_small by lia. lia.
Qed.
Lemma exp3_succ fd d : exp3 fd (d + 1) = exp3 fd d + (if fd <=? d + 1 then 1 else 0).
Proof. unfold exp3. destruct (Z.leb_spec fd (d + 1)); lia. Qed.
Lemma target_shr fd d i o a b c : 1 <= fd -> 0 <= d -> octant o = (Z.b2z a, Z.b2z b, Z.b2z c) ->
  target (fd <=? d + 1) (stack_shift fd (d + 1)) i o =
  shr3 (exp3 fd (d + 1) - exp3 fd d)
    (vx i - 2 ^ (d - exp3 fd d) * Z.b2z a, vy i - 2 ^ (d - exp3 fd d) * Z.b2z b, vz i - 2 ^ (d - exp3 fd d) * Z.b2z c).
Proof.
  intros Hf Hd E. unfold target. rewrite E, stack_shift_eq by lia. rewrite exp3_succ. unfold zip3, shr3, map3, half_index. cbn [vx vy vz fst snd].
  destruct (fd <=? d + 1).
  - replace (exp3 fd d + 1 - exp3 fd d) with 1 by lia. reflexivity.
  - replace (exp3 fd d + 0 - exp3 fd d) with 0 by lia. rewrite !Z.shiftr_0_r. reflexivity.
Qed.
Lemma shr_mono a b e : 0 <= e -> a <= b -> Z.shiftr a e <= Z.shiftr b e.
Proof. intros He H. rewrite !Z.shiftr_div_pow2 by exact He. apply Z.div_le_mono; [apply Z.pow_pos_nonneg; lia | exact H]. Qed.
Lemma shr_bound a b e p : 0 <= e -> a <= 0 <= b -> a <= p < b -> a <= Z.shiftr p e < b.
Proof.
  intros He Ha H. rewrite Z.shiftr_div_pow2 by exact He. assert (P : 1 <= 2 ^ e) by (pose proof (Z.pow_pos_nonneg 2 e); lia).
  split.
  - apply Z.div_le_lower_bound; nia.
  - apply Z.div_lt_upper_bound; nia.
Qed.

Section Levels.
Variable h : hybrid.
Variables fd m : Z.
Hypothesis Hh : hwf h.
Hypothesis Hfd : 1 <= fd.
(* m is min(fd, bd) *)
Hypothesis Hm : 1 <= m <= 14.
Notation lo := (-8192 + (2 ^ (m - 1) - 1)).
Notation ok_depth d := (0 <= d /\ d <= 29 /\ (d < m \/ m = fd)).

Lemma low_ok d : ok_depth d -> -8192 <= Z.shiftr (lo - 2 ^ d + 1) (exp3 fd d).
Proof.
  intros (H0 & _ & H). assert (B : 2 ^ (m - 1) <= 2 ^ 13) by (apply Z.pow_le_mono_r; lia). change (2 ^ 13) with 8192 in B.
  assert (P : 0 < 2 ^ (m - 1)) by (apply Z.pow_pos_nonneg; lia).
  rewrite Z.shiftr_div_pow2 by (unfold exp3; lia). set (e := exp3 fd d).
  assert (Pe : 1 <= 2 ^ e) by (pose proof (Z.pow_pos_nonneg 2 e); unfold e, exp3 in *; lia).
  apply Z.div_le_lower_bound; [lia|].
  destruct (Z_lt_ge_dec d m) as [L | G].
  - assert (2 ^ d <= 2 ^ (m - 1)) by (apply Z.pow_le_mono_r; lia). nia.
  - assert (m = fd) by lia. assert (E : 2 ^ d = 2 ^ (m - 1) * 2 ^ e).
    { rewrite <- Z.pow_add_r by (unfold e, exp3; lia). f_equal. unfold e, exp3. lia. }
    rewrite E. nia.
Qed.
Lemma low_step d b e : e = exp3 fd d -> 0 <= d -> forall i, Z.shiftr (lo - 2 ^ d + 1) e <= i ->
  Z.shiftr (lo - 2 ^ (d + 1) + 1) (exp3 fd (d + 1)) <= Z.shiftr (i - 2 ^ (d - e) * Z.b2z b) (exp3 fd (d + 1) - e).
Proof.
  intros -> H0 i H. assert (He : 0 <= exp3 fd d <= d) by (unfold exp3; lia).
  assert (H1 : 0 <= exp3 fd (d + 1) - exp3 fd d) by (rewrite exp3_succ; destruct (fd <=? d + 1); lia).
  apply Z.le_trans with (Z.shiftr (i - 2 ^ (d - exp3 fd d)) (exp3 fd (d + 1) - exp3 fd d)).
  2:{ apply shr_mono; [exact H1|]. assert (0 < 2 ^ (d - exp3 fd d)) by (apply Z.pow_pos_nonneg; lia). destruct b; cbn [Z.b2z]; lia. }
  replace (exp3 fd (d + 1)) with (exp3 fd d + (exp3 fd (d + 1) - exp3 fd d)) at 1 by lia.
  rewrite <- Z.shiftr_shiftr by lia. apply shr_mono; [exact H1|].
  rewrite Z.pow_add_r by lia. change (2 ^ 1) with 2.
  replace (lo - 2 ^ d * 2 + 1) with (lo - 2 ^ d + 1 + - 2 ^ (d - exp3 fd d) * 2 ^ exp3 fd d).
  - rewrite shift_add by lia. lia.
  - rewrite (pow_half d (exp3 fd d) He). ring.
Qed.

Lemma level_step d g : ok_depth d -> ok_depth (d + 1) -> level3 h fd lo d g ->
  exists N g', (forall n, (N <= n)%nat -> precompute3 n (fd <=? d + 1) (stack_shift fd (d + 1)) g = Some g') /\
    level3 h fd lo (d + 1) g'.
Proof.
  intros Od Od' [D R Dom Low]. set (e := exp3 fd d). assert (He : 0 <= e <= d) by (unfold e, exp3; lia).
  set (e' := exp3 fd (d + 1)). assert (He' : 0 <= e' - e) by (unfold e', e; rewrite exp3_succ; destruct (fd <=? d + 1); lia).
  set (s := 2 ^ (d - e)). assert (Ps : 0 < s) by (apply Z.pow_pos_nonneg; lia).
  assert (Tl : forall i o, representable i -> pv g i <> 0 -> In o octants ->
     within (Z.shiftr (lo - 2 ^ (d + 1) + 1) e') 8192 (target (fd <=? d + 1) (stack_shift fd (d + 1)) i o)).
  { intros i o Ri Ni Io. apply octant_bits in Io as (a & b & c & Eo & _). rewrite (target_shr fd d i o a b c) by (auto; lia).
    fold e e'. fold s. pose proof (Low i Ri Ni) as L. fold e in L. unfold within, shr3, map3 in *. cbn [vx vy vz fst snd] in *.
    unfold representable, within in Ri.
    assert (Up : forall z (x : bool), -8192 <= z < 8192 -> Z.shiftr (z - s * Z.b2z x) (e' - e) < 8192).
    { intros z x Hz. apply (Z.le_lt_trans _ (Z.shiftr z (e' - e))); [apply shr_mono; [exact He' | destruct x; cbn [Z.b2z]; lia]|].
      apply shr_bound with (a := -8192); lia. }
    repeat split; try (apply Up; lia); apply (low_step d _ e); unfold e; lia || apply L. }
  destruct (precompute3_ok (fd <=? d + 1) (stack_shift fd (d + 1)) g D) as (N & g' & E & D' & A & B).
  { intros i o Ri Ni Io. specialize (Tl i o Ri Ni Io). pose proof (low_ok (d + 1) Od') as L. fold e' in L.
    unfold representable, within in *. lia. }
  { intros i I. apply R. exact I. }
  exists N, g'. split; [exact E|]. 
  assert (R' : forall i, int_index i -> 0 <= pv g' i <= 255).
  { intros i I. destruct (B i I) as [-> | (j & o & Rj & _ & _ & _ & ->)]; [lia|]. apply R. now apply rep_int. }
  split; [exact D' | exact R' | |].
  - intros p t Hp Ht. fold e'.
    destruct (split_bit d (vx t)) as [b1 B1]; [lia | apply Ht|].
    destruct (split_bit d (vy t)) as [b2 B2]; [lia | apply Ht|].
    destruct (split_bit d (vz t)) as [b3 B3]; [lia | apply Ht|].
    assert (P29 : 2 ^ (d + 1) <= 2 ^ 29) by (apply Z.pow_le_mono_r; lia).
    assert (P29' : 2 ^ d <= 2 ^ 29) by (apply Z.pow_le_mono_r; lia).
    assert (Ip : int_index (add3 p t)).
    { unfold int_index, within, add3, zip3 in *. cbn [vx vy vz fst snd]. lia. }
    assert (Ie : int_index (shr3 e' p)).
    { unfold int_index, within, shr3, map3 in *. cbn [vx vy vz fst snd].
      assert (forall c, - 2 ^ 30 <= c < 2 ^ 30 -> - 2 ^ 30 <= Z.shiftr c e' < 2 ^ 30) by (intros c Hc; apply shr_bound; lia).
      pose proof (H (vx p)). pose proof (H (vy p)). pose proof (H (vz p)). lia. }
    destruct (Z.eq_dec (voxel8 h (add3 p t)) 0) as [Z0 | N0]; [rewrite Z0; apply R'; exact Ie|].
    destruct (voxel8_known h _ Hh Ip N0) as [Rp _].
    set (p' := (vx p + Z.b2z b1 * 2 ^ d, vy p + Z.b2z b2 * 2 ^ d, vz p + Z.b2z b3 * 2 ^ d)).
    set (t' := (vx t - Z.b2z b1 * 2 ^ d, vy t - Z.b2z b2 * 2 ^ d, vz t - Z.b2z b3 * 2 ^ d)).
    assert (Ept : add3 p' t' = add3 p t).
    { unfold add3, zip3, p', t'. cbn [vx vy vz fst snd]. f_equal; [f_equal|]; lia. }
    assert (Wp' : within (- 2 ^ 30) (2 ^ 30) p').
    { clear - Rp Hp B1 B2 B3. unfold representable, within, add3, zip3, p' in *. cbn [vx vy vz fst snd] in *. destruct b1, b2, b3; cbn [Z.b2z] in *; lia. }
    pose proof (Dom p' t' Wp') as Dm. rewrite Ept in Dm. fold e in Dm.
    eapply Z.le_trans; [apply Dm; unfold within, t'; cbn [vx vy vz fst snd]; lia|].
    destruct (octant_all b1 b2 b3) as (o & Io & Eo).
    assert (Et : target (fd <=? d + 1) (stack_shift fd (d + 1)) (shr3 e p') o = shr3 e' p).
    { rewrite (target_shr fd d _ o b1 b2 b3) by (auto; lia). fold e e'. fold s. unfold shr3, map3, p'. cbn [vx vy vz fst snd].
      assert (Sh : forall c (b : bool), Z.shiftr (Z.shiftr (c + Z.b2z b * 2 ^ d) e - s * Z.b2z b) (e' - e) = Z.shiftr c e').
      { intros c b. rewrite (pow_half d e He). fold s. replace (Z.b2z b * (s * 2 ^ e)) with (s * Z.b2z b * 2 ^ e) by ring.
        rewrite shift_add by lia. replace (Z.shiftr c e + s * Z.b2z b - s * Z.b2z b) with (Z.shiftr c e) by lia.
        rewrite Z.shiftr_shiftr by lia. f_equal. lia. }
      rewrite !Sh. reflexivity. }
    assert (Ii : int_index (shr3 e p')).
    { unfold int_index, within, shr3, map3 in *. cbn [vx vy vz fst snd] in *.
      assert (forall c, - 2 ^ 30 <= c < 2 ^ 30 -> - 2 ^ 30 <= Z.shiftr c e < 2 ^ 30) by (intros c Hc; apply shr_bound; lia).
      pose proof (H (vx p')). pose proof (H (vy p')). pose proof (H (vz p')). lia. }
    destruct (rep_dec (shr3 e p')) as [Rr | Nr].
    + rewrite <- Et. apply A; [exact Rr | exact Io | rewrite Et; exact Ie].
    + rewrite (pv_out g _ D Ii Nr). apply R'. exact Ie.
  - intros i Ri Ni. destruct (B i (rep_int _ Ri)) as [Z0 | (j & o & Rj & Nj & Io & <- & _)]; [congruence|].
    apply Tl; assumption.
Qed.

Lemma level_zero g : hdwf g -> (forall i, int_index i -> pv g i = voxel8 h i) -> room h (2 ^ (m - 1) - 1) ->
  level3 h fd lo 0 g.
Proof.
  intros D V Rm. assert (E0 : exp3 fd 0 = 0) by (unfold exp3; lia).
  split; [exact D | | |].
  - intros i I. rewrite V by exact I. now apply voxel8_range.
  - intros p t Hp Ht. rewrite E0. assert (Ep : add3 p t = p).
    { destruct p as [[px py] pz], t as [[tx ty] tz]. unfold within in Ht. cbn in Ht. unfold add3, zip3. cbn. f_equal; [f_equal|]; lia. }
    rewrite Ep. assert (Es : shr3 0 p = p).
    { destruct p as [[px py] pz]. unfold shr3, map3. cbn [vx vy vz fst snd]. now rewrite !Z.shiftr_0_r. }
    rewrite Es, V; [lia|]. unfold int_index, within in *. lia.
  - intros i Ri Ni. rewrite E0, Z.shiftr_0_r. rewrite V in Ni by now apply rep_int.
    destruct (voxel8_known h i Hh (rep_int _ Ri) Ni) as (_ & v & Ev & Nv). specialize (Rm i v Ri Ev Nv).
    change (2 ^ 0) with 1. unfold within in *. lia.
Qed.

Lemma stack_from_ok k : forall d g, 0 <= d -> (k = 0%nat \/ ok_depth (d + Z.of_nat k)) -> ok_depth d -> level3 h fd lo d g ->
  exists N gs, (forall n, (N <= n)%nat -> stack_from n fd (d + 1) k g = Some gs) /\ length gs = k /\
    forall j g', nth_error gs j = Some g' -> level3 h fd lo (d + 1 + Z.of_nat j) g'.
Proof.
  induction k as [|k IH]; intros d g Hd Hk Od L.
  - exists 0%nat, []. split; [reflexivity|]. split; [reflexivity|]. intros [|j] g' E; discriminate.
  - destruct Hk as [|Hk]; [discriminate|].
    assert (Od' : ok_depth (d + 1)) by lia.
    destruct (level_step d g Od Od' L) as (N1 & g1 & E1 & L1).
    destruct (IH (d + 1) g1) as (N2 & gs & E2 & Ln & Nt); [lia | right; lia | exact Od' | exact L1|].
    exists (Nat.max N1 N2), (g1 :: gs). split; [|split].
    + intros n Hn. cbn [stack_from]. rewrite E1 by lia. now rewrite E2 by lia.
    + cbn. lia.
    + intros [|j] g' E; cbn in E.
      * injection E as <-. now rewrite Z.add_0_r.
      * replace (d + 1 + Z.of_nat (S j)) with (d + 1 + 1 + Z.of_nat j) by lia. now apply Nt.
Qed.
End Levels.

Lemma stack3_ok h bd fd : hwf h -> 1 <= fd -> (1 <= bd <= 30)%nat -> Z.min fd (Z.of_nat bd) <= 14 ->
  room h (2 ^ (Z.min fd (Z.of_nat bd) - 1) - 1) ->
  exists N gs, (forall n, (N <= n)%nat -> stack3 n bd fd h = Some gs) /\ length gs = bd /\
    (forall g, nth_error gs 0 = Some g -> forall i, int_index i -> pv g i = voxel8 h i) /\
    forall d g, nth_error gs d = Some g ->
      level3 h fd (-8192 + (2 ^ (Z.min fd (Z.of_nat bd) - 1) - 1)) (Z.of_nat d) g.
Proof.
  intros W Hf Hb Hm Rm. set (m := Z.min fd (Z.of_nat bd)) in *. assert (Bm : 1 <= m <= 14) by lia.
  destruct (convert_ok h W) as (N1 & g & E1 & D & V).
  pose proof (level_zero h fd m W Hf Bm g D V Rm) as L0.
  destruct (stack_from_ok h fd m W Hf Bm (Nat.pred bd) 0 g) as (N2 & gs & E2 & Ln & Nt); [lia | right; lia | lia | exact L0|].
  exists (Nat.max N1 N2), (g :: gs). split; [|split; [|split]].
  - intros n Hn. unfold stack3. replace ((1 <=? bd)%nat && (1 <=? fd)) with true.
    + rewrite E1 by lia. specialize (E2 n). change (0 + 1) with 1 in E2. now rewrite E2 by lia.
    + symmetry. apply andb_true_intro. split; [apply Nat.leb_le | apply Z.leb_le]; lia.
  - cbn. lia.
  - intros g' E. cbn in E. injection E as <-. exact V.
  - intros [|d] g' E; cbn in E; [injection E as <-; exact L0|]. replace (Z.of_nat (S d)) with (0 + 1 + Z.of_nat d) by lia. now apply Nt.
Qed.

(* ---- a voxel at the lower border ---- *)
Lemma put_out f g i : hdwf g -> ~ representable i -> p_put f g i = None.
Proof.
  intros D R. unfold p_put. rewrite (dyn_modify_out 0 node_ops _ nok nsz _ _ i R grow_fuel g D); [reflexivity|].
  destruct D as [B _]. unfold grow_fuel. lia.
Qed.
Lemma max_all_out ws : forall g, hdwf g -> (exists j v, In (j, v) ws /\ ~ representable j) -> max_all ws g = None.
Proof.
  induction ws as [|[i u] ws IH]; intros g D (j & v & I & N); [contradiction|]. cbn [max_all].
  destruct (rep_dec i) as [R | R]; [|now rewrite put_out].
  destruct (put_ok (fun old => Z.max u old) g i D R) as (g' & -> & D' & _). apply IH; [exact D'|].
  destruct I as [E | I]; [injection E as <- <-; contradiction|]. eauto.
Qed.
Lemma border_abort h bd fd i : hwf h -> 2 <= fd -> (2 <= bd)%nat -> representable i -> voxel8 h i <> 0 ->
  vx i = -8192 \/ vy i = -8192 \/ vz i = -8192 ->
  exists N g, forall n, (N <= n)%nat -> convert n h = Some g /\ stack3 n bd fd h = None.
Proof.
  intros W Hf Hb R N B. destruct (convert_ok h W) as (N1 & g & E1 & D & V). destruct (cells_ok g D) as (l & E2 & _ & Vl).
  exists (Nat.max N1 (length l)), g. intros n Hn. split; [apply E1; lia|]. unfold stack3.
  replace ((1 <=? bd)%nat && (1 <=? fd)) with true by (symmetry; apply andb_true_intro; split; [apply Nat.leb_le | apply Z.leb_le]; lia).
  rewrite E1 by lia. destruct bd as [|[|k]]; [lia | lia|]. cbn [Nat.pred stack_from].
  assert (Es : stack_shift fd 1 = 1).
  { unfold stack_shift. replace (Z.max 0 (1 - fd)) with 0 by lia. reflexivity. }
  rewrite Es. replace (fd <=? 1) with false by lia. unfold precompute3. rewrite E2 by lia. rewrite put_all_max, max_all_out; [reflexivity | exact new_wf|].
  destruct (octant_all true true true) as (o & Io & Eo). exists (target false 1 i o), (pv g i). split.
  - apply in_flat_map. exists (i, pv g i). split; [|apply in_map_iff; exists o; auto]. apply Vl. split; [exact R|]. split; [reflexivity|].
    rewrite V by now apply rep_int. exact N.
  - unfold target. rewrite Eo. unfold representable, within, zip3. cbn [vx vy vz fst snd Z.b2z]. lia.
Qed.
