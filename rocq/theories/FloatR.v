(* Real-number meaning of the SpecFloat operations used in Float32.v, from
   Flocq.  Generic in the format. *)
From Coq Require Import ZArith Bool SpecFloat Reals Lia Lra.
From Flocq Require Import Core.Core IEEE754.BinarySingleNaN.
Require Import Flocq.Prop.Relative.
Open Scope R_scope.

Section Format.
Variables prec emax : Z.
Hypothesis Hprec : (0 < prec)%Z.
Hypothesis Hmax : (prec < emax)%Z.

Local Instance prec_gt_0_ : Prec_gt_0 prec := Hprec.
Local Instance prec_lt_emax_ : Prec_lt_emax prec emax := Hmax.

Definition fvalid (x : spec_float) : Prop := SpecFloat.valid_binary prec emax x = true.
Definition ffin (x : spec_float) : Prop := is_finite_SF x = true.
Definition fval (x : spec_float) : R := SF2R radix2 x.
Definition frnd (r : R) : R :=
  round radix2 (SpecFloat.fexp prec emax) ZnearestE r.

Lemma rne_equiv s m l : round_nearest_even m l = choice_mode mode_NE s m l.
Proof. case l; [reflexivity|intro c]. case c; [|reflexivity..].
  now simpl; unfold Round.cond_incr; case Z.even. Qed.

Lemma bra_equiv sx mx ex lx :
  SpecFloat.binary_round_aux prec emax sx mx ex lx
  = binary_round_aux prec emax mode_NE sx mx ex lx.
Proof.
  unfold SpecFloat.binary_round_aux, binary_round_aux.
  set (mrse' := shr_fexp _ _ _). case mrse'; intros mrs' e'; simpl.
  now rewrite (rne_equiv sx).
Qed.

Lemma br_equiv s m e :
  SpecFloat.binary_round prec emax s m e = binary_round prec emax mode_NE s m e.
Proof.
  unfold SpecFloat.binary_round, binary_round, shl_align_fexp.
  set (mez := shl_align _ _ _); case mez as [mz ez]. apply bra_equiv.
Qed.

Lemma bn_equiv m e szero :
  SpecFloat.binary_normalize prec emax m e szero
  = B2SF (binary_normalize prec emax Hprec Hmax mode_NE m e szero).
Proof.
  case m as [ | p | p].
  - now simpl.
  - simpl; rewrite B2SF_SF2B; apply br_equiv.
  - simpl; rewrite B2SF_SF2B; apply br_equiv.
Qed.

Lemma mul_equiv (x y : binary_float prec emax) :
  SFmul prec emax (B2SF x) (B2SF y) = B2SF (Bmult mode_NE x y).
Proof.
  destruct x as [sx|sx| |sx mx ex Bx]; destruct y as [sy|sy| |sy my ey By];
    [now trivial.. | ].
  simpl. rewrite B2SF_SF2B. apply bra_equiv.
Qed.

Lemma add_equiv (x y : binary_float prec emax) :
  SFadd prec emax (B2SF x) (B2SF y) = B2SF (Bplus mode_NE x y).
Proof.
  destruct x as [sx|sx| |sx mx ex Bx]; destruct y as [sy|sy| |sy my ey By];
    [now (trivial || simpl; case Bool.eqb).. | ].
  apply bn_equiv.
Qed.

Lemma sub_equiv (x y : binary_float prec emax) :
  SFsub prec emax (B2SF x) (B2SF y) = B2SF (Bminus mode_NE x y).
Proof.
  destruct x as [sx|sx| |sx mx ex Bx]; destruct y as [sy|sy| |sy my ey By];
    [now (trivial || simpl; case Bool.eqb).. | ].
  simpl. unfold Zminus. rewrite <- cond_Zopp_negb. apply bn_equiv.
Qed.

Lemma div_equiv (x y : binary_float prec emax) :
  SFdiv prec emax (B2SF x) (B2SF y) = B2SF (Bdiv mode_NE x y).
Proof.
  destruct x as [sx|sx| |sx mx ex Bx]; destruct y as [sy|sy| |sy my ey By];
    [now (trivial || simpl; case Bool.eqb).. | ].
  simpl. rewrite B2SF_SF2B.
  set (melz := SFdiv_core_binary _ _ _ _ _ _). case melz as [[mz ez] lz].
  apply bra_equiv.
Qed.

Lemma fvalid_B x : fvalid x -> exists b : binary_float prec emax, x = B2SF b.
Proof. intros H. exists (SF2B x H). now rewrite B2SF_SF2B. Qed.

Lemma fvalid_B2SF (b : binary_float prec emax) : fvalid (B2SF b).
Proof. unfold fvalid. apply valid_binary_B2SF. Qed.

Lemma ffin_B2SF (b : binary_float prec emax) : ffin (B2SF b) <-> is_finite b = true.
Proof. unfold ffin. now destruct b. Qed.

Lemma fval_B2SF (b : binary_float prec emax) : fval (B2SF b) = B2R b.
Proof. apply SF2R_B2SF. Qed.

Ltac tob x H := let b := fresh "b" in destruct (fvalid_B x H) as [b ->].

Lemma add_valid x y : fvalid x -> fvalid y -> fvalid (SFadd prec emax x y).
Proof. intros H1 H2. tob x H1. tob y H2. rewrite add_equiv. apply fvalid_B2SF. Qed.
Lemma sub_valid x y : fvalid x -> fvalid y -> fvalid (SFsub prec emax x y).
Proof. intros H1 H2. tob x H1. tob y H2. rewrite sub_equiv. apply fvalid_B2SF. Qed.
Lemma mul_valid x y : fvalid x -> fvalid y -> fvalid (SFmul prec emax x y).
Proof. intros H1 H2. tob x H1. tob y H2. rewrite mul_equiv. apply fvalid_B2SF. Qed.
Lemma div_valid x y : fvalid x -> fvalid y -> fvalid (SFdiv prec emax x y).
Proof. intros H1 H2. tob x H1. tob y H2. rewrite div_equiv. apply fvalid_B2SF. Qed.

Lemma add_ok x y : fvalid x -> fvalid y -> ffin x -> ffin y ->
  Rabs (frnd (fval x + fval y)) < bpow radix2 emax ->
  ffin (SFadd prec emax x y) /\ fval (SFadd prec emax x y) = frnd (fval x + fval y).
Proof.
  intros H1 H2. tob x H1. tob y H2. rewrite add_equiv, !fval_B2SF, !ffin_B2SF.
  intros F1 F2 L. pose proof (Bplus_correct prec emax _ _ mode_NE b b0 F1 F2) as C.
  rewrite Rlt_bool_true in C by exact L. destruct C as [C1 [C2 _]]. now split.
Qed.
Lemma sub_ok x y : fvalid x -> fvalid y -> ffin x -> ffin y ->
  Rabs (frnd (fval x - fval y)) < bpow radix2 emax ->
  ffin (SFsub prec emax x y) /\ fval (SFsub prec emax x y) = frnd (fval x - fval y).
Proof.
  intros H1 H2. tob x H1. tob y H2. rewrite sub_equiv, !fval_B2SF, !ffin_B2SF.
  intros F1 F2 L. pose proof (Bminus_correct prec emax _ _ mode_NE b b0 F1 F2) as C.
  rewrite Rlt_bool_true in C by exact L. destruct C as [C1 [C2 _]]. now split.
Qed.
Lemma mul_ok x y : fvalid x -> fvalid y -> ffin x -> ffin y ->
  Rabs (frnd (fval x * fval y)) < bpow radix2 emax ->
  ffin (SFmul prec emax x y) /\ fval (SFmul prec emax x y) = frnd (fval x * fval y).
Proof.
  intros H1 H2. tob x H1. tob y H2. rewrite mul_equiv, !fval_B2SF, !ffin_B2SF.
  intros F1 F2 L. pose proof (Bmult_correct prec emax _ _ mode_NE b b0) as C.
  rewrite Rlt_bool_true in C by exact L. destruct C as [C1 [C2 _]].
  rewrite F1, F2 in C2. now split.
Qed.
Lemma div_ok x y : fvalid x -> fvalid y -> ffin x -> fval y <> 0 ->
  Rabs (frnd (fval x / fval y)) < bpow radix2 emax ->
  ffin (SFdiv prec emax x y) /\ fval (SFdiv prec emax x y) = frnd (fval x / fval y).
Proof.
  intros H1 H2. tob x H1. tob y H2. rewrite div_equiv, !fval_B2SF, !ffin_B2SF.
  intros F1 F2 L. pose proof (Bdiv_correct prec emax _ _ mode_NE b b0 F2) as C.
  rewrite Rlt_bool_true in C by exact L. destruct C as [C1 [C2 _]].
  rewrite F1 in C2. now split.
Qed.

Lemma of_Z_valid z e : fvalid (SpecFloat.binary_normalize prec emax z e false).
Proof. rewrite bn_equiv. apply fvalid_B2SF. Qed.
Lemma of_Z_ok z : Rabs (frnd (IZR z)) < bpow radix2 emax ->
  ffin (SpecFloat.binary_normalize prec emax z 0 false) /\
  fval (SpecFloat.binary_normalize prec emax z 0 false) = frnd (IZR z).
Proof.
  intros L. rewrite bn_equiv, fval_B2SF, ffin_B2SF.
  pose proof (binary_normalize_correct prec emax Hprec Hmax mode_NE z 0 false) as C.
  cbv zeta in C.
  assert (E : F2R (Float radix2 z 0) = IZR z) by (unfold F2R; simpl; lra).
  rewrite E in C. rewrite Rlt_bool_true in C by exact L.
  destruct C as [C1 [C2 _]]. now split.
Qed.

Lemma ltb_ok x y : fvalid x -> fvalid y -> ffin x -> ffin y ->
  SFltb x y = true <-> fval x < fval y.
Proof.
  intros H1 H2. tob x H1. tob y H2. rewrite !fval_B2SF, !ffin_B2SF. intros F1 F2.
  change (SFltb (B2SF b) (B2SF b0)) with (Bltb b b0). rewrite Bltb_correct by assumption.
  destruct (Rlt_bool_spec (B2R b) (B2R b0)); split; intros; try lra; discriminate.
Qed.
Lemma leb_ok x y : fvalid x -> fvalid y -> ffin x -> ffin y ->
  SFleb x y = true <-> fval x <= fval y.
Proof.
  intros H1 H2. tob x H1. tob y H2. rewrite !fval_B2SF, !ffin_B2SF. intros F1 F2.
  change (SFleb (B2SF b) (B2SF b0)) with (Bleb b b0). rewrite Bleb_correct by assumption.
  destruct (Rle_bool_spec (B2R b) (B2R b0)); split; intros; try lra; discriminate.
Qed.

Lemma frnd_le x y : x <= y -> frnd x <= frnd y.
Proof. apply round_le; typeclasses eauto. Qed.

Lemma frnd_val x : fvalid x -> frnd (fval x) = fval x.
Proof.
  intros H. tob x H. rewrite fval_B2SF. apply round_generic; [typeclasses eauto|].
  apply generic_format_B2R.
Qed.

Lemma frnd_err r : Rabs (frnd r - r) <=
  / 2 * bpow radix2 (- prec + 1) * Rabs r + / 2 * bpow radix2 (3 - emax - prec).
Proof.
  unfold frnd.
  change (SpecFloat.fexp prec emax) with (FLT_exp (3 - emax - prec) prec).
  pose proof (bpow_ge_0 radix2 (- prec + 1)). pose proof (bpow_ge_0 radix2 (3 - emax - prec)).
  pose proof (Rabs_pos r).
  destruct (Rle_or_lt (bpow radix2 ((3 - emax - prec) + prec - 1)) (Rabs r)) as [L | L].
  - eapply Rle_trans; [apply relative_error_N_FLT; [exact Hprec | exact L]|].
    assert (0 <= / 2 * bpow radix2 (3 - emax - prec)) by lra. lra.
  - eapply Rle_trans; [apply error_le_half_ulp; typeclasses eauto|].
    rewrite ulp_FLT_small.
    + assert (0 <= / 2 * bpow radix2 (- prec + 1) * Rabs r)
        by (apply Rmult_le_pos; [lra | assumption]). lra.
    + exact Hprec.
    + eapply Rlt_trans; [exact L|]. apply bpow_lt. lia.
Qed.
End Format.
