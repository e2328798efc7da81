From Coq Require Import ZArith List Bool Lia Reals Lra.
From Flocq Require Import Core Mult_error.
From Verif Require Import Float32 FloatR Float32_Proofs PV_Bounded VF_Model.
Import ListNotations.
Local Open Scope R_scope.

(* Integers up to 2^24 are exact in binary32 *)
Lemma rnd32_int z : (Z.abs z <= 2 ^ 24)%Z -> rnd32 (IZR z) = IZR z.
Proof.
  intros H. unfold rnd32, frnd. apply round_generic; [apply valid_rnd_N|].
  change (SpecFloat.fexp 24 128) with (FLT_exp (-149) 24).
  destruct (Z.eq_dec (Z.abs z) (2 ^ 24)) as [E|E].
  - assert (B : generic_format radix2 (FLT_exp (-149) 24) (bpow radix2 24))
      by (apply generic_format_bpow; cbn; lia).
    change (bpow radix2 24) with (IZR (2 ^ 24)) in B. destruct (Z.abs_eq_or_opp z).
    + replace z with (2 ^ 24)%Z by lia. exact B.
    + replace z with (- 2 ^ 24)%Z by lia. rewrite opp_IZR. apply generic_format_opp. exact B.
  - apply generic_format_FLT. exists (Float radix2 z 0); cbn; [unfold F2R; cbn; lra | lia | lia].
Qed.

Lemma f_of_Z_exact z : (Z.abs z <= 2 ^ 24)%Z ->
  valid32 (f_of_Z z) /\ ffin (f_of_Z z) /\ fval (f_of_Z z) = IZR z.
Proof.
  intros H. split; [apply f_of_Z_valid|].
  rewrite <- (rnd32_int z H). apply (of_Z_ok 24 128 p24 m128 z).
  apply rnd32_small. rewrite <- abs_IZR. apply IZR_le. lia.
Qed.

Lemma fleb_of_Z a b : (Z.abs a <= 2 ^ 24)%Z -> (Z.abs b <= 2 ^ 24)%Z ->
  fleb (f_of_Z a) (f_of_Z b) = (a <=? b)%Z.
Proof.
  intros Ha Hb. destruct (f_of_Z_exact a Ha) as (V & F & E), (f_of_Z_exact b Hb) as (V' & F' & E').
  pose proof (fleb_ok _ _ V V' F F') as I. rewrite E, E' in I.
  destruct (Z.leb_spec a b).
  - apply I. now apply IZR_le.
  - destruct (fleb (f_of_Z a) (f_of_Z b)); auto.
    assert (IZR a <= IZR b) by now apply I. apply le_IZR in H0. lia.
Qed.

(* Relative error away from the subnormal numbers *)
Definition eps := / 8388608.
Lemma rnd_rel r : / IZR (2 ^ 120) <= r -> r * (1 - eps) <= rnd32 r <= r * (1 + eps).
Proof.
  intros H. pose proof (rnd32_err r) as E.
  assert (P : 0 < / IZR (2 ^ 120)) by (apply Rinv_0_lt_compat; apply IZR_lt; lia).
  rewrite (Rabs_pos_eq r) in E by lra.
  assert (T : / IZR (2 ^ 150) <= / 16777216 * r).
  { apply Rle_trans with (/ 16777216 * / IZR (2 ^ 120)).
    - rewrite <- Rinv_mult. rewrite <- mult_IZR. apply Rinv_le_contravar; apply IZR_lt || apply IZR_le; lia.
    - apply Rmult_le_compat_l; lra. }
  apply Rabs_le_inv in E. unfold eps. lra.
Qed.

Lemma tiny_pos : 0 < / IZR (2 ^ 120).
Proof. apply Rinv_0_lt_compat; apply IZR_lt; lia. Qed.

Lemma two_val : valid32 f_two /\ ffin f_two /\ fval f_two = 2.
Proof. apply (f_of_Z_exact 2). lia. Qed.

(* a length in the range the proof covers *)
Definition len (lo hi : R) (x : f32) : Prop := valid32 x /\ ffin x /\ lo <= fval x <= hi.

Lemma half_ok x : valid32 x -> ffin x -> / IZR (2 ^ 118) <= fval x <= IZR (2 ^ 98) ->
  valid32 (fdiv x f_two) /\ ffin (fdiv x f_two) /\
  fval x / 2 * (1 - eps) <= fval (fdiv x f_two) <= fval x / 2 * (1 + eps).
Proof.
  intros V F B. destruct two_val as (V2 & F2 & E2).
  assert (P := tiny_pos).
  assert (L : / IZR (2 ^ 120) <= fval x / 2).
  { replace (/ IZR (2 ^ 120)) with (/ IZR (2 ^ 118) / 4).
    - assert (0 < / IZR (2 ^ 118)) by (apply Rinv_0_lt_compat; apply IZR_lt; lia). lra.
    - replace (2 ^ 120)%Z with (2 ^ 118 * 4)%Z by reflexivity. rewrite mult_IZR, Rinv_mult. lra. }
  destruct (fdiv_ok x f_two V V2 F) as (F' & E'); [rewrite E2; lra| |].
  { rewrite E2. apply rnd32_small. rewrite Rabs_pos_eq by lra.
    assert (IZR (2 ^ 98) <= IZR (2 ^ 99)) by (apply IZR_le; lia). lra. }
  split; [now apply fdiv_valid|]. split; auto. rewrite E', E2. now apply rnd_rel.
Qed.

Lemma mid_ok x y : valid32 x -> ffin x -> valid32 y -> ffin y ->
  / IZR (2 ^ 117) <= fval x <= IZR (2 ^ 90) -> / IZR (2 ^ 117) <= fval y <= IZR (2 ^ 90) ->
  let m := fdiv (fadd x y) f_two in
  valid32 m /\ ffin m /\
  (fval x + fval y) / 2 * (1 - 3 * eps) <= fval m <= (fval x + fval y) / 2 * (1 + 3 * eps).
Proof.
  intros Vx Fx Vy Fy Bx By m.
  assert (P17 : 0 < / IZR (2 ^ 117)) by (apply Rinv_0_lt_compat; apply IZR_lt; lia).
  assert (L17 : / IZR (2 ^ 120) <= / IZR (2 ^ 117))
    by (apply Rinv_le_contravar; [apply IZR_lt; lia|apply IZR_le; lia]).
  assert (L18 : / IZR (2 ^ 118) <= / IZR (2 ^ 117))
    by (apply Rinv_le_contravar; [apply IZR_lt; lia|apply IZR_le; lia]).
  assert (T91 : IZR (2 ^ 90) + IZR (2 ^ 90) = IZR (2 ^ 91)) by (rewrite <- plus_IZR; reflexivity).
  assert (T92 : 2 * IZR (2 ^ 91) = IZR (2 ^ 92)) by (rewrite <- mult_IZR; reflexivity).
  assert (T98 : IZR (2 ^ 92) <= IZR (2 ^ 98)) by (apply IZR_le; lia).
  assert (T99 : IZR (2 ^ 98) <= IZR (2 ^ 99)) by (apply IZR_le; lia).
  destruct (fadd_ok x y Vx Vy Fx Fy) as (Fs & Es).
  { apply rnd32_small. rewrite Rabs_pos_eq by lra. lra. }
  pose proof (rnd_rel (fval x + fval y) ltac:(lra)) as R. rewrite <- Es in R.
  assert (Hs : 0 < fval x + fval y) by lra.
  assert (Es1 : eps = / 8388608) by reflexivity.
  destruct (half_ok (fadd x y)) as (Vm & Fm & Em); [now apply fadd_valid|auto| |].
  { rewrite Es1 in R. lra. }
  split; [auto|split; auto]. fold m in Em.
  set (s := fval x + fval y) in *. set (a := fval (fadd x y)) in *. set (v := fval m) in *.
  rewrite Es1 in *. lra.
Qed.

(* Halving is exact *)
Lemma half_exact x : valid32 x -> ffin x -> / IZR (2 ^ 117) <= fval x <= IZR (2 ^ 98) ->
  valid32 (fdiv x f_two) /\ ffin (fdiv x f_two) /\ fval (fdiv x f_two) = fval x / 2.
Proof.
  intros V F B.
  assert (P17 : 0 < / IZR (2 ^ 117)) by (apply Rinv_0_lt_compat; apply IZR_lt; lia).
  assert (L18 : / IZR (2 ^ 118) <= / IZR (2 ^ 117))
    by (apply Rinv_le_contravar; [apply IZR_lt; lia|apply IZR_le; lia]).
  destruct (half_ok x V F ltac:(lra)) as (V' & F' & _).
  split; auto. split; auto.
  destruct two_val as (V2 & F2 & E2).
  destruct (fdiv_ok x f_two V V2 F) as (_ & E'); [rewrite E2; lra| |].
  { rewrite E2. apply rnd32_small. rewrite Rabs_pos_eq by lra.
    assert (IZR (2 ^ 98) <= IZR (2 ^ 99)) by (apply IZR_le; lia). lra. }
  rewrite E', E2. unfold rnd32, frnd. apply round_generic; [apply valid_rnd_N|].
  replace (fval x / 2) with (fval x * bpow radix2 (-1)) by (simpl; lra).
  change (SpecFloat.fexp 24 128) with (FLT_exp (-149) 24).
  apply mult_bpow_exact_FLT.
  - rewrite <- (rnd32_val x V). unfold rnd32, frnd.
    change (SpecFloat.fexp 24 128) with (FLT_exp (-149) 24).
    apply generic_format_round; [apply FLT_exp_valid; reflexivity|apply valid_rnd_N].
  - assert (-117 < mag radix2 (fval x))%Z; [|lia].
    apply mag_gt_bpow. rewrite Rabs_pos_eq by lra.
    change (-117)%Z with (- (117))%Z. rewrite bpow_neg. lra.
Qed.

Definition halve (k : nat) (x : f32) : f32 := Nat.iter k (fun l => fdiv l f_two) x.

Lemma halve_ok x : valid32 x -> ffin x -> / IZR (2 ^ 100) <= fval x <= IZR (2 ^ 90) ->
  forall k, (k <= 8)%nat ->
  valid32 (halve k x) /\ ffin (halve k x) /\ fval (halve k x) = fval x / 2 ^ k.
Proof.
  intros V F B. induction k as [|k IH]; intros K.
  - simpl. split; auto. split; auto. lra.
  - destruct IH as (V' & F' & E'); [lia|].
    assert (P : 1 <= 2 ^ k <= 2 ^ 7).
    { split; [apply pow_R1_Rle; lra|apply Rle_pow; [lra|lia]]. }
    assert (P0 : 0 < / IZR (2 ^ 100)) by (apply Rinv_0_lt_compat; apply IZR_lt; lia).
    assert (Q : / 2 ^ 7 <= / 2 ^ k <= 1).
    { split; [apply Rinv_le_contravar; lra|].
      rewrite <- Rinv_1. apply Rinv_le_contravar; lra. }
    change (halve (S k) x) with (fdiv (halve k x) f_two).
    destruct (half_exact (halve k x) V' F') as (V2 & F2 & E2).
    { rewrite E'. unfold Rdiv. split.
      - apply Rle_trans with (/ IZR (2 ^ 100) * / 2 ^ 7).
        + rewrite <- Rinv_mult. apply Rinv_le_contravar.
          * apply Rmult_lt_0_compat; [apply IZR_lt; lia|lra].
          * replace (2 ^ 7) with (IZR (2 ^ 7)) by (simpl; lra). rewrite <- mult_IZR.
            apply IZR_le. lia.
        + apply Rmult_le_compat; try lra.
      - apply Rle_trans with (fval x * 1).
        + apply Rmult_le_compat_l; lra.
        + assert (IZR (2 ^ 90) <= IZR (2 ^ 98)) by (apply IZR_le; lia). lra. }
    split; auto. split; auto. rewrite E2, E'. simpl. field. lra.
Qed.

(* The constants *)
Lemma c_1e_1 : valid32 f_1e_1 /\ ffin f_1e_1 /\ 0.1 <= fval f_1e_1 <= 0.1 + / 100000000.
Proof.
  replace f_1e_1 with (SpecFloat.S754_finite false 13421773 (-27)) by (vm_compute; reflexivity).
  split; [vm_compute; reflexivity|]. split; [reflexivity|].
  rewrite fval_pos. change (-27)%Z with (- (27))%Z. rewrite bpow_neg.
  replace (IZR (2 ^ 27)) with 134217728 by (simpl; lra). lra.
Qed.
Lemma c_1e_2 : valid32 f_1e_2 /\ ffin f_1e_2 /\ 0.0099 <= fval f_1e_2 <= 0.0101.
Proof.
  replace f_1e_2 with (SpecFloat.S754_finite false 10737418 (-30)) by (vm_compute; reflexivity).
  split; [vm_compute; reflexivity|]. split; [reflexivity|].
  rewrite fval_pos. change (-30)%Z with (- (30))%Z. rewrite bpow_neg.
  replace (IZR (2 ^ 30)) with 1073741824 by (simpl; lra). lra.
Qed.

(* The test of the binary search *)
Lemma ratio_ok low high : len (/ IZR (2 ^ 117)) (IZR (2 ^ 90)) low ->
  len (/ IZR (2 ^ 117)) (IZR (2 ^ 90)) high ->
  fval low <= fval high <= 3 * fval low ->
  (fltb f_1e_1 (fdiv (fsub high low) low) = true -> 0.0999 * fval low < fval high - fval low) /\
  (fltb f_1e_1 (fdiv (fsub high low) low) = false ->
     fval high - fval low <= 0.100001 * fval low).
Proof.
  intros (Vl & Fl & Bl) (Vh & Fh & Bh) O.
  assert (P17 : 0 < / IZR (2 ^ 117)) by (apply Rinv_0_lt_compat; apply IZR_lt; lia).
  set (L := fval low) in *. set (H := fval high) in *.
  assert (LP : 0 < L) by lra.
  destruct (fsub_ok high low Vh Vl Fh Fl) as (Fs & Es).
  { apply rnd32_small. fold H L. rewrite Rabs_pos_eq by lra.
    assert (IZR (2 ^ 90) <= IZR (2 ^ 99)) by (apply IZR_le; lia). lra. }
  fold H L in Es. pose proof (rnd32_err (H - L)) as E1. rewrite <- Es in E1.
  rewrite (Rabs_pos_eq (H - L)) in E1 by lra.
  set (a := fval (fsub high low)) in *.
  assert (T : / IZR (2 ^ 150) <= / 8589934592 * L).
  { apply Rle_trans with (/ 8589934592 * / IZR (2 ^ 117)); [|apply Rmult_le_compat_l; lra].
    rewrite <- Rinv_mult, <- mult_IZR. apply Rinv_le_contravar; [apply IZR_lt|apply IZR_le]; lia. }
  apply Rabs_le_inv in E1.
  assert (Q : - (2 * / 8388608) * L <= a - (H - L) <= 2 * / 8388608 * L) by lra.
  assert (Q1 : -1 <= a / L <= 3).
  { split; [apply Rmult_le_reg_r with L|apply Rmult_le_reg_r with L]; try lra;
    unfold Rdiv; rewrite Rmult_assoc, Rinv_l by lra; lra. }
  destruct (fdiv_ok (fsub high low) low) as (Fq & Eq);
    [now apply fsub_valid|auto|auto|fold L; lra| |].
  { apply rnd32_small. fold a L.
    assert (3 <= IZR (2 ^ 99)) by (apply IZR_le; lia).
    apply Rabs_le. lra. }
  fold a L in Eq. pose proof (rnd32_err (a / L)) as E2. rewrite <- Eq in E2.
  assert (Ab : Rabs (a / L) <= 3) by (apply Rabs_le; lra).
  assert (T2 : / IZR (2 ^ 150) <= / 8388608) by (apply Rinv_le_contravar; [lra|apply IZR_le; lia]).
  set (q := fval (fdiv (fsub high low) low)) in *.
  assert (E3 : - (2 * / 8388608) <= q - a / L <= 2 * / 8388608).
  { apply Rabs_le_inv. lra. }
  destruct c_1e_1 as (V1 & F1 & C1).
  pose proof (fltb_ok f_1e_1 (fdiv (fsub high low) low) V1
    ltac:(apply fdiv_valid; [now apply fsub_valid|auto]) F1 Fq) as I.
  fold q in I.
  assert (AL : a / L * L = a) by (field; lra).
  split; intros C.
  - apply I in C. assert (0.09999 < a / L) by lra.
    assert (0.09999 * L < a / L * L) by (apply Rmult_lt_compat_r; lra). lra.
  - assert (~ fval f_1e_1 < q) by (rewrite <- I; congruence).
    assert (a / L <= 0.1000005) by lra.
    assert (a / L * L <= 0.1000005 * L) by (apply Rmult_le_compat_r; lra). lra.
Qed.

Section Search.
Context {A : Type}.
Variable vf : f32 -> option A.
Variable size : A -> Z.
Variable min_num : f32.
Notation dense := (dense size min_num).
Variables lo hi : R.
Hypothesis vf_total : forall l, valid32 l -> ffin l -> lo <= fval l <= hi -> vf l <> None.

Definition Bn (n : nat) : R := 0.099 * 2 ^ n + 16 * eps.

(* The end of a successful search: the result is the filtered cloud for a length
   that is dense enough, and a length at most about 10% larger is not *)
Definition boundary (r : A) (l h : f32) : Prop :=
  vf l = Some r /\ dense r = true /\
  (exists c, vf h = Some c /\ dense c = false) /\
  fval l <= fval h <= 1.100001 * fval l.

Lemma bisect_done L : / IZR (2 ^ 117) <= L -> 3 * L <= IZR (2 ^ 90) ->
  forall n low high result,
  len L (2.5 * L) low -> len L (2.5 * L) high -> fval low <= fval high ->
  lo <= fval low -> fval high <= hi ->
  fval high - fval low <= Bn n * L ->
  vf low = Some result -> dense result = true ->
  (exists c, vf high = Some c /\ dense c = false) ->
  exists r l h, bisect vf size min_num n low high result = Done (r, l, h) /\ boundary r l h.
Proof.
  intros L1 L2. assert (P17 : 0 < / IZR (2 ^ 117)) by (apply Rinv_0_lt_compat; apply IZR_lt; lia).
  assert (Ee : eps = / 8388608) by reflexivity.
  induction n as [|n IH]; intros low high result Hl Hh O Lo Hi W El Dl Eh.
  - assert (Hl' : len (/ IZR (2 ^ 117)) (IZR (2 ^ 90)) low)
      by (destruct Hl as (a & b & c); split; [auto|split; auto]; lra).
    assert (Hh' : len (/ IZR (2 ^ 117)) (IZR (2 ^ 90)) high)
      by (destruct Hh as (a & b & c); split; [auto|split; auto]; lra).
    destruct Hl as (Vl & Fl & Bl), Hh as (Vh & Fh & Bh).
    destruct (ratio_ok low high Hl' Hh') as (R1 & R2); [lra|].
    unfold Bn in W. simpl in W. rewrite Ee in W.
    simpl. destruct (fltb f_1e_1 (fdiv (fsub high low) low)) eqn:C.
    + specialize (R1 eq_refl). lra.
    + specialize (R2 eq_refl). exists result, low, high. split; auto.
      split; auto. split; auto. split; auto. lra.
  - assert (Hl' : len (/ IZR (2 ^ 117)) (IZR (2 ^ 90)) low)
      by (destruct Hl as (a & b & c); split; [auto|split; auto]; lra).
    assert (Hh' : len (/ IZR (2 ^ 117)) (IZR (2 ^ 90)) high)
      by (destruct Hh as (a & b & c); split; [auto|split; auto]; lra).
    destruct Hl as (Vl & Fl & Bl), Hh as (Vh & Fh & Bh).
    destruct (ratio_ok low high Hl' Hh') as (R1 & R2); [lra|].
    simpl. destruct (fltb f_1e_1 (fdiv (fsub high low) low)) eqn:C.
    + specialize (R1 eq_refl). clear R2.
      destruct (mid_ok low high Vl Fl Vh Fh) as (Vm & Fm & Bm); [lra|lra|].
      set (mid := fdiv (fadd low high) f_two) in *. clearbody mid.
      rewrite Ee in Bm.
      assert (M1 : (fval low + fval high) / 2 - 8 * eps * L <= fval mid
                   <= (fval low + fval high) / 2 + 8 * eps * L) by (rewrite Ee; lra).
      assert (WB : Bn (S n) * L = 2 * (Bn n * L) - 16 * eps * L) by (unfold Bn; simpl; ring).
      rewrite Ee in M1, WB.
      destruct (vf mid) as [c|] eqn:Em; [|exfalso; revert Em; apply vf_total; auto; lra].
      destruct (dense c) eqn:Dc.
      * apply (IH mid high c); auto; try lra.
        -- split; [auto|split; auto]. lra.
        -- split; [auto|split; auto].
      * apply (IH low mid result); eauto; try lra.
        -- split; [auto|split; auto].
        -- split; [auto|split; auto]. lra.
    + specialize (R2 eq_refl). exists result, low, high. split; auto.
      split; auto. split; auto. split; auto. lra.
Qed.

Variable max_length : f32.
Hypothesis Vm : valid32 max_length.
Hypothesis Fm : ffin max_length.
Hypothesis Bm : / IZR (2 ^ 100) <= fval max_length <= IZR (2 ^ 85).
Hypothesis Blo : lo <= fval max_length / 128.
Hypothesis Bhi : fval max_length <= hi.

Lemma search_cond k : (k <= 7)%nat ->
  fltb (fmul f_1e_2 max_length) (halve k max_length) = Nat.ltb k 7.
Proof.
  intros K.
  assert (IZR (2 ^ 85) <= IZR (2 ^ 90)) by (apply IZR_le; lia).
  destruct (halve_ok max_length Vm Fm ltac:(lra) k ltac:(lia)) as (Vh & Fh & Eh).
  assert (P : 0 < / IZR (2 ^ 100)) by (apply Rinv_0_lt_compat; apply IZR_lt; lia).
  destruct c_1e_2 as (V2 & F2 & C2).
  set (M := fval max_length) in *.
  assert (PM : 0.0099 * M <= fval f_1e_2 * M <= 0.0101 * M)
    by (split; apply Rmult_le_compat_r; lra).
  destruct (fmul_ok f_1e_2 max_length V2 Vm F2 Fm) as (Fp & Ep).
  { apply rnd32_small. fold M. rewrite Rabs_pos_eq by lra.
    assert (IZR (2 ^ 90) <= IZR (2 ^ 99)) by (apply IZR_le; lia). lra. }
  fold M in Ep.
  assert (LL : / IZR (2 ^ 120) <= fval f_1e_2 * M).
  { apply Rle_trans with (/ 128 * / IZR (2 ^ 100)); [|lra].
    rewrite <- Rinv_mult, <- mult_IZR. apply Rinv_le_contravar; [apply IZR_lt|apply IZR_le]; lia. }
  pose proof (rnd_rel _ LL) as R. rewrite <- Ep in R.
  pose proof (fltb_ok _ _ (fmul_valid _ _ V2 Vm) Vh Fp Fh) as I. rewrite Eh in I.
  unfold eps in R. set (p := fval (fmul f_1e_2 max_length)) in *.
  assert (p < 0.0111 * M /\ 0.0088 * M < p) by lra.
  destruct (Nat.ltb_spec k 7).
  - apply I. apply Rlt_le_trans with (M / 2 ^ 6).
    + simpl. lra.
    + unfold Rdiv. apply Rmult_le_compat_l; [lra|].
      apply Rinv_le_contravar; [apply pow_lt; lra|apply Rle_pow; [lra|lia]].
  - assert (k = 7)%nat by lia. subst k.
    destruct (fltb (fmul f_1e_2 max_length) (halve 7 max_length)); auto.
    assert (p < M / 2 ^ 7) by now apply I. simpl in H2. lra.
Qed.

(* the first dense halving after k, if any *)
Lemma search_done : forall n k result, (k + n = 7)%nat ->
  (exists c, vf (halve k max_length) = Some c /\ dense c = false) ->
  vf (halve k max_length) = Some result ->
  exists r o, search vf size min_num n 4 max_length (halve k max_length) result = Done (r, o) /\
    match o with
    | Some (l, h) => boundary r l h
    | None => vf (halve 7 max_length) = Some r /\
        forall j c, (k <= j <= 7)%nat -> vf (halve j max_length) = Some c -> dense c = false
    end.
Proof.
  induction n as [|n IH]; intros k result K (c & Ec & Dc) Er.
  - assert (k = 7)%nat by lia. subst k. unfold search. rewrite search_cond by lia. simpl Nat.ltb.
    exists result, None. split; [reflexivity|]. split; [exact Er|].
    intros j c' J E. assert (j = 7)%nat by lia. subst j. congruence.
  - cbn [search]. rewrite search_cond by lia.
    destruct (Nat.ltb_spec k 7); [|lia].
    change (fdiv (halve k max_length) f_two) with (halve (S k) max_length).
    assert (B90 : IZR (2 ^ 85) <= IZR (2 ^ 90)) by (apply IZR_le; lia).
    assert (B85 : 4 * IZR (2 ^ 85) <= IZR (2 ^ 90)) by (rewrite <- mult_IZR; apply IZR_le; lia).
    destruct (halve_ok max_length Vm Fm ltac:(lra) k ltac:(lia)) as (Vk & Fk & Ek).
    destruct (halve_ok max_length Vm Fm ltac:(lra) (S k) ltac:(lia)) as (Vs & Fs & Es).
    assert (P : 0 < / IZR (2 ^ 100)) by (apply Rinv_0_lt_compat; apply IZR_lt; lia).
    assert (PK : 0 < 2 ^ k) by (apply pow_lt; lra).
    assert (PK1 : 1 <= 2 ^ k) by (apply pow_R1_Rle; lra).
    assert (Hk : fval (halve k max_length) = 2 * fval (halve (S k) max_length)).
    { rewrite Ek, Es. simpl. field. lra. }
    assert (Hmax : fval (halve k max_length) <= fval max_length).
    { rewrite Ek. unfold Rdiv. rewrite <- (Rmult_1_r (fval max_length)) at 2.
      apply Rmult_le_compat_l; [lra|]. rewrite <- Rinv_1. apply Rinv_le_contravar; lra. }
    assert (Hmin : fval max_length / 128 <= fval (halve (S k) max_length)).
    { rewrite Es. unfold Rdiv. apply Rmult_le_compat_l; [lra|].
      replace 128 with (2 ^ 7) by (simpl; lra).
      apply Rinv_le_contravar; [simpl; lra|apply Rle_pow; [lra|lia]]. }
    assert (Hs : 0 < fval (halve (S k) max_length)).
    { rewrite Es. apply Rdiv_lt_0_compat; [lra|]. simpl; lra. }
    destruct (vf (halve (S k) max_length)) as [r1|] eqn:E1; [|exfalso; revert E1; apply vf_total; auto; lra].
    destruct (dense r1) eqn:D1.
    + destruct (bisect_done (fval (halve (S k) max_length))) with (n := 4%nat)
        (low := halve (S k) max_length) (high := halve k max_length) (result := r1)
        as (r & l & h & E & B); eauto.
      * rewrite Es. apply Rle_trans with (/ IZR (2 ^ 100) * / 2 ^ 7).
        -- rewrite <- Rinv_mult. apply Rinv_le_contravar.
           ++ apply Rmult_lt_0_compat; [apply IZR_lt; lia|simpl; lra].
           ++ replace (2 ^ 7) with (IZR (2 ^ 7)) by (simpl; lra). rewrite <- mult_IZR.
              apply IZR_le. lia.
        -- unfold Rdiv. apply Rmult_le_compat; try lra.
           apply Rinv_le_contravar; [simpl; lra|apply Rle_pow; [lra|lia]].
      * lra.
      * split; [auto|split; auto]. lra.
      * split; [auto|split; auto]. lra.
      * lra.
      * lra.
      * lra.
      * assert (1.5 <= Bn 4) by (unfold Bn, eps; simpl; lra).
        apply Rle_trans with (1.5 * fval (halve (S k) max_length)); [lra|].
        apply Rmult_le_compat_r; lra.
      * exists r, (Some (l, h)). rewrite E. split; auto.
    + destruct (IH (S k) r1) as (r & o & E & B); [lia|eauto|auto|].
      exists r, o. split; [exact E|]. destruct o as [[l h]|]; [exact B|].
      destruct B as (B1 & B2). split; auto.
      intros j c' J Ej. destruct (Nat.eq_dec j k) as [->|N].
      * rewrite Ec in Ej. congruence.
      * apply (B2 j c'); auto. lia.
Qed.

Lemma search_found : forall n k result r l h,
  search vf size min_num n 4 max_length (halve k max_length) result = Done (r, Some (l, h)) ->
  exists j c, (k < j)%nat /\ vf (halve j max_length) = Some c /\ dense c = true.
Proof.
  induction n as [|n IH]; intros k result r l h E.
  - unfold search in E. destruct (fltb _ _); discriminate.
  - cbn [search] in E. destruct (fltb _ _); [|discriminate].
    change (fdiv (halve k max_length) f_two) with (halve (S k) max_length) in E.
    destruct (vf (halve (S k) max_length)) as [r1|] eqn:E1; [|discriminate].
    destruct (dense r1) eqn:D1.
    + exists (S k), r1. split; auto.
    + apply IH in E. destruct E as (j & c & J & E & D). exists j, c. split; auto. lia.
Qed.
End Search.
