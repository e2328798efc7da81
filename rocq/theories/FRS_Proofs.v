(* Lemmas about the fixed ratio sampler. *)
From Coq Require Import List ZArith Bool SpecFloat Reals Lia Lra.
From Flocq Require Import Core.Core IEEE754.BinarySingleNaN.
From Verif Require Import Float64 FloatR FRS_Model.
Import ListNotations.
Open Scope R_scope.

Lemma p53 : (0 < 53)%Z. Proof. lia. Qed.
Lemma m1024 : (53 < 1024)%Z. Proof. lia. Qed.
Notation valid64 := (fvalid 53 1024).
Notation rnd64 := (frnd 53 1024).

Lemma d_of_Z_valid z : valid64 (d_of_Z z).
Proof. apply (of_Z_valid 53 1024 p53 m1024). Qed.
Lemma rnd64_int z : (Z.abs z <= 2 ^ 53)%Z -> rnd64 (IZR z) = IZR z.
Proof.
  intros H. unfold frnd. apply round_generic; [apply valid_rnd_N|].
  change (SpecFloat.fexp 53 1024) with (FLT_exp (-1074) 53).
  destruct (Z.eq_dec (Z.abs z) (2 ^ 53)) as [E | E].
  - assert (B : generic_format radix2 (FLT_exp (-1074) 53) (bpow radix2 53))
      by (apply generic_format_bpow; cbn; lia).
    destruct (Z_lt_le_dec z 0) as [L | L].
    + replace z with (- 2 ^ 53)%Z by lia. rewrite opp_IZR. apply generic_format_opp. exact B.
    + replace z with (2 ^ 53)%Z by lia. exact B.
  - apply generic_format_FLT. exists (Float radix2 z 0); cbn; [unfold F2R; cbn; lra | lia | lia].
Qed.
Lemma pow_1024 : IZR (2 ^ 53) < bpow radix2 1024.
Proof. change (IZR (2 ^ 53)) with (bpow radix2 53). apply bpow_lt. lia. Qed.
Lemma d_of_Z_ok z : (Z.abs z <= 2 ^ 53)%Z -> ffin (d_of_Z z) /\ fval (d_of_Z z) = IZR z.
Proof.
  intros H. pose proof (rnd64_int z H) as E.
  destruct (of_Z_ok 53 1024 p53 m1024 z) as [A B].
  - rewrite E. rewrite <- abs_IZR. eapply Rle_lt_trans; [apply IZR_le, H | exact pow_1024].
  - unfold d_of_Z. split; [exact A | now rewrite B].
Qed.

(* what the comparison in Pulse says *)
Lemma quot_ok s n : (0 <= s <= n)%Z -> (0 < n <= 2 ^ 53)%Z ->
  ffin (ddiv (d_of_Z s) (d_of_Z n)) /\ fval (ddiv (d_of_Z s) (d_of_Z n)) = rnd64 (IZR s / IZR n).
Proof.
  intros Hs Hn. destruct (d_of_Z_ok s ltac:(lia)) as [F1 V1]. destruct (d_of_Z_ok n ltac:(lia)) as [F2 V2].
  assert (P : 0 < IZR n) by (apply IZR_lt; lia).
  assert (Q : 0 <= IZR s / IZR n <= 1).
  { split.
    - apply Rmult_le_pos; [apply IZR_le; lia | left; now apply Rinv_0_lt_compat].
    - apply Rmult_le_reg_r with (IZR n); [exact P|]. unfold Rdiv. rewrite Rmult_assoc, Rinv_l by lra.
      rewrite Rmult_1_l, Rmult_1_r. apply IZR_le. lia. }
  destruct (div_ok 53 1024 p53 m1024 (d_of_Z s) (d_of_Z n)) as [A B]; auto using d_of_Z_valid.
  - rewrite V2. lra.
  - rewrite V1, V2. pose proof (frnd_le 53 1024 p53 _ _ (proj1 Q)) as L. pose proof (frnd_le 53 1024 p53 _ _ (proj2 Q)) as U.
    rewrite (rnd64_int 0) in L by lia. rewrite (rnd64_int 1) in U by lia.
    rewrite Rabs_pos_eq by exact L. eapply Rle_lt_trans; [exact U|]. eapply Rlt_trans; [|exact pow_1024].
    apply IZR_lt. lia.
  - unfold ddiv. split; [exact A|]. now rewrite B, V1, V2.
Qed.

(* sampled: the exact quotient is below the ratio; not sampled: the missing part is small *)
Lemma pulse_test r s n : valid64 r -> ffin r -> 0 <= fval r <= 1 -> (0 <= s <= n)%Z -> (0 < n <= 2 ^ 53)%Z ->
  if dltb (ddiv (d_of_Z s) (d_of_Z n)) r then IZR s < fval r * IZR n
  else fval r * IZR n - 1 < IZR s.
Proof.
  intros V F R Hs Hn. destruct (quot_ok s n Hs Hn) as [A B].
  assert (P : 0 < IZR n) by (apply IZR_lt; lia).
  assert (Vd : valid64 (ddiv (d_of_Z s) (d_of_Z n))) by (apply (div_valid 53 1024 p53 m1024); apply d_of_Z_valid).
  pose proof (ltb_ok 53 1024 _ r Vd V A F) as L.
  destruct (dltb (ddiv (d_of_Z s) (d_of_Z n)) r) eqn:D.
  - apply L in D. rewrite B in D.
    destruct (Rlt_or_le (IZR s / IZR n) (fval r)) as [Q | Q].
    + apply (Rmult_lt_compat_r (IZR n)) in Q; [|exact P]. unfold Rdiv in Q. rewrite Rmult_assoc, Rinv_l in Q by lra. lra.
    + apply (frnd_le 53 1024 p53) in Q. rewrite (frnd_val 53 1024) in Q by exact V. lra.
  - assert (Q : fval r <= rnd64 (IZR s / IZR n)).
    { rewrite <- B. apply Rnot_lt_le. intros X. apply L in X. unfold dltb in D. congruence. }
    pose proof (frnd_err 53 1024 p53 (IZR s / IZR n)) as E.
    assert (Q0 : 0 <= IZR s / IZR n <= 1).
    { split.
      - apply Rmult_le_pos; [apply IZR_le; lia | left; now apply Rinv_0_lt_compat].
      - apply Rmult_le_reg_r with (IZR n); [exact P|]. unfold Rdiv. rewrite Rmult_assoc, Rinv_l by lra.
        rewrite Rmult_1_l, Rmult_1_r. apply IZR_le. lia. }
    rewrite (Rabs_pos_eq (IZR s / IZR n)) in E by lra.
    assert (T : bpow radix2 (3 - 1024 - 53) <= bpow radix2 (-110)) by (apply bpow_le; lia).
    change (bpow radix2 (- (53) + 1)) with (/ IZR (2 ^ 52)) in E.
    change (bpow radix2 (-110)) with (/ IZR (2 ^ 110)) in T.
    set (x := IZR s / IZR n) in *. apply Rabs_le_inv in E.
    assert (X : x * IZR n = IZR s) by (unfold x, Rdiv; rewrite Rmult_assoc, Rinv_l by lra; lra).
    assert (N : IZR n <= IZR (2 ^ 53)) by (apply IZR_le; lia).
    assert (G : fval r - x <= / 2 * / IZR (2 ^ 52) + / 2 * / IZR (2 ^ 110)) by lra.
    assert (G2 : (fval r - x) * IZR n <= (/ 2 * / IZR (2 ^ 52) + / 2 * / IZR (2 ^ 110)) * IZR n)
      by (apply Rmult_le_compat_r; lra).
    (* only strictly below 1 because the quotient is below 1 *)
    destruct (Req_dec x 1) as [X1 | X1].
    + rewrite X1 in X. nra.
    + assert (Xn : (s <= n - 1)%Z).
      { destruct (Z.eq_dec s n) as [-> | ]; [|lia]. exfalso. apply X1. unfold x. field. lra. }
      assert (Sx : IZR s <= IZR n - 1) by (rewrite <- minus_IZR; apply IZR_le; exact Xn).
      assert (E2 : fval r - x <= / 2 * / IZR (2 ^ 52) * x + / 2 * / IZR (2 ^ 110)) by lra.
      assert (E3 : (fval r - x) * IZR n <= (/ 2 * / IZR (2 ^ 52) * x + / 2 * / IZR (2 ^ 110)) * IZR n)
        by (apply Rmult_le_compat_r; lra).
      replace ((/ 2 * / IZR (2 ^ 52) * x + / 2 * / IZR (2 ^ 110)) * IZR n)
        with (/ 2 * / IZR (2 ^ 52) * (x * IZR n) + / 2 * / IZR (2 ^ 110) * IZR n) in E3 by ring.
      rewrite X in E3. rewrite Rmult_minus_distr_r, X in E3.
      change (2 ^ 52)%Z with 4503599627370496%Z in *. change (2 ^ 53)%Z with 9007199254740992%Z in *.
      change (2 ^ 110)%Z with 1298074214633706907132624082305024%Z in *. lra.
Qed.
