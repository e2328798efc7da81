(* Voxel centres in binary32. *)
From Coq Require Import List ZArith Reals Lra Lia SpecFloat.
From Flocq Require Import Core.
From Verif Require Import Float32 FloatR Float32_Proofs PV_Bounded PV_Near HG_Model I3_Model.
Open Scope R_scope.

Lemma f_of_Z_near z : Rabs (IZR z) <= IZR (2 ^ 30) -> valid32 (f_of_Z z) /\ ffin (f_of_Z z) /\
  Rabs (fval (f_of_Z z) - IZR z) <= / 16777216 * Rabs (IZR z) + / IZR (2 ^ 150).
Proof.
  intros B. split; [apply f_of_Z_valid|].
  destruct (of_Z_ok 24 128 p24 m128 z) as [F E].
  { apply rnd32_small. eapply Rle_trans; [exact B|]. apply IZR_le. lia. }
  split; [exact F|]. unfold f_of_Z. rewrite E. apply rnd32_err.
Qed.

Lemma tiny : 0 < / IZR (2 ^ 150) <= / IZR (2 ^ 50).
Proof.
  split; [apply Rinv_0_lt_compat, IZR_lt; lia|]. apply Rinv_le; apply IZR_lt || apply IZR_le; lia.
Qed.
Lemma tiny50 : / IZR (2 ^ 50) <= / 1000000.
Proof. apply Rinv_le; [lra|]. apply IZR_le. lia. Qed.

Lemma axis_center r c : valid32 r -> ffin r -> / IZR (2 ^ 50) <= fval r <= IZR (2 ^ 50) -> (Z.abs c <= 2 ^ 20)%Z ->
  f_round_to_int (fdiv (fmul (f_of_Z c) r) r) = Some c.
Proof.
  intros V F [L U] C.
  assert (Cr : Rabs (IZR c) <= 1048576) by (rewrite <- abs_IZR; apply IZR_le; lia).
  pose proof tiny as T. pose proof tiny50 as T5.
  destruct (f_of_Z_near c) as [Vc [Fc Ec]].
  { eapply Rle_trans; [exact Cr|]. apply IZR_le. lia. }
  set (a := fval (f_of_Z c)) in *.
  assert (Ba : Rabs a <= 1048577).
  { replace a with ((a - IZR c) + IZR c) by ring. eapply Rle_trans; [apply Rabs_triang|]. lra. }
  set (rr := fval r) in *. assert (Rp : 0 < rr) by (assert (0 < / IZR (2 ^ 50)) by (apply Rinv_0_lt_compat, IZR_lt; lia); lra).
  assert (P50 : IZR (2 ^ 50) = 1125899906842624) by reflexivity.
  destruct (fmul_ok (f_of_Z c) r Vc V Fc F) as [Fm Em].
  { apply rnd32_small. rewrite Rabs_mult. fold a rr. rewrite (Rabs_pos_eq rr) by lra.
    apply Rle_trans with (1048577 * 1125899906842624).
    - apply Rmult_le_compat; try lra; apply Rabs_pos.
    - rewrite <- mult_IZR. apply IZR_le. lia. }
  fold a rr in Em. set (m := fval (fmul (f_of_Z c) r)) in *.
  pose proof (rnd32_err (a * rr)) as E1. rewrite <- Em in E1. rewrite Rabs_mult, (Rabs_pos_eq rr) in E1 by lra.
  assert (E2 : Rabs (m / rr - a) <= / 16777216 * Rabs a + / IZR (2 ^ 100)).
  { replace (m / rr - a) with ((m - a * rr) / rr) by (field; lra).
    unfold Rdiv. rewrite Rabs_mult, (Rabs_pos_eq (/ rr)) by (left; now apply Rinv_0_lt_compat).
    apply Rle_trans with ((/ 16777216 * (Rabs a * rr) + / IZR (2 ^ 150)) * / rr).
    - apply Rmult_le_compat_r; [left; now apply Rinv_0_lt_compat | exact E1].
    - rewrite Rmult_plus_distr_r. apply Rplus_le_compat.
      + right. field. lra.
      + replace (/ IZR (2 ^ 100)) with (/ IZR (2 ^ 150) * IZR (2 ^ 50)).
        * apply Rmult_le_compat_l; [lra|]. rewrite <- (Rinv_inv (IZR (2 ^ 50))). apply Rinv_le; [|exact L].
          apply Rinv_0_lt_compat. rewrite P50. lra.
        * replace (2 ^ 150)%Z with (2 ^ 100 * 2 ^ 50)%Z by reflexivity. rewrite mult_IZR. field.
          split; apply IZR_neq; lia. }
  assert (T1 : 0 < / IZR (2 ^ 100) <= / 1000000).
  { split; [apply Rinv_0_lt_compat, IZR_lt; lia|]. apply Rinv_le; [lra|]. apply IZR_le. lia. }
  assert (Bm : Rabs (m / rr) <= 1048578).
  { replace (m / rr) with ((m / rr - a) + a) by ring. eapply Rle_trans; [apply Rabs_triang|]. lra. }
  destruct (fdiv_ok (fmul (f_of_Z c) r) r) as [Fd Ed].
  { now apply fmul_valid. } { exact V. } { exact Fm. } { fold rr. lra. }
  { fold m rr. apply rnd32_small. eapply Rle_trans; [exact Bm|]. apply IZR_le. lia. }
  fold m rr in Ed. pose proof (rnd32_err (m / rr)) as E3. rewrite <- Ed in E3.
  set (q := fval (fdiv (fmul (f_of_Z c) r) r)) in *.
  assert (Q : Rabs (q - IZR c) < / 2).
  { replace (q - IZR c) with ((q - m / rr) + ((m / rr - a) + (a - IZR c))) by ring.
    eapply Rle_lt_trans; [apply Rabs_triang|].
    eapply Rle_lt_trans; [apply Rplus_le_compat_l, Rabs_triang|]. lra. }
  destruct (round_to_int_ok (fdiv (fmul (f_of_Z c) r) r) Fd) as [v [Ev Nv]].
  { fold q. replace q with ((q - IZR c) + IZR c) by ring. eapply Rle_lt_trans; [apply Rabs_triang|].
    apply Rlt_le_trans with 2000000; [lra|]. apply IZR_le. lia. }
  rewrite Ev. f_equal. apply Rabs_def2 in Q. fold q in Nv.
  pose proof (nearest_ge q v c Nv ltac:(lra)). pose proof (nearest_le q v c Nv ltac:(lra)). lia.
Qed.

Lemma center_index r i : valid32 r -> ffin r -> / IZR (2 ^ 50) <= fval r <= IZR (2 ^ 50) ->
  (Z.abs (vx i) <= 2 ^ 20)%Z -> (Z.abs (vy i) <= 2 ^ 20)%Z -> (Z.abs (vz i) <= 2 ^ 20)%Z ->
  cell_index3 r (center3 r i) = Some i.
Proof.
  intros V F B X Y Z. unfold cell_index3, center3. rewrite !axis_center by assumption.
  destruct i as [[x y] z]. reflexivity.
Qed.
