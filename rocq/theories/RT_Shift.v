(* Moving a point by whole cells moves its cell, except on the boundary of cells. *)
From Coq Require Import List ZArith QArith Qround Lia Lqa Bool.
From Verif Require Import Vec Float32 PV_Model G2_Model G2_Round RT_Model.
Open Scope Z_scope.

Lemma round_floor q : (forall k, ~ (q == inject_Z k)%Q) -> round_away (q - (1 # 2)) = Qfloor q.
Proof.
  intros H. pose proof (proj1 (Qfloor_spec q _) eq_refl) as F. pose proof (H (Qfloor q)) as N.
  apply round_away_spec. destruct (Qlt_le_dec (q - (1 # 2)) 0) as [C | C]; [right | left]; (split; [exact C|]).
  - split; [|lra]. destruct (Qlt_le_dec (inject_Z (Qfloor q)) q) as [X | X]; [lra|]. exfalso. apply N. lra.
  - lra.
Qed.
Lemma floor_shift q k : Qfloor (q + inject_Z k) = Qfloor q + k.
Proof.
  apply Qfloor_spec. rewrite inject_Z_plus. pose proof (proj1 (Qfloor_spec q _) eq_refl). lra.
Qed.
Lemma round_shift q k : (forall j, ~ (q == inject_Z j)%Q) ->
  round_away (q + inject_Z k - (1 # 2)) = round_away (q - (1 # 2)) + k.
Proof.
  intros H. rewrite !round_floor; [apply floor_shift | exact H|].
  intros j E. apply (H (j + - k)). rewrite inject_Z_plus, inject_Z_opp. lra.
Qed.

(* on the boundary between two cells *)
Definition on_boundary (mx r p : Q) : Prop := exists k, (mx - p == inject_Z k * r)%Q.

Lemma off_boundary mx r p : (0 < r)%Q -> ~ on_boundary mx r p -> forall k, ~ ((mx - p) / r == inject_Z k)%Q.
Proof.
  intros Hr H k E. apply H. exists k. rewrite <- E. field. lra.
Qed.
Lemma axis_shift mx r p k : (0 < r)%Q -> ~ on_boundary mx r p ->
  round_away ((mx - (p + - inject_Z k * r)) / r - (1 # 2)) = round_away ((mx - p) / r - (1 # 2)) + k.
Proof.
  intros Hr H. rewrite <- round_shift by now apply off_boundary.
  apply round_away_comp. field. lra.
Qed.

(* the angles of the rotated scans *)
Lemma angle_nth n : forall a st i, (i < n)%nat -> exists q, nth_error (angle_loop n a st) i = Some q /\
  (q == a + inject_Z (Z.of_nat i) * st)%Q.
Proof.
  induction n as [|n IH]; intros a st i H; [lia|]. destruct i as [|i]; cbn [angle_loop nth_error].
  - exists a. split; [reflexivity|]. change (inject_Z (Z.of_nat 0)) with 0%Q. ring.
  - destruct (IH (a + st)%Q st i ltac:(lia)) as [q [E Q]]. exists q. split; [exact E|]. rewrite Q.
    rewrite Nat2Z.inj_succ. unfold Z.succ. rewrite inject_Z_plus. ring.
Qed.
Lemma angle_length n : forall a st, length (angle_loop n a st) = n.
Proof. induction n as [|n IH]; intros a st; cbn [angle_loop length]; [reflexivity | now rewrite IH]. Qed.
