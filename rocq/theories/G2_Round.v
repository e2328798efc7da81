(* Rounding half away from zero on rationals, and the cell index of a point. *)
From Coq Require Import ZArith QArith Qround Lia Lqa Bool.
From Verif Require Import Vec Float32 PV_Model G2_Model.
Open Scope Z_scope.

Lemma Qle_bool_false a b : Qle_bool a b = false -> (b < a)%Q.
Proof. intros H. apply Qnot_le_lt. intros L. apply Qle_bool_iff in L. congruence. Qed.

Lemma inject_Z_minus1 k : (inject_Z (k + 1) == inject_Z k + 1)%Q.
Proof. rewrite inject_Z_plus. reflexivity. Qed.

Lemma Qfloor_spec q k : Qfloor q = k <-> (inject_Z k <= q < inject_Z k + 1)%Q.
Proof.
  split.
  - intros <-. split; [apply Qfloor_le|]. rewrite <- inject_Z_minus1. apply Qlt_floor.
  - intros [L U]. apply Z.le_antisymm.
    + apply Z.lt_succ_r. rewrite Zlt_Qlt. unfold Z.succ. rewrite inject_Z_minus1.
      eapply Qle_lt_trans; [apply Qfloor_le | exact U].
    + rewrite <- (Qfloor_Z k). now apply Qfloor_resp_le.
Qed.

Lemma round_away_spec q k : round_away q = k <->
  ((0 <= q)%Q /\ (inject_Z k - (1 # 2) <= q < inject_Z k + (1 # 2))%Q) \/
  ((q < 0)%Q /\ (inject_Z k - (1 # 2) < q <= inject_Z k + (1 # 2))%Q).
Proof.
  unfold round_away. destruct (Qle_bool 0 q) eqn:E.
  - apply Qle_bool_iff in E. rewrite Qfloor_spec. split.
    + intros H. left. split; [exact E|]. lra.
    + intros [[_ H] | [H _]]; lra.
  - apply Qle_bool_false in E. split.
    + intros H. assert (F : Qfloor (- q + (1 # 2)) = - k) by lia. apply Qfloor_spec in F.
      rewrite inject_Z_opp in F. right. split; [exact E|]. lra.
    + intros [[H _] | [_ H]]; [lra|].
      assert (F : Qfloor (- q + (1 # 2)) = - k).
      { apply Qfloor_spec. rewrite inject_Z_opp. lra. }
      lia.
Qed.

Global Instance round_away_comp : Proper (Qeq ==> eq) round_away.
Proof.
  intros p q H. symmetry. apply round_away_spec. destruct (proj1 (round_away_spec p _) eq_refl) as [A | A];
    [left | right]; lra.
Qed.

Lemma inject_lt a b : (inject_Z a < inject_Z b)%Q <-> a < b.
Proof. now rewrite Zlt_Qlt. Qed.
Lemma inject_le a b : (inject_Z a <= inject_Z b)%Q <-> a <= b.
Proof. now rewrite Zle_Qle. Qed.

Lemma round_away_nonneg q : 0 <= round_away q <-> (- (1 # 2) < q)%Q.
Proof.
  destruct (proj1 (round_away_spec q _) eq_refl) as [[A B] | [A B]]; split; intros H; try lra.
  - apply Z.lt_succ_r. apply inject_lt. unfold Z.succ. rewrite inject_Z_minus1.
    change (inject_Z 0) with 0%Q. lra.
  - apply inject_le in H. change (inject_Z 0) with 0%Q in H. lra.
  - apply Z.lt_succ_r. apply inject_lt. unfold Z.succ. rewrite inject_Z_minus1.
    change (inject_Z 0) with 0%Q. lra.
Qed.

Lemma round_away_lt q n : 0 < n -> (round_away q < n <-> (q < inject_Z n - (1 # 2))%Q).
Proof.
  intros Hn. assert (P : (1 <= inject_Z n)%Q) by (change 1%Q with (inject_Z 1); apply inject_le; lia).
  destruct (proj1 (round_away_spec q _) eq_refl) as [[A B] | [A B]]; split; intros H; try lra.
  - assert (H' : round_away q + 1 <= n) by lia. apply inject_le in H'. rewrite inject_Z_minus1 in H'. lra.
  - apply inject_lt. lra.
  - apply inject_lt. lra.
Qed.

Lemma round_away_shift q k : 0 <= k -> (- (1 # 2) < q)%Q ->
  round_away (q + inject_Z k) = round_away q + k.
Proof.
  intros Hk Hq. assert (P : (0 <= inject_Z k)%Q) by (change 0%Q with (inject_Z 0); apply inject_le; lia).
  destruct (Z.eq_dec k 0) as [-> | N].
  { rewrite Z.add_0_r. apply round_away_comp. change (inject_Z 0) with 0%Q. lra. }
  assert (P1 : (1 <= inject_Z k)%Q) by (change 1%Q with (inject_Z 1); apply inject_le; lia).
  apply round_away_spec. left. split; [lra|]. rewrite inject_Z_plus.
  destruct (proj1 (round_away_spec q _) eq_refl) as [[A B] | [A B]]; [lra|].
  (* -1/2 < q < 0: rounds to 0 *)
  assert (Z0 : round_away q = 0).
  { apply round_away_spec. right. change (inject_Z 0) with 0%Q. lra. }
  rewrite Z0 in *. change (inject_Z 0) with 0%Q in *. lra.
Qed.

Lemma round_away_Z k : round_away (inject_Z k) = k.
Proof.
  apply round_away_spec. destruct (Z_le_gt_dec 0 k) as [H | H]; [left | right].
  - split; [change 0%Q with (inject_Z 0); now apply inject_le|]. lra.
  - split; [change 0%Q with (inject_Z 0); apply inject_lt; lia|]. lra.
Qed.

(* fractional index of a coordinate: distance to the maximum in cells *)
Definition frac (mx r p : Q) : Q := ((mx - p) / r)%Q.

Lemma index_nonneg mx r p : (0 < r)%Q ->
  (0 <= round_away (frac mx r p - (1 # 2)) <-> (p < mx)%Q).
Proof.
  intros Hr. rewrite round_away_nonneg. unfold frac.
  assert (E : ((mx - p) / r * r == mx - p)%Q) by (field; lra).
  split; intros H.
  - assert (0 < (mx - p) / r)%Q by lra.
    assert (0 < (mx - p) / r * r)%Q by nra. lra.
  - assert (0 < (mx - p) / r)%Q; [|lra]. apply Qlt_shift_div_l; lra.
Qed.

Lemma index_lt mx r p n : (0 < r)%Q -> 0 < n ->
  (round_away (frac mx r p - (1 # 2)) < n <-> (mx - inject_Z n * r < p)%Q).
Proof.
  intros Hr Hn. rewrite round_away_lt by exact Hn. unfold frac.
  assert (E : ((mx - p) / r * r == mx - p)%Q) by (field; lra).
  split; intros H.
  - assert ((mx - p) / r < inject_Z n)%Q by lra. nra.
  - assert ((mx - p) / r < inject_Z n)%Q; [|lra]. apply Qlt_shift_div_r; lra.
Qed.

Lemma cell_index_frac l px py : cell_index l px py =
  (round_away (frac (l_my l) (l_res l) py - (1 # 2)),
   round_away (frac (l_mx l) (l_res l) px - (1 # 2))).
Proof. reflexivity. Qed.
