(* Grids and rays. *)
From Coq Require Import ZArith Reals List Bool Permutation QArith Qreals Lra Lia Psatz.
From Verif Require Import CF_Model RG_Model IG_Model IG_Proofs I2_Model TX_Proofs RTP_Model RTP_Spec Properties_RTP TI_Model TI_Spec.
Import ListNotations.
Close Scope Q_scope.
Open Scope R_scope.

Lemma lround_nonneg v : (0 <= lround v)%Z <-> - (1 / 2) < v.
Proof.
  unfold lround. destruct (Rle_dec 0 v) as [H | H].
  - split; intros _; [lra|]. pose proof (floor_spec (v + 1 / 2)) as [A B].
    assert (L : IZR (- 1) < IZR (Int_part (v + 1 / 2))) by (simpl; lra). apply lt_IZR in L. lia.
  - pose proof (floor_spec (- v + 1 / 2)) as [A B]. split; intros C.
    + assert (D : (Int_part (- v + 1 / 2) <= 0)%Z) by lia. apply IZR_le in D. simpl in D. lra.
    + assert (L : IZR (Int_part (- v + 1 / 2)) < IZR 1) by (simpl; lra). apply lt_IZR in L. lia.
Qed.
Lemma lround_below v n : (0 < n)%Z -> ((lround v < n)%Z <-> v < IZR n - 1 / 2).
Proof.
  intros N. assert (N' : 1 <= IZR n) by (apply IZR_le; lia). unfold lround. destruct (Rle_dec 0 v) as [H | H].
  - pose proof (floor_spec (v + 1 / 2)) as [A B]. split; intros C.
    + assert (D : (Int_part (v + 1 / 2) + 1 <= n)%Z) by lia. apply IZR_le in D. rewrite plus_IZR in D. lra.
    + apply lt_IZR. lra.
  - pose proof (floor_spec (- v + 1 / 2)) as [A B]. split; intros C; [lra|].
    assert (L : IZR (- 1) < IZR (Int_part (- v + 1 / 2))) by (simpl; lra). apply lt_IZR in L. lia.
Qed.
Lemma contains_cell l c : contains2 l c = true <-> is_cell l c.
Proof.
  unfold contains2, is_cell. rewrite !andb_true_iff, !Z.leb_le, !Z.ltb_lt. lia.
Qed.
Lemma div_lt a r b : 0 < r -> (a / r < b <-> a < r * b).
Proof.
  intros H. split; intros A.
  - apply Rmult_lt_compat_r with (r := r) in A; [|lra]. unfold Rdiv in A. rewrite Rmult_assoc, Rinv_l in A by lra. lra.
  - apply Rmult_lt_reg_r with r; [lra|]. unfold Rdiv. rewrite Rmult_assoc, Rinv_l by lra. lra.
Qed.
Lemma div_gt a r b : 0 < r -> (b < a / r <-> r * b < a).
Proof.
  intros H. split; intros A.
  - apply Rmult_lt_compat_r with (r := r) in A; [|lra]. unfold Rdiv in A. rewrite Rmult_assoc, Rinv_l in A by lra. lra.
  - apply Rmult_lt_reg_r with r; [lra|]. unfold Rdiv. rewrite Rmult_assoc, Rinv_l by lra. lra.
Qed.
Lemma index_inside l p : proper l -> (is_cell l (cell_index2 l (fst p) (snd p)) <-> inside l p).
Proof.
  intros [Hr [Hx Hy]]. unfold is_cell, inside, cell_index2. simpl.
  rewrite !lround_nonneg, !lround_below by assumption.
  pose proof (div_lt (l_max_y l - snd p) (l_res l) (IZR (l_nx l)) Hr) as A1.
  pose proof (div_gt (l_max_y l - snd p) (l_res l) 0 Hr) as A2.
  pose proof (div_lt (l_max_x l - fst p) (l_res l) (IZR (l_ny l)) Hr) as A3.
  pose proof (div_gt (l_max_x l - fst p) (l_res l) 0 Hr) as A4.
  rewrite Rmult_0_r in A2, A4.
  split.
  - intros [[B1 B2] [B3 B4]].
    assert (l_max_y l - snd p < l_res l * IZR (l_nx l)) by (apply A1; lra).
    assert (0 < l_max_y l - snd p) by (apply A2; lra).
    assert (l_max_x l - fst p < l_res l * IZR (l_ny l)) by (apply A3; lra).
    assert (0 < l_max_x l - fst p) by (apply A4; lra). lra.
  - intros [[B1 B2] [B3 B4]].
    assert ((l_max_y l - snd p) / l_res l < IZR (l_nx l)) by (apply A1; lra).
    assert (0 < (l_max_y l - snd p) / l_res l) by (apply A2; lra).
    assert ((l_max_x l - fst p) / l_res l < IZR (l_ny l)) by (apply A3; lra).
    assert (0 < (l_max_x l - fst p) / l_res l) by (apply A4; lra). lra.
Qed.
Lemma inside_convex l p q r : inside l p -> inside l q ->
  Rmin (fst p) (fst q) <= fst r <= Rmax (fst p) (fst q) -> Rmin (snd p) (snd q) <= snd r <= Rmax (snd p) (snd q) -> inside l r.
Proof.
  unfold inside, Rmin, Rmax. intros A B.
  destruct (Rle_dec (fst p) (fst q)), (Rle_dec (snd p) (snd q)); intros C D; lra.
Qed.

(* growing *)
Ltac lcbn := cbn [l_nx l_ny l_res l_max_x l_max_y fst snd g_lim g_cell g_upd grow_once grown_limits].
Lemma quot2 n : (0 < n)%Z -> (Z.quot n 2 = n / 2)%Z.
Proof. intros H. apply Z.quot_div_nonneg; lia. Qed.
Lemma grown_proper l : proper l -> proper (grown_limits l).
Proof. unfold proper, grown_limits. lcbn. intros [A [B C]]. repeat split; [exact A|lia|lia]. Qed.
Lemma grown_center l c : cell_center2 (grown_limits l) (fst c + Z.quot (l_nx l) 2, snd c + Z.quot (l_ny l) 2)%Z = cell_center2 l c.
Proof. unfold cell_center2, grown_limits. simpl. rewrite !plus_IZR. f_equal; ring. Qed.
Lemma grown_once g : proper (g_lim g) -> grown_map g (grow_once g).
Proof.
  intros P. destruct P as [Pr [Px Py]]. pose proof (quot2 _ Px) as Qx. pose proof (quot2 _ Py) as Qy.
  pose proof (Z.div_mod (l_nx (g_lim g)) 2 ltac:(lia)). pose proof (Z.mod_pos_bound (l_nx (g_lim g)) 2 ltac:(lia)).
  pose proof (Z.div_mod (l_ny (g_lim g)) 2 ltac:(lia)). pose proof (Z.mod_pos_bound (l_ny (g_lim g)) 2 ltac:(lia)).
  split; [reflexivity|]. split; [apply grown_proper; repeat split; assumption|]. split; [reflexivity|]. split.
  - intros c Hc. exists (fst c + Z.quot (l_nx (g_lim g)) 2, snd c + Z.quot (l_ny (g_lim g)) 2)%Z. split; [|split].
    + unfold is_cell in *. lcbn. rewrite Qx, Qy. lia.
    + apply grown_center.
    + simpl. replace (fst c + Z.quot (l_nx (g_lim g)) 2 - Z.quot (l_nx (g_lim g)) 2, snd c + Z.quot (l_ny (g_lim g)) 2 - Z.quot (l_ny (g_lim g)) 2)%Z with c
        by (destruct c; simpl; f_equal; lia).
      rewrite (proj2 (contains_cell _ _) Hc). reflexivity.
  - intros c Hc. simpl. destruct (contains2 (g_lim g) (fst c - Z.quot (l_nx (g_lim g)) 2, snd c - Z.quot (l_ny (g_lim g)) 2)%Z) eqn:E; [left|right; reflexivity].
    eexists. split; [apply contains_cell; exact E|]. split; [|reflexivity].
    rewrite <- grown_center. simpl. f_equal. destruct c. simpl. f_equal; lia.
Qed.
Lemma grown_refl g : proper (g_lim g) -> grown_map g g.
Proof.
  intros P. split; [reflexivity|]. split; [exact P|]. split; [reflexivity|]. split.
  - intros c H. exists c. auto.
  - intros c H. left. exists c. auto.
Qed.
Lemma grown_trans a b c : grown_map a b -> grown_map b c -> grown_map a c.
Proof.
  intros [A1 [A2 [A3 [A4 A5]]]] [B1 [B2 [B3 [B4 B5]]]]. split; [congruence|]. split; [exact B2|]. split; [congruence|]. split.
  - intros x H. destruct (A4 x H) as [y [Y1 [Y2 Y3]]]. destruct (B4 y Y1) as [z [Z1 [Z2 Z3]]]. exists z. split; [exact Z1|]. split; congruence.
  - intros z H. destruct (B5 z H) as [[y [Y1 [Y2 Y3]]] | N]; [|right; exact N].
    destruct (A5 y Y1) as [[x [X1 [X2 X3]]] | N].
    + left. exists x. split; [exact X1|]. split; congruence.
    + right. congruence.
Qed.
Lemma grow_some fuel : forall g p g', proper (g_lim g) -> grow_to fuel g p = Some g' -> grown_map g g' /\ inside (g_lim g') p.
Proof.
  induction fuel as [|fuel IH]; intros g p g' P; simpl;
    destruct (contains2 (g_lim g) (cell_index2 (g_lim g) (fst p) (snd p))) eqn:E; intros H.
  - injection H as <-. split; [apply grown_refl; exact P|]. apply index_inside; [exact P|]. apply contains_cell. exact E.
  - discriminate.
  - injection H as <-. split; [apply grown_refl; exact P|]. apply index_inside; [exact P|]. apply contains_cell. exact E.
  - destruct (IH (grow_once g) p g' (grown_proper _ P) H) as [A B]. split; [|exact B].
    exact (grown_trans _ _ _ (grown_once g P) A).
Qed.
Lemma inside_grown l p : proper l -> inside l p -> inside (grown_limits l) p.
Proof.
  intros [Hr [Px Py]] [A B]. unfold inside, grown_limits. lcbn. rewrite (quot2 _ Px), (quot2 _ Py), !mult_IZR.
  pose proof (Z.div_mod (l_nx l) 2 ltac:(lia)). pose proof (Z.mod_pos_bound (l_nx l) 2 ltac:(lia)).
  pose proof (Z.div_mod (l_ny l) 2 ltac:(lia)). pose proof (Z.mod_pos_bound (l_ny l) 2 ltac:(lia)).
  assert (X1 : 0 <= IZR (l_nx l / 2)) by (apply IZR_le; lia). assert (X2 : IZR (l_nx l / 2) <= IZR (l_nx l)) by (apply IZR_le; lia).
  assert (Y1 : 0 <= IZR (l_ny l / 2)) by (apply IZR_le; lia). assert (Y2 : IZR (l_ny l / 2) <= IZR (l_ny l)) by (apply IZR_le; lia).
  pose proof (Rmult_le_compat_l _ _ _ (Rlt_le _ _ Hr) X1). pose proof (Rmult_le_compat_l _ _ _ (Rlt_le _ _ Hr) X2).
  pose proof (Rmult_le_compat_l _ _ _ (Rlt_le _ _ Hr) Y1). pose proof (Rmult_le_compat_l _ _ _ (Rlt_le _ _ Hr) Y2).
  split; split; lra.
Qed.
Lemma grow_inside fuel : forall g p g' q, proper (g_lim g) -> grow_to fuel g p = Some g' -> inside (g_lim g) q -> inside (g_lim g') q.
Proof.
  induction fuel as [|fuel IH]; intros g p g' q P; simpl;
    destruct (contains2 (g_lim g) (cell_index2 (g_lim g) (fst p) (snd p))) eqn:E; intros H I; try (injection H as <-; exact I); try discriminate.
  apply (IH (grow_once g) p g' q (grown_proper _ P) H). simpl. apply inside_grown; assumption.
Qed.
(* far enough inside after enough rounds *)
Definition reach (k : R) (l : limits2) (p : R * R) : Prop :=
  l_max_x l - l_res l * IZR (l_ny l) < fst p + k /\ fst p - k < l_max_x l /\
  l_max_y l - l_res l * IZR (l_nx l) < snd p + k /\ snd p - k < l_max_y l.
Lemma reach_grown l p k : proper l -> (2 <= l_nx l)%Z -> (2 <= l_ny l)%Z -> reach k l p -> reach (k - l_res l) (grown_limits l) p.
Proof.
  intros [Hr [Px Py]] X Y. unfold reach, grown_limits. lcbn. rewrite (quot2 _ Px), (quot2 _ Py), !mult_IZR.
  pose proof (Z.div_mod (l_nx l) 2 ltac:(lia)). pose proof (Z.mod_pos_bound (l_nx l) 2 ltac:(lia)).
  pose proof (Z.div_mod (l_ny l) 2 ltac:(lia)). pose proof (Z.mod_pos_bound (l_ny l) 2 ltac:(lia)).
  assert (X1 : 1 <= IZR (l_nx l / 2)) by (apply IZR_le; lia). assert (X2 : IZR (l_nx l / 2 + 1) <= IZR (l_nx l)) by (apply IZR_le; lia).
  assert (Y1 : 1 <= IZR (l_ny l / 2)) by (apply IZR_le; lia). assert (Y2 : IZR (l_ny l / 2 + 1) <= IZR (l_ny l)) by (apply IZR_le; lia).
  rewrite plus_IZR in X2, Y2.
  pose proof (Rmult_le_compat_l _ _ _ (Rlt_le _ _ Hr) X1). pose proof (Rmult_le_compat_l _ _ _ (Rlt_le _ _ Hr) X2).
  pose proof (Rmult_le_compat_l _ _ _ (Rlt_le _ _ Hr) Y1). pose proof (Rmult_le_compat_l _ _ _ (Rlt_le _ _ Hr) Y2).
  intros. lra.
Qed.
Lemma grow_reach n : forall g p, proper (g_lim g) -> (2 <= l_nx (g_lim g))%Z -> (2 <= l_ny (g_lim g))%Z ->
  reach (INR n * l_res (g_lim g)) (g_lim g) p -> forall fuel, (n <= fuel)%nat -> exists g', grow_to fuel g p = Some g'.
Proof.
  induction n as [|n IH]; intros g p P X Y Rc fuel F.
  - assert (E : contains2 (g_lim g) (cell_index2 (g_lim g) (fst p) (snd p)) = true).
    { apply contains_cell, index_inside; [exact P|]. unfold reach in Rc. simpl in Rc. unfold inside. lra. }
    destruct fuel; simpl; rewrite E; eexists; reflexivity.
  - destruct fuel as [|fuel]; [lia|]. simpl. destruct (contains2 _ _); [eexists; reflexivity|].
    apply (IH (grow_once g)); lcbn; try lia; [apply grown_proper; exact P|].
    apply reach_grown with (k := INR (S n) * l_res (g_lim g)) in Rc; try assumption.
    rewrite S_INR in Rc. replace ((INR n + 1) * l_res (g_lim g) - l_res (g_lim g)) with (INR n * l_res (g_lim g)) in Rc by ring. exact Rc.
Qed.
Lemma some_reach l p : proper l -> exists n, reach (INR n * l_res l) l p.
Proof.
  intros [Hr [Px Py]].
  set (a := Rabs (l_max_x l) + Rabs (l_max_y l) + Rabs (fst p) + Rabs (snd p) + l_res l).
  assert (H : exists n, a / l_res l < INR n).
  { exists (Z.to_nat (up (a / l_res l))). pose proof (archimed (a / l_res l)) as [U _]. rewrite INR_IZR_INZ.
    apply Rlt_le_trans with (1 := U). apply IZR_le. lia. }
  destruct H as [n H]. exists n.
  apply div_lt in H; [|exact Hr]. unfold a in H.
  assert (X1 : 1 <= IZR (l_nx l)) by (apply IZR_le; lia). assert (Y1 : 1 <= IZR (l_ny l)) by (apply IZR_le; lia).
  pose proof (Rmult_le_compat_l _ _ _ (Rlt_le _ _ Hr) X1). pose proof (Rmult_le_compat_l _ _ _ (Rlt_le _ _ Hr) Y1).
  pose proof (Rle_abs (l_max_x l)). pose proof (Rle_abs (- l_max_x l)). pose proof (Rle_abs (l_max_y l)). pose proof (Rle_abs (- l_max_y l)).
  pose proof (Rle_abs (fst p)). pose proof (Rle_abs (- fst p)). pose proof (Rle_abs (snd p)). pose proof (Rle_abs (- snd p)).
  rewrite Rabs_Ropp in *. unfold reach. lra.
Qed.
Lemma grow_enough g p : proper (g_lim g) -> exists n, forall fuel, (n <= fuel)%nat -> exists g', grow_to fuel g p = Some g'.
Proof.
  intros P. destruct (some_reach (g_lim (grow_once g)) p (grown_proper _ P)) as [n H]. exists (S n). intros fuel F.
  destruct fuel as [|fuel]; [lia|]. simpl. destruct (contains2 _ _); [eexists; reflexivity|].
  apply (grow_reach n); try lia; try assumption; [apply grown_proper; exact P| |]; lcbn; destruct P; lia.
Qed.
Lemma grow_more g p : forall n g' fuel, grow_to n g p = Some g' -> (n <= fuel)%nat -> grow_to fuel g p = Some g'.
Proof.
  intros n. revert g. induction n as [|n IH]; intros g g' fuel; simpl; destruct (contains2 _ _) eqn:E; intros H F.
  - destruct fuel; simpl; rewrite E; exact H.
  - discriminate.
  - destruct fuel; simpl; rewrite E; exact H.
  - destruct fuel; [lia|]. simpl. rewrite E. apply IH; [exact H|lia].
Qed.
