From Coq Require Import ZArith Reals List Bool Lra Lia.
From Verif Require Import MG_Spec HT_Model HT_Spec.
Import ListNotations.
Open Scope R_scope.

Lemma Rleb_true a b : Rleb a b = true <-> a <= b.
Proof. unfold Rleb. destruct (Rle_dec a b); split; auto; congruence. Qed.
Lemma Rltb_true a b : Rltb a b = true <-> a < b.
Proof. unfold Rltb. destruct (Rlt_dec a b); split; auto; congruence. Qed.
Lemma counts_filter {A} (P : A -> Prop) (f : A -> bool) l : (forall x, In x l -> (f x = true <-> P x)) -> counts P l (length (filter f l)).
Proof.
  induction l as [|x l IH]; intros H; [constructor|]. cbn [filter]. assert (Hx := H x (or_introl eq_refl)). destruct (f x); cbn [length]; constructor; try (apply IH; intros y I; apply H; now right).
  - now apply Hx.
  - intros P'. apply Hx in P'. discriminate.
Qed.
Lemma counts_fun {A} (P : A -> Prop) l n m : counts P l n -> counts P l m -> n = m.
Proof. intros H. revert m. induction H; intros m K; inversion K; subst; try contradiction; auto. Qed.
Lemma counts_split {A} (P Q S : A -> Prop) l n m : (forall x, In x l -> (S x <-> P x \/ Q x)) -> (forall x, In x l -> P x -> Q x -> False) ->
  counts P l n -> counts Q l m -> counts S l (n + m).
Proof.
  intros E D HP. revert m. induction HP as [|x l n Px HP IH | x l n Px HP IH]; intros m HQ; inversion HQ; subst.
  - constructor.
  - destruct (D x); auto. now left.
  - cbn [plus]. constructor; [apply E; [now left|]; auto|]. apply IH; auto; intros y I; [apply E | apply D]; now right.
  - rewrite Nat.add_succ_r. constructor; [apply E; [now left|]; auto|]. apply IH; auto; intros y I; [apply E | apply D]; now right.
  - constructor; [rewrite E by (now left); tauto|]. apply IH; auto; intros y I; [apply E | apply D]; now right.
Qed.
Lemma counts_all {A} (P : A -> Prop) l : (forall x, In x l -> P x) -> counts P l (length l).
Proof. induction l as [|x l IH]; intros H; constructor; [apply H; now left|]. apply IH. intros y I. apply H. now right. Qed.
Lemma counts_none {A} (P : A -> Prop) l : (forall x, In x l -> ~ P x) -> counts P l 0.
Proof. induction l as [|x l IH]; intros H; [constructor|]. apply counts_no; [apply H; now left|]. apply IH. intros y I. apply H. now right. Qed.
Lemma counts_le {A} (P : A -> Prop) l n : counts P l n -> (n <= length l)%nat.
Proof. induction 1; cbn [length]; lia. Qed.

Lemma min_ok l : forall x, is_min (min_of Rltb x l) (x :: l).
Proof.
  unfold min_of. induction l as [|y l IH]; intros x; cbn [fold_left]; [split; [now left | intros v [<- | []]; lra]|].
  destruct (Rltb y x) eqn:E.
  - apply Rltb_true in E. destruct (IH y) as [I M]. split; [destruct I; [right; now left | right; now right]|]. intros v [<- | [<- | V]]; [specialize (M y (or_introl eq_refl)); lra | apply M; now left | apply M; now right].
  - assert (~ y < x) by (rewrite <- Rltb_true; congruence). destruct (IH x) as [I M]. split; [destruct I; [now left | right; now right]|]. intros v [<- | [<- | V]]; [apply M; now left | specialize (M x (or_introl eq_refl)); lra | apply M; now right].
Qed.
Lemma max_ok l : forall x, is_max (max_of Rltb x l) (x :: l).
Proof.
  unfold max_of. induction l as [|y l IH]; intros x; cbn [fold_left]; [split; [now left | intros v [<- | []]; lra]|].
  destruct (Rltb x y) eqn:E.
  - apply Rltb_true in E. destruct (IH y) as [I M]. split; [destruct I; [right; now left | right; now right]|]. intros v [<- | [<- | V]]; [specialize (M y (or_introl eq_refl)); lra | apply M; now left | apply M; now right].
  - assert (~ x < y) by (rewrite <- Rltb_true; congruence). destruct (IH x) as [I M]. split; [destruct I; [now left | right; now right]|]. intros v [<- | [<- | V]]; [apply M; now left | specialize (M x (or_introl eq_refl)); lra | apply M; now right].
Qed.

Lemma bar_ok c n : (0 < n)%nat -> (c <= n)%nat -> (bar_of c n <= 20)%nat /\ (2 * (bar_of c n * n) <= 40 * c + n)%nat /\ (40 * c < 2 * (bar_of c n * n) + n + 2)%nat.
Proof.
  intros N C. unfold bar_of. pose proof (Nat.div_mod (c * 20 + n / 2) n ltac:(lia)) as D. pose proof (Nat.mod_upper_bound (c * 20 + n / 2) n ltac:(lia)) as U.
  pose proof (Nat.div_mod n 2 ltac:(lia)) as D2. pose proof (Nat.mod_upper_bound n 2 ltac:(lia)) as U2. set (q := ((c * 20 + n / 2) / n)%nat) in *. split; [|split].
  - unfold q. apply Nat.lt_succ_r. apply Nat.div_lt_upper_bound; nia.
  - nia.
  - nia.
Qed.

Section Rows.
Variables (values : list R) (mn mx : R) (B : nat).
Hypothesis HB : (0 < B)%nat.
Hypothesis Hlt : mn < mx.
Hypothesis Hmin : forall v, In v values -> mn <= v.
Hypothesis Hmax : forall v, In v values -> v <= mx.

Lemma upper_bound j : (j < B)%nat -> upperR (Z.of_nat B) (Z.of_nat j) mn mx = bound mn mx B (S j).
Proof.
  intros J. unfold upperR, bound. rewrite <- !INR_IZR_INZ || idtac. assert (0 < INR B) by (now apply lt_0_INR).
  replace (IZR (Z.of_nat j + 1)) with (INR (S j)) by (rewrite INR_IZR_INZ; f_equal; lia). replace (IZR (Z.of_nat B - Z.of_nat j - 1)) with (INR B - INR (S j)) by (rewrite !INR_IZR_INZ, <- minus_IZR; f_equal; lia).
  rewrite ?INR_IZR_INZ in *. field. lra.
Qed.
Lemma bound_le j : bound mn mx B j <= bound mn mx B (S j).
Proof.
  unfold bound. assert (0 < INR B) by (now apply lt_0_INR). rewrite S_INR. assert (INR j / INR B <= (INR j + 1) / INR B) by (apply Rmult_le_compat_r; [left; now apply Rinv_0_lt_compat | lra]). nra.
Qed.
Lemma bound_last : bound mn mx B B = mx.
Proof. unfold bound. assert (0 < INR B) by (now apply lt_0_INR). field. lra. Qed.

Lemma rows_ok : forall k j total, (j + k = B)%nat -> (0 < k)%nat -> counts (fun v => v < bound mn mx B j) values total ->
  let rs := rows Rleb Rltb upperR k (Z.of_nat B) values mn mx (bound mn mx B j) total in
  length rs = k /\
  forall i r, nth_error rs i = Some r ->
    r_lower r = bound mn mx B (j + i) /\ r_upper r = bound mn mx B (j + i + 1) /\
    counts (fun v => bound mn mx B (j + i) <= v /\ (v < bound mn mx B (j + i + 1) \/ (j + i + 1 = B)%nat)) values (r_count r) /\
    r_bar r = bar_of (r_count r) (length values) /\
    counts (fun v => v < bound mn mx B (j + i + 1) \/ (j + i + 1 = B)%nat) values (r_total r).
Proof.
  induction k as [|k IH]; intros j total J K HT; [lia|]. cbn [rows].
  replace (Z.of_nat B - Z.of_nat (S k))%Z with (Z.of_nat j) by lia.
  set (last := match k with O => true | S _ => false end). set (up := if last then mx else upperR (Z.of_nat B) (Z.of_nat j) mn mx).
  assert (U : up = bound mn mx B (S j)). { unfold up, last. destruct k; [replace (S j) with B by lia; now rewrite bound_last | apply upper_bound; lia]. }
  set (count := count_in Rleb Rltb last (bound mn mx B j) up values).
  assert (C : counts (fun v => bound mn mx B j <= v /\ (v < bound mn mx B (S j) \/ (S j = B)%nat)) values count).
  { unfold count, count_in. apply counts_filter. intros v V. rewrite andb_true_iff, Rleb_true, U. unfold last. destruct k as [|k].
    - rewrite Rleb_true. assert (S j = B) by lia. specialize (Hmax v V). rewrite H, bound_last. intuition.
    - rewrite Rltb_true. assert (S j <> B) by lia. intuition. }
  assert (T : counts (fun v => v < bound mn mx B (S j) \/ (S j = B)%nat) values (total + count)).
  { eapply counts_split; [| |exact HT | exact C]; cbn beta.
    - intros v V. pose proof (bound_le j). destruct (Rlt_dec v (bound mn mx B j)); split; intuition lra.
    - intros v V A [A' _]. lra. }
  clearbody count. rewrite U. destruct k as [|k].
  - cbn [rows length]. split; [reflexivity|]. intros [|[|i]] r E; cbn [nth_error] in E; try discriminate. injection E as <-. cbn [r_lower r_upper r_count r_bar r_total].
    rewrite Nat.add_0_r, Nat.add_1_r. auto.
  - assert (T' : counts (fun v => v < bound mn mx B (S j)) values (total + count)).
    { assert (NB : S j <> B) by lia. clear - T NB. induction T; [constructor | apply counts_yes | apply counts_no]; auto; tauto. }
    destruct (IH (S j) (total + count)%nat ltac:(lia) ltac:(lia) T') as [L R]. cbn [length]. split; [cbv zeta in L; now rewrite L|]. intros [|i] r E; cbn [nth_error] in E.
    + injection E as <-. cbn [r_lower r_upper r_count r_bar r_total]. rewrite Nat.add_0_r, Nat.add_1_r. auto.
    + replace (j + S i)%nat with (S j + i)%nat by lia. now apply R.
Qed.
End Rows.
