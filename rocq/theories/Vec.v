(* std::vector with checked element access: reading or writing outside the vector
   (undefined behaviour in C++) is None. *)
From Coq Require Import List ZArith Lia FinFun.
Import ListNotations.
Open Scope Z_scope.

Section Vec.
Context {A : Type}.

Definition vget (l : list A) (i : Z) : option A :=
  if 0 <=? i then nth_error l (Z.to_nat i) else None.

Fixpoint set_nth (l : list A) (n : nat) (a : A) : option (list A) :=
  match l, n with
  | [], _ => None
  | _ :: t, O => Some (a :: t)
  | x :: t, S k => match set_nth t k a with Some t' => Some (x :: t') | None => None end
  end.

Definition vset (l : list A) (i : Z) (a : A) : option (list A) :=
  if 0 <=? i then set_nth l (Z.to_nat i) a else None.

Definition vsize (l : list A) : Z := Z.of_nat (length l).

(* assignments executed in order *)
Fixpoint vset_all (l : list A) (ws : list (Z * A)) : option (list A) :=
  match ws with
  | [] => Some l
  | (i, a) :: r => match vset l i a with Some l' => vset_all l' r | None => None end
  end.

Lemma vget_some l i : 0 <= i < vsize l -> exists a, vget l i = Some a.
Proof.
  unfold vget, vsize. intros H. destruct (Z.leb_spec 0 i); [|lia].
  destruct (nth_error l (Z.to_nat i)) eqn:E; [eauto|].
  apply nth_error_None in E. lia.
Qed.

Lemma vget_bound l i a : vget l i = Some a -> 0 <= i < vsize l.
Proof.
  unfold vget, vsize. destruct (Z.leb_spec 0 i); [|discriminate]. intros E.
  assert (nth_error l (Z.to_nat i) <> None) by congruence. apply nth_error_Some in H0. lia.
Qed.

Lemma set_nth_ok l n a : (n < length l)%nat -> exists l', set_nth l n a = Some l' /\
  length l' = length l /\ forall k, nth_error l' k = if Nat.eqb k n then Some a else nth_error l k.
Proof.
  revert n. induction l as [|x l IH]; intros n H; [cbn in H; lia|].
  destruct n as [|n]; cbn [set_nth].
  - exists (a :: l). repeat split. intros [|k]; reflexivity.
  - cbn in H. destruct (IH n ltac:(lia)) as [l' [E [L G]]]. rewrite E.
    exists (x :: l'). cbn. repeat split; [lia|]. intros [|k]; cbn; [reflexivity|]. apply G.
Qed.

Lemma vset_ok l i a : 0 <= i < vsize l -> exists l', vset l i a = Some l' /\
  vsize l' = vsize l /\ forall k, vget l' k = if k =? i then Some a else vget l k.
Proof.
  intros H. unfold vset. destruct (Z.leb_spec 0 i); [|lia]. unfold vsize in *.
  destruct (set_nth_ok l (Z.to_nat i) a ltac:(lia)) as [l' [E [L G]]].
  exists l'. rewrite E. repeat split; [lia|]. intros k. unfold vget.
  destruct (Z.leb_spec 0 k).
  - rewrite G. destruct (Z.eqb_spec k i) as [-> | N].
    + now rewrite Nat.eqb_refl.
    + destruct (Nat.eqb_spec (Z.to_nat k) (Z.to_nat i)); [lia | reflexivity].
  - destruct (Z.eqb_spec k i); [lia | reflexivity].
Qed.

Lemma vset_inv l i a l' : vset l i a = Some l' -> 0 <= i < vsize l /\
  vsize l' = vsize l /\ forall k, vget l' k = if k =? i then Some a else vget l k.
Proof.
  intros E. assert (H : 0 <= i < vsize l).
  { unfold vset, vsize in *. destruct (Z.leb_spec 0 i); [|discriminate]. split; [assumption|].
    assert (G : forall l n, set_nth l n a <> None -> (n < length l)%nat).
    { induction l0 as [|x l0 IH]; intros n; cbn [set_nth]; [congruence|].
      destruct n; cbn; [lia|]. destruct (set_nth l0 n a) eqn:Q; [|congruence].
      intros _. specialize (IH n ltac:(congruence)). lia. }
    specialize (G l (Z.to_nat i) ltac:(congruence)). lia. }
  split; [exact H|]. destruct (vset_ok l i a H) as [l2 [E2 R]]. rewrite E in E2.
  injection E2 as <-. exact R.
Qed.

Lemma vec_ext l l' : vsize l = vsize l' -> (forall k, 0 <= k < vsize l -> vget l k = vget l' k) ->
  l = l'.
Proof.
  unfold vsize, vget. revert l'. induction l as [|x l IH]; intros [|y l'] L G; cbn in L; try lia; [reflexivity|].
  f_equal.
  - specialize (G 0 ltac:(cbn; lia)). cbn in G. congruence.
  - apply IH; [lia|]. intros k Hk. specialize (G (k + 1) ltac:(cbn [length]; lia)).
    destruct (Z.leb_spec 0 (k + 1)); [|lia]. destruct (Z.leb_spec 0 k); [|lia].
    replace (Z.to_nat (k + 1)) with (S (Z.to_nat k)) in G by lia. exact G.
Qed.

Lemma vget_repeat a n k : 0 <= k < Z.of_nat n -> vget (repeat a n) k = Some a.
Proof.
  unfold vget. intros H. destruct (Z.leb_spec 0 k); [|lia].
  assert (L : (Z.to_nat k < n)%nat) by lia. clear H H0. revert L. generalize (Z.to_nat k).
  induction n as [|n IH]; intros m L; [lia|]. destruct m; cbn; [reflexivity|]. apply IH. lia.
Qed.
Lemma vsize_repeat a n : vsize (repeat a n) = Z.of_nat n.
Proof. unfold vsize. now rewrite repeat_length. Qed.
Lemma vget_None l k : vget l k = None <-> ~ 0 <= k < vsize l.
Proof.
  split.
  - intros E H. destruct (vget_some l k H) as [a Ea]. congruence.
  - intros H. destruct (vget l k) eqn:E; [|reflexivity]. apply vget_bound in E. contradiction.
Qed.

(* in-bounds assignments with distinct indices *)
Lemma vset_all_ok ws l :
  (forall i a, In (i, a) ws -> 0 <= i < vsize l) -> NoDup (map fst ws) ->
  exists l', vset_all l ws = Some l' /\ vsize l' = vsize l /\
    (forall i a, In (i, a) ws -> vget l' i = Some a) /\
    (forall k, ~ In k (map fst ws) -> vget l' k = vget l k).
Proof.
  revert l. induction ws as [|[i a] ws IH]; intros l B N; cbn [vset_all].
  - exists l. repeat split; auto; intros ? ? [].
  - destruct (vset_ok l i a (B i a (or_introl eq_refl))) as [l1 [E [L G]]]. rewrite E.
    inversion N as [|? ? Ni Nr]; subst.
    destruct (IH l1) as [l' [E' [L' [W F]]]]; auto.
    { intros j b Hj. rewrite L. apply (B j b). now right. }
    exists l'. split; [exact E'|]. split; [lia|]. split.
    + intros j b [Q | Q]; [|now apply W]. injection Q as <- <-.
      rewrite F by exact Ni. rewrite G. now rewrite Z.eqb_refl.
    + intros k Hk. rewrite F by (intros Q; apply Hk; now right). rewrite G.
      destruct (Z.eqb_spec k i) as [-> | ]; [|reflexivity]. elim Hk. now left.
Qed.
End Vec.

(* 0, 1, ..., n-1 *)
Fixpoint zfrom (a : Z) (n : nat) : list Z :=
  match n with O => [] | S n => a :: zfrom (a + 1) n end.
Definition zrange (n : Z) : list Z := zfrom 0 (Z.to_nat n).
Lemma zfrom_seq n : forall a, zfrom (Z.of_nat a) n = map Z.of_nat (seq a n).
Proof.
  induction n as [|n IH]; intros a; [reflexivity|]. cbn [zfrom seq map]. f_equal.
  rewrite <- IH. f_equal. lia.
Qed.
Lemma zrange_seq n : zrange n = map Z.of_nat (seq 0 (Z.to_nat n)).
Proof. exact (zfrom_seq (Z.to_nat n) 0). Qed.
Lemma In_zrange n k : In k (zrange n) <-> 0 <= k < n.
Proof.
  rewrite zrange_seq, in_map_iff. split.
  - intros [m [<- H]]. apply in_seq in H. lia.
  - intros H. exists (Z.to_nat k). split; [lia|]. apply in_seq. lia.
Qed.
Lemma zrange_NoDup n : NoDup (zrange n).
Proof.
  rewrite zrange_seq. apply FinFun.Injective_map_NoDup; [|apply seq_NoDup]. intros a b. lia.
Qed.
