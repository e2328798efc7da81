From Coq Require Import ZArith Reals List Bool Lra Lia.
From Verif Require Import MG_Spec HT_Model HT_Spec HT_Proofs.
Import ListNotations.
Open Scope R_scope.

Lemma last_cons {A} (l : list A) a : last (a :: l) a = last l a.
Proof. destruct l; reflexivity. Qed.
Lemma span_cons e l : span (e :: l) = (last_wall e l - e_wall e)%Z.
Proof. unfold span, last_wall. now rewrite last_cons. Qed.
Lemma span_snoc a r e : span (a :: r ++ [e]) = (e_wall e - e_wall a)%Z.
Proof. rewrite span_cons. unfold last_wall. now rewrite last_last. Qed.
Lemma ordered_tail d l : ordered (d ++ l) -> ordered l.
Proof. induction d as [|a d IH]; [auto|]. cbn [app]. intros H. apply IH. destruct (d ++ l); [exact I | exact (proj2 H)]. Qed.
Lemma span_grows l e : ordered (l ++ [e]) -> l <> [] -> (span l <= span (l ++ [e]))%Z.
Proof.
  destruct l as [|a r]; [congruence|]. intros O _. cbn [app]. rewrite span_snoc. destruct (exists_last (l := a :: r) ltac:(discriminate)) as [r' [z E]].
  assert (Z : (e_wall z <= e_wall e)%Z). { rewrite E, <- app_assoc in O. apply ordered_tail in O. exact (proj1 O). }
  destruct r' as [|b r']; cbn [app] in E; injection E as -> ->; [unfold span; cbn; lia | rewrite span_snoc; lia].
Qed.

Lemma drop_ok w l : exists d, l = d ++ drop_old w l /\ (Nat.min 2 (length l) <= length (drop_old w l))%nat /\
  ((2 < length (drop_old w l))%nat -> (span (drop_old w l) <= w)%Z) /\
  (forall d1 d2, d = d1 ++ d2 -> d2 <> [] -> (w < span (d2 ++ drop_old w l))%Z).
Proof.
  induction l as [|e l IH]; [exists []; split; [reflexivity|]; split; [cbn; lia|]; split; [cbn; lia|]; intros d1 d2 E N; symmetry in E; apply app_eq_nil in E; tauto|].
  cbn [drop_old]. destruct (Nat.ltb 2 (length (e :: l)) && Z.ltb w (last_wall e l - e_wall e))%bool eqn:C.
  - apply andb_true_iff in C. rewrite Nat.ltb_lt, Z.ltb_lt, <- span_cons in C. destruct C as [C1 C2]. destruct IH as [d [E [L [S M]]]]. exists (e :: d).
    split; [cbn [app]; now rewrite <- E|]. split; [cbn [length] in C1; lia|]. split; [exact S|]. intros d1 d2 D N. destruct d1 as [|x d1].
    + cbn [app] in D. subst d2. cbn [app]. now rewrite <- E.
    + injection D as -> D. now apply (M d1).
  - exists []. split; [reflexivity|]. split; [lia|]. split.
    + intros L. apply andb_false_iff in C. rewrite Nat.ltb_ge, Z.ltb_ge, <- span_cons in C. destruct C; [lia | assumption].
    + intros d1 d2 E N. symmetry in E. apply app_eq_nil in E. tauto.
Qed.
Lemma window_ok w ps : ordered ps -> exists d, ps = d ++ pulses w ps /\ (Nat.min 2 (length ps) <= length (pulses w ps))%nat /\
  ((2 < length (pulses w ps))%nat -> (span (pulses w ps) <= w)%Z) /\
  (forall d1 d2, d = d1 ++ d2 -> d2 <> [] -> (w < span (d2 ++ pulses w ps))%Z).
Proof.
  induction ps as [|e ps IH] using rev_ind; intros O.
  - exists []. split; [reflexivity|]. split; [cbn; lia|]. split; [cbn; lia|]. intros d1 d2 E N. symmetry in E. apply app_eq_nil in E. tauto.
  - assert (O' : ordered ps). { clear - O. revert O. induction ps as [|a ps IH]; [exact (fun _ => I)|]. cbn [app]. destruct ps as [|b ps]; [exact (fun _ => I)|]. cbn [app]. intros [A B]. split; [exact A | now apply IH]. }
    destruct (IH O') as [d [E [L [S M]]]]. clear IH. unfold pulses in *. rewrite fold_left_app. cbn [fold_left]. set (ev := fold_left (pulse w) ps []) in *. unfold pulse.
    destruct (drop_ok w (ev ++ [e])) as [d' [E' [L' [S' M']]]]. exists (d ++ d'). split; [rewrite <- app_assoc, <- E', app_assoc, <- E; reflexivity|].
    split.
    { rewrite app_length in L' |- *. cbn [length] in *. rewrite E in *. rewrite app_length in *. lia. }
    split; [exact S'|]. intros d1 d2 D N.
    assert (Q : (exists x, d' = x ++ d2) \/ (exists x y, d2 = y ++ d' /\ d = x ++ y /\ y <> [])).
    { clear - D. revert d1 D. induction d as [|a d IHd]; intros d1 D; cbn [app] in D; [left; now exists d1|]. destruct d1 as [|b d1]; cbn [app] in D.
      - right. exists [], (a :: d). subst d2. repeat split. discriminate.
      - injection D as <- D. destruct (IHd d1 D) as [[x X] | [x [y [X [Y Z]]]]]; [left; now exists x | right; exists (a :: x), y; subst; auto]. }
    destruct Q as [[x X] | [x [y [-> [Y NY]]]]]; [now apply (M' x)|]. rewrite <- app_assoc, <- E'. specialize (M x y Y NY).
    apply Z.lt_le_trans with (span (y ++ ev)); [exact M|]. rewrite app_assoc. apply span_grows; [|destruct y; [congruence | discriminate]].
    apply (ordered_tail x). rewrite !app_assoc, <- Y, <- E. exact O.
Qed.

Lemma time_span_cons e l : time_span (e :: l) = (e_time (last l e) - e_time e)%Z.
Proof. unfold time_span. now rewrite last_cons. Qed.
Lemma seconds_plus a b : seconds (a + b) = seconds a + seconds b.
Proof. unfold seconds. rewrite plus_IZR. field. Qed.
Lemma deltas_length l : length (deltas l) = (length l - 1)%nat.
Proof. induction l as [|e [|f l] IH]; [reflexivity | reflexivity|]. cbn [deltas length] in *. rewrite IH. lia. Qed.
Lemma sum_from l : forall a, fold_left Rplus l a = a + fold_left Rplus l 0.
Proof. induction l as [|x l IH]; intros a; cbn [fold_left]; [lra|]. rewrite (IH (a + x)), (IH (0 + x)). lra. Qed.
Lemma sum_cons x l : sum_of (x :: l) = x + sum_of l.
Proof. unfold sum_of. cbn [fold_left]. rewrite sum_from. lra. Qed.
Lemma deltas_sum l : sum_of (deltas l) = seconds (time_span l).
Proof.
  induction l as [|e [|f l] IH]; [unfold seconds; cbn; lra | unfold seconds, time_span; cbn [last]; rewrite Z.sub_diag; cbn; lra|].
  cbn [deltas] in *. rewrite sum_cons, IH, <- seconds_plus. f_equal. rewrite !time_span_cons. replace (last (f :: l) e) with (last l f); [lia|].
  clear. revert f. induction l as [|g l IH]; intros f; [reflexivity|]. cbn [last] in *. destruct l; [reflexivity | apply IH].
Qed.
Lemma squares_zero m l : 0 <= sum_of (map (fun x => (x - m) * (x - m)) l) /\ (sum_of (map (fun x => (x - m) * (x - m)) l) = 0 -> forall x, In x l -> x = m).
Proof.
  induction l as [|x l [A B]]; [split; [unfold sum_of; cbn; lra | intros _ x []]|]. cbn [map]. rewrite sum_cons. pose proof (Rle_0_sqr (x - m)) as S. unfold Rsqr in S. split; [lra|].
  intros Z y [<- | Y]; [|apply B; [lra | exact Y]]. assert ((x - m) * (x - m) = 0) by lra. nra.
Qed.
Lemma sum_const c l : (forall x, In x l -> x = c) -> sum_of l = INR (length l) * c.
Proof.
  induction l as [|x l IH]; intros H; [unfold sum_of; cbn; lra|]. rewrite sum_cons, IH by (intros y Y; apply H; now right). rewrite (H x (or_introl eq_refl)). cbn [length]. rewrite S_INR. lra.
Qed.
