(* Proofs about representative nodes and the selection of relations (used by Properties_GT). *)
From Coq Require Import Reals ZArith Lra Lia.
From Verif Require Import CF_Model RG_Model RG_Spec RG_Proofs RG_Angle TIB_Model GT_Model GT_Spec GT_Proofs.
From Coq Require Import List Bool.
Import ListNotations.
Open Scope R_scope.

Lemma at_is {A} (l : list A) i x : at_index l i = Some x <-> is_at l i x.
Proof. unfold at_index, is_at. destruct (Z.ltb_spec i 0) as [H | H]; split; try discriminate; intuition lia. Qed.
Lemma snoc_split {A} (l : list A) x pre y post : l ++ [x] = pre ++ y :: post ->
  (exists p, post = p ++ [x] /\ l = pre ++ y :: p) \/ (post = [] /\ y = x /\ l = pre).
Proof.
  intros E. destruct (rev post) as [|z zs] eqn:R.
  - right. assert (post = []) as -> by (rewrite <- (rev_involutive post), R; reflexivity).
    apply app_inj_tail in E. intuition congruence.
  - left. assert (post = rev zs ++ [z]) as -> by (rewrite <- (rev_involutive post), R; reflexivity).
    rewrite app_comm_cons, app_assoc in E. apply app_inj_tail in E. destruct E as [-> ->]. exists (rev zs). auto.
Qed.
Lemma first_unique cs s n m : first_of cs s n -> first_of cs s m -> n = m.
Proof.
  intros [p [c [q [E [S [N F]]]]]] [p' [c' [q' [E' [S' [N' F']]]]]]. subst cs. revert p' E' F'.
  induction p as [|a p IH]; intros p' E' F'; destruct p' as [|a' p']; cbn in E'.
  - injection E' as -> ->. congruence.
  - injection E' as <- ->. inversion F'; subst; congruence.
  - injection E' as -> <-. inversion F; subst; congruence.
  - injection E' as -> E'. inversion F; inversion F'; subst. eauto.
Qed.
Lemma first_snoc cs c s n : first_of (cs ++ [c]) s n <->
  first_of cs s n \/ (Forall (fun c' => snd (gc_submap c') <> s) cs /\ snd (gc_submap c) = s /\ snd (gc_node c) = n).
Proof.
  split.
  - intros [p [x [q [E [S [N F]]]]]]. apply snoc_split in E. destruct E as [[r [-> ->]] | [-> [-> ->]]].
    + left. exists p, x, r. auto.
    + right. auto.
  - intros [[p [x [q [E [S [N F]]]]]] | [F [S N]]].
    + exists p, x, (q ++ [c]). subst cs. rewrite <- app_assoc. auto.
    + exists cs, c, []. auto.
Qed.
Lemma one_by_one_prefix a b : one_by_one (a ++ b) -> one_by_one a.
Proof. intros H p c q ->. apply (H p c (q ++ b)). now rewrite <- app_assoc. Qed.
Lemma one_by_one_snoc a c : one_by_one a ->
  ((snd (gc_submap c) <= 1)%Z \/ exists c', In c' a /\ (snd (gc_submap c) <= snd (gc_submap c') + 1)%Z) -> one_by_one (a ++ [c]).
Proof. intros H C p x q E. apply snoc_split in E. destruct E as [[r [-> ->]] | [-> [-> ->]]]; eauto. Qed.

Definition Inv (acc : list Z) (pre : list gconstraint) : Prop :=
  (forall k n, nth_error acc k = Some n <-> first_of pre (Z.of_nat k + 1) n) /\
  Forall of_trajectory_0 pre /\ one_by_one pre /\
  Forall (fun c => (snd (gc_submap c) <= Z.of_nat (length acc))%Z) pre.
Lemma inv_next acc pre c : Inv acc pre ->
  ((snd (gc_submap c) <= Z.of_nat (length acc) + 1)%Z <->
   (snd (gc_submap c) <= 1)%Z \/ exists c', In c' pre /\ (snd (gc_submap c) <= snd (gc_submap c') + 1)%Z).
Proof.
  intros [A [B [C D]]]. split.
  - intros H. destruct acc as [|a acc'] eqn:E; [left; cbn in H; lia|]. right. rewrite <- E in *.
    destruct (nth_error acc (length acc - 1)) as [n|] eqn:N.
    + apply A in N. destruct N as [p [x [q [-> [S _]]]]]. exists x. split; [apply in_elt|].
      assert (0 < length acc)%nat by (rewrite E; cbn; lia). lia.
    + apply nth_error_None in N. rewrite E in N. cbn in N. lia.
  - intros [H | [c' [I H]]]; [lia|]. rewrite Forall_forall in D. apply D in I. lia.
Qed.
Lemma reps_run cs : forall acc pre, Inv acc pre ->
  match representatives_from acc cs with
  | Some l => Inv l (pre ++ intra_of cs)
  | None => ~ (Forall of_trajectory_0 (pre ++ intra_of cs) /\ one_by_one (pre ++ intra_of cs))
  end.
Proof.
  induction cs as [|c cs IH]; intros acc pre V; cbn [representatives_from intra_of filter]; [now rewrite app_nil_r|].
  destruct (gc_intra c) eqn:G; [|apply (IH acc pre V)].
  assert (J : pre ++ c :: filter gc_intra cs = (pre ++ [c]) ++ intra_of cs) by (rewrite <- app_assoc; reflexivity).
  rewrite J. pose proof (inv_next acc pre c V) as X. destruct V as [A [B [C D]]].
  destruct (Z.eqb_spec (fst (gc_submap c)) 0) as [S0 | S0]; cbn [andb].
  2: { intros [F _]. apply Forall_app in F. destruct F as [F _]. apply Forall_app in F. destruct F as [_ F].
       inversion F as [|? ? [F1 _]]; subst. auto. }
  destruct (Z.eqb_spec (fst (gc_node c)) 0) as [N0 | N0].
  2: { intros [F _]. apply Forall_app in F. destruct F as [F _]. apply Forall_app in F. destruct F as [_ F].
       inversion F as [|? ? [_ F1]]; subst. auto. }
  destruct (Z.leb_spec (snd (gc_submap c)) (Z.of_nat (length acc))) as [L | L].
  - apply IH. repeat split.
    + intros H. apply first_snoc. left. now apply A.
    + intros H. apply first_snoc in H. destruct H as [H | [F [S N]]]; [now apply A|]. exfalso.
      destruct (nth_error acc k) as [m|] eqn:M.
      * apply A in M. destruct M as [p [x [q [E [Sx _]]]]]. rewrite E in F. apply Forall_app in F. destruct F as [_ F].
        inversion F; subst; congruence.
      * apply nth_error_None in M. lia.
    + apply Forall_app. split; [exact B|]. repeat constructor; auto.
    + apply one_by_one_snoc; [exact C|]. apply X. lia.
    + apply Forall_app. split; [exact D|]. repeat constructor; auto.
  - destruct (Z.eqb_spec (snd (gc_submap c)) (Z.of_nat (length acc) + 1)) as [Q | Q].
    + apply IH. assert (Q' : Forall (fun c' => snd (gc_submap c') <> snd (gc_submap c)) pre).
      { rewrite Forall_forall in *. intros x Ix Hx. apply D in Ix. lia. }
      repeat split.
      * intros H. apply first_snoc. destruct (Nat.eq_dec k (length acc)) as [-> | K].
        -- rewrite nth_error_app2, Nat.sub_diag in H by lia. cbn in H. injection H as <-. right.
           rewrite <- Q. auto.
        -- left. apply A. rewrite nth_error_app1 in H; [exact H|].
           assert (k < length (acc ++ [snd (gc_node c)]))%nat by (apply nth_error_Some; congruence).
           rewrite app_length in *. cbn in *. lia.
      * intros H. apply first_snoc in H. destruct H as [H | [F [S N]]].
        -- apply A in H. rewrite nth_error_app1; [exact H|]. apply nth_error_Some. congruence.
        -- assert (k = length acc) as -> by lia. rewrite nth_error_app2, Nat.sub_diag by lia. cbn. now subst.
      * apply Forall_app. split; [exact B|]. repeat constructor; auto.
      * apply one_by_one_snoc; [exact C|]. apply X. lia.
      * apply Forall_app. rewrite app_length. cbn [length]. split.
        -- eapply Forall_impl; [|exact D]. cbn. intros; lia.
        -- repeat constructor. lia.
    + intros [_ O]. apply one_by_one_prefix in O. specialize (O pre c [] eq_refl). apply X in O. lia.
Qed.
Lemma inv_nil : Inv [] [].
Proof.
  split; [|split; [constructor|split; [|constructor]]].
  - intros k n. split; intros H.
    + destruct k; discriminate.
    + destruct H as [p [c [q [E _]]]]. destruct p; discriminate.
  - intros p c q E. destruct p; discriminate.
Qed.
Lemma nth_error_ext {A} (l m : list A) : (forall k, nth_error l k = nth_error m k) -> l = m.
Proof.
  revert m. induction l as [|a l IH]; intros [|b m] H; auto.
  - specialize (H 0%nat). discriminate.
  - specialize (H 0%nat). discriminate.
  - pose proof (H 0%nat) as H0. cbn in H0. injection H0 as ->. f_equal. apply IH. intros k. apply (H (S k)).
Qed.
Lemma reps_spec cs l : representatives_from [] cs = Some l <->
  (Forall of_trajectory_0 (intra_of cs) /\ one_by_one (intra_of cs)) /\
  forall k n, nth_error l k = Some n <-> first_of (intra_of cs) (Z.of_nat k + 1) n.
Proof.
  pose proof (reps_run cs [] [] inv_nil) as R. cbn [app] in R.
  destruct (representatives_from [] cs) as [m|].
  - destruct R as [A [B [C D]]]. split.
    + intros E. injection E as <-. auto.
    + intros [_ F]. f_equal. apply nth_error_ext. intros k.
      destruct (nth_error m k) as [x|] eqn:M.
      * symmetry. apply F, A, M.
      * destruct (nth_error l k) as [y|] eqn:L; [|reflexivity]. apply F, A in L. congruence.
  - split; [discriminate|]. intros [F _]. contradiction.
Qed.
Lemma reps_rep cs l s n : representatives_from [] cs = Some l -> (is_at l s n <-> represented_by cs s n).
Proof.
  intros E. apply reps_spec in E. destruct E as [_ F]. unfold is_at, represented_by.
  split; intros [P H]; split; auto; specialize (F (Z.to_nat s) n); rewrite Z2Nat.id in F by exact P; now apply F.
Qed.

Section Generate.
Variables (t : trajectory) (cs0 : list gconstraint) (cov : list R) (reps : list Z) (min_covered meters radians : R).
Hypothesis U : unit_trajectory t.
Hypothesis C : covered_distance t = Some cov.
Hypothesis Rp : representatives_from [] cs0 = Some reps.

Lemma at_unit i n : is_at (tr_nodes t) i n -> unit3 (tn_pose n).
Proof. intros [_ H]. destruct U as [F _]. rewrite Forall_forall in F. apply F. eapply nth_error_In, H. Qed.
Lemma sub_unit i s : is_at (tr_submaps t) i s -> unit3 (ts_pose s).
Proof. intros [_ H]. destruct U as [_ F]. rewrite Forall_forall in F. apply F. eapply nth_error_In, H. Qed.
Lemma cov_at i : (exists d, at_index cov i = Some d) <-> exists n, is_at (tr_nodes t) i n.
Proof.
  destruct (covered_ok t cov U C) as [L _]. unfold at_index, is_at.
  destruct (Z.ltb_spec i 0) as [H | H]; split; intros [x X]; try discriminate.
  - lia.
  - assert (K : nth_error (tr_nodes t) (Z.to_nat i) <> None).
    { apply nth_error_Some. rewrite <- L. apply nth_error_Some. congruence. }
    destruct (nth_error (tr_nodes t) (Z.to_nat i)) as [n|]; [eauto|congruence].
  - destruct X as [_ X].
    assert (K : nth_error cov (Z.to_nat i) <> None).
    { apply nth_error_Some. rewrite L. apply nth_error_Some. congruence. }
    destruct (nth_error cov (Z.to_nat i)) as [n|]; [eauto|congruence].
Qed.
Lemma judge_bad c n1 n2 sm i1 i2 i3 d : is_at (tr_nodes t) i1 n1 -> is_at (tr_nodes t) i2 n2 -> is_at (tr_submaps t) i3 sm ->
  unit3 (gc_pose c) ->
  (bad n1 n2 sm c meters radians /\ judge t c n1 n2 sm d meters radians = Outlier) \/
  (~ bad n1 n2 sm c meters radians /\ judge t c n1 n2 sm d meters radians =
     Keep (mk_relation (tn_time n1) (tn_time n2) (r3_mul (r3_inv (tn_pose n1)) (predicted sm c)) d)).
Proof.
  intros A B S G. apply at_unit in A, B. apply sub_unit in S. unfold judge, bad, discrepancy, predicted.
  pose proof (r3_inv_unit _ A) as IA. pose proof (r3_mul_unit _ _ S G) as SG. pose proof (r3_inv_unit _ SG) as ISG.
  pose proof (r3_mul_unit _ _ B ISG) as D.
  rewrite <- (r3_assoc (r3_inv (tn_pose n1)) (ts_pose sm) (gc_pose c)) by auto. rewrite error_conj by auto.
  rewrite conj_trans, conj_angle by auto.
  destruct (Rlt_dec meters _) as [M | M]; [left; split; [left; exact M|reflexivity]|].
  destruct (Rlt_dec radians _) as [T | T]; [left; split; [right; exact T|reflexivity]|].
  right. split; [|reflexivity]. intros [H | H]; auto.
Qed.

Lemma generate_chosen cs : unit_constraints cs -> forall rs k,
  generate_from t cov reps min_covered meters radians cs = Some (rs, k) ->
  chosen t cs0 min_covered meters radians cs rs k.
Proof.
  induction cs as [|c cs IH]; intros UC rs k E; cbn [generate_from] in E; [injection E as <- <-; constructor|].
  inversion UC as [|? ? Uc UC']; subst. specialize (IH UC').
  destruct (handle t cov reps min_covered meters radians c) as [o|] eqn:H; [|discriminate].
  destruct (generate_from t cov reps min_covered meters radians cs) as [[rs' k']|]; [|discriminate].
  injection E as E. specialize (IH rs' k' eq_refl). unfold handle in H.
  destruct (gc_intra c) eqn:G.
  { injection H as <-. injection E as <- <-. now apply ch_intra. }
  destruct (Z.eqb_spec (fst (gc_submap c)) 0) as [S0 | S0]; [|discriminate].
  destruct (Z.eqb_spec (fst (gc_node c)) 0) as [N0 | N0]; [|discriminate]. cbn [andb] in H.
  assert (T0 : of_trajectory_0 c) by (split; assumption).
  destruct (Z.leb_spec (Z.of_nat (length reps)) (snd (gc_submap c))) as [L | L].
  { injection H as <-. injection E as <- <-. apply ch_last; auto; [lia|].
    intros n Rn. apply (reps_rep _ _ _ _ Rp) in Rn. destruct Rn as [Z0 Rn].
    assert (Z.to_nat (snd (gc_submap c)) < length reps)%nat by (apply nth_error_Some; congruence). lia. }
  destruct (at_index reps (snd (gc_submap c))) as [i|] eqn:I; [|discriminate].
  apply at_is in I. apply (reps_rep _ _ _ _ Rp) in I.
  destruct (at_index cov (snd (gc_node c))) as [d2|] eqn:D2; [|discriminate].
  destruct (at_index cov i) as [d1|] eqn:D1; [|discriminate].
  destruct (proj1 (cov_at i) (ex_intro _ _ D1)) as [n1 A1].
  destruct (proj1 (cov_at (snd (gc_node c))) (ex_intro _ _ D2)) as [n2 A2].
  rewrite (between t cov i (snd (gc_node c)) d1 d2 U C D1 D2) in H.
  assert (K : covers t cs0 (snd (gc_submap c)) i c (travelled (positions (tr_nodes t)) i (snd (gc_node c))) n1 n2)
    by (repeat split; auto; apply A1 || apply A2 || apply I).
  destruct (Rlt_dec _ min_covered) as [Q | Q].
  { injection H as <-. injection E as <- <-. eapply ch_near; eauto. }
  rewrite (proj2 (at_is _ _ _) A1), (proj2 (at_is _ _ _) A2) in H.
  destruct (at_index (tr_submaps t) (snd (gc_submap c))) as [sm|] eqn:SM; [|discriminate]. apply at_is in SM.
  injection H as H. apply Rnot_lt_le in Q.
  destruct (judge_bad c n1 n2 sm _ _ _ (travelled (positions (tr_nodes t)) i (snd (gc_node c))) A1 A2 SM Uc) as [[B J] | [B J]];
    rewrite J in H; subst o; injection E as <- <-.
  - eapply ch_bad; eauto.
  - eapply ch_keep; eauto.
Qed.
Lemma chosen_generate cs rs k : unit_constraints cs -> chosen t cs0 min_covered meters radians cs rs k ->
  generate_from t cov reps min_covered meters radians cs = Some (rs, k).
Proof.
  intros UC H. induction H as [|c cs rs k G H IH|c cs rs k G T0 Z0 NR H IH|c cs rs k s i d n1 n2 K Q H IH
    |c cs rs k s i d n1 n2 sm K Q SM B H IH|c cs rs k s i d n1 n2 sm K Q SM B H IH];
    [reflexivity|..]; inversion UC as [|? ? Uc UC']; subst; specialize (IH UC'); cbn [generate_from]; rewrite IH; clear IH.
  - unfold handle. rewrite G. reflexivity.
  - unfold handle. rewrite G. destruct T0 as [-> ->]. cbn [Z.eqb andb].
    destruct (Z.leb_spec (Z.of_nat (length reps)) (snd (gc_submap c))) as [L | L]; [reflexivity|]. exfalso.
    destruct (nth_error reps (Z.to_nat (snd (gc_submap c)))) as [n|] eqn:N.
    + apply (NR n). apply (reps_rep _ _ _ _ Rp). split; auto.
    + apply nth_error_None in N. lia.
  - destruct K as [G [[S0 N0] [S [I [A1 [A2 D]]]]]]. subst s d.
    destruct (proj2 (cov_at i) (ex_intro _ _ A1)) as [d1 D1]. destruct (proj2 (cov_at _) (ex_intro _ _ A2)) as [d2 D2].
    apply (reps_rep _ _ _ _ Rp) in I. pose proof (proj2 (at_is _ _ _) I) as I'. destruct I as [Z0 I].
    assert (Z.to_nat (snd (gc_submap c)) < length reps)%nat by (apply nth_error_Some; congruence).
    unfold handle. rewrite G, S0, N0. cbn [Z.eqb andb].
    destruct (Z.leb_spec (Z.of_nat (length reps)) (snd (gc_submap c))) as [L | L]; [lia|].
    rewrite I', D1, D2, (between t cov i (snd (gc_node c)) d1 d2 U C D1 D2).
    destruct (Rlt_dec _ min_covered) as [_ | W]; [reflexivity|contradiction].
  - destruct K as [G [[S0 N0] [S [I [A1 [A2 D]]]]]]. subst s d.
    destruct (proj2 (cov_at i) (ex_intro _ _ A1)) as [d1 D1]. destruct (proj2 (cov_at _) (ex_intro _ _ A2)) as [d2 D2].
    apply (reps_rep _ _ _ _ Rp) in I. pose proof (proj2 (at_is _ _ _) I) as I'. destruct I as [Z0 I].
    assert (Z.to_nat (snd (gc_submap c)) < length reps)%nat by (apply nth_error_Some; congruence).
    unfold handle. rewrite G, S0, N0. cbn [Z.eqb andb].
    destruct (Z.leb_spec (Z.of_nat (length reps)) (snd (gc_submap c))) as [L | L]; [lia|].
    rewrite I', D1, D2, (between t cov i (snd (gc_node c)) d1 d2 U C D1 D2).
    destruct (Rlt_dec _ min_covered) as [W | _]; [lra|].
    rewrite (proj2 (at_is _ _ _) A1), (proj2 (at_is _ _ _) A2), (proj2 (at_is _ _ _) SM).
    destruct (judge_bad c n1 n2 sm _ _ _ (travelled (positions (tr_nodes t)) i (snd (gc_node c))) A1 A2 SM Uc) as [[_ J] | [B' _]];
      [rewrite J; reflexivity|contradiction].
  - destruct K as [G [[S0 N0] [S [I [A1 [A2 D]]]]]]. subst s d.
    destruct (proj2 (cov_at i) (ex_intro _ _ A1)) as [d1 D1]. destruct (proj2 (cov_at _) (ex_intro _ _ A2)) as [d2 D2].
    apply (reps_rep _ _ _ _ Rp) in I. pose proof (proj2 (at_is _ _ _) I) as I'. destruct I as [Z0 I].
    assert (Z.to_nat (snd (gc_submap c)) < length reps)%nat by (apply nth_error_Some; congruence).
    unfold handle. rewrite G, S0, N0. cbn [Z.eqb andb].
    destruct (Z.leb_spec (Z.of_nat (length reps)) (snd (gc_submap c))) as [L | L]; [lia|].
    rewrite I', D1, D2, (between t cov i (snd (gc_node c)) d1 d2 U C D1 D2).
    destruct (Rlt_dec _ min_covered) as [W | _]; [lra|].
    rewrite (proj2 (at_is _ _ _) A1), (proj2 (at_is _ _ _) A2), (proj2 (at_is _ _ _) SM).
    destruct (judge_bad c n1 n2 sm _ _ _ (travelled (positions (tr_nodes t)) i (snd (gc_node c))) A1 A2 SM Uc) as [[B' _] | [_ J]];
      [contradiction|rewrite J; reflexivity].
Qed.
End Generate.
