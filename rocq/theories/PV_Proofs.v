(* Conversion round trips and lookup table facts, from the error bounds of PV_Near. *)
From Coq Require Import ZArith Bool Reals Lia Lra SpecFloat.
From Flocq Require Import Core.Core IEEE754.BinarySingleNaN.
From Verif Require Import Float32 FloatR Float32_Proofs PV_Model PV_Bounded PV_Near.
Open Scope R_scope.

Lemma prob_round v : (1 <= v <= 32767)%Z -> prob_to_value (value_to_prob v) = Some v.
Proof.
  intros H. destruct (prob_of v H) as [V [F [_ E]]]. apply prob_eq; auto. lra.
Qed.
Lemma cost_round v : (1 <= v <= 32767)%Z -> cost_to_value (value_to_cost v) = Some v.
Proof.
  intros H. destruct (cost_of v H) as [V [F [_ E]]]. apply cost_eq; auto. lra.
Qed.

Lemma ideal01 v : (1 <= v <= 32767)%Z -> 0 <= ideal v <= 1.
Proof. intros H. pose proof (ideal_bound v H). lra. Qed.

Lemma prob_compl v : (1 <= v <= 32767)%Z ->
  cost_to_value (one_minus (value_to_prob v)) = Some (32768 - v)%Z.
Proof.
  intros H. destruct (prob_of v H) as [V [F [_ E]]].
  destruct (compl_near _ _ (8 * u24) V F (ideal01 v H) ltac:(lra) E) as [V1 [F1 E1]].
  rewrite ideal_compl in E1. apply cost_eq; auto; [lia | lra].
Qed.
Lemma cost_compl v : (1 <= v <= 32767)%Z ->
  prob_to_value (one_minus (value_to_cost v)) = Some (32768 - v)%Z.
Proof.
  intros H. destruct (cost_of v H) as [V [F [_ E]]].
  destruct (compl_near _ _ (8 * u24) V F (ideal01 v H) ltac:(lra) E) as [V1 [F1 E1]].
  rewrite ideal_compl in E1. apply prob_eq; auto; [lia | lra].
Qed.
Lemma crop_value v : (1 <= v <= 32767)%Z ->
  cost_to_value (one_minus (one_minus (value_to_cost v))) = Some v.
Proof.
  intros H. destruct (cost_of v H) as [V [F [_ E]]].
  destruct (compl_near _ _ (8 * u24) V F (ideal01 v H) ltac:(lra) E) as [V1 [F1 E1]].
  assert (H' : (1 <= 32768 - v <= 32767)%Z) by lia.
  rewrite ideal_compl in E1.
  destruct (compl_near _ _ (8 * u24 + 2 * u24) V1 F1 (ideal01 _ H') ltac:(lra) E1) as [V2 [F2 E2]].
  rewrite ideal_compl in E2. replace (32768 - (32768 - v))%Z with v in E2 by lia.
  apply cost_eq; auto. lra.
Qed.

Lemma prob_strict u v : (1 <= u)%Z -> (u < v)%Z -> (v <= 32767)%Z ->
  fltb (value_to_prob u) (value_to_prob v) = true.
Proof.
  intros H1 H2 H3. destruct (prob_of u ltac:(lia)) as [Vu [Fu [_ Eu]]].
  destruct (prob_of v ltac:(lia)) as [Vv [Fv [_ Ev]]]. apply fltb_ok; auto.
  pose proof (ideal_gap u v H2). apply Rabs_le_inv in Eu. apply Rabs_le_inv in Ev. lra.
Qed.
Lemma cost_strict u v : (1 <= u)%Z -> (u < v)%Z -> (v <= 32767)%Z ->
  fltb (value_to_cost u) (value_to_cost v) = true.
Proof.
  intros H1 H2 H3. destruct (cost_of u ltac:(lia)) as [Vu [Fu [_ Eu]]].
  destruct (cost_of v ltac:(lia)) as [Vv [Fv [_ Ev]]]. apply fltb_ok; auto.
  pose proof (ideal_gap u v H2). apply Rabs_le_inv in Eu. apply Rabs_le_inv in Ev. lra.
Qed.

(* only the two end points need computing *)
Lemma ends : fleb kMinProbability (value_to_prob 1) = true /\
  fleb (value_to_prob 32767) kMaxProbability = true /\
  fleb kMinCost (value_to_cost 1) = true /\ fleb (value_to_cost 32767) kMaxCost = true.
Proof. vm_compute. repeat split. Qed.

Lemma in_bounds v : (1 <= v <= 32767)%Z ->
  fleb kMinProbability (value_to_prob v) = true /\ fleb (value_to_prob v) kMaxProbability = true /\
  fleb kMinCost (value_to_cost v) = true /\ fleb (value_to_cost v) kMaxCost = true.
Proof.
  intros H. destruct ends as [A1 [A2 [A3 A4]]].
  destruct (prob_of 1 ltac:(lia)) as [V1 [F1 [E1 _]]].
  destruct (prob_of 32767 ltac:(lia)) as [V2 [F2 [E2 _]]].
  destruct (cost_of 1 ltac:(lia)) as [V3 [F3 [E3 _]]].
  destruct (cost_of 32767 ltac:(lia)) as [V4 [F4 [E4 _]]].
  destruct (prob_of v H) as [V5 [F5 [E5 _]]]. destruct (cost_of v H) as [V6 [F6 [E6 _]]].
  pose proof prob_bounds as (PL & PH & PFL & PFH & _).
  pose proof cost_bounds as (CL & CH & CFL & CFH & _).
  apply (fleb_ok _ _ PL V1 PFL F1) in A1. apply (fleb_ok _ _ V2 PH F2 PFH) in A2.
  apply (fleb_ok _ _ CL V3 CFL F3) in A3. apply (fleb_ok _ _ V4 CH F4 CFH) in A4.
  pose proof (back_le _ _ p_Es 1 v ltac:(lia)).
  pose proof (back_le _ _ p_Es v 32767 ltac:(lia)).
  pose proof (back_le _ _ c_Es 1 v ltac:(lia)).
  pose proof (back_le _ _ c_Es v 32767 ltac:(lia)).
  rewrite <- ?E1, <- ?E2, <- ?E3, <- ?E4, <- ?E5, <- ?E6 in *.
  repeat split; apply fleb_ok; auto; lra.
Qed.

(* the float written by a table entry, and the real number it is near *)
Definition oksz (o : f32) : Prop := valid32 o /\ ffin o /\ 0 <= fval o <= IZR (2 ^ 64).
Definition pcell (v : Z) : R := fval (value_to_prob v).
Definition ccell (v : Z) : R := fval (one_minus (value_to_cost v)).

Lemma pcell_near v : (1 <= v <= 32767)%Z -> Rabs (pcell v - ideal v) <= 8 * u24 /\ 9 / 100 <= pcell v <= 91 / 100.
Proof.
  intros H. destruct (prob_of v H) as [_ [_ [_ E]]]. pose proof (ideal_bound v H). unfold pcell.
  split; [exact E|]. apply Rabs_le_inv in E. lra.
Qed.
Lemma ccell_near v : (1 <= v <= 32767)%Z ->
  valid32 (one_minus (value_to_cost v)) /\ ffin (one_minus (value_to_cost v)) /\
  Rabs (ccell v - (1 - ideal v)) <= 10 * u24 /\ 9 / 100 <= ccell v <= 91 / 100.
Proof.
  intros H. destruct (cost_of v H) as [V [F [_ E]]].
  destruct (compl_near _ _ (8 * u24) V F (ideal01 v H) ltac:(lra) E) as [V1 [F1 E1]].
  pose proof (ideal_bound v H). unfold ccell. split; [exact V1|]. split; [exact F1|].
  split; [lra|]. apply Rabs_le_inv in E1. lra.
Qed.

Lemma entry_prob o v : oksz o -> (1 <= v <= 32767)%Z -> exists q r,
  apply_odds o v = Some (r + kUpdateMarker)%Z /\ prob_to_value q = Some r /\ (1 <= r <= 32767)%Z /\
  valid32 q /\ ffin q /\ Rabs (fval q - upd (fval o) (pcell v)) <= 10 * u24.
Proof.
  intros [Vo [Fo Bo]] H. destruct (prob_of v H) as [V [F _]]. destruct (pcell_near v H) as [_ Bp].
  destruct (upd_near o _ Vo Fo Bo V F Bp) as [Vq [Fq [Eq _]]].
  destruct (range_of _ _ _ prob_bounds Vq (fin_not_nan _ Fq)) as [r [Er Br]].
  exists (probability_from_odds (fmul o (odds (value_to_prob v)))), r.
  split; [|split; [exact Er | auto]].
  unfold apply_odds. destruct (Z.eqb_spec v 0); [lia|]. unfold prob_to_value. rewrite Er. reflexivity.
Qed.

Lemma entry_cost o v : oksz o -> (1 <= v <= 32767)%Z -> exists q r,
  apply_cost_odds o v = Some (r + kUpdateMarker)%Z /\ cost_to_value q = Some r /\ (1 <= r <= 32767)%Z /\
  valid32 q /\ ffin q /\ Rabs (fval q - (1 - upd (fval o) (ccell v))) <= 12 * u24.
Proof.
  intros [Vo [Fo Bo]] H. destruct (ccell_near v H) as [V [F [_ Bp]]].
  destruct (upd_near o _ Vo Fo Bo V F Bp) as [Vq [Fq [Eq Bq]]].
  destruct (compl_near _ _ (10 * u24) Vq Fq Bq ltac:(lra) Eq) as [Vm [Fm Em]].
  destruct (range_of _ _ _ cost_bounds Vm (fin_not_nan _ Fm)) as [r [Er Br]].
  eexists; exists r. split; [|split; [exact Er|]].
  - unfold apply_cost_odds. destruct (Z.eqb_spec v 0); [lia|]. unfold cost_to_value. rewrite Er. reflexivity.
  - split; [exact Br|]. split; [exact Vm|]. split; [exact Fm|].
    eapply Rle_trans; [exact Em|]. lra.
Qed.

Lemma range64 lo o hi : valid32 lo -> ffin lo -> valid32 hi -> ffin hi -> valid32 o ->
  fleb lo o = true -> fleb o hi = true -> ffin o /\ fval lo <= fval o <= fval hi.
Proof.
  intros V1 F1 V2 F2 V L1 L2.
  assert (Fo : ffin o) by (eapply between_fin; [exact F1 | exact F2 | exact L1 | exact L2]).
  apply (fleb_ok _ _ V1 V F1 Fo) in L1. apply (fleb_ok _ _ V V2 Fo F2) in L2. auto.
Qed.
Lemma big64 : 1 <= IZR (2 ^ 64).
Proof. apply IZR_le. discriminate. Qed.

Lemma oksz_hit o : valid32 o -> fleb f_one o = true -> fleb o two64 = true -> oksz o /\ 1 <= fval o.
Proof.
  intros V L1 L2. destruct one_val as [V1 [F1 E1]]. destruct two64_val as [V2 [F2 E2]].
  destruct (range64 _ o _ V1 F1 V2 F2 V L1 L2) as [F B]. rewrite E1, E2 in B. repeat split; auto; lra.
Qed.
Lemma oksz_miss o : valid32 o -> fleb fzero o = true -> fleb o f_one = true -> oksz o /\ fval o <= 1.
Proof.
  intros V L1 L2. destruct zero_val as [V1 [F1 E1]]. destruct one_val as [V2 [F2 E2]].
  destruct (range64 _ o _ V1 F1 V2 F2 V L1 L2) as [F B]. rewrite E1, E2 in B. pose proof big64.
  repeat split; auto; lra.
Qed.
Lemma oksz_all o : valid32 o -> fleb fzero o = true -> fleb o two64 = true -> oksz o.
Proof.
  intros V L1 L2. destruct zero_val as [V1 [F1 E1]]. destruct two64_val as [V2 [F2 E2]].
  destruct (range64 _ o _ V1 F1 V2 F2 V L1 L2) as [F B]. rewrite E1, E2 in B. repeat split; auto; lra.
Qed.

Lemma hit_prob o v : oksz o -> 1 <= fval o -> (1 <= v <= 32767)%Z ->
  exists r, apply_odds o v = Some (r + kUpdateMarker)%Z /\ (v <= r <= 32767)%Z.
Proof.
  intros O L H. destruct (entry_prob o v O H) as [q [r [Er [Eq [Br [Vq [Fq Nq]]]]]]].
  destruct (pcell_near v H) as [Np Bp]. pose proof (upd_ge _ _ L Bp).
  apply Rabs_le_inv in Nq. apply Rabs_le_inv in Np.
  exists r. split; [exact Er|]. split; [|lia]. apply (prob_ge q v r Vq Fq H); [lra | exact Eq].
Qed.
Lemma miss_prob o v : oksz o -> fval o <= 1 -> (1 <= v <= 32767)%Z ->
  exists r, apply_odds o v = Some (r + kUpdateMarker)%Z /\ (1 <= r <= v)%Z.
Proof.
  intros O L H. destruct (entry_prob o v O H) as [q [r [Er [Eq [Br [Vq [Fq Nq]]]]]]].
  destruct (pcell_near v H) as [Np Bp]. destruct O as [_ [_ O]].
  pose proof (upd_le _ _ (conj (proj1 O) L) Bp).
  apply Rabs_le_inv in Nq. apply Rabs_le_inv in Np.
  exists r. split; [exact Er|]. split; [lia|]. apply (prob_le q v r Vq Fq H); [lra | exact Eq].
Qed.
Lemma hit_cost o v : oksz o -> 1 <= fval o -> (1 <= v <= 32767)%Z ->
  exists r, apply_cost_odds o v = Some (r + kUpdateMarker)%Z /\ (1 <= r <= v)%Z.
Proof.
  intros O L H. destruct (entry_cost o v O H) as [q [r [Er [Eq [Br [Vq [Fq Nq]]]]]]].
  destruct (ccell_near v H) as [_ [_ [Np Bp]]]. pose proof (upd_ge _ _ L Bp).
  apply Rabs_le_inv in Nq. apply Rabs_le_inv in Np.
  exists r. split; [exact Er|]. split; [lia|]. apply (cost_le q v r Vq Fq H); [lra | exact Eq].
Qed.
Lemma miss_cost o v : oksz o -> fval o <= 1 -> (1 <= v <= 32767)%Z ->
  exists r, apply_cost_odds o v = Some (r + kUpdateMarker)%Z /\ (v <= r <= 32767)%Z.
Proof.
  intros O L H. destruct (entry_cost o v O H) as [q [r [Er [Eq [Br [Vq [Fq Nq]]]]]]].
  destruct (ccell_near v H) as [_ [_ [Np Bp]]]. destruct O as [_ [_ O]].
  pose proof (upd_le _ _ (conj (proj1 O) L) Bp).
  apply Rabs_le_inv in Nq. apply Rabs_le_inv in Np.
  exists r. split; [exact Er|]. split; [|lia]. apply (cost_ge q v r Vq Fq H); [lra | exact Eq].
Qed.

Lemma ideal1 : ideal 1 = / 10. Proof. unfold ideal. lra. Qed.
Lemma ideal32767 : ideal 32767 = 9 / 10. Proof. unfold ideal. lra. Qed.

Lemma mono_prob o u v a b : oksz o -> (1 <= u)%Z -> (u <= v)%Z -> (v <= 32767)%Z ->
  apply_odds o u = Some a -> apply_odds o v = Some b -> (a <= b)%Z.
Proof.
  intros O H1 H2 H3 Ea Eb. destruct (Z.eq_dec u v) as [-> | N]; [rewrite Ea in Eb; inversion Eb; lia|].
  destruct (entry_prob o u O ltac:(lia)) as [q [r [Er [Eq [Br [Vq [Fq Nq]]]]]]].
  destruct (entry_prob o v O ltac:(lia)) as [q' [r' [Er' [Eq' [Br' [Vq' [Fq' Nq']]]]]]].
  rewrite Er in Ea. rewrite Er' in Eb. injection Ea as <-. injection Eb as <-. apply Z.add_le_mono_r.
  destruct (pcell_near u ltac:(lia)) as [Nu Bu]. destruct (pcell_near v ltac:(lia)) as [Nv Bv].
  pose proof (ideal_gap u v ltac:(lia)) as G.
  apply Rabs_le_inv in Nq. apply Rabs_le_inv in Nq'. apply Rabs_le_inv in Nu. apply Rabs_le_inv in Nv.
  destruct (Rle_or_lt (/ 10) (upd (fval o) (pcell u))) as [LA | LA].
  2:{ enough (r <= 1)%Z by lia. apply (prob_le q 1 r Vq Fq ltac:(lia)); [rewrite ideal1; lra | exact Eq]. }
  destruct (Rle_or_lt (upd (fval o) (pcell v)) (9 / 10)) as [LB | LB].
  2:{ enough (32767 <= r')%Z by lia. apply (prob_ge q' 32767 r' Vq' Fq' ltac:(lia)); [rewrite ideal32767; lra | exact Eq']. }
  destruct O as [_ [_ Bo]].
  pose proof (upd_gap (fval o) (pcell u) (pcell v) ltac:(lra) ltac:(lra) ltac:(lra) ltac:(lra) LA LB).
  apply (mono_of _ _ q q' r r' prob_bounds Vq Vq' (fin_not_nan _ Fq) (fin_not_nan _ Fq')); [|exact Eq | exact Eq'].
  apply fleb_ok; auto. lra.
Qed.

Lemma mono_cost o u v a b : oksz o -> (1 <= u)%Z -> (u <= v)%Z -> (v <= 32767)%Z ->
  apply_cost_odds o u = Some a -> apply_cost_odds o v = Some b -> (a <= b)%Z.
Proof.
  intros O H1 H2 H3 Ea Eb. destruct (Z.eq_dec u v) as [-> | N]; [rewrite Ea in Eb; inversion Eb; lia|].
  destruct (entry_cost o u O ltac:(lia)) as [q [r [Er [Eq [Br [Vq [Fq Nq]]]]]]].
  destruct (entry_cost o v O ltac:(lia)) as [q' [r' [Er' [Eq' [Br' [Vq' [Fq' Nq']]]]]]].
  rewrite Er in Ea. rewrite Er' in Eb. injection Ea as <-. injection Eb as <-. apply Z.add_le_mono_r.
  destruct (ccell_near u ltac:(lia)) as [_ [_ [Nu Bu]]]. destruct (ccell_near v ltac:(lia)) as [_ [_ [Nv Bv]]].
  pose proof (ideal_gap u v ltac:(lia)) as G.
  apply Rabs_le_inv in Nq. apply Rabs_le_inv in Nq'. apply Rabs_le_inv in Nu. apply Rabs_le_inv in Nv.
  destruct (Rle_or_lt (/ 10) (upd (fval o) (ccell v))) as [LA | LA].
  2:{ enough (32767 <= r')%Z by lia. apply (cost_ge q' 32767 r' Vq' Fq' ltac:(lia)); [rewrite ideal32767; lra | exact Eq']. }
  destruct (Rle_or_lt (upd (fval o) (ccell u)) (9 / 10)) as [LB | LB].
  2:{ enough (r <= 1)%Z by lia. apply (cost_le q 1 r Vq Fq ltac:(lia)); [rewrite ideal1; lra | exact Eq]. }
  destruct O as [_ [_ Bo]].
  pose proof (upd_gap (fval o) (ccell v) (ccell u) ltac:(lra) ltac:(lra) ltac:(lra) ltac:(lra) LA LB).
  apply (mono_of _ _ q q' r r' cost_bounds Vq Vq' (fin_not_nan _ Fq) (fin_not_nan _ Fq')); [|exact Eq | exact Eq'].
  apply fleb_ok; auto. lra.
Qed.

Lemma unknown_entry o : valid32 o -> fleb fzero o = true -> fleb o two64 = true ->
  (exists r, apply_odds o 0 = Some (r + kUpdateMarker)%Z /\ (1 <= r <= 32767)%Z) /\
  (exists r, apply_cost_odds o 0 = Some (r + kUpdateMarker)%Z /\ (1 <= r <= 32767)%Z).
Proof.
  intros Vo L1 L2. destruct two64_val as [V1 [F1 E1]]. destruct zero_val as [V6 [F6 E6]].
  assert (Fo : ffin o) by (eapply between_fin; [exact F6 | exact F1 | exact L1 | exact L2]).
  apply (fleb_ok _ _ V6 Vo F6 Fo) in L1. apply (fleb_ok _ _ Vo V1 Fo F1) in L2.
  rewrite E6 in L1. rewrite E1 in L2.
  assert (P90 : IZR (2 ^ 64) <= IZR (2 ^ 90)) by (apply IZR_le; discriminate).
  destruct (pfo_ok _ Vo Fo ltac:(lra)) as [Vr [Fr _]].
  pose proof (pfo_abs _ Vo Fo ltac:(lra)) as Ax.
  destruct (one_minus_ok _ Vr Fr ltac:(lra)) as [Vm [Fm _]].
  split.
  - destruct (range_of _ _ _ prob_bounds Vr (fin_not_nan _ Fr)) as [r [Er Br]].
    exists r. split; [|exact Br]. unfold apply_odds, prob_to_value. cbn [Z.eqb]. now rewrite Er.
  - destruct (range_of _ _ _ cost_bounds Vm (fin_not_nan _ Fm)) as [r [Er Br]].
    exists r. split; [|exact Br]. unfold apply_cost_odds, cost_to_value. cbn [Z.eqb]. now rewrite Er.
Qed.

Lemma le64 o : valid32 o -> fleb fzero o = true -> fleb o two64 = true ->
  fleb f_one o = true \/ fleb o f_one = true.
Proof.
  intros V L1 L2. destruct one_val as [V1 [F1 E1]].
  destruct two64_val as [V2 [F2 _]]. destruct zero_val as [V6 [F6 _]].
  assert (Fo : ffin o) by (eapply between_fin; [exact F6 | exact F2 | exact L1 | exact L2]).
  destruct (Rle_or_lt (fval f_one) (fval o)) as [H | H]; [left | right].
  - now apply fleb_ok.
  - apply fleb_ok; auto. lra.
Qed.
