(* The quantization of floats to cell values, and single operations, with real-number
   semantics. *)
From Coq Require Import ZArith Bool Reals Lia Lra SpecFloat.
From Flocq Require Import Core.Core IEEE754.BinarySingleNaN.
From Verif Require Import Float32 FloatR Float32_Proofs PV_Model.
Open Scope R_scope.

Definition not_nan (x : f32) : Prop := x <> S754_nan.

Lemma bpow128 : IZR (2 ^ 100) < bpow radix2 128.
Proof. rewrite <- (IZR_Zpower radix2) by lia. apply IZR_lt. reflexivity. Qed.

Lemma rnd32_0 : rnd32 0 = 0.
Proof. apply round_0. typeclasses eauto. Qed.

Ltac kill_inf := exfalso;
  match goal with
  | H : fltb ?a ?b = _, F : ffin ?a |- _ =>
      is_var a; clear - H F; destruct a as [? | [] | | []]; cbn in *; discriminate
  | H : fltb ?b ?a = _, F : ffin ?a |- _ =>
      is_var a; clear - H F; destruct a as [? | [] | | []]; cbn in *; discriminate
  end.

Section Bounded.
Variables lo hi : f32.
Hypothesis Vlo : valid32 lo.
Hypothesis Vhi : valid32 hi.
Hypothesis Flo : ffin lo.
Hypothesis Fhi : ffin hi.
Hypothesis Lh : fval lo <= fval hi.
Let S := fdiv (f_of_Z 32766) (fsub hi lo).
Hypothesis FS : ffin S.
Hypothesis PS : 0 <= fval S.
Hypothesis FD : ffin (fsub hi lo).
Hypothesis VD : fval (fsub hi lo) <= IZR (2 ^ 100).
Hypothesis Small : Rabs (rnd32 (fval hi - fval lo)) < bpow radix2 128.
Hypothesis Small2 : fval (fmul (fsub hi lo) S) <= 65536.
Hypothesis Small3 : Rabs (rnd32 (fval (fsub hi lo) * fval S)) < bpow radix2 128.

Lemma VS : valid32 S.
Proof. apply fdiv_valid; [apply f_of_Z_valid | now apply fsub_valid]. Qed.

Lemma fclamp_ok x : valid32 x -> not_nan x ->
  valid32 (fclamp x lo hi) /\ ffin (fclamp x lo hi) /\
  fval lo <= fval (fclamp x lo hi) <= fval hi.
Proof.
  intros V N. unfold fclamp. destruct (fltb hi x) eqn:E1.
  { repeat split; auto; lra. }
  destruct (fltb x lo) eqn:E2.
  { repeat split; auto; lra. }
  assert (F : ffin x).
  { destruct x as [s | [] | | s m e]; try reflexivity.
    - exfalso. clear - E2 Flo. destruct lo as [? | [] | | []]; try discriminate; cbn in E2; discriminate.
    - exfalso. clear - E1 Fhi. destruct hi as [? | [] | | []]; try discriminate; cbn in E1; discriminate.
    - now elim N. }
  repeat split; auto.
  - destruct (Rle_or_lt (fval lo) (fval x)) as [H | H]; [exact H|].
    apply (fltb_ok x lo V Vlo F Flo) in H. congruence.
  - destruct (Rle_or_lt (fval x) (fval hi)) as [H | H]; [exact H|].
    apply (fltb_ok hi x Vhi V Fhi F) in H. congruence.
Qed.

Lemma fclamp_mono x y : valid32 x -> valid32 y -> not_nan x -> not_nan y ->
  fleb x y = true -> fval (fclamp x lo hi) <= fval (fclamp y lo hi).
Proof.
  intros Vx Vy Nx Ny L.
  destruct (fclamp_ok x Vx Nx) as [_ [_ Bx]]. destruct (fclamp_ok y Vy Ny) as [_ [_ By]].
  unfold fclamp in *.
  destruct (fltb hi x) eqn:X1; [|destruct (fltb x lo) eqn:X2; [lra|]];
  (destruct (fltb hi y) eqn:Y1; [try lra|destruct (fltb y lo) eqn:Y2; [try lra|]]).
  - (* x > hi, y < lo *)
    exfalso. destruct x as [s1 | [] | | [] m1 e1], y as [s2 | [] | | [] m2 e2];
      try discriminate; try now elim Nx; try now elim Ny.
    all: try kill_inf.
    all: match goal with Vx : valid32 ?a, Vy : valid32 ?b, X1 : fltb hi ?a = true |- _ =>
      assert (Fa : ffin a) by reflexivity; assert (Fb : ffin b) by reflexivity;
      apply (fltb_ok _ _ Vhi Vx Fhi Fa) in X1; apply (fltb_ok _ _ Vy Vlo Fb Flo) in Y2;
      apply (fleb_ok _ _ Vx Vy Fa Fb) in L; lra end.
  - exfalso. destruct x as [s1 | [] | | [] m1 e1], y as [s2 | [] | | [] m2 e2];
      try discriminate; try now elim Nx; try now elim Ny.
    all: try kill_inf.
    all: match goal with Vx : valid32 ?a, Vy : valid32 ?b, X1 : fltb hi ?a = true |- _ =>
      assert (Fa : ffin a) by reflexivity; assert (Fb : ffin b) by reflexivity;
      apply (fltb_ok _ _ Vhi Vx Fhi Fa) in X1;
      apply (fleb_ok _ _ Vx Vy Fa Fb) in L;
      assert (Hc : fltb hi b = true) by (apply (fltb_ok _ _ Vhi Vy Fhi Fb); lra); congruence end.
  - exfalso. destruct x as [s1 | [] | | [] m1 e1], y as [s2 | [] | | [] m2 e2];
      try discriminate; try now elim Nx; try now elim Ny.
    all: try kill_inf.
    all: match goal with Vx : valid32 ?a, Vy : valid32 ?b, X1 : fltb hi ?a = false |- _ =>
      assert (Fa : ffin a) by reflexivity; assert (Fb : ffin b) by reflexivity;
      apply (fltb_ok _ _ Vy Vlo Fb Flo) in Y2;
      apply (fleb_ok _ _ Vx Vy Fa Fb) in L;
      assert (Hc : fltb a lo = true) by (apply (fltb_ok _ _ Vx Vlo Fa Flo); lra); congruence end.
  - destruct x as [s1 | [] | | [] m1 e1], y as [s2 | [] | | [] m2 e2];
      try discriminate; try now elim Nx; try now elim Ny.
    all: try kill_inf.
    all: match goal with Vx : valid32 ?a, Vy : valid32 ?b, X1 : fltb hi ?a = false, Y1 : fltb hi ?b = false |- _ =>
      apply (fleb_ok a b Vx Vy); [reflexivity | reflexivity | exact L] end.
Qed.

Definition scaled (c : f32) : f32 := fmul (fsub c lo) S.

Lemma scaled_ok c : valid32 c -> ffin c -> fval lo <= fval c <= fval hi ->
  ffin (scaled c) /\ fval (scaled c) = rnd32 (rnd32 (fval c - fval lo) * fval S) /\
  0 <= fval (scaled c) <= 65536.
Proof.
  intros V F [L1 L2]. pose proof VS as HVS.
  assert (B : 0 <= rnd32 (fval c - fval lo) <= rnd32 (fval hi - fval lo)).
  { split; [rewrite <- rnd32_0|]; apply rnd32_le; lra. }
  pose proof (fsub_ok hi lo Vhi Vlo Fhi Flo Small) as [_ D].
  rewrite D in VD, Small3.
  assert (Sm : Rabs (rnd32 (fval c - fval lo)) < bpow radix2 128).
  { rewrite Rabs_pos_eq by lra. pose proof bpow128. lra. }
  destruct (fsub_ok c lo V Vlo F Flo Sm) as [F1 E1].
  assert (B2 : 0 <= rnd32 (fval c - fval lo) * fval S <= rnd32 (fval hi - fval lo) * fval S).
  { split; [apply Rmult_le_pos; lra | apply Rmult_le_compat_r; lra]. }
  assert (B3 : 0 <= rnd32 (rnd32 (fval c - fval lo) * fval S)
               <= rnd32 (rnd32 (fval hi - fval lo) * fval S)).
  { split; [rewrite <- rnd32_0 at 1|]; apply rnd32_le; lra. }
  assert (Sm2 : Rabs (rnd32 (fval (fsub c lo) * fval S)) < bpow radix2 128).
  { rewrite E1. eapply Rle_lt_trans; [|exact Small3].
    rewrite !Rabs_pos_eq by lra. lra. }
  destruct (fmul_ok (fsub c lo) S (fsub_valid _ _ V Vlo) HVS F1 FS Sm2) as [F2 E2].
  rewrite E1 in E2. unfold scaled. split; [exact F2|]. split; [exact E2|].
  rewrite E2. split; [lra|]. eapply Rle_trans; [apply B3|].
  rewrite <- D in Small3.
  destruct (fmul_ok (fsub hi lo) S (fsub_valid _ _ Vhi Vlo) HVS FD FS Small3) as [_ E3].
  rewrite <- D, <- E3. exact Small2.
Qed.

Lemma bftv_ok x : valid32 x -> not_nan x ->
  exists v, bounded_float_to_value x lo hi = Some (v + 1)%Z /\
            nearest_away (fval (scaled (fclamp x lo hi))) v.
Proof.
  intros V N. destruct (fclamp_ok x V N) as [V1 [F1 B1]].
  destruct (scaled_ok _ V1 F1 B1) as [F2 [_ B2]].
  destruct (round_to_int_ok (scaled (fclamp x lo hi)) F2) as [v [E A]].
  { rewrite Rabs_pos_eq by lra. eapply Rle_lt_trans; [apply B2|]. apply IZR_lt. reflexivity. }
  exists v. split; [|exact A]. unfold bounded_float_to_value. fold S. fold (scaled (fclamp x lo hi)).
  now rewrite E.
Qed.

Lemma bftv_mono x y u v : valid32 x -> valid32 y -> not_nan x -> not_nan y ->
  fleb x y = true ->
  bounded_float_to_value x lo hi = Some u -> bounded_float_to_value y lo hi = Some v ->
  (u <= v)%Z.
Proof.
  intros Vx Vy Nx Ny L Hu Hv.
  destruct (bftv_ok x Vx Nx) as [a [Ea Aa]]. destruct (bftv_ok y Vy Ny) as [b [Eb Ab]].
  rewrite Ea in Hu. rewrite Eb in Hv. inversion Hu; inversion Hv; subst.
  apply Z.add_le_mono_r. eapply nearest_away_mono; [|exact Aa|exact Ab].
  destruct (fclamp_ok x Vx Nx) as [V1 [F1 B1]]. destruct (fclamp_ok y Vy Ny) as [V2 [F2 B2]].
  destruct (scaled_ok _ V1 F1 B1) as [_ [-> _]]. destruct (scaled_ok _ V2 F2 B2) as [_ [-> _]].
  pose proof (fclamp_mono x y Vx Vy Nx Ny L).
  apply rnd32_le. apply Rmult_le_compat_r; [exact PS|]. apply rnd32_le. lra.
Qed.

Lemma bftv_range x : valid32 x -> not_nan x ->
  bounded_float_to_value lo lo hi = Some 1%Z ->
  bounded_float_to_value hi lo hi = Some 32767%Z ->
  exists v, bounded_float_to_value x lo hi = Some v /\ (1 <= v <= 32767)%Z.
Proof.
  intros V N E1 E2. destruct (bftv_ok x V N) as [v [E A]]. exists (v + 1)%Z.
  split; [exact E|].
  destruct (fclamp_ok x V N) as [V1 [F1 B1]].
  assert (Nlo : not_nan lo) by (intros Hn; generalize Flo; rewrite Hn; discriminate).
  assert (Nhi : not_nan hi) by (intros Hn; generalize Fhi; rewrite Hn; discriminate).
  assert (Ec : bounded_float_to_value (fclamp x lo hi) lo hi = Some (v + 1)%Z).
  { rewrite <- E. unfold bounded_float_to_value.
    assert (C : fclamp (fclamp x lo hi) lo hi = fclamp x lo hi).
    { assert (G1 : fltb hi (fclamp x lo hi) = false).
      { destruct (fltb hi (fclamp x lo hi)) eqn:G; [|reflexivity].
        apply (fltb_ok _ _ Vhi V1 Fhi F1) in G. lra. }
      assert (G2 : fltb (fclamp x lo hi) lo = false).
      { destruct (fltb (fclamp x lo hi) lo) eqn:G; [|reflexivity].
        apply (fltb_ok _ _ V1 Vlo F1 Flo) in G. lra. }
      unfold fclamp at 1. rewrite G1. now rewrite G2. }
    now rewrite C. }
  assert (Nc : not_nan (fclamp x lo hi)) by (intros H; rewrite H in F1; discriminate).
  split.
  - refine (bftv_mono lo (fclamp x lo hi) _ _ Vlo V1 Nlo Nc _ E1 Ec).
    apply (fleb_ok _ _ Vlo V1 Flo F1). lra.
  - refine (bftv_mono (fclamp x lo hi) hi _ _ V1 Vhi Nc Nhi _ Ec E2).
    apply (fleb_ok _ _ V1 Vhi F1 Fhi). lra.
Qed.
End Bounded.

Lemma rnd32_small r : Rabs r <= IZR (2 ^ 99) -> Rabs (rnd32 r) < bpow radix2 128.
Proof.
  intros H. eapply Rle_lt_trans; [|exact bpow128].
  pose proof (rnd32_err r) as E.
  assert (T : / IZR (2 ^ 150) <= 1).
  { rewrite <- Rinv_1. apply Rinv_le; [lra|]. apply IZR_le. discriminate. }
  replace (rnd32 r) with ((rnd32 r - r) + r) by ring.
  eapply Rle_trans; [apply Rabs_triang|].
  pose proof (Rabs_pos r).
  replace (IZR (2 ^ 100)) with (2 * IZR (2 ^ 99)) by (rewrite <- mult_IZR; reflexivity).
  assert (2 <= IZR (2 ^ 99)) by (apply IZR_le; discriminate). lra.
Qed.

Lemma fval_pos m e : fval (S754_finite false m e) = IZR (Zpos m) * bpow radix2 e.
Proof. reflexivity. Qed.

Lemma bpow_neg k : bpow radix2 (- Zpos k) = / IZR (2 ^ Zpos k).
Proof. rewrite bpow_opp. rewrite <- (IZR_Zpower radix2) by lia. reflexivity. Qed.

(* evaluate a closed float *)
Ltac fcompute c :=
  let v := eval vm_compute in c in
  let H := fresh "Hc" in
  assert (H : c = v) by (vm_compute; reflexivity); rewrite H in *; clear H.

Lemma prob_pre :
  valid32 kMinProbability /\ valid32 kMaxProbability /\
  ffin kMinProbability /\ ffin kMaxProbability /\
  fval kMinProbability = 13421773 / 134217728 /\
  fval kMaxProbability = 15099494 / 16777216.
Proof.
  do 4 (split; [vm_compute; reflexivity|]). split.
  - fcompute kMinProbability. rewrite fval_pos.
    change (-27)%Z with (- (27))%Z. rewrite bpow_neg. simpl. lra.
  - fcompute kMaxProbability. rewrite fval_pos.
    change (-24)%Z with (- (24))%Z. rewrite bpow_neg. simpl. lra.
Qed.
Lemma cost_pre :
  valid32 kMinCost /\ valid32 kMaxCost /\ ffin kMinCost /\ ffin kMaxCost /\
  fval kMinCost = 13421776 / 134217728 /\ fval kMaxCost = 15099494 / 16777216.
Proof.
  do 4 (split; [vm_compute; reflexivity|]). split.
  - fcompute kMinCost. rewrite fval_pos.
    change (-27)%Z with (- (27))%Z. rewrite bpow_neg. simpl. lra.
  - fcompute kMaxCost. rewrite fval_pos.
    change (-24)%Z with (- (24))%Z. rewrite bpow_neg. simpl. lra.
Qed.


Definition bounds_ok (lo hi : f32) : Prop :=
  let S := fdiv (f_of_Z 32766) (fsub hi lo) in
  valid32 lo /\ valid32 hi /\ ffin lo /\ ffin hi /\ fval lo <= fval hi /\
  ffin S /\ 0 <= fval S /\ ffin (fsub hi lo) /\ fval (fsub hi lo) <= IZR (2 ^ 100) /\
  Rabs (rnd32 (fval hi - fval lo)) < bpow radix2 128 /\
  fval (fmul (fsub hi lo) S) <= 65536 /\
  Rabs (rnd32 (fval (fsub hi lo) * fval S)) < bpow radix2 128 /\
  bounded_float_to_value lo lo hi = Some 1%Z /\
  bounded_float_to_value hi lo hi = Some 32767%Z.

Lemma range_of lo hi x : bounds_ok lo hi -> valid32 x -> not_nan x ->
  exists v, bounded_float_to_value x lo hi = Some v /\ (1 <= v <= 32767)%Z.
Proof.
  intros (B1 & B2 & B3 & B4 & B5 & B6 & B7 & B8 & B9 & B10 & B11 & B12 & B13 & B14) V N.
  now apply bftv_range.
Qed.

Lemma mono_of lo hi x y u v : bounds_ok lo hi ->
  valid32 x -> valid32 y -> not_nan x -> not_nan y -> fleb x y = true ->
  bounded_float_to_value x lo hi = Some u -> bounded_float_to_value y lo hi = Some v ->
  (u <= v)%Z.
Proof.
  intros (B1 & B2 & B3 & B4 & B5 & B6 & B7 & B8 & B9 & B10 & B11 & B12 & B13 & B14).
  now apply bftv_mono.
Qed.

Ltac bounds P :=
  destruct P as [V1 [V2 [F1 [F2 [E1 E2]]]]]; unfold bounds_ok; cbv zeta;
  split; [exact V1|]; split; [exact V2|]; split; [exact F1|]; split; [exact F2|];
  rewrite E1, E2; split; [lra|];
  split; [vm_compute; reflexivity|];
  split; [match goal with |- _ <= fval ?c => fcompute c end; rewrite fval_pos;
          apply Rmult_le_pos; [apply IZR_le; discriminate | apply bpow_ge_0]|];
  split; [vm_compute; reflexivity|];
  split; [apply Rle_trans with 1; [|apply IZR_le; discriminate];
          match goal with |- fval ?c <= _ => fcompute c end; rewrite fval_pos;
          change (-24)%Z with (- (24))%Z; rewrite bpow_neg; simpl; lra|];
  split; [apply rnd32_small; rewrite Rabs_pos_eq by lra;
          apply Rle_trans with 1; [lra | apply IZR_le; discriminate]|];
  split; [match goal with |- fval ?c <= _ => fcompute c end; rewrite fval_pos;
          change (-9)%Z with (- (9))%Z; rewrite bpow_neg; simpl; lra|];
  split; [match goal with |- Rabs (rnd32 (fval ?a * fval ?c)) < _ => fcompute c; fcompute a end;
          rewrite !fval_pos; change (-24)%Z with (- (24))%Z; change (-8)%Z with (- (8))%Z;
          rewrite !bpow_neg; apply rnd32_small;
          apply Rle_trans with 65536; [|apply IZR_le; discriminate];
          rewrite Rabs_pos_eq; simpl; lra|];
  split; vm_compute; reflexivity.

Lemma prob_bounds : bounds_ok kMinProbability kMaxProbability.
Proof. bounds prob_pre. Qed.
Lemma cost_bounds : bounds_ok kMinCost kMaxCost.
Proof. bounds cost_pre. Qed.

(* relative rounding error, and the largest absolute error of tiny results *)
Notation u24 := (/ 16777216).
Lemma tiny_le : 0 < / IZR (2 ^ 150) <= u24 / 10.
Proof.
  assert (0 < IZR (2 ^ 150)) by (apply IZR_lt; reflexivity). split.
  - now apply Rinv_0_lt_compat.
  - replace (u24 / 10) with (/ 167772160) by lra. apply Rinv_le; [lra|]. apply IZR_le. discriminate.
Qed.

Lemma one_val : valid32 f_one /\ ffin f_one /\ fval f_one = 1.
Proof.
  split; [vm_compute; reflexivity|]. split; [vm_compute; reflexivity|].
  fcompute f_one. rewrite fval_pos. change (-23)%Z with (- (23))%Z. rewrite bpow_neg. simpl. lra.
Qed.

Lemma pfo_ok x : valid32 x -> ffin x -> 0 <= fval x <= IZR (2 ^ 90) ->
  valid32 (probability_from_odds x) /\ ffin (probability_from_odds x) /\
  Rabs (fval (probability_from_odds x) - fval x / (fval x + 1)) <= 5 * u24.
Proof.
  intros V F B. destruct one_val as [V1 [F1 E1]]. pose proof tiny_le as T.
  set (t := / IZR (2 ^ 150)) in *.
  assert (Ba : Rabs (fval x + fval f_one) <= IZR (2 ^ 99)).
  { rewrite E1, Rabs_pos_eq by lra. apply Rle_trans with (IZR (2 ^ 90) + 1); [lra|].
    rewrite <- plus_IZR. apply IZR_le. discriminate. }
  destruct (fadd_ok x f_one V V1 F F1 (rnd32_small _ Ba)) as [Fs Es].
  rewrite E1 in Es. set (X := fval x) in *. set (s := fval (fadd x f_one)) in *.
  pose proof (rnd32_err (X + 1)) as Er. fold t in Er. rewrite <- Es in Er.
  rewrite (Rabs_pos_eq (X + 1)) in Er by lra. apply Rabs_le_inv in Er.
  assert (Sp : (X + 1) / 2 <= s) by lra.
  assert (Q : 0 <= X / s <= 2).
  { split; [apply Rmult_le_pos; [lra | left; apply Rinv_0_lt_compat; lra]|].
    apply Rmult_le_reg_r with s; [lra|]. unfold Rdiv. rewrite Rmult_assoc, Rinv_l by lra. lra. }
  assert (Q2 : 0 <= X / (X + 1) <= 1).
  { split; [apply Rmult_le_pos; [lra | left; apply Rinv_0_lt_compat; lra]|].
    apply Rmult_le_reg_r with (X + 1); [lra|]. unfold Rdiv. rewrite Rmult_assoc, Rinv_l by lra. lra. }
  assert (Vs : valid32 (fadd x f_one)) by now apply fadd_valid.
  assert (Bq : Rabs (fval x / fval (fadd x f_one)) <= IZR (2 ^ 99)).
  { fold X s. rewrite Rabs_pos_eq by lra. apply Rle_trans with 2; [lra|]. apply IZR_le. discriminate. }
  assert (Snz : fval (fadd x f_one) <> 0) by (fold s; lra).
  destruct (fdiv_ok x (fadd x f_one) V Vs F Snz (rnd32_small _ Bq)) as [Fq Eq].
  split; [now apply fdiv_valid|]. split; [exact Fq|].
  unfold probability_from_odds. rewrite Eq. fold X s.
  pose proof (rnd32_err (X / s)) as Er2. fold t in Er2. rewrite (Rabs_pos_eq (X / s)) in Er2 by lra.
  assert (D : Rabs (X / s - X / (X + 1)) <= 2 * (u24 + t)).
  { replace (X / s - X / (X + 1)) with (X / s * ((X + 1 - s) / (X + 1))) by (field; lra).
    rewrite Rabs_mult. rewrite (Rabs_pos_eq (X / s)) by lra.
    apply Rmult_le_compat; try apply Rabs_pos; try lra.
    apply Rabs_le. split.
    - apply Rmult_le_reg_r with (X + 1); [lra|]. unfold Rdiv. rewrite Rmult_assoc, Rinv_l by lra.
      assert (0 <= t * X) by (apply Rmult_le_pos; lra). lra.
    - apply Rmult_le_reg_r with (X + 1); [lra|]. unfold Rdiv. rewrite Rmult_assoc, Rinv_l by lra.
      assert (0 <= t * X) by (apply Rmult_le_pos; lra). lra. }
  replace (rnd32 (X / s) - X / (X + 1)) with ((rnd32 (X / s) - X / s) + (X / s - X / (X + 1))) by ring.
  eapply Rle_trans; [apply Rabs_triang|]. lra.
Qed.

Lemma frac_mono x y : 0 <= x <= y -> x / (x + 1) <= y / (y + 1).
Proof.
  intros H. apply Rmult_le_reg_r with ((x + 1) * (y + 1)).
  { apply Rmult_lt_0_compat; lra. }
  replace (x / (x + 1) * ((x + 1) * (y + 1))) with (x * (y + 1)) by (field; lra).
  replace (y / (y + 1) * ((x + 1) * (y + 1))) with (y * (x + 1)) by (field; lra). lra.
Qed.

Lemma fin_not_nan x : ffin x -> not_nan x.
Proof. intros H ->. discriminate. Qed.

(* one_minus reverses the order *)
Lemma one_minus_ok x : valid32 x -> ffin x -> Rabs (fval x) <= 4 ->
  valid32 (one_minus x) /\ ffin (one_minus x) /\ fval (one_minus x) = rnd32 (1 - fval x).
Proof.
  intros V F B. destruct one_val as [V1 [F1 E1]].
  assert (A : Rabs (fval f_one - fval x) <= IZR (2 ^ 99)).
  { rewrite E1. apply Rabs_le_inv in B. apply Rle_trans with 5; [apply Rabs_le; lra|].
    apply IZR_le. discriminate. }
  destruct (fsub_ok f_one x V1 V F1 F (rnd32_small _ A)) as [F2 E2]. rewrite E1 in E2.
  split; [now apply fsub_valid|]. split; [exact F2 | exact E2].
Qed.

Lemma one_minus_anti x y : valid32 x -> valid32 y -> ffin x -> ffin y ->
  Rabs (fval x) <= 4 -> Rabs (fval y) <= 4 -> fleb x y = true ->
  fleb (one_minus y) (one_minus x) = true.
Proof.
  intros Vx Vy Fx Fy Bx By L. apply (fleb_ok _ _ Vx Vy Fx Fy) in L.
  destruct (one_minus_ok x Vx Fx Bx) as [V1 [F1 E1]].
  destruct (one_minus_ok y Vy Fy By) as [V2 [F2 E2]].
  apply fleb_ok; auto. rewrite E1, E2. apply rnd32_le. lra.
Qed.

Lemma between_fin a x b : ffin a -> ffin b -> fleb a x = true -> fleb x b = true -> ffin x.
Proof.
  destruct x as [s | [] | | s m e]; try reflexivity; intros Fa Fb H1 H2; exfalso.
  - destruct a as [? | [] | | []]; discriminate.
  - destruct b as [? | [] | | []]; discriminate.
  - destruct a as [? | [] | | []]; discriminate.
Qed.

Definition two64 : f32 := f_of_Z (2 ^ 64).
Lemma two64_val : valid32 two64 /\ ffin two64 /\ fval two64 = IZR (2 ^ 64).
Proof.
  split; [vm_compute; reflexivity|]. split; [vm_compute; reflexivity|].
  fcompute two64. rewrite fval_pos. rewrite <- (IZR_Zpower radix2) by lia.
  rewrite <- mult_IZR. apply f_equal. reflexivity.
Qed.
Definition fzero : f32 := f_of_Z 0.
Lemma zero_val : valid32 fzero /\ ffin fzero /\ fval fzero = 0.
Proof. repeat split. Qed.

Lemma odds_valid p : valid32 p -> valid32 (odds p).
Proof. intros V. apply fdiv_valid; [exact V|]. apply fsub_valid; [apply one_val | exact V]. Qed.
Lemma value_to_prob_valid v : valid32 (value_to_prob v).
Proof.
  unfold value_to_prob, table_value, slow_value. destruct prob_pre as [V1 [V2 _]].
  assert (valid32 (fdiv (fsub kMaxProbability kMinProbability) (f_of_Z 32766)))
    by (apply fdiv_valid; [now apply fsub_valid | apply f_of_Z_valid]).
  destruct (_ =? _)%Z; [exact V1|].
  apply fadd_valid; [apply fmul_valid; [apply f_of_Z_valid | assumption] | now apply fsub_valid].
Qed.
Lemma value_to_cost_valid v : valid32 (value_to_cost v).
Proof.
  unfold value_to_cost, table_value, slow_value. destruct cost_pre as [V1 [V2 _]].
  assert (valid32 (fdiv (fsub kMaxCost kMinCost) (f_of_Z 32766)))
    by (apply fdiv_valid; [now apply fsub_valid | apply f_of_Z_valid]).
  destruct (_ =? _)%Z; [exact V2|].
  apply fadd_valid; [apply fmul_valid; [apply f_of_Z_valid | assumption] | now apply fsub_valid].
Qed.
Lemma one_minus_valid p : valid32 p -> valid32 (one_minus p).
Proof. intros V. apply fsub_valid; [apply one_val | exact V]. Qed.

Lemma frac_bound x : 0 <= x -> 0 <= x / (x + 1) <= 1.
Proof.
  intros H. split; [apply Rmult_le_pos; [lra | left; apply Rinv_0_lt_compat; lra]|].
  apply Rmult_le_reg_r with (x + 1); [lra|]. unfold Rdiv. rewrite Rmult_assoc, Rinv_l by lra. lra.
Qed.

Lemma pfo_abs x : valid32 x -> ffin x -> 0 <= fval x <= IZR (2 ^ 90) ->
  Rabs (fval (probability_from_odds x)) <= 2.
Proof.
  intros V F B. destruct (pfo_ok x V F B) as [_ [_ E]]. apply Rabs_le_inv in E.
  pose proof (frac_bound (fval x) (proj1 B)). apply Rabs_le. lra.
Qed.
