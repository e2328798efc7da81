(* Properties of the fixed ratio sampler: C08. *)
From Coq Require Import List ZArith Bool SpecFloat Reals Lia Lra.
From Flocq Require Import Core.Raux Core.Defs IEEE754.BinarySingleNaN.
From Verif Require Import Float64 FloatR FRS_Model FRS_Proofs.
Import ListNotations.
Open Scope R_scope.

(* the number of pulses that returned true *)
Definition passed (bs : list bool) : Z := Z.of_nat (length (filter (fun b => b) bs)).

Definition close (r : R) (n s : Z) : Prop := r * IZR n - 1 < IZR s < r * IZR n + 1.
Lemma pulse_n_close r n : fvalid 53 1024 r -> ffin r -> 0 <= fval r <= 1 ->
  forall s, ratio s = r -> (0 <= num_samples s <= num_pulses s)%Z -> (num_pulses s + Z.of_nat n <= 2 ^ 53)%Z ->
  close (fval r) (num_pulses s) (num_samples s) ->
  exists s' bs, pulse_n n s = Some (s', bs) /\ length bs = n /\
    close (fval r) (num_pulses s + Z.of_nat n) (num_samples s + passed bs).
Proof.
  intros V F R. induction n as [|n IH]; intros s Er Hs Hn C; cbn [pulse_n].
  - exists s, []. split; [reflexivity|]. split; [reflexivity|]. unfold passed. cbn. now rewrite !Z.add_0_r.
  - unfold pulse. replace (num_pulses s + 1 <? 2 ^ 63)%Z with true
      by (symmetry; apply Z.ltb_lt; rewrite Nat2Z.inj_succ in Hn; lia).
    rewrite Er. rewrite Nat2Z.inj_succ in Hn.
    pose proof (pulse_test r (num_samples s) (num_pulses s + 1) V F R ltac:(lia) ltac:(lia)) as T.
    unfold close in C.
    assert (E1 : IZR (num_pulses s + 1) = IZR (num_pulses s) + 1) by apply plus_IZR.
    destruct (dltb _ r) eqn:D.
    + destruct (IH (mk_sampler r (num_pulses s + 1) (num_samples s + 1)) eq_refl) as [s' [bs [E [Ln C']]]];
        cbn [num_pulses num_samples ratio].
      * lia.
      * lia.
      * unfold close. rewrite !plus_IZR in *. lra.
      * rewrite E. exists s', (true :: bs). split; [reflexivity|]. split; [cbn; lia|].
        unfold passed in *. cbn [num_pulses num_samples filter length] in *.
        rewrite !Nat2Z.inj_succ. replace (num_pulses s + Z.succ (Z.of_nat n))%Z with (num_pulses s + 1 + Z.of_nat n)%Z by lia.
        replace (num_samples s + Z.succ (Z.of_nat (length (filter (fun b : bool => b) bs))))%Z
          with (num_samples s + 1 + Z.of_nat (length (filter (fun b : bool => b) bs)))%Z by lia. exact C'.
    + destruct (IH (mk_sampler r (num_pulses s + 1) (num_samples s)) eq_refl) as [s' [bs [E [Ln C']]]];
        cbn [num_pulses num_samples ratio].
      * lia.
      * lia.
      * unfold close. rewrite E1 in *. lra.
      * rewrite E. exists s', (false :: bs). split; [reflexivity|]. split; [cbn; lia|].
        unfold passed in *. cbn [num_pulses num_samples filter length] in *.
        rewrite !Nat2Z.inj_succ. replace (num_pulses s + Z.succ (Z.of_nat n))%Z with (num_pulses s + 1 + Z.of_nat n)%Z by lia.
        exact C'.
Qed.

Lemma sampler_new_ok r s : is_binary64 r -> sampler_new r = Some s ->
  s = mk_sampler r 0 0 /\ ffin r /\ 0 <= fval r <= 1.
Proof.
  intros V E. unfold sampler_new in E. destruct (dleb (S754_zero false) r && dleb r (d_of_Z 1))%bool eqn:B; [|discriminate].
  apply andb_true_iff in B. destruct B as [B1 B2].
  assert (F : ffin r).
  { destruct r as [x | [] | | x m e]; cbn; try reflexivity; [discriminate B1 | discriminate B2 | discriminate B1]. }
  destruct (d_of_Z_ok 1 ltac:(lia)) as [F1 V1].
  apply (leb_ok 53 1024) in B1; [|reflexivity | exact V | reflexivity | exact F].
  apply (leb_ok 53 1024) in B2; [|exact V | apply d_of_Z_valid | exact F | exact F1].
  rewrite V1 in B2. split; [congruence|]. split; [exact F|]. split; [exact B1 | exact B2].
Qed.

(* after n pulses, ceil(r * n) or one less were passed *)
Theorem C08_ratio : forall r s0 n, is_binary64 r -> sampler_new r = Some s0 -> (Z.of_nat n <= 2 ^ 53)%Z ->
  exists s bs, pulse_n n s0 = Some (s, bs) /\ length bs = n /\
    (passed bs = Zceil (fval r * INR n) \/ passed bs = Zceil (fval r * INR n) - 1)%Z /\
    Rabs (IZR (passed bs) - fval r * INR n) < 1.
Proof.
  intros r s0 n V E N. destruct (sampler_new_ok r s0 V E) as [-> [F R]].
  destruct (pulse_n_close r n V F R (mk_sampler r 0 0) eq_refl) as [s [bs [P [L C]]]]; cbn [num_pulses num_samples];
    [lia | lia | unfold close; lra |].
  exists s, bs. split; [exact P|]. split; [exact L|]. cbn [num_pulses num_samples] in C. rewrite !Z.add_0_l in C.
  rewrite INR_IZR_INZ. unfold close in C. split; [|apply Rabs_def1; lra].
  set (x := fval r * IZR (Z.of_nat n)) in *. pose proof (Zceil_ub x) as U.
  assert (Lo : (Zceil x - 1 < passed bs + 1)%Z).
  { apply lt_IZR. rewrite plus_IZR, minus_IZR. assert (IZR (Zceil x) < x + 1); [|lra].
    unfold Zceil. rewrite opp_IZR. pose proof (Zfloor_ub (- x)). lra. }
  assert (Hi : (passed bs < Zceil x + 1)%Z) by (apply lt_IZR; rewrite plus_IZR; lra).
  lia.
Qed.

(* ratio 1 passes everything, ratio 0 nothing *)
Theorem C08_extremes : forall r s0 n s bs, is_binary64 r -> sampler_new r = Some s0 -> (Z.of_nat n <= 2 ^ 53)%Z ->
  pulse_n n s0 = Some (s, bs) ->
  (fval r = 1 -> passed bs = Z.of_nat n) /\ (fval r = 0 -> passed bs = 0%Z).
Proof.
  intros r s0 n s bs V E N P. destruct (C08_ratio r s0 n V E N) as [s' [bs' [P' [L [_ C]]]]].
  assert (bs' = bs) as -> by congruence. rewrite INR_IZR_INZ in C. apply Rabs_def2 in C.
  assert (H : (0 <= passed bs <= Z.of_nat n)%Z).
  { unfold passed. split; [lia|]. subst n. clear. induction bs as [|[] l IH]; cbn [filter length]; lia. }
  split; intros X; rewrite X in C.
  - destruct C as [_ C]. assert (Q : (Z.of_nat n - 1 < passed bs)%Z) by (apply lt_IZR; rewrite minus_IZR; lra). lia.
  - destruct C as [C _]. assert (Q : (passed bs < 1)%Z) by (apply lt_IZR; lra). lia.
Qed.

(* ratio values outside [0, 1] and NaN are refused *)
Theorem C08_refuses : forall r, is_binary64 r ->
  (sampler_new r <> None <-> ffin r /\ 0 <= fval r <= 1).
Proof.
  intros r V. split.
  - intros H. destruct (sampler_new r) as [s|] eqn:E; [|congruence]. now destruct (sampler_new_ok r s V E).
  - intros [F [A B]]. destruct (d_of_Z_ok 1 ltac:(lia)) as [F1 V1]. unfold sampler_new.
    assert (B1 : dleb (S754_zero false) r = true) by (apply (leb_ok 53 1024); auto; reflexivity).
    assert (B2 : dleb r (d_of_Z 1) = true) by (apply (leb_ok 53 1024); auto using d_of_Z_valid; now rewrite V1).
    rewrite B1, B2. discriminate.
Qed.

(* "exactly ceil(r * n)" is false with doubles: the double nearest to 0.1 is above 0.1 *)
Definition tenth : f64 := ddiv (d_of_Z 1) (d_of_Z 10).
Theorem C08_exact_refuted : exists r s0 n s bs, is_binary64 r /\ sampler_new r = Some s0 /\
  pulse_n n s0 = Some (s, bs) /\ passed bs <> Zceil (fval r * INR n).
Proof.
  exists tenth, (mk_sampler tenth 0 0), 10%nat.
  destruct (pulse_n 10 (mk_sampler tenth 0 0)) as [[s bs]|] eqn:E; [|vm_compute in E; discriminate].
  exists s, bs. split; [vm_compute; reflexivity|]. split; [vm_compute; reflexivity|]. split; [reflexivity|].
  assert (P : passed bs = 1%Z) by (vm_compute in E; injection E as <- <-; vm_compute; reflexivity).
  rewrite P. intros C.
  assert (U : fval tenth * INR 10 <= 1) by (rewrite C; apply Zceil_ub).
  assert (T : fval tenth = IZR 7205759403792794 / IZR (2 ^ 56)).
  { replace tenth with (S754_finite false 7205759403792794 (-56)) by (vm_compute; reflexivity).
    unfold fval, SF2R, F2R. cbn [Fnum Fexp cond_Zopp].
    reflexivity. }
  rewrite T in U. rewrite INR_IZR_INZ in U. change (Z.of_nat 10) with 10%Z in U.
  change (2 ^ 56)%Z with 72057594037927936%Z in U. lra.
Qed.

(* one in four *)
Example C08_example : exists s, pulse_n 9 (mk_sampler (ddiv (d_of_Z 1) (d_of_Z 4)) 0 0) =
  Some (s, [true; false; false; false; true; false; false; false; true]).
Proof. eexists. vm_compute. reflexivity. Qed.

Print Assumptions C08_ratio.
Print Assumptions C08_extremes.
Print Assumptions C08_refuses.
Print Assumptions C08_exact_refuted.
