(* Theorems about point batches, point processors and colors (C47, C48, C54). *)
From Coq Require Import List ZArith Bool Reals Lia Lra SpecFloat.
From Flocq Require Import Core.Core IEEE754.BinarySingleNaN.
From Verif Require Import Float32 FloatR Float32_Proofs PV_Model PV_Bounded.
From Verif Require Import Float64 FRS_Model IO_Model IO_Spec IO_Proofs.
Import ListNotations.

(* C47: the rows with an index outside of rem survive, in order and with their own intensity
   and color. *)
Theorem C47_remove_points M P I C (rem : list nat) (b : batch M P I C) :
  wf b -> NoDup rem -> (forall i, In i rem -> (i < length (points b))%nat) ->
  let kept := filter (fun i => negb (existsb (Nat.eqb i) rem)) (seq 0 (length (points b))) in
  exists b', remove_points rem b = Some b' /\ wf b' /\ meta b' = meta b /\
    map Some (points b') = map (nth_error (points b)) kept /\
    (intensities b <> [] -> map Some (intensities b') = map (nth_error (intensities b)) kept) /\
    (colors b <> [] -> map Some (colors b') = map (nth_error (colors b)) kept) /\
    (intensities b = [] -> intensities b' = []) /\ (colors b = [] -> colors b' = []).
Proof.
  intros W ND B kept. rewrite (remove_points_ok M P I C rem b W ND B). eexists.
  split; [reflexivity|]. split; [now apply keep_wf|]. split; [reflexivity|].
  assert (S : forall A (l : list A), length l = length (points b) ->
            map Some (select (map (fun i => negb (existsb (Nat.eqb i) rem))
                                  (seq 0 (length (points b)))) l) = map (nth_error l) kept).
  { intros A l L. unfold kept. rewrite <- L.
    rewrite (select_nth A l (fun i => negb (existsb (Nat.eqb i) rem)) 0).
    apply map_ext. intros k. now rewrite Nat.sub_0_r. }
  destruct W as [W1 W2]. cbn [keep_rows points intensities colors].
  split; [now apply S|]. split; [|split; [|split]].
  - intros N. apply S. now destruct W1.
  - intros N. apply S. now destruct W2.
  - intros ->. apply select_nil.
  - intros ->. apply select_nil.
Qed.

Example C47_example :
  remove_points [3; 0]%nat (mk_batch tt [10; 11; 12; 13; 14] [0; 1; 2; 3; 4] ([] : list Z))%Z =
  Some (mk_batch tt [11; 12; 14] [1; 2; 4] [])%Z.
Proof. reflexivity. Qed.

(* C54: a pipeline with at most one multi-pass stage delivers to its end what the stages mean
   as functions on the whole stream, over one pass or three, and the counting stages report the
   points of one pass; with two multi-pass stages it aborts. *)
Theorem C54_pipeline M P I C V veq cell ray few_rays :
  (forall a b, veq a b = true <-> a = b) ->
  forall (sts : list (stage M P V)) (bs : list (batch M P I C)),
  Forall fresh sts -> (outliers sts <= 1)%nat -> Forall wf bs ->
  (Z.of_nat (length (flat_map points bs)) < 2 ^ 63)%Z ->
  exists sts' out,
    spec_run M P I C V veq cell ray few_rays sts bs = Some (out, counts sts') /\
    forall n, (2 * outliers sts < n)%nat ->
      run M P I C V veq cell ray few_rays n sts bs = Finished (S (2 * outliers sts)) sts' out.
Proof.
  intros V0 sts bs F O W L.
  destruct (run_ok M P I C V veq cell ray few_rays V0 sts bs F O W L) as (sts' & out & ns & A & B & R).
  exists sts', out. rewrite B. auto.
Qed.

Theorem C54_two_multi_pass M P I C V veq cell ray few_rays :
  (forall a b, veq a b = true <-> a = b) ->
  forall (sts : list (stage M P V)) (bs : list (batch M P I C)) n,
  Forall fresh sts -> (2 <= outliers sts)%nat -> Forall wf bs ->
  (Z.of_nat (length (flat_map points bs)) < 2 ^ 63)%Z -> (3 <= n)%nat ->
  run M P I C V veq cell ray few_rays n sts bs = Aborted.
Proof. intros V0 sts bs n F O W L Hn. now apply run_two. Qed.

(* points on a line seen from the origin o = 0: a point p is in the voxel p / 10, its ray
   samples the voxels 0 .. p / 10 - 1; a voxel with two or more rays per hit is removed *)
Definition ex_ray (_ : bool) (p : Z) : list Z := map Z.of_nat (seq 0 (Z.to_nat (p / 10))).
Definition ex_run (sts : list (stage bool Z Z)) (bs : list (batch bool Z Z Z)) :=
  match run bool Z Z Z Z Z.eqb (fun p => p / 10)%Z ex_ray (fun h r => r <? 2 * h)%Z 5 sts bs with
  | Finished k sts' out => Some (k, counts sts', map points out, map intensities out)
  | _ => None
  end.
Example C54_example : exists s,
  new_sample (d_of_Z 1) = Some s /\
  ex_run [Frame negb; Keep (fun _ p => 5 <? p)%Z; Count 0; s; new_outlier; Count 0]
         [mk_batch false [3; 15; 33; 34] [3; 15; 33; 34] []; mk_batch true [50; 51] [] [];
          mk_batch false [35; 42] [] []]%Z =
  Some (3%nat, [5; 4]%Z, [[33; 34]; [35; 42]]%Z, [[33; 34]; []]%Z) /\
  ex_run [new_outlier; Keep (fun _ _ => true); new_outlier] [] = None.
Proof. eexists. split; [reflexivity|]. split; vm_compute; reflexivity. Qed.

(* C48 *)
Open Scope R_scope.
Lemma v255 : valid32 (f_of_Z 255) /\ ffin (f_of_Z 255) /\ fval (f_of_Z 255) = 255.
Proof.
  split; [apply f_of_Z_valid|]. split; [reflexivity|].
  change (f_of_Z 255) with (S754_finite false 16711680 (-16)).
  rewrite fval_pos. change (-16)%Z with (- (16))%Z. rewrite bpow_neg. simpl. lra.
Qed.

Lemma component_ok x : valid32 x -> not_nan x ->
  exists v, float_component_to_uint8 x = Some v /\ (0 <= v <= 255)%Z /\
    nearest_away (rnd32 (fval (fclamp x fzero f_one) * 255)) v.
Proof.
  intros V N. destruct zero_val as (Vz & Fz & Ez). destruct one_val as (Vo & Fo & Eo).
  destruct v255 as (V2 & F2 & E2).
  destruct (fclamp_ok fzero f_one Vz Vo Fz Fo ltac:(lra) x V N) as (Vc & Fc & Bc).
  rewrite Ez, Eo in Bc.
  assert (B : 0 <= rnd32 (fval (fclamp x fzero f_one) * 255) <= 255).
  { split; [rewrite <- rnd32_0 | rewrite <- E2 at 2; rewrite <- (rnd32_val _ V2), E2];
      apply rnd32_le; lra. }
  assert (Sm : Rabs (rnd32 (fval (fclamp x fzero f_one) * 255)) < bpow radix2 128).
  { rewrite Rabs_pos_eq by lra. pose proof bpow128. pose proof (IZR_lt 255 (2 ^ 100) eq_refl). lra. }
  rewrite <- E2 in Sm at 1.
  destruct (fmul_ok _ _ Vc V2 Fc F2 Sm) as [F E]. rewrite E2 in E.
  destruct (round_to_int_ok _ F) as (v & R & Nv).
  { rewrite E, Rabs_pos_eq by lra. pose proof (IZR_lt 255 (2 ^ 31 - 1) eq_refl). lra. }
  rewrite E in Nv.
  assert (Bv : (0 <= v <= 255)%Z).
  { destruct Nv as [A _]. specialize (A (proj1 B)).
    split; apply Z.lt_succ_r, lt_IZR; rewrite ?succ_IZR; lra. }
  exists v. split; [|auto]. unfold float_component_to_uint8.
  change (f_of_Z 0) with fzero. change (f_of_Z 1) with f_one. rewrite R.
  f_equal. apply Z.mod_small. lia.
Qed.

Theorem C48_round_trip v : (0 <= v <= 255)%Z ->
  float_component_to_uint8 (uint8_component_to_float v) = Some v.
Proof.
  intros B.
  assert (A : forallb (fun k => match float_component_to_uint8 (uint8_component_to_float (Z.of_nat k)) with
                                | Some w => Z.eqb w (Z.of_nat k)
                                | None => false
                                end) (seq 0 256) = true) by (vm_compute; reflexivity).
  rewrite forallb_forall in A. specialize (A (Z.to_nat v)). rewrite Z2Nat.id in A by lia.
  assert (I : In (Z.to_nat v) (seq 0 256)) by (apply in_seq; lia). specialize (A I).
  destruct (float_component_to_uint8 (uint8_component_to_float v)) as [w|]; [|discriminate].
  apply Z.eqb_eq in A. now subst w.
Qed.

(* every float but NaN becomes a component *)
Theorem C48_range x : valid32 x -> x <> S754_nan ->
  exists v, float_component_to_uint8 x = Some v /\ (0 <= v <= 255)%Z.
Proof. intros V N. destruct (component_ok x V N) as (v & E & B & _). eauto. Qed.

(* that lies at most half a step (and a rounding error) away from it *)
Theorem C48_nearest x v : valid32 x -> ffin x -> 0 <= fval x <= 1 ->
  float_component_to_uint8 x = Some v -> Rabs (IZR v - 255 * fval x) <= / 2 + / 65536.
Proof.
  intros V F B E. destruct (component_ok x V (fin_not_nan _ F)) as (w & E' & Bw & N).
  rewrite E in E'. injection E' as <-.
  destruct zero_val as (Vz & Fz & Ez). destruct one_val as (Vo & Fo & Eo).
  assert (C : fclamp x fzero f_one = x).
  { unfold fclamp. destruct (fltb f_one x) eqn:L1.
    { apply (fltb_ok _ _ Vo V Fo F) in L1. lra. }
    destruct (fltb x fzero) eqn:L2; [|reflexivity].
    apply (fltb_ok _ _ V Vz F Fz) in L2. lra. }
  rewrite C in N. apply nearest_away_err in N.
  pose proof (rnd32_err (fval x * 255)) as R.
  apply Rabs_le. apply Rabs_le_inv in N. apply Rabs_le_inv in R.
  assert (A : Rabs (fval x * 255) <= 255) by (rewrite Rabs_pos_eq; lra).
  pose proof tiny_le as T.
  assert (K : / 16777216 * Rabs (fval x * 255) + / IZR (2 ^ 150) <= / 65536).
  { assert (/ 16777216 * Rabs (fval x * 255) <= / 16777216 * 255)
      by (apply Rmult_le_compat_l; lra). lra. }
  lra.
Qed.

Theorem C48_monotone x y u v : valid32 x -> valid32 y -> fleb x y = true ->
  float_component_to_uint8 x = Some u -> float_component_to_uint8 y = Some v -> (u <= v)%Z.
Proof.
  intros Vx Vy L Ex Ey.
  assert (Nx : not_nan x) by (intros ->; discriminate).
  assert (Ny : not_nan y) by (intros ->; destruct x as [? | [] | | []]; discriminate).
  destruct (component_ok x Vx Nx) as (u' & E1 & _ & N1). rewrite Ex in E1. injection E1 as <-.
  destruct (component_ok y Vy Ny) as (v' & E2 & _ & N2). rewrite Ey in E2. injection E2 as <-.
  destruct zero_val as (Vz & Fz & Ez). destruct one_val as (Vo & Fo & Eo).
  eapply nearest_away_mono; [|exact N1|exact N2]. apply rnd32_le.
  apply Rmult_le_compat_r; [lra|].
  apply (fclamp_mono fzero f_one Vz Vo Fz Fo ltac:(lra)); auto.
Qed.

(* a NaN has no component: the value is whatever lround returns *)
Theorem C48_nan_refuted : exists x, valid32 x /\ float_component_to_uint8 x = None.
Proof. exists S754_nan. split; reflexivity. Qed.

Example C48_example :
  float_component_to_uint8 (fdiv (f_of_Z 1) (f_of_Z 2)) = Some 128%Z /\
  float_component_to_uint8 (f_of_Z (-3)) = Some 0%Z /\
  float_component_to_uint8 (S754_infinity false) = Some 255%Z.
Proof. repeat split; vm_compute; reflexivity. Qed.

Print Assumptions C47_remove_points.
Print Assumptions C48_round_trip.
Print Assumptions C48_range.
Print Assumptions C48_nearest.
Print Assumptions C48_monotone.
Print Assumptions C48_nan_refuted.
Print Assumptions C54_pipeline.
Print Assumptions C54_two_multi_pass.
