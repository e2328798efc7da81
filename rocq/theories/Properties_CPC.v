(* Properties of compressed point clouds (C36). *)
From Coq Require Import ZArith List Bool Lia Reals Lra Permutation.
From Flocq Require Import Core.
From Verif Require Import Vec Float32 FloatR Float32_Proofs PV_Bounded VF_Adaptive VF_Proofs
  G2_Model HG_Model HG_Spec CPC_Model CPC_Spec CPC_Proofs CPC_Float.
Import ListNotations.
Open Scope Z_scope.

(* the raster indices of a point *)
Definition nearest3 (p : vec3f) (n : Z3) : Prop :=
  let '(x, y, z) := p in
  nearest_away (rnd32 (fval x / step)) (vx n) /\ nearest_away (rnd32 (fval y / step)) (vy n) /\
  nearest_away (rnd32 (fval z / step)) (vz n).
Definition small3 (b : Z) (n : Z3) : Prop := within (- b) b n.

Lemma coord_point_in x : coord_in x -> valid32 x /\ ffin x.
Proof. intros (V & F & _). auto. Qed.
Lemma point_in_valid p : point_in p -> coords_valid p.
Proof.
  destruct p as [[x y] z]. intros (X & Y & Z'). split; [|split]; now apply coord_point_in.
Qed.

Definition item_of (p : vec3f) (t : item) : Prop :=
  in_bounds p = true /\ raster p = Some t /\ representable (fst t) /\ low (snd t).

Lemma point_item p : point_in p ->
  exists t, item_of p t /\ nearest3 p (value_of t) /\ small3 8388609 (value_of t).
Proof.
  intros I. pose proof (proj2 (accepts_ok p (point_in_valid p I)) I) as B.
  unfold item_of. destruct p as [[x y] z]. destruct I as (Ix & Iy & Iz).
  destruct (coord_raster x Ix) as (a & Na & Ra & Ea), (coord_raster y Iy) as (b & Nb & Rb & Eb),
    (coord_raster z Iz) as (c & Nc & Rc & Ec).
  exists ((Z.shiftr a kBits, Z.shiftr b kBits, Z.shiftr c kBits),
          (Z.land a kMask, Z.land b kMask, Z.land c kMask)).
  destruct (raster_split a) as (Sa & La), (raster_split b) as (Sb & Lb), (raster_split c) as (Sc & Lc).
  assert (V : value_of ((Z.shiftr a kBits, Z.shiftr b kBits, Z.shiftr c kBits),
          (Z.land a kMask, Z.land b kMask, Z.land c kMask)) = (a, b, c)).
  { unfold value_of. cbn [fst snd vx vy vz]. f_equal; [f_equal|]; lia. }
  rewrite V. split; [|split].
  - split; auto. split. { unfold raster. now rewrite Ea, Eb, Ec. }
    unfold representable, low, within. cbn [fst snd vx vy vz]. lia.
  - unfold nearest3. auto.
  - unfold small3, within. cbn [vx vy vz fst snd]. lia.
Qed.

Lemma points_items : forall ps, Forall point_in ps ->
  exists its, Forall2 item_of ps its /\
    Forall2 (fun p t => nearest3 p (value_of t) /\ small3 8388609 (value_of t)) ps its.
Proof.
  induction ps as [|p r IH]; intros F.
  - exists []. split; constructor.
  - inversion F; subst. destruct (IH H2) as (its & A & B), (point_item p H1) as (t & I & N & S).
    exists (t :: its). split; constructor; auto.
Qed.

Lemma nearest_raster p n : nearest3 p n -> small3 8388609 n -> on_raster3 p (coords n).
Proof.
  destruct p as [[x y] z]. intros (X & Y & Z') S. unfold small3, within in S.
  unfold coords, on_raster3.
  destruct (coord_ok (vx n) ltac:(lia)) as (_ & Fx & Ex), (coord_ok (vy n) ltac:(lia)) as (_ & Fy & Ey),
    (coord_ok (vz n) ltac:(lia)) as (_ & Fz & Ez).
  split; [|split]; eexists; eauto.
Qed.

(* The range check: exactly the points with all coordinates below 2^23 raster steps *)
Theorem C36_accepts : forall p, coords_valid p -> (in_bounds p = true <-> point_in p).
Proof. exact accepts_ok. Qed.

Lemma Forall2_weaken {A B} (R Q : A -> B -> Prop) : (forall a b, R a b -> Q a b) ->
  forall k l, Forall2 R k l -> Forall2 Q k l.
Proof. induction 2; constructor; auto. Qed.
Lemma Forall2_map_r {A B C} (R : A -> C -> Prop) (f : B -> C) : forall k l,
  Forall2 (fun a b => R a (f b)) k l -> Forall2 R k (map f l).
Proof. induction 1; constructor; auto. Qed.

(* Every cloud of accepted points is compressed, and decompressing gives, up to the
   order, each point replaced by the nearest raster point. *)
Theorem C36_round_trip : forall ps, Forall point_in ps -> vsize ps <= 2 ^ 31 - 1 ->
  exists c out out',
    (forall fuel, (length ps <= fuel)%nat -> compress fuel ps = Done c) /\
    num_points c = vsize ps /\
    decompress c = Some out /\ decompress (from_proto (to_proto c)) = Some out /\
    Permutation out out' /\ Forall2 on_raster3 ps out'.
Proof.
  intros ps F L. destruct (points_items ps F) as (its & A & B).
  destruct (compress_ok ps its A L) as (c & C & N & its' & P & D).
  exists c, (map (fun t => coords (value_of t)) its'), (map (fun t => coords (value_of t)) its).
  split; auto. split; auto. split; auto. split; [destruct c; exact D|].
  split; [now apply Permutation_map|]. apply Forall2_map_r.
  eapply Forall2_weaken; [|exact B]. intros p t (H1 & H2). now apply nearest_raster.
Qed.

(* A cloud with a point out of range is not compressed. *)
Theorem C36_rejects : forall ps fuel, Forall coords_valid ps -> Exists (fun p => ~ point_in p) ps ->
  compress fuel ps = Aborted.
Proof.
  intros ps fuel V E. unfold compress.
  assert (Q : forall ps its0 st, binv its0 st -> Forall coords_valid ps ->
    Exists (fun p => ~ point_in p) ps -> add_points st ps = Aborted).
  { clear. induction ps as [|p r IH]; intros its0 st I V E; [inversion E|].
    inversion V; subst. cbn [add_points].
    destruct (in_bounds p) eqn:B.
    - pose proof (proj1 (accepts_ok p H1) B) as PI.
      assert (E' : Exists (fun p => ~ point_in p) r) by (inversion E; subst; [contradiction|auto]).
      destruct (point_item p PI) as ([b l] & (_ & R & RP & LO) & _).
      destruct (add_point_ok its0 st p b l I B R RP) as (st' & S & I').
      rewrite S. exact (IH _ _ I' H2 E').
    - unfold add_point. destruct st. rewrite B. reflexivity. }
  rewrite (Q ps [] _ binv_new V E). match goal with |- (if ?b then _ else _) = _ => now destruct b end.
Qed.

(* How far a point moves: half a raster step plus the rounding of the coordinate *)
Theorem C36_error : forall x y, on_raster x y ->
  (Rabs (fval y - fval x) <= 0.501 * step + Rabs (fval x) / 8000000)%R.
Proof.
  intros x y (n & N & _ & E). rewrite E. pose proof step_pos as P.
  pose proof (nearest_away_err _ _ N) as E1.
  pose proof (rnd32_err (fval x / step)) as E2.
  pose proof (rnd32_err (IZR n * step)) as E3.
  set (q := rnd32 (fval x / step)) in *. set (v := rnd32 (IZR n * step)) in *.
  set (X := fval x) in *. assert (T : (/ IZR (2 ^ 150) <= 0.00000001)%R).
  { apply Rle_trans with (/ 100000000)%R; [|lra]. apply Rinv_le_contravar; [lra|]. apply IZR_le. lia. }
  assert (T0 : (0 < / IZR (2 ^ 150))%R) by (apply Rinv_0_lt_compat, IZR_lt; lia).
  set (t := (/ IZR (2 ^ 150))%R) in *.
  assert (A : (Rabs (X / step) * step = Rabs X)%R).
  { unfold Rdiv. rewrite Rabs_mult, (Rabs_pos_eq (/ step)) by (left; now apply Rinv_0_lt_compat).
    field. lra. }
  assert (D1 : (Rabs (IZR n * step - X) <= 0.50001 * step + / 16777216 * Rabs X)%R).
  { replace (IZR n * step - X)%R with ((IZR n - q) * step + (q - X / step) * step)%R by (field; lra).
    eapply Rle_trans; [apply Rabs_triang|]. rewrite !Rabs_mult, !(Rabs_pos_eq step) by lra.
    rewrite <- A.
    assert (Rabs (IZR n - q) * step <= / 2 * step)%R by (apply Rmult_le_compat_r; lra).
    assert (Rabs (q - X / step) * step <= (/ 16777216 * Rabs (X / step) + t) * step)%R
      by (apply Rmult_le_compat_r; lra).
    assert (t * step <= 0.00000001 * step)%R by (apply Rmult_le_compat_r; lra). lra. }
  assert (D2 : (Rabs (IZR n * step) <= Rabs X + (0.50001 * step + / 16777216 * Rabs X))%R).
  { replace (IZR n * step)%R with (X + (IZR n * step - X))%R by ring.
    eapply Rle_trans; [apply Rabs_triang|]. lra. }
  replace (v - X)%R with ((v - IZR n * step) + (IZR n * step - X))%R by ring.
  eapply Rle_trans; [apply Rabs_triang|].
  assert (T1 : (t <= 0.0001 * step)%R).
  { apply Rle_trans with (0.00000001)%R; auto. unfold step. lra. }
  pose proof (Rabs_pos X). lra.
Qed.

(* Compressing a decompressed cloud again does not move the points any more, as long
   as they are at most 2^21 raster steps (2097 m) from the origin. *)
Lemma stable n : (Z.abs n <= 2097152) -> nearest_away (rnd32 (fval (coord n) / step)) n /\ coord_in (coord n).
Proof.
  intros B. destruct (coord_ok n ltac:(lia)) as (V & F & E). rewrite E. pose proof step_pos as P.
  pose proof (rnd32_err (IZR n * step)) as E1. set (y := rnd32 (IZR n * step)) in *.
  pose proof (rnd32_err (y / step)) as E2. set (q := rnd32 (y / step)) in *.
  assert (Bn : (Rabs (IZR n) <= 2097152)%R) by (rewrite <- abs_IZR; apply IZR_le; lia).
  assert (T : (/ IZR (2 ^ 150) <= 0.00000001)%R).
  { apply Rle_trans with (/ 100000000)%R; [|lra]. apply Rinv_le_contravar; [lra|]. apply IZR_le. lia. }
  set (t := (/ IZR (2 ^ 150))%R) in *.
  assert (Y : (Rabs (y / step - IZR n) <= 0.126)%R).
  { replace (y / step - IZR n)%R with ((y - IZR n * step) / step)%R by (field; lra).
    unfold Rdiv. rewrite Rabs_mult, (Rabs_pos_eq (/ step)) by (left; now apply Rinv_0_lt_compat).
    apply Rmult_le_reg_r with step; auto. rewrite Rmult_assoc, Rinv_l, Rmult_1_r by lra.
    eapply Rle_trans; [exact E1|]. rewrite Rabs_mult, (Rabs_pos_eq step) by lra.
    assert (/ 16777216 * (Rabs (IZR n) * step) <= 0.125 * step)%R.
    { rewrite <- Rmult_assoc. apply Rmult_le_compat_r; lra. }
    assert (t <= 0.001 * step)%R by (unfold step; lra). lra. }
  assert (Y2 : (Rabs (y / step) <= 2097153)%R).
  { replace (y / step)%R with (IZR n + (y / step - IZR n))%R by ring.
    eapply Rle_trans; [apply Rabs_triang|]. lra. }
  assert (Q : (Rabs (q - IZR n) < 0.4)%R).
  { replace (q - IZR n)%R with ((q - y / step) + (y / step - IZR n))%R by ring.
    eapply Rle_lt_trans; [apply Rabs_triang|]. lra. }
  apply Rabs_def2 in Q. apply Rabs_le_inv in Bn. split.
  - split; intros; lra.
  - split; auto. split; auto. rewrite E. fold y q. apply Rabs_def1; lra.
Qed.

Lemma stable3 n : small3 2097152 n -> nearest3 (coords n) n /\ point_in (coords n).
Proof.
  unfold small3, within. intros S.
  destruct (stable (vx n) ltac:(lia)) as (A1 & B1), (stable (vy n) ltac:(lia)) as (A2 & B2),
    (stable (vz n) ltac:(lia)) as (A3 & B3).
  unfold nearest3, coords, point_in. auto.
Qed.

(* |coordinate| / 0.001 rounds to at most 2^21 - 1 *)
Definition coord_near (x : f32) : Prop :=
  valid32 x /\ ffin x /\ (Rabs (rnd32 (fval x / step)) < 2097151)%R.
Definition point_near (p : vec3f) : Prop :=
  let '(x, y, z) := p in coord_near x /\ coord_near y /\ coord_near z.

Lemma near_small x n : coord_near x -> nearest_away (rnd32 (fval x / step)) n -> - 2097152 <= n < 2097152.
Proof.
  intros (_ & _ & B) N. apply nearest_away_err in N. apply Rabs_le_inv in N. apply Rabs_def2 in B.
  split; [apply Zlt_succ_le|]; apply lt_IZR; rewrite ?succ_IZR; simpl; lra.
Qed.

Theorem C36_recompress : forall ps fuel c out, Forall point_near ps -> vsize ps <= 2 ^ 31 - 1 ->
  (length ps <= fuel)%nat -> compress fuel ps = Done c -> decompress c = Some out ->
  exists c' out', compress fuel out = Done c' /\ decompress c' = Some out' /\ Permutation out' out.
Proof.
  intros ps fuel c out F L FU C D.
  assert (F' : Forall point_in ps).
  { eapply Forall_impl; [|exact F]. intros [[x y] z] ((V1 & F1 & B1) & (V2 & F2 & B2) & (V3 & F3 & B3)).
    unfold point_in, coord_in.
    split; [|split]; (split; [auto|split; [auto|lra]]). }
  destruct (points_items ps F') as (its & A & B).
  destruct (compress_ok ps its A L) as (c0 & C0 & N & its' & P & D0).
  rewrite C0 in C by auto. injection C as <-. rewrite D0 in D. injection D as <-.
  assert (S : Forall (fun t => small3 2097152 (value_of t)) its).
  { clear - F B. revert F. induction B as [|p t r rt (H & _) HB IH]; intros F; inversion F; subst; constructor; auto.
    destruct p as [[x y] z], H2 as (N1 & N2 & N3), H as (M1 & M2 & M3). unfold small3, within.
    split; [now apply (near_small x)|split; [now apply (near_small y)|now apply (near_small z)]]. }
  assert (S' : Forall (fun t => small3 2097152 (value_of t)) its').
  { eapply Permutation_Forall; [|exact S]. now symmetry. }
  set (out := map (fun t => coords (value_of t)) its').
  assert (LE : length its = length ps) by (symmetry; eapply Forall2_len; exact A).
  assert (LO : length out = length ps).
  { unfold out. rewrite map_length. exact (eq_trans (Permutation_length P) LE). }
  assert (R : exists its2, Forall2 item_of out its2 /\ map (fun t => coords (value_of t)) its2 = out).
  { unfold out. clear - S'. induction S' as [|t r H HF IH].
    - exists []. split; constructor.
    - destruct IH as (i2 & I1 & I2), (stable3 _ H) as (N & PI).
      destruct (point_item _ PI) as (t2 & T1 & T2 & _).
      exists (t2 :: i2). split; [constructor; auto|]. cbn [map]. rewrite I2. f_equal.
      f_equal. destruct (value_of t) as [[a b] d], (value_of t2) as [[a' b'] d'].
      unfold nearest3, coords in N, T2. cbn [vx vy vz fst snd] in N, T2.
      destruct N as (N1 & N2 & N3), T2 as (M1 & M2 & M3).
      f_equal; [f_equal|]; eapply nearest_away_fun; eauto. }
  destruct R as (its2 & I2 & E2).
  destruct (compress_ok out its2 I2) as (c2 & C2 & _ & its3 & P3 & D3).
  { unfold vsize in *. lia. }
  exists c2, (map (fun t => coords (value_of t)) its3). split; [apply C2; lia|]. split; auto.
  rewrite <- E2. now apply Permutation_map.
Qed.

(* Further out neither holds: 8388613 / 1024 = 8192.0048828125 m moves by more than 0.97
   raster steps, and by as much again each time it is compressed again. *)
Definition far : f32 := SpecFloat.S754_finite false 8388613 (-10).
Definition cloud1 (x : f32) : list vec3f := [(x, f_of_Z 0, f_of_Z 0)].
Definition there_and_back (ps : list vec3f) : option (list vec3f) :=
  match compress 1 ps with Done c => decompress c | _ => None end.

Lemma val_far s (m : positive) : fval (SpecFloat.S754_finite s m (-10)) = (IZR (if s then Z.neg m else Z.pos m) / 1024)%R.
Proof.
  unfold fval, BinarySingleNaN.SF2R, Defs.F2R. cbn [Defs.Fnum Defs.Fexp].
  destruct s; simpl; unfold Rdiv; reflexivity.
Qed.

Lemma one p t : coords_valid p -> in_bounds p = true -> raster p = Some t ->
  there_and_back [p] = Some [coords (value_of t)].
Proof.
  intros V B R. destruct (point_item p (proj1 (accepts_ok p V) B)) as (t' & I & _).
  assert (t' = t) as -> by (destruct I as (_ & R' & _); rewrite R' in R; now injection R).
  destruct (compress_ok [p] [t]) as (c & C & _ & its' & P & D).
  { constructor; [exact I|constructor]. } { unfold vsize. simpl. lia. }
  unfold there_and_back. rewrite (C 1%nat) by (simpl; lia). rewrite D.
  apply Permutation_sym, Permutation_length_1_inv in P. now rewrite P.
Qed.
Ltac one_point :=
  unfold cloud1; erewrite one;
  [|repeat split; vm_compute; reflexivity|vm_compute; reflexivity|vm_compute; reflexivity];
  vm_compute; reflexivity.

Theorem C36_half_step_refuted : exists x y, point_in (x, f_of_Z 0, f_of_Z 0) /\
  there_and_back (cloud1 x) = Some (cloud1 y) /\ (0.97 * step < Rabs (fval y - fval x))%R.
Proof.
  exists far, (SpecFloat.S754_finite false 8388614 (-10)). split.
  - apply accepts_ok; [repeat split|]; vm_compute; reflexivity.
  - split; [one_point|]. unfold far. rewrite !val_far. cbv iota.
    rewrite Rabs_pos_eq; unfold step; lra.
Qed.

Theorem C36_recompress_refuted : exists x y z,
  point_in (x, f_of_Z 0, f_of_Z 0) /\ there_and_back (cloud1 x) = Some (cloud1 y) /\
  there_and_back (cloud1 y) = Some (cloud1 z) /\ fval z <> fval y.
Proof.
  exists far, (SpecFloat.S754_finite false 8388614 (-10)), (SpecFloat.S754_finite false 8388615 (-10)).
  split; [apply accepts_ok; [repeat split|]; vm_compute; reflexivity|].
  split; [one_point|]. split; [one_point|].
  rewrite !val_far. cbv iota. lra.
Qed.

(* The hypotheses hold of a cloud of three points in two blocks, one of them given
   twice: the blocks come in the order of the grid, not of the input. *)
Example C36_example :
  let a := (f_of_Z 5, f_of_Z (-1), f_of_Z 0) in
  let b := (f_of_Z 0, f_of_Z 0, f_of_Z 1) in
  Forall point_in [a; b; a] /\
  exists c, compress 3 [a; b; a] = Done c /\
    point_data c = [2; 4; -1; 0; 25480; 25480; 1; 0; 0; 0; 1048576000].
Proof.
  split.
  - repeat (apply Forall_cons; [apply accepts_ok; [repeat split|]; vm_compute; reflexivity|]).
    apply Forall_nil.
  - eexists. split; [vm_compute; reflexivity|]. reflexivity.
Qed.

Print Assumptions C36_accepts.
Print Assumptions C36_round_trip.
Print Assumptions C36_rejects.
Print Assumptions C36_error.
Print Assumptions C36_recompress.
Print Assumptions C36_half_step_refuted.
Print Assumptions C36_recompress_refuted.
