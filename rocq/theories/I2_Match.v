From Coq Require Import ZArith Reals Lra Lia List Bool.
From Verif Require Import CF_Model RG_Model IG_Model IG_Spec IG_Proofs IG_Smooth IG_Curve IG_Jet I2_Model I2_Spec I2_Proofs.
Import ListNotations.
Open Scope R_scope.

(* the weight changes at most proportionally *)
Definition ramp (A : Z -> R) (v : R) : R := A (Int_part v) + (A (Int_part v + 1)%Z - A (Int_part v)) * (v - IZR (Int_part v)).
Lemma steps_le A D k n : (forall i, Rabs (A (i + 1)%Z - A i) <= D) ->
  Rabs (A (k + Z.of_nat n)%Z - A k) <= D * INR n.
Proof.
  intros B. induction n.
  - rewrite Z.add_0_r, Rminus_diag_eq, Rabs_R0 by reflexivity. cbn. lra.
  - rewrite S_INR. pose proof (B (k + Z.of_nat n)%Z) as C.
    replace (k + Z.of_nat (S n))%Z with (k + Z.of_nat n + 1)%Z by lia.
    pose proof (chain _ _ _ _ _ C IHn). lra.
Qed.
Lemma ramp_lip A D : (forall i, Rabs (A (i + 1)%Z - A i) <= D) ->
  forall v w, Rabs (ramp A w - ramp A v) <= D * Rabs (w - v).
Proof.
  intros B.
  assert (D0 : 0 <= D) by (pose proof (B 0%Z); pose proof (Rabs_pos (A (0 + 1)%Z - A 0%Z)); lra).
  assert (L : forall v w, v <= w -> Rabs (ramp A w - ramp A v) <= D * (w - v)).
  { intros v w H. pose proof (floor_spec v) as V. pose proof (floor_spec w) as W. unfold ramp.
    set (k := Int_part v) in *. set (m := Int_part w) in *.
    assert (K : (k <= m)%Z). { apply Z.lt_succ_r, lt_IZR. rewrite succ_IZR. lra. }
    destruct (Z.eq_dec k m) as [<- | N].
    - replace (A k + (A (k + 1)%Z - A k) * (w - IZR k) - (A k + (A (k + 1)%Z - A k) * (v - IZR k)))
        with ((A (k + 1)%Z - A k) * (w - v)) by ring.
      rewrite Rabs_mult, (Rabs_pos_eq (w - v)) by lra. apply Rmult_le_compat_r; [lra | apply B].
    - assert (E1 : Rabs (A m + (A (m + 1)%Z - A m) * (w - IZR m) - A m) <= D * (w - IZR m)).
      { replace (A m + (A (m + 1)%Z - A m) * (w - IZR m) - A m) with ((A (m + 1)%Z - A m) * (w - IZR m)) by ring.
        rewrite Rabs_mult, (Rabs_pos_eq (w - IZR m)) by lra. apply Rmult_le_compat_r; [lra | apply B]. }
      assert (E2 : Rabs (A (k + 1)%Z - (A k + (A (k + 1)%Z - A k) * (v - IZR k))) <= D * (IZR k + 1 - v)).
      { replace (A (k + 1)%Z - (A k + (A (k + 1)%Z - A k) * (v - IZR k)))
          with ((A (k + 1)%Z - A k) * (IZR k + 1 - v)) by ring.
        rewrite Rabs_mult, (Rabs_pos_eq (IZR k + 1 - v)) by lra. apply Rmult_le_compat_r; [lra | apply B]. }
      pose proof (steps_le A D (k + 1) (Z.to_nat (m - (k + 1))) B) as E3.
      rewrite INR_IZR_INZ, Z2Nat.id in E3 by lia. replace (k + 1 + (m - (k + 1)))%Z with m in E3 by lia.
      rewrite minus_IZR, plus_IZR in E3.
      pose proof (chain _ _ _ _ _ (chain _ _ _ _ _ E1 E3) E2). lra. }
  intros v w. destruct (Rle_dec v w) as [H | H].
  - rewrite (Rabs_pos_eq (w - v)) by lra. now apply L.
  - rewrite Rabs_minus_sym, (Rabs_minus_sym w), (Rabs_pos_eq (v - w)) by lra. apply L. lra.
Qed.
Lemma ramp_sup A B v e : (forall i, Rabs (A i - B i) <= e) -> Rabs (ramp A v - ramp B v) <= e.
Proof.
  intros H. unfold ramp. pose proof (floor_spec v). set (k := Int_part v) in *. set (t := v - IZR k).
  assert (T : 0 <= t < 1) by (unfold t; lra). clearbody t.
  pose proof (H k) as H1. pose proof (H (k + 1)%Z) as H2.
  replace (A k + (A (k + 1)%Z - A k) * t - (B k + (B (k + 1)%Z - B k) * t))
    with ((1 - t) * (A k - B k) + t * (A (k + 1)%Z - B (k + 1)%Z)) by ring.
  eapply Rle_trans; [apply Rabs_triang|]. rewrite !Rabs_mult, (Rabs_pos_eq t), (Rabs_pos_eq (1 - t)) by lra.
  apply Rle_trans with ((1 - t) * e + t * e); [|lra].
  apply Rplus_le_compat; apply Rmult_le_compat_l; lra.
Qed.
Definition across (l : limits2) (x : R) : R := - ((l_max_x l - x) / l_res l - 1 / 2).
Definition upwards (l : limits2) (y : R) : R := - ((l_max_y l - y) / l_res l - 1 / 2).
Lemma across_floor r m x i : 0 < r -> m - r * (IZR i + 1 / 2) <= x < m - r * (IZR i + 1 / 2) + r ->
  Int_part (- ((m - x) / r - 1 / 2)) = (- i)%Z /\
  - ((m - x) / r - 1 / 2) - IZR (- i) = (x - (m - r * (IZR i + 1 / 2))) / r.
Proof.
  intros H B. pose proof (n_range r m x i H B) as N.
  assert (E : - ((m - x) / r - 1 / 2) - IZR (- i) = (x - (m - r * (IZR i + 1 / 2))) / r).
  { rewrite opp_IZR. field. lra. }
  split; [|exact E]. apply floor_unique. lra.
Qed.
Lemma weight_ramp t x y : 0 < l_res (t_lim t) ->
  weight_at real_scalar t x y =
  ramp (fun a => ramp (fun b => get_weight2 t (- b) (- a)) (upwards (t_lim t) y)) (across (t_lim t) x).
Proof.
  intros H. destruct (lower2 (t_lim t) x y H) as [i [j [_ L]]]. rewrite (weight_form t x y i j H L).
  unfold lower_left, cell_center2 in L. cbn [fst snd] in L. destruct L as [LX LY].
  destruct (across_floor _ _ _ _ H LX) as [Fx Ex]. destruct (across_floor _ _ _ _ H LY) as [Fy Ey].
  unfold ramp, across, upwards. rewrite Fx, Fy, Ex, Ey. unfold blend_at, blend.
  fold (nx_of (t_lim t) x j). fold (ny_of (t_lim t) y i).
  replace (- (- i + 1))%Z with (i - 1)%Z by lia. replace (- (- j + 1))%Z with (j - 1)%Z by lia.
  rewrite !Z.opp_involutive. match goal with |- @eq _ ?a ?b => change (@eq R a b) end. ring.
Qed.
Lemma weight_lipschitz t w x y x' y' : 0 < l_res (t_lim t) -> (forall i j, 0 <= t_weight t i j <= w) ->
  Rabs (weight_at real_scalar t x' y' - weight_at real_scalar t x y)
    <= w / l_res (t_lim t) * (Rabs (x' - x) + Rabs (y' - y)).
Proof.
  intros H B. rewrite !weight_ramp by exact H. set (l := t_lim t) in *.
  assert (W0 : 0 <= w) by (pose proof (B 0 0)%Z; lra).
  assert (G : forall i j, 0 <= get_weight2 t i j <= w).
  { intros. unfold get_weight2. fold l. destruct (contains2 l (i, j)); [apply B | lra]. }
  assert (V : forall i j i' j', Rabs (get_weight2 t i j - get_weight2 t i' j') <= w).
  { intros. apply Rabs_le. pose proof (G i j). pose proof (G i' j'). lra. }
  assert (Dx : Rabs (across l x' - across l x) = / l_res l * Rabs (x' - x)).
  { unfold across. replace (- ((l_max_x l - x') / l_res l - 1 / 2) - - ((l_max_x l - x) / l_res l - 1 / 2))
      with (/ l_res l * (x' - x)) by (field; lra).
    rewrite Rabs_mult, (Rabs_pos_eq (/ l_res l)); [reflexivity|]. left. now apply Rinv_0_lt_compat. }
  assert (Dy : Rabs (upwards l y' - upwards l y) = / l_res l * Rabs (y' - y)).
  { unfold upwards. replace (- ((l_max_y l - y') / l_res l - 1 / 2) - - ((l_max_y l - y) / l_res l - 1 / 2))
      with (/ l_res l * (y' - y)) by (field; lra).
    rewrite Rabs_mult, (Rabs_pos_eq (/ l_res l)); [reflexivity|]. left. now apply Rinv_0_lt_compat. }
  replace (w / l_res l * (Rabs (x' - x) + Rabs (y' - y)))
    with (w * Rabs (across l x' - across l x) + w * Rabs (upwards l y' - upwards l y))
    by (rewrite Dx, Dy; field; lra).
  eapply chain.
  - apply ramp_lip. intros i. apply ramp_sup. intros. apply V.
  - apply ramp_sup. intros i. apply ramp_lip. intros. apply V.
Qed.

(* the weighted residuals *)
Lemma fold_total l a : fold_left Rplus l a = a + total_of l.
Proof. revert a. induction l; intros b; cbn [fold_left total_of]; [ring | rewrite IHl; ring]. Qed.
Lemma total_nonneg l : (forall x, In x l -> 0 <= x) -> 0 <= total_of l /\ (total_of l = 0 <-> forall x, In x l -> x = 0).
Proof.
  induction l as [|a l IH]; intros P; cbn [total_of].
  - split; [lra|]. split; [intros _ x [] | reflexivity].
  - destruct IH as [A B]; [intros; apply P; now right|]. pose proof (P a (or_introl eq_refl)).
    split; [lra|]. split.
    + intros Z x [<- | I]; [lra|]. apply B; [lra | exact I].
    + intros Z. rewrite (Z a (or_introl eq_refl)). replace (total_of l) with 0; [ring|]. symmetry. apply B.
      intros. apply Z. now right.
Qed.
Lemma total_map_scale {X} (f : X -> R) k l : total_of (map (fun x => k * f x) l) = k * total_of (map f l).
Proof. induction l; cbn [map total_of]; [ring | rewrite IHl; ring]. Qed.
Lemma total_ext {X} (f g : X -> R) l : (forall x, In x l -> f x = g x) -> total_of (map f l) = total_of (map g l).
Proof. intros E. now rewrite (map_ext_in f g l E). Qed.
Lemma total_const {X} (c : R) (l : list X) : total_of (map (fun _ => c) l) = INR (length l) * c.
Proof. induction l; cbn [map total_of length]; [cbn; ring | rewrite IHl, S_INR; ring]. Qed.
Lemma total_in (l : list R) x : (forall x, In x l -> 0 <= x) -> In x l -> x <= total_of l.
Proof.
  induction l as [|a l IH]; intros P I; [destruct I|]. cbn [total_of].
  assert (0 <= total_of l) by (apply total_nonneg; intros; apply P; now right).
  pose proof (P a (or_introl eq_refl)). destruct I as [<- | I]; [lra|].
  pose proof (IH (fun x Hx => P x (or_intror Hx)) I). lra.
Qed.
Definition weight_of (t : tsdf2) (pose : nat -> R) (p : R * R) : R :=
  weight_at real_scalar t (fst (world2 real_scalar pose p)) (snd (world2 real_scalar pose p)).
Definition cost_of (t : tsdf2) (pose : nat -> R) (p : R * R) : R :=
  cost_at real_scalar t (fst (world2 real_scalar pose p)) (snd (world2 real_scalar pose p)).
Lemma match_form t s pose points :
  tsdf_match t s pose points =
  let w := total_of (map (weight_of t pose) points) in
  if Req_EM_T w 0 then None
  else Some (map (fun p => INR (length points) * s * cost_of t pose p * weight_of t pose p / w) points).
Proof.
  unfold tsdf_match. cbv zeta. rewrite fold_total, Rplus_0_l, !map_map. unfold weight_of, cost_of.
  destruct (Req_EM_T _ 0); reflexivity.
Qed.
Lemma weight_nonneg t x y : 0 < l_res (t_lim t) -> (forall i j, 0 <= t_weight t i j) -> 0 <= weight_at real_scalar t x y.
Proof.
  intros H B. destruct (lower2 (t_lim t) x y H) as [i [j [_ L]]]. rewrite (weight_form t x y i j H L).
  assert (G : forall i j, 0 <= get_weight2 t i j).
  { intros a b. unfold get_weight2. destruct (contains2 (t_lim t) (a, b)); [apply B | lra]. }
  set (hi := get_weight2 t i j + get_weight2 t (i - 1) j + get_weight2 t i (j - 1) + get_weight2 t (i - 1) (j - 1)).
  apply (blend_at_bounds (t_lim t) (get_weight2 t) x y i j 0 hi H L).
  intros c Hc. pose proof (G i j). pose proof (G (i - 1) j)%Z. pose proof (G i (j - 1))%Z. pose proof (G (i - 1) (j - 1))%Z.
  unfold hi. cbn in Hc. destruct Hc as [<- | [<- | [<- | [<- | []]]]]; cbn [fst snd]; lra.
Qed.

(* jets of the whole cost *)
Lemma follows_div t i F G a b : follows t i F a -> follows t i G b -> j_a b <> 0 ->
  follows t i (fun s => F s / G s) (jet_div a b).
Proof.
  intros [A A'] [B B'] N. split; cbn [jet_div j_a j_v]; [now rewrite A, B|].
  assert (G0 : G t <> 0) by now rewrite B.
  pose proof (derivable_pt_lim_div F G t _ _ A' B' G0) as D. unfold div_fct in D.
  replace ((j_v a i - j_a a / j_a b * j_v b i) / j_a b) with ((j_v a i * G t - j_v b i * F t) / Rsqr (G t)); [exact D|].
  rewrite A, B. unfold Rsqr. field. exact N.
Qed.
Lemma follows_fold t i (Fs : list ((R -> R) * jet)) F0 a : follows t i F0 a ->
  (forall c, In c Fs -> follows t i (fst c) (snd c)) ->
  follows t i (fun s => fold_left Rplus (map (fun c => fst c s) Fs) (F0 s)) (fold_left (s_add jet_scalar) (map snd Fs) a).
Proof.
  revert F0 a. induction Fs as [|c Fs IH]; intros F0 a H P; cbn [map fold_left]; [exact H|].
  apply (IH (fun s => F0 s + fst c s)).
  - apply follows_add; [exact H | apply P; now left].
  - intros. apply P. now right.
Qed.
Lemma follows_world2 pose n p :
  follows (pose n) n (fun t => fst (world2 real_scalar (vary pose n t) p))
    (fst (world2 jet_scalar (fun m => seed (pose m) m) p)) /\
  follows (pose n) n (fun t => snd (world2 real_scalar (vary pose n t) p))
    (snd (world2 jet_scalar (fun m => seed (pose m) m) p)).
Proof.
  unfold world2. cbn [fst snd]. cbn [real_scalar s_add s_sub s_mul s_of s_cos s_sin s_neg].
  split; follow.
Qed.
Lemma world2_apply x y a p : world2 real_scalar (fun n => nth n [x; y; a] 0) p = r2_apply (mk_vec3 x y a) p.
Proof. unfold world2, r2_apply. cbn [nth real_scalar s_add s_mul s_of s_cos s_sin s_neg v0 v1 v2]. f_equal; ring. Qed.
Lemma vary_self pose n m : vary pose n (pose n) m = pose m.
Proof. unfold vary. destruct (Nat.eqb_spec m n); now subst. Qed.
Lemma vary_same pose n p : world2 real_scalar (vary pose n (pose n)) p = world2 real_scalar pose p.
Proof. unfold world2. now rewrite !vary_self. Qed.

Definition inside_cells (t : tsdf2) (pose : nat -> R) (p : R * R) : Prop :=
  exists i j, strictly_inside (t_lim t) (fst (world2 real_scalar pose p)) (snd (world2 real_scalar pose p)) i j.
Definition world_jet (pose : nat -> R) (p : R * R) : jet * jet := world2 jet_scalar (fun m => seed (pose m) m) p.
Lemma follows_point t pose n p : 0 < l_res (t_lim t) -> inside_cells t pose p ->
  follows (pose n) n (fun u => weight_of t (vary pose n u) p)
    (weight_at jet_scalar t (fst (world_jet pose p)) (snd (world_jet pose p))) /\
  follows (pose n) n (fun u => cost_of t (vary pose n u) p)
    (cost_at jet_scalar t (fst (world_jet pose p)) (snd (world_jet pose p))).
Proof.
  intros H [a [b Q]]. destruct (follows_world2 pose n p) as [FX FY]. unfold weight_of, cost_of, world_jet. split.
  - apply (follows_weight t _ _ (fun u => fst (world2 real_scalar (vary pose n u) p))
             (fun u => snd (world2 real_scalar (vary pose n u) p)) _ _ a b H FX FY).
    cbn beta. rewrite vary_same. exact Q.
  - apply (follows_cost t _ _ (fun u => fst (world2 real_scalar (vary pose n u) p))
             (fun u => snd (world2 real_scalar (vary pose n u) p)) _ _ a b H FX FY).
    cbn beta. rewrite vary_same. exact Q.
Qed.
Lemma follows_match_sum t pose n points : 0 < l_res (t_lim t) ->
  (forall p, In p points -> inside_cells t pose p) ->
  follows (pose n) n (fun u => total_of (map (weight_of t (vary pose n u)) points))
    (fold_left (s_add jet_scalar) (map (fun w => weight_at jet_scalar t (fst w) (snd w))
       (map (world2 jet_scalar (fun m => seed (pose m) m)) points)) (s_of jet_scalar 0)).
Proof.
  intros H I.
  pose (Fs := map (fun p => (fun u => weight_of t (vary pose n u) p,
      weight_at jet_scalar t (fst (world_jet pose p)) (snd (world_jet pose p)))) points).
  assert (E : map (fun w => weight_at jet_scalar t (fst w) (snd w))
       (map (world2 jet_scalar (fun m => seed (pose m) m)) points) = map snd Fs).
  { unfold Fs. rewrite !map_map. reflexivity. }
  rewrite E. apply follows_local with (d := 1)
    (G := fun u => fold_left Rplus (map (fun c => fst c u) Fs) ((fun _ => 0) u)); [lra | |].
  - intros u _. rewrite fold_total, Rplus_0_l. unfold Fs. rewrite map_map. reflexivity.
  - apply follows_fold; [apply follows_of|]. unfold Fs. intros c Hc. apply in_map_iff in Hc.
    destruct Hc as [p [<- Hp]]. cbn [fst snd]. exact (proj1 (follows_point t pose n p H (I p Hp))).
Qed.
Lemma follows_match t s pose n points rs : 0 < l_res (t_lim t) ->
  (forall p, In p points -> inside_cells t pose p) ->
  tsdf_match_jet t s (fun m => seed (pose m) m) points = Some rs ->
  length rs = length points /\
  forall k p j, nth_error points k = Some p -> nth_error rs k = Some j ->
    follows (pose n) n (fun u => INR (length points) * s * cost_of t (vary pose n u) p * weight_of t (vary pose n u) p
           / total_of (map (weight_of t (vary pose n u)) points)) j.
Proof.
  intros H I M. unfold tsdf_match_jet in M. cbv zeta in M.
  pose proof (follows_match_sum t pose n points H I) as FS.
  set (S := fold_left (s_add jet_scalar) _ _) in *. clearbody S.
  destruct (Req_EM_T (j_a S) 0) as [Z | Z]; [discriminate|].
  assert (Er := f_equal (fun o => match o with Some x => x | None => rs end) M). cbn beta iota in Er.
  change (world2 jet_scalar (fun m => seed (pose m) m)) with (world_jet pose) in Er.
  clear M. split; [rewrite <- Er, !map_length; reflexivity|].
  intros k p j P J. rewrite <- Er, !map_map in J. rewrite nth_error_map, P in J. cbn [option_map] in J.
  assert (Ej := f_equal (fun o => match o with Some x => x | None => j end) J). cbn beta iota in Ej.
  rewrite <- Ej. destruct (follows_point t pose n p H (I p (nth_error_In _ _ P))) as [FW FC].
  apply (follows_div _ _ (fun u => INR (length points) * s * cost_of t (vary pose n u) p * weight_of t (vary pose n u) p)
          (fun u => total_of (map (weight_of t (vary pose n u)) points))); [|exact FS|exact Z].
  apply follows_mul; [|exact FW]. apply follows_mul; [|exact FC].
  apply (follows_mul _ _ (fun _ => INR (length points)) (fun _ => s)); apply follows_of.
Qed.
