From Coq Require Import ZArith Reals Lra Lia List Bool.
From Verif Require Import CF_Model RG_Model IG_Model IG_Proofs IG_Smooth I2_Match Vec RH_Model RH_Spec RH_Proofs.
Import ListNotations.
Open Scope R_scope.

(* ---- sums around the circle *)
Lemma zfrom_snoc n : forall a, zfrom a (S n) = zfrom a n ++ [(a + Z.of_nat n)%Z].
Proof.
  induction n; intros a; [cbn [zfrom app]; f_equal; rewrite Z.add_0_r; reflexivity|].
  change (zfrom a (S (S n))) with (a :: zfrom (a + 1) (S n)). rewrite IHn. cbn [zfrom app]. f_equal. f_equal. f_equal. lia.
Qed.
Lemma zfrom_shift {A} (f : Z -> A) m n : forall a, map (fun i => f (i + m)%Z) (zfrom a n) = map f (zfrom (a + m) n).
Proof.
  induction n; intros a; cbn [zfrom map]; [reflexivity|]. f_equal. rewrite IHn. f_equal. f_equal. lia.
Qed.
Definition periodic (f : Z -> R) (n : Z) : Prop := forall k, f (k + n)%Z = f k.
Lemma window_1 f n a : periodic f (Z.of_nat n) -> mass (map f (zfrom (a + 1) n)) = mass (map f (zfrom a n)).
Proof.
  intros P. assert (E : f a + mass (map f (zfrom (a + 1) n)) = mass (map f (zfrom a n)) + f (a + Z.of_nat n)%Z).
  { change (f a + mass (map f (zfrom (a + 1) n))) with (mass (map f (zfrom a (S n)))).
    rewrite zfrom_snoc, map_app, mass_app. cbn [map mass]. ring. }
  rewrite P in E. lra.
Qed.
Lemma window f n a : periodic f (Z.of_nat n) -> mass (map f (zfrom a n)) = mass (map f (zfrom 0 n)).
Proof.
  intros P. assert (U : forall m, mass (map f (zfrom (Z.of_nat m) n)) = mass (map f (zfrom 0 n)) /\
    mass (map f (zfrom (- Z.of_nat m) n)) = mass (map f (zfrom 0 n))).
  { induction m as [|m [A B]]; [split; reflexivity|]. split.
    - rewrite <- A, <- (window_1 f n (Z.of_nat m) P). f_equal. f_equal. f_equal. lia.
    - rewrite <- B, <- (window_1 f n (- Z.of_nat (S m)) P). f_equal. f_equal. f_equal. lia. }
  destruct (Z.le_gt_cases 0 a).
  - rewrite <- (proj1 (U (Z.to_nat a))). now rewrite Z2Nat.id.
  - rewrite <- (proj2 (U (Z.to_nat (- a)))). rewrite Z2Nat.id by lia. now rewrite Z.opp_involutive.
Qed.
Lemma sum_shift f n m : (0 <= n)%Z -> periodic f n -> mass (map (fun i => f (i + m)%Z) (zrange n)) = mass (map f (zrange n)).
Proof.
  intros N P. unfold zrange. rewrite zfrom_shift. apply window. now rewrite Z2Nat.id.
Qed.
Lemma mass_map_plus {X} (f g : X -> R) l : mass (map (fun x => f x + g x) l) = mass (map f l) + mass (map g l).
Proof. induction l; cbn [map mass]; [ring | rewrite IHl; ring]. Qed.
Lemma mass_map_scale {X} (f : X -> R) k l : mass (map (fun x => k * f x) l) = k * mass (map f l).
Proof. induction l; cbn [map mass]; [ring | rewrite IHl; ring]. Qed.
Lemma mass_nonneg {X} (f : X -> R) l : (forall x, In x l -> 0 <= f x) -> 0 <= mass (map f l).
Proof.
  induction l; intros P; cbn [map mass]; [lra|]. pose proof (P a (or_introl eq_refl)).
  pose proof (IHl (fun x I => P x (or_intror I))). lra.
Qed.
Lemma mass_zero {X} (f : X -> R) l : (forall x, In x l -> 0 <= f x) -> mass (map f l) = 0 -> forall x, In x l -> f x = 0.
Proof.
  induction l; intros P Z x I; [destruct I|]. cbn [map mass] in Z. pose proof (P a (or_introl eq_refl)).
  pose proof (mass_nonneg f l (fun x I => P x (or_intror I))). destruct I as [<- | I]; [lra|].
  apply IHl; [intros; apply P; now right | lra | exact I].
Qed.

(* ---- bins around *)
Lemma around_periodic h k : around_bin h (k + vsize h) = around_bin h k.
Proof. unfold around_bin, vsize. now rewrite <- (Z.mul_1_l (Z.of_nat (length h))) at 1; rewrite Z_mod_plus_full. Qed.
Lemma around_mod h k : around_bin h (k mod vsize h) = around_bin h k.
Proof. unfold around_bin, vsize. now rewrite Zmod_mod. Qed.
Lemma around_small h k : (0 <= k < vsize h)%Z -> around_bin h k = bin h k.
Proof. intros H. unfold around_bin, bin, vsize in *. now rewrite Z.mod_small. Qed.
Lemma zrange_length n : (0 <= n)%Z -> Z.of_nat (length (zrange n)) = n.
Proof. intros N. rewrite zrange_seq, map_length, seq_length. lia. Qed.
Lemma bin_map (f : Z -> R) n k : (0 <= k < n)%Z -> bin (map f (zrange n)) k = f k.
Proof.
  intros K. unfold bin. rewrite zrange_seq, map_map.
  rewrite (nth_indep _ 0 (f (Z.of_nat 0))) by (rewrite map_length, seq_length; lia).
  rewrite (map_nth (fun x => f (Z.of_nat x))). rewrite seq_nth by lia. f_equal. lia.
Qed.
Lemma size_map (f : Z -> R) n : (0 <= n)%Z -> vsize (map f (zrange n)) = n.
Proof. intros N. unfold vsize. rewrite map_length. now apply zrange_length. Qed.
Lemma around_map f n k : (0 < n)%Z -> periodic f n -> around_bin (map f (zrange n)) k = f k.
Proof.
  intros N P. rewrite <- around_mod, size_map by lia.
  pose proof (Z.mod_pos_bound k n N). rewrite around_small by (rewrite size_map; lia). rewrite bin_map by exact H.
  assert (Q : forall m j, f (j + m * n)%Z = f j).
  { intros m j. assert (U : forall m, f (j + Z.of_nat m * n)%Z = f j /\ f (j - Z.of_nat m * n)%Z = f j).
    { induction m0 as [|m0 [A B]]; [split; f_equal; lia|]. split.
      - rewrite <- A. rewrite <- (P (j + Z.of_nat m0 * n)%Z). f_equal. lia.
      - rewrite <- B. rewrite <- (P (j - Z.of_nat (S m0) * n)%Z). f_equal. lia. }
    destruct (Z.le_gt_cases 0 m).
    - destruct (U (Z.to_nat m)) as [A _]. now rewrite Z2Nat.id in A.
    - destruct (U (Z.to_nat (- m))) as [_ A]. rewrite Z2Nat.id in A by lia. rewrite <- A. f_equal. lia. }
  rewrite <- (Q (k / n)%Z (k mod n)%Z). f_equal. rewrite (Z.div_mod k n) at 3 by lia. lia.
Qed.
Lemma self_map h : h = map (around_bin h) (zrange (vsize h)).
Proof.
  assert (N : (0 <= vsize h)%Z) by (unfold vsize; lia).
  apply bin_ext.
  - pose proof (size_map (around_bin h) (vsize h) N) as E. unfold vsize in *. lia.
  - intros k K. rewrite bin_map by exact K. symmetry. now apply around_small.
Qed.
Lemma around_ext h g : length h = length g -> (forall k, around_bin h k = around_bin g k) -> h = g.
Proof.
  intros L E. rewrite (self_map h), (self_map g). unfold vsize. rewrite L. apply map_ext. exact E.
Qed.

(* ---- rotating histograms *)
Lemma ramp_at A v m : 0 <= v - IZR m <= 1 -> ramp A v = (v - IZR m) * A (m + 1)%Z + (1 - (v - IZR m)) * A m.
Proof.
  intros [B C]. unfold ramp. destruct (Rle_lt_or_eq_dec _ _ C) as [C' | C'].
  - rewrite (floor_unique v m) by lra. ring.
  - rewrite (floor_unique v (m + 1)) by (rewrite ?plus_IZR; lra). rewrite plus_IZR.
    replace v with (IZR m + 1) by lra. ring.
Qed.
Lemma ramp_ext A B v : (forall i, A i = B i) -> ramp A v = ramp B v.
Proof. intros E. unfold ramp. now rewrite !E. Qed.
Lemma ramp_shift A v k : ramp A (v + IZR k) = ramp (fun i => A (i + k)%Z) v.
Proof.
  unfold ramp. rewrite floor_shift_n, plus_IZR.
  replace (v + IZR k - (IZR (Int_part v) + IZR k)) with (v - IZR (Int_part v)) by ring.
  replace (Int_part v + k + 1)%Z with (Int_part v + 1 + k)%Z by lia. reflexivity.
Qed.
Lemma ramp_Z A k : ramp A (IZR k) = A k.
Proof. unfold ramp. rewrite floor_Z. ring. Qed.
Definition buckets (h : list R) (angle : R) : R := - angle * IZR (vsize h) / PI.
Lemma rotate_form h angle : h <> [] ->
  rotate_histogram h angle = map (fun i => ramp (fun j => around_bin h (i + j)) (buckets h angle)) (zrange (vsize h)).
Proof.
  intros NE. unfold rotate_histogram. destruct h as [|x l] eqn:Eh; [congruence|]. rewrite <- Eh. clear NE.
  cbv zeta. fold (buckets h angle). set (v := buckets h angle). set (m := lround (v - 1 / 2)).
  assert (N : (0 < vsize h)%Z) by (rewrite Eh; unfold vsize; cbn [length]; lia).
  assert (B : 0 <= v - IZR m <= 1) by (pose proof (lround_near (v - 1 / 2)) as L; fold m in L; lra).
  apply map_ext. intros i. rewrite (ramp_at _ v m B).
  assert (E : forall c, bin h ((i + c + (if (m <? 0)%Z then m mod vsize h else m)) mod vsize h)%Z = around_bin h (i + c + m)).
  { intros c. rewrite <- (around_mod h (i + c + m)), around_small by (apply Z.mod_pos_bound, N). f_equal.
    destruct (m <? 0)%Z; [|reflexivity]. now rewrite Zplus_mod_idemp_r. }
  rewrite (E 1%Z). pose proof (E 0%Z) as E0. rewrite !Z.add_0_r in E0. rewrite E0.
  now replace (i + 1 + m)%Z with (i + (m + 1))%Z by lia.
Qed.
Lemma rotate_length h angle : length (rotate_histogram h angle) = length h.
Proof.
  destruct h as [|x l] eqn:E; [reflexivity|]. rewrite <- E. rewrite rotate_form by congruence.
  rewrite map_length. pose proof (zrange_length (vsize h) ltac:(unfold vsize; lia)). unfold vsize in *. lia.
Qed.
Lemma around_rotate h angle k : h <> [] ->
  around_bin (rotate_histogram h angle) k = ramp (fun j => around_bin h (k + j)) (buckets h angle).
Proof.
  intros NE. rewrite rotate_form by exact NE.
  rewrite (around_map (fun i => ramp (fun j => around_bin h (i + j)) (buckets h angle))); [reflexivity| |].
  - unfold vsize. destruct h; [congruence | cbn [length]; lia].
  - intros i. apply ramp_ext. intros j. replace (i + vsize h + j)%Z with (i + j + vsize h)%Z by lia. apply around_periodic.
Qed.
Lemma around_full h k j : h <> [] -> around_bin (rotate_histogram h (IZR k * PI / IZR (vsize h))) j = around_bin h (j - k).
Proof.
  intros NE. rewrite around_rotate by exact NE.
  assert (N : IZR (vsize h) <> 0) by (apply not_0_IZR; unfold vsize; destruct h; [congruence | cbn [length]; lia]).
  replace (buckets h (IZR k * PI / IZR (vsize h))) with (IZR (- k)).
  - rewrite ramp_Z. f_equal.
  - unfold buckets. rewrite opp_IZR. pose proof PI_pos. field. split; [exact N | lra].
Qed.
Lemma size_rotate h angle : vsize (rotate_histogram h angle) = vsize h.
Proof. unfold vsize. now rewrite rotate_length. Qed.
Lemma rotate_nonempty h angle : h <> [] -> rotate_histogram h angle <> [].
Proof. intros NE E. pose proof (rotate_length h angle) as L. rewrite E in L. destruct h; [congruence | discriminate]. Qed.
Lemma rotate_compose h k a : h <> [] ->
  rotate_histogram (rotate_histogram h (IZR k * PI / IZR (vsize h))) a = rotate_histogram h (IZR k * PI / IZR (vsize h) + a).
Proof.
  intros NE. apply around_ext; [now rewrite !rotate_length|]. intros i.
  rewrite !around_rotate by (try apply rotate_nonempty; exact NE).
  assert (N : IZR (vsize h) <> 0) by (apply not_0_IZR; unfold vsize; destruct h; [congruence | cbn [length]; lia]).
  replace (buckets h (IZR k * PI / IZR (vsize h) + a)) with (buckets (rotate_histogram h (IZR k * PI / IZR (vsize h))) a + IZR (- k)).
  - rewrite ramp_shift. apply ramp_ext. intros j. rewrite around_full by exact NE. f_equal. lia.
  - unfold buckets. rewrite size_rotate, opp_IZR. pose proof PI_pos. field. split; [exact N | lra].
Qed.
Lemma rotate_period h a m : rotate_histogram h (a + IZR m * PI) = rotate_histogram h a.
Proof.
  destruct h as [|x l] eqn:E; [reflexivity|]. rewrite <- E. assert (NE : h <> []) by congruence.
  apply around_ext; [now rewrite !rotate_length|]. intros i. rewrite !around_rotate by exact NE.
  replace (buckets h (a + IZR m * PI)) with (buckets h a + IZR (- m * vsize h)).
  - rewrite ramp_shift. apply ramp_ext. intros j.
    unfold around_bin. fold (vsize h). replace (i + (j + - m * vsize h))%Z with (i + j + - m * vsize h)%Z by lia.
    now rewrite Z_mod_plus_full.
  - unfold buckets. rewrite mult_IZR, opp_IZR. pose proof PI_pos. field. lra.
Qed.
Lemma rotate_0 h : rotate_histogram h 0 = h.
Proof.
  destruct h as [|x l] eqn:E; [reflexivity|]. rewrite <- E. assert (NE : h <> []) by congruence.
  apply around_ext; [now rewrite rotate_length|]. intros i. rewrite around_rotate by exact NE.
  replace (buckets h 0) with (IZR 0) by (unfold buckets; pose proof PI_pos; field; lra). rewrite ramp_Z. f_equal. lia.
Qed.
Lemma mass_around h : mass h = mass (map (around_bin h) (zrange (vsize h))).
Proof. now rewrite <- self_map. Qed.
Lemma rotate_mass h a : mass (rotate_histogram h a) = mass h.
Proof.
  destruct h as [|x l] eqn:E; [reflexivity|]. rewrite <- E. assert (NE : h <> []) by congruence.
  rewrite rotate_form by exact NE. set (v := buckets h a). set (m := Int_part v).
  rewrite (map_ext _ (fun i => (v - IZR m) * around_bin h (i + (m + 1)) + (1 - (v - IZR m)) * around_bin h (i + m))).
  - rewrite mass_map_plus, !mass_map_scale.
    rewrite !(sum_shift (around_bin h)) by (try (intros k; apply around_periodic); unfold vsize; lia).
    rewrite <- mass_around. ring.
  - intros i. apply (ramp_at (fun j => around_bin h (i + j)) v m). unfold m. pose proof (floor_spec v). lra.
Qed.
Lemma rotate_nonneg h a lo hi : (forall x, In x h -> lo <= x <= hi) -> forall x, In x (rotate_histogram h a) -> lo <= x <= hi.
Proof.
  intros P x I. destruct h as [|y l] eqn:E; [destruct I|]. rewrite <- E in *. assert (NE : h <> []) by congruence.
  rewrite rotate_form in I by exact NE. apply in_map_iff in I. destruct I as [i [<- _]].
  set (v := buckets h a). pose proof (floor_spec v). rewrite (ramp_at _ v (Int_part v)) by lra.
  assert (B : forall k, lo <= around_bin h k <= hi).
  { intros k. apply P. unfold around_bin. apply nth_In. rewrite E.
    pose proof (Z.mod_pos_bound k (Z.of_nat (length (y :: l))) ltac:(cbn [length]; lia)). lia. }
  pose proof (B (i + (Int_part v + 1))%Z). pose proof (B (i + Int_part v)%Z).
  set (t := v - IZR (Int_part v)) in *. assert (T : 0 <= t < 1) by (unfold t; lra). clearbody t.
  split; nra.
Qed.

(* ---- matching *)
Lemma hdot_form a b : length a = length b -> hdot a b = mass (map (fun i => around_bin a i * around_bin b i) (zrange (vsize a))).
Proof.
  intros L. unfold hdot. rewrite (self_map a) at 1. rewrite (self_map b) at 1. unfold vsize at 2. rewrite <- L. fold (vsize a).
  induction (zrange (vsize a)) as [|i l IH]; cbn [map combine fold_right mass fst snd]; [reflexivity | now rewrite IH].
Qed.
Lemma cauchy {X} (f g : X -> R) l :
  mass (map (fun x => f x * g x) l) * mass (map (fun x => f x * g x) l)
  <= mass (map (fun x => f x * f x) l) * mass (map (fun x => g x * g x) l).
Proof.
  induction l as [|a l IH]; cbn [map mass]; [lra|].
  assert (P : 0 <= mass (map (fun x => f x * f x) l)) by (apply mass_nonneg; intros; nra).
  assert (Q : 0 <= mass (map (fun x => g x * g x) l)) by (apply mass_nonneg; intros; nra).
  set (X1 := mass (map (fun x => f x * g x) l)) in *. set (A := mass (map (fun x => f x * f x) l)) in *.
  set (B := mass (map (fun x => g x * g x) l)) in *. set (u := f a). set (v := g a). clearbody X1 A B u v.
  assert (K : 2 * (u * v) * X1 <= u * u * B + v * v * A).
  { assert (S1 : 0 <= u * u * B + v * v * A) by (pose proof (Rle_0_sqr u); pose proof (Rle_0_sqr v); unfold Rsqr in *; nra).
    assert (S2 : (2 * (u * v) * X1) * (2 * (u * v) * X1) <= (u * u * B + v * v * A) * (u * u * B + v * v * A)).
    { apply Rle_trans with (4 * ((u * v) * (u * v)) * (A * B)).
      - replace ((2 * (u * v) * X1) * (2 * (u * v) * X1)) with (4 * ((u * v) * (u * v)) * (X1 * X1)) by ring.
        apply Rmult_le_compat_l; [|exact IH]. pose proof (Rle_0_sqr (u * v)). unfold Rsqr in H. lra.
      - pose proof (Rle_0_sqr (u * u * B - v * v * A)). unfold Rsqr in H. lra. }
    destruct (Rle_dec (2 * (u * v) * X1) 0) as [N|N]; [lra|]. apply Rsqr_incr_0; unfold Rsqr; lra. }
  lra.
Qed.
Lemma hdot_sq_nonneg a : 0 <= hdot a a.
Proof. rewrite hdot_form by reflexivity. apply mass_nonneg. intros. nra. Qed.
Lemma hnorm_sq a : hnorm a * hnorm a = hdot a a.
Proof. apply sqrt_sqrt, hdot_sq_nonneg. Qed.
Lemma hnorm_pos a : 0 <= hnorm a. Proof. apply sqrt_pos. Qed.
Lemma hdot_comm a b : length a = length b -> hdot a b = hdot b a.
Proof.
  intros L. rewrite !hdot_form by auto. unfold vsize. rewrite L. f_equal. apply map_ext. intros. ring.
Qed.
Lemma hdot_le a b : length a = length b -> Rabs (hdot a b) <= hnorm a * hnorm b.
Proof.
  intros L. pose proof (hnorm_pos a) as A. pose proof (hnorm_pos b) as B.
  assert (S : hdot a b * hdot a b <= (hnorm a * hnorm b) * (hnorm a * hnorm b)).
  { replace ((hnorm a * hnorm b) * (hnorm a * hnorm b)) with ((hnorm a * hnorm a) * (hnorm b * hnorm b)) by ring.
    rewrite !hnorm_sq. rewrite !hdot_form by auto. unfold vsize. rewrite <- L. apply cauchy. }
  apply Rsqr_incr_0; [|apply Rabs_pos|nra]. unfold Rsqr. rewrite <- Rabs_mult.
  rewrite Rabs_pos_eq; [exact S|]. pose proof (Rle_0_sqr (hdot a b)). exact H.
Qed.
Lemma match_range a b : length a = length b -> -1 <= match_histograms a b <= 1.
Proof.
  intros L. unfold match_histograms. cbv zeta. destruct (Rlt_dec _ _) as [|N]; [lra|].
  set (z := hnorm b * hnorm a) in *. assert (Z : 0 < z) by lra.
  pose proof (hdot_le a b L) as H. replace (hnorm a * hnorm b) with z in H by (unfold z; ring).
  assert (- z <= hdot a b <= z) by (unfold Rabs in H; destruct (Rcase_abs (hdot a b)); lra).
  split; apply Rmult_le_reg_r with z; try exact Z; unfold Rdiv; rewrite Rmult_assoc, Rinv_l by lra; lra.
Qed.
Lemma match_nonneg a b : length a = length b -> (forall x, In x a -> 0 <= x) -> (forall x, In x b -> 0 <= x) ->
  0 <= match_histograms a b.
Proof.
  intros L PA PB. unfold match_histograms. cbv zeta. destruct (Rlt_dec _ _) as [|N]; [lra|].
  apply Rmult_le_pos; [|left; apply Rinv_0_lt_compat; lra]. rewrite hdot_form by exact L.
  apply mass_nonneg. intros i I. apply In_zrange in I. rewrite !around_small by (unfold vsize in *; lia).
  apply Rmult_le_pos; [apply PA | apply PB]; unfold bin; apply nth_In; unfold vsize in *; lia.
Qed.
Lemma match_comm a b : length a = length b -> match_histograms a b = match_histograms b a.
Proof.
  intros L. unfold match_histograms. cbv zeta. rewrite (Rmult_comm (hnorm a)), (hdot_comm a b L). reflexivity.
Qed.
Lemma around_scale k a i : around_bin (map (Rmult k) a) i = k * around_bin a i.
Proof.
  unfold around_bin. rewrite map_length. set (j := Z.to_nat _).
  destruct (Nat.lt_ge_cases j (length a)).
  - rewrite (nth_indep _ 0 (k * 0)) by (rewrite map_length; exact H). apply map_nth.
  - rewrite !nth_overflow by (rewrite ?map_length; exact H). ring.
Qed.
Lemma match_one a b : length a = length b -> 1 / 1000 <= hnorm b * hnorm a ->
  (match_histograms a b = 1 <-> proportional a b).
Proof.
  intros L N. unfold match_histograms. cbv zeta. destruct (Rlt_dec _ _) as [X|_]; [lra|].
  pose proof (hnorm_pos a) as A0. pose proof (hnorm_pos b) as B0.
  assert (A : 0 < hnorm a) by (destruct (Req_dec (hnorm a) 0) as [E|E]; [rewrite E in N; lra | lra]).
  assert (B : 0 < hnorm b) by (destruct (Req_dec (hnorm b) 0) as [E|E]; [rewrite E in N; lra | lra]).
  split.
  - intros E. assert (D : hdot a b = hnorm a * hnorm b).
    { apply Rmult_eq_reg_r with (/ (hnorm b * hnorm a)); [|apply Rinv_neq_0_compat; lra].
      unfold Rdiv in E. rewrite E. field. lra. }
    assert (Z : mass (map (fun i => (hnorm b * around_bin a i - hnorm a * around_bin b i) *
                                    (hnorm b * around_bin a i - hnorm a * around_bin b i)) (zrange (vsize a))) = 0).
    { rewrite (map_ext _ (fun i => (hnorm b * hnorm b) * (around_bin a i * around_bin a i) +
         ((hnorm a * hnorm a) * (around_bin b i * around_bin b i) + (- 2 * (hnorm a * hnorm b)) * (around_bin a i * around_bin b i))))
        by (intros; ring).
      rewrite mass_map_plus, mass_map_plus, !mass_map_scale.
      assert (V : vsize a = vsize b) by (unfold vsize; lia).
      rewrite <- (hdot_form a b L), <- (hdot_form a a eq_refl). rewrite V, <- (hdot_form b b eq_refl).
      rewrite <- !hnorm_sq, D. ring. }
    assert (P := mass_zero (fun i => (hnorm b * around_bin a i - hnorm a * around_bin b i) *
                                    (hnorm b * around_bin a i - hnorm a * around_bin b i)) _ (fun i _ => Rle_0_sqr _) Z).
    exists (hnorm b / hnorm a). split; [now apply Rdiv_lt_0_compat|].
    apply bin_ext; [now rewrite map_length|]. intros k K. rewrite <- !around_small by (unfold vsize in *; rewrite ?map_length; lia).
    rewrite around_scale. assert (I : In k (zrange (vsize a))) by (apply In_zrange; unfold vsize in *; lia).
    specialize (P k I). cbn beta in P. apply Rmult_integral in P.
    assert (Q : hnorm b * around_bin a k = hnorm a * around_bin b k) by (destruct P; lra).
    apply Rmult_eq_reg_l with (hnorm a); [|lra]. rewrite <- Q. field. lra.
  - intros [k [K E]]. assert (H : hdot a b = k * hdot a a).
    { rewrite (hdot_form a b L), (hdot_form a a eq_refl), <- mass_map_scale. f_equal. apply map_ext. intros i.
      rewrite E, around_scale. ring. }
    assert (HB : hnorm b = k * hnorm a).
    { unfold hnorm. rewrite <- (sqrt_square k) at 1 by lra. rewrite <- sqrt_mult by (try apply hdot_sq_nonneg; nra). f_equal.
      rewrite (hdot_form b b eq_refl), (hdot_form a a eq_refl), <- mass_map_scale. unfold vsize. rewrite <- L.
      f_equal. apply map_ext. intros i. rewrite E, around_scale. ring. }
    rewrite H, HB, <- hnorm_sq. field. split; apply Rgt_not_eq; assumption.
Qed.
Lemma hdot_rotate a b k : length a = length b -> a <> [] ->
  hdot (rotate_histogram a (IZR k * PI / IZR (vsize a))) (rotate_histogram b (IZR k * PI / IZR (vsize b))) = hdot a b.
Proof.
  intros L NE. assert (NE' : b <> []) by (intros ->; destruct a; [congruence | discriminate]).
  rewrite !hdot_form by (rewrite ?rotate_length; exact L). rewrite size_rotate.
  rewrite (map_ext _ (fun i => (fun j => around_bin a j * around_bin b j) (i + - k)%Z)).
  - apply (sum_shift (fun j => around_bin a j * around_bin b j)); [unfold vsize; lia|].
    intros j. rewrite around_periodic. f_equal. replace (vsize a) with (vsize b) by (unfold vsize; lia). apply around_periodic.
  - intros i. rewrite !around_full by assumption. reflexivity.
Qed.
Lemma match_rotate a b k : length a = length b -> a <> [] ->
  match_histograms (rotate_histogram a (IZR k * PI / IZR (vsize a))) (rotate_histogram b (IZR k * PI / IZR (vsize b))) =
  match_histograms a b.
Proof.
  intros L NE. assert (NE' : b <> []) by (intros ->; destruct a; [congruence | discriminate]).
  unfold match_histograms, hnorm. cbv zeta. now rewrite !hdot_rotate.
Qed.
