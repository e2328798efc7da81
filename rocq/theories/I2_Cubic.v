From Coq Require Import ZArith Reals Lra Lia List Bool.
From Verif Require Import CF_Model RG_Model IG_Model IG_Spec IG_Proofs IG_Smooth IG_Curve IG_Jet I2_Model I2_Spec I2_Proofs I2_Match.
Import ListNotations.
Open Scope R_scope.

(* the spline through the values at the integers *)
Definition spl (A : Z -> R) (v : R) : R :=
  let k := Int_part v in hermite (A (k - 1)%Z) (A k) (A (k + 1)%Z) (A (k + 2)%Z) (v - IZR k).
Definition dspl (A : Z -> R) (v : R) : R :=
  let k := Int_part v in dhermite (A (k - 1)%Z) (A k) (A (k + 1)%Z) (A (k + 2)%Z) (v - IZR k).
Lemma bicubic_form g r c : bicubic g r c =
  (spl (fun i => spl (g i) c) r, dspl (fun i => spl (g i) c) r, spl (fun i => dspl (g i) c) r).
Proof. reflexivity. Qed.
Lemma spl_Z A k : spl A (IZR k) = A k.
Proof. unfold spl. rewrite floor_Z, Rminus_diag_eq by reflexivity. unfold hermite. ring. Qed.
Lemma spl_ext A B v : (forall i, A i = B i) -> spl A v = spl B v.
Proof. intros E. unfold spl. cbv zeta. now rewrite !E. Qed.
Lemma dspl_ext A B v : (forall i, A i = B i) -> dspl A v = dspl B v.
Proof. intros E. unfold dspl. cbv zeta. now rewrite !E. Qed.
Lemma floor_shift v k : Int_part (v + IZR k) = (Int_part v + k)%Z.
Proof. apply floor_unique. pose proof (floor_spec v). rewrite plus_IZR. lra. Qed.
Lemma spl_shift A v k : spl A (v + IZR k) = spl (fun i => A (i + k)%Z) v.
Proof.
  unfold spl. cbv zeta. rewrite floor_shift, plus_IZR.
  replace (v + IZR k - (IZR (Int_part v) + IZR k)) with (v - IZR (Int_part v)) by ring.
  now replace (Int_part v + k - 1)%Z with (Int_part v - 1 + k)%Z by lia;
  replace (Int_part v + k + 1)%Z with (Int_part v + 1 + k)%Z by lia;
  replace (Int_part v + k + 2)%Z with (Int_part v + 2 + k)%Z by lia.
Qed.
Lemma dspl_shift A v k : dspl A (v + IZR k) = dspl (fun i => A (i + k)%Z) v.
Proof.
  unfold dspl. cbv zeta. rewrite floor_shift, plus_IZR.
  replace (v + IZR k - (IZR (Int_part v) + IZR k)) with (v - IZR (Int_part v)) by ring.
  now replace (Int_part v + k - 1)%Z with (Int_part v - 1 + k)%Z by lia;
  replace (Int_part v + k + 1)%Z with (Int_part v + 1 + k)%Z by lia;
  replace (Int_part v + k + 2)%Z with (Int_part v + 2 + k)%Z by lia.
Qed.
Lemma spl_const A v c : (forall i, (Int_part v - 1 <= i <= Int_part v + 2)%Z -> A i = c) -> spl A v = c.
Proof. intros E. unfold spl. cbv zeta. rewrite !E by lia. unfold hermite. ring. Qed.
Lemma dspl_const A v c : (forall i, (Int_part v - 1 <= i <= Int_part v + 2)%Z -> A i = c) -> dspl A v = 0.
Proof. intros E. unfold dspl. cbv zeta. rewrite !E by lia. unfold dhermite. ring. Qed.

(* bounds *)
Lemma hermite_weights p0 p1 p2 p3 t : hermite p0 p1 p2 p3 t =
  - (t * (1 - t) * (1 - t) / 2) * p0 + (2 - 5 * t * t + 3 * t * t * t) / 2 * p1
  + (t * (1 + 4 * t - 3 * t * t)) / 2 * p2 + - (t * t * (1 - t) / 2) * p3.
Proof. unfold hermite. field. Qed.
Lemma hermite_le p0 p1 p2 p3 t lo hi : 0 <= t <= 1 -> lo <= p0 -> lo <= p3 -> p0 <= hi -> p3 <= hi -> p1 <= hi -> p2 <= hi ->
  hermite p0 p1 p2 p3 t <= hi + (hi - lo) / 8.
Proof.
  intros T A0 A3 B0 B3 B1 B2. rewrite hermite_weights.
  assert (W0 : 0 <= t * (1 - t) * (1 - t) / 2) by (repeat apply Rmult_le_pos; lra).
  assert (W3 : 0 <= t * t * (1 - t) / 2) by (repeat apply Rmult_le_pos; lra).
  assert (W1 : 0 <= (2 - 5 * t * t + 3 * t * t * t) / 2).
  { replace (2 - 5 * t * t + 3 * t * t * t) with ((1 - t) * (2 + 2 * t - 3 * t * t)) by ring.
    apply Rmult_le_pos; [|lra]. apply Rmult_le_pos; nra. }
  assert (W2 : 0 <= t * (1 + 4 * t - 3 * t * t) / 2).
  { apply Rmult_le_pos; [|lra]. apply Rmult_le_pos; nra. }
  assert (Q : t * (1 - t) * (1 - t) / 2 + t * t * (1 - t) / 2 <= 1 / 8).
  { pose proof (Rle_0_sqr (t - 1 / 2)). unfold Rsqr in H. nra. }
  set (w0 := t * (1 - t) * (1 - t) / 2) in *. set (w3 := t * t * (1 - t) / 2) in *.
  set (w1 := (2 - 5 * t * t + 3 * t * t * t) / 2) in *.
  set (w2 := t * (1 + 4 * t - 3 * t * t) / 2) in *.
  assert (S : w1 + w2 = 1 + w0 + w3) by (unfold w0, w1, w2, w3; field).
  clearbody w0 w1 w2 w3. clear T t.
  assert (w1 * p1 <= w1 * hi) by (apply Rmult_le_compat_l; lra).
  assert (w2 * p2 <= w2 * hi) by (apply Rmult_le_compat_l; lra).
  assert (w0 * lo <= w0 * p0) by (apply Rmult_le_compat_l; lra).
  assert (w3 * lo <= w3 * p3) by (apply Rmult_le_compat_l; lra).
  assert (w1 * hi + w2 * hi = (1 + w0 + w3) * hi) by (rewrite <- S; ring).
  assert ((w0 + w3) * (hi - lo) <= 1 / 8 * (hi - lo)) by (apply Rmult_le_compat_r; lra).
  lra.
Qed.
Lemma hermite_opp p0 p1 p2 p3 t : hermite (- p0) (- p1) (- p2) (- p3) t = - hermite p0 p1 p2 p3 t.
Proof. unfold hermite. ring. Qed.
Lemma hermite_bounds p0 p1 p2 p3 t lo hi : 0 <= t <= 1 -> lo <= p0 <= hi -> lo <= p1 <= hi -> lo <= p2 <= hi -> lo <= p3 <= hi ->
  lo - (hi - lo) / 8 <= hermite p0 p1 p2 p3 t <= hi + (hi - lo) / 8.
Proof.
  intros T A B C D. split; [|apply hermite_le; lra].
  pose proof (hermite_le (- p0) (- p1) (- p2) (- p3) t (- hi) (- lo) T) as H. rewrite hermite_opp in H. lra.
Qed.
Lemma spl_bounds A v lo hi : (forall i, lo <= A i <= hi) -> lo - (hi - lo) / 8 <= spl A v <= hi + (hi - lo) / 8.
Proof.
  intros B. pose proof (floor_spec v). unfold spl. cbv zeta. apply hermite_bounds; try apply B. lra.
Qed.
Lemma spl_abs A v M : (forall i, Rabs (A i) <= M) -> Rabs (spl A v) <= 5 / 4 * M.
Proof.
  intros B. pose proof (spl_bounds A v (- M) M) as H. apply Rabs_le.
  assert (- M - (M - - M) / 8 <= spl A v <= M + (M - - M) / 8); [|lra]. apply H.
  intros i. pose proof (B i) as C. unfold Rabs in C. destruct (Rcase_abs (A i)); lra.
Qed.
Lemma dhermite_abs p0 p1 p2 p3 t M : 0 <= t <= 1 -> Rabs p0 <= M -> Rabs p1 <= M -> Rabs p2 <= M -> Rabs p3 <= M ->
  Rabs (dhermite p0 p1 p2 p3 t) <= 25 * M.
Proof.
  intros T A B C D.
  assert (E : forall p, Rabs p <= M -> - M <= p <= M) by (intros p P; unfold Rabs in P; destruct (Rcase_abs p); lra).
  apply E in A, B, C, D. unfold dhermite. cbv zeta.
  set (a := 1 / 2 * (- p0 + 3 * p1 - 3 * p2 + p3)). set (b := 1 / 2 * (2 * p0 - 5 * p1 + 4 * p2 - p3)).
  set (c := 1 / 2 * (- p0 + p2)).
  assert (- 4 * M <= a <= 4 * M) by (unfold a; lra).
  assert (- 6 * M <= b <= 6 * M) by (unfold b; lra).
  assert (- M <= c <= M) by (unfold c; lra). clearbody a b c.
  assert (- 12 * M <= a * 3 * t <= 12 * M) by (split; nra).
  assert (F : - 24 * M <= 2 * b + 3 * a * t <= 24 * M) by lra.
  set (q := 2 * b + 3 * a * t) in *. clearbody q.
  assert (- 24 * M <= t * q <= 24 * M) by (split; nra).
  apply Rabs_le. lra.
Qed.
Lemma dspl_abs A v M : (forall i, Rabs (A i) <= M) -> Rabs (dspl A v) <= 25 * M.
Proof. intros B. pose proof (floor_spec v). unfold dspl. cbv zeta. apply dhermite_abs; try apply B. lra. Qed.
Lemma spl_minus A B v : spl A v - spl B v = spl (fun i => A i - B i) v.
Proof. unfold spl, hermite. cbv zeta. ring. Qed.
Lemma dspl_minus A B v : dspl A v - dspl B v = dspl (fun i => A i - B i) v.
Proof. unfold dspl, dhermite. cbv zeta. ring. Qed.
Lemma spl_sup A B v e : (forall i, Rabs (A i - B i) <= e) -> Rabs (spl A v - spl B v) <= 5 / 4 * e.
Proof. intros D. rewrite spl_minus. now apply spl_abs. Qed.
Lemma dspl_sup A B v e : (forall i, Rabs (A i - B i) <= e) -> Rabs (dspl A v - dspl B v) <= 25 * e.
Proof. intros D. rewrite dspl_minus. now apply dspl_abs. Qed.

(* the derivative *)
Definition cpiece (A : Z -> R) (k : Z) (v : R) : R := hermite (A (k - 1)%Z) (A k) (A (k + 1)%Z) (A (k + 2)%Z) (v - IZR k).
Definition dcpiece (A : Z -> R) (k : Z) (v : R) : R := dhermite (A (k - 1)%Z) (A k) (A (k + 1)%Z) (A (k + 2)%Z) (v - IZR k).
Lemma cpiece_deriv A k v : derivable_pt_lim (cpiece A k) v (dcpiece A k v).
Proof.
  set (p0 := A (k - 1)%Z). set (p1 := A k). set (p2 := A (k + 1)%Z). set (p3 := A (k + 2)%Z). set (K := IZR k).
  set (a := 1 / 2 * (- p0 + 3 * p1 - 3 * p2 + p3)). set (b := 1 / 2 * (2 * p0 - 5 * p1 + 4 * p2 - p3)).
  set (c := 1 / 2 * (- p0 + p2)).
  apply deriv_ext with (fun t => (p1 - c * K + b * (K * K) - a * (K * K * K)) + (c - 2 * b * K + 3 * a * (K * K)) * t
    + (b - 3 * a * K) * (t * t) + a * (t * t * t)).
  - intros t. unfold cpiece, hermite. fold p0 p1 p2 p3 K. cbv zeta. fold a b c. ring.
  - replace (dcpiece A k v) with ((c - 2 * b * K + 3 * a * (K * K)) + 2 * (b - 3 * a * K) * v + 3 * a * (v * v));
      [apply cubic_deriv|].
    unfold dcpiece, dhermite. fold p0 p1 p2 p3 K. cbv zeta. fold a b c. ring.
Qed.
Lemma spl_piece A v k : IZR k <= v <= IZR k + 1 -> spl A v = cpiece A k v.
Proof.
  intros [B C]. destruct (Rle_lt_or_eq_dec _ _ C) as [C' | C'].
  - unfold spl, cpiece. cbv zeta. now rewrite (floor_unique v k) by lra.
  - unfold spl, cpiece. cbv zeta. rewrite (floor_unique v (k + 1)) by (rewrite ?plus_IZR; lra).
    rewrite plus_IZR, C'. replace (k + 1 - 1)%Z with k by lia. replace (k + 1 + 1)%Z with (k + 2)%Z by lia.
    unfold hermite. field.
Qed.
Lemma dspl_piece A v k : IZR k <= v <= IZR k + 1 -> dspl A v = dcpiece A k v.
Proof.
  intros [B C]. destruct (Rle_lt_or_eq_dec _ _ C) as [C' | C'].
  - unfold dspl, dcpiece. cbv zeta. now rewrite (floor_unique v k) by lra.
  - unfold dspl, dcpiece. cbv zeta. rewrite (floor_unique v (k + 1)) by (rewrite ?plus_IZR; lra).
    rewrite plus_IZR, C'. replace (k + 1 - 1)%Z with k by lia. replace (k + 1 + 1)%Z with (k + 2)%Z by lia.
    unfold dhermite. field.
Qed.
Lemma spl_deriv A v : derivable_pt_lim (spl A) v (dspl A v).
Proof.
  destruct (around 1 v Rlt_0_1) as [k [j [d [D [K1 [K2 [J1 J2]]]]]]]. rewrite Rmult_1_r in *.
  apply glue with (cpiece A k) (cpiece A j) d.
  - exact D.
  - rewrite (dspl_piece A v k) by lra. apply cpiece_deriv.
  - rewrite (dspl_piece A v j) by lra. apply cpiece_deriv.
  - apply spl_piece; lra.
  - apply spl_piece; lra.
  - intros y Y. apply spl_piece; lra.
  - intros y Y. apply spl_piece; lra.
Qed.
Lemma spl_lip A v w M : (forall i, Rabs (A i) <= M) -> Rabs (spl A w - spl A v) <= 25 * M * Rabs (w - v).
Proof.
  intros B. apply (lip (spl A) (dspl A)).
  - intros. apply spl_deriv.
  - intros. now apply dspl_abs.
Qed.
Lemma dcpiece_lip A k v w M : (forall i, Rabs (A i) <= M) ->
  IZR k <= v <= IZR k + 1 -> IZR k <= w <= IZR k + 1 ->
  Rabs (dcpiece A k w - dcpiece A k v) <= 36 * M * Rabs (w - v).
Proof.
  intros B V W. unfold dcpiece.
  assert (E : forall i, - M <= A i <= M) by (intros i; pose proof (B i) as P; unfold Rabs in P; destruct (Rcase_abs (A i)); lra).
  pose proof (E (k - 1)%Z). pose proof (E k). pose proof (E (k + 1)%Z). pose proof (E (k + 2)%Z).
  set (p0 := A (k - 1)%Z) in *. set (p1 := A k) in *. set (p2 := A (k + 1)%Z) in *. set (p3 := A (k + 2)%Z) in *.
  set (s := w - IZR k). set (t := v - IZR k). replace (w - v) with (s - t) by (unfold s, t; ring).
  assert (0 <= s <= 1) by (unfold s; lra). assert (0 <= t <= 1) by (unfold t; lra).
  unfold dhermite. cbv zeta.
  set (a := 1 / 2 * (- p0 + 3 * p1 - 3 * p2 + p3)). set (b := 1 / 2 * (2 * p0 - 5 * p1 + 4 * p2 - p3)).
  set (c := 1 / 2 * (- p0 + p2)).
  assert (- 4 * M <= a <= 4 * M) by (unfold a; lra).
  assert (- 6 * M <= b <= 6 * M) by (unfold b; lra).
  clearbody a b c s t.
  replace (c + s * (2 * b + 3 * a * s) - (c + t * (2 * b + 3 * a * t))) with ((2 * b + 3 * a * (s + t)) * (s - t)) by ring.
  rewrite Rabs_mult. apply Rmult_le_compat_r; [apply Rabs_pos|]. apply Rabs_le.
  assert (- 8 * M <= a * (s + t) <= 8 * M) by (split; nra). lra.
Qed.
Lemma dspl_near v : exists d, 0 < d /\ forall A M w, (forall i, Rabs (A i) <= M) ->
  Rabs (w - v) <= d -> Rabs (dspl A w - dspl A v) <= 36 * M * Rabs (w - v).
Proof.
  destruct (around 1 v Rlt_0_1) as [k [j [d [D [K1 [K2 [J1 J2]]]]]]]. rewrite Rmult_1_r in *.
  exists d. split; [exact D|]. intros A M w B X.
  assert (X' : - d <= w - v <= d) by (unfold Rabs in X; destruct (Rcase_abs (w - v)); lra).
  destruct (Rle_dec v w).
  - rewrite !(dspl_piece A _ k) by lra. apply dcpiece_lip; try assumption; lra.
  - rewrite !(dspl_piece A _ j) by lra. apply dcpiece_lip; try assumption; lra.
Qed.
Lemma spl_deriv_in (B : Z -> R -> R) B' v y : (forall i, derivable_pt_lim (B i) y (B' i)) ->
  derivable_pt_lim (fun t => spl (fun i => B i t) v) y (spl B' v).
Proof.
  intros H. unfold spl. cbv zeta. set (k := Int_part v). set (t := v - IZR k).
  set (w0 := - (t * (1 - t) * (1 - t) / 2)). set (w1 := (2 - 5 * t * t + 3 * t * t * t) / 2).
  set (w2 := (t * (1 + 4 * t - 3 * t * t)) / 2). set (w3 := - (t * t * (1 - t) / 2)).
  rewrite hermite_weights. fold w0 w1 w2 w3.
  apply deriv_ext with (fun y => w0 * B (k - 1)%Z y + w1 * B k y + w2 * B (k + 1)%Z y + w3 * B (k + 2)%Z y).
  { intros. rewrite hermite_weights. reflexivity. }
  apply (derivable_pt_lim_plus (fun y => w0 * B (k - 1)%Z y + w1 * B k y + w2 * B (k + 1)%Z y) (fun y => w3 * B (k + 2)%Z y));
    [|now apply derivable_pt_lim_scal].
  apply (derivable_pt_lim_plus (fun y => w0 * B (k - 1)%Z y + w1 * B k y) (fun y => w2 * B (k + 1)%Z y));
    [|now apply derivable_pt_lim_scal].
  apply (derivable_pt_lim_plus (fun y => w0 * B (k - 1)%Z y) (fun y => w1 * B k y)); now apply derivable_pt_lim_scal.
Qed.

Section Bounded.
Variables (g : Z -> Z -> R) (M : R).
Hypothesis Hg : forall i j, Rabs (g i j) <= M.
Lemma M_nonneg : 0 <= M.
Proof. pose proof (Hg 0 0). pose proof (Rabs_pos (g 0%Z 0%Z)). lra. Qed.
Lemma spl_cont e x : 0 < e -> 0 <= x -> exists d, 0 < d /\ x * d <= e.
Proof.
  intros He Hx. exists (e / (x + 1)). split; [apply Rdiv_lt_0_compat; lra|].
  assert (E : (x + 1) * (e / (x + 1)) = e) by (field; lra).
  assert (0 < e / (x + 1)) by (apply Rdiv_lt_0_compat; lra). lra.
Qed.
Lemma dr_cont r c z : cont3 (fun r c _ => dspl (fun i => spl (g i) c) r) r c z.
Proof.
  intros e He. pose proof M_nonneg as M0. destruct (dspl_near r) as [d1 [P1 Q1]].
  assert (E2 : 0 < e / 2) by lra.
  destruct (spl_cont (e / 2) (36 * (5 / 4 * M)) E2) as [d2 [P2 Q2]]; [lra|].
  destruct (spl_cont (e / 2) (25 * (25 * M)) E2) as [d3 [P3 Q3]]; [lra|].
  exists (Rmin d1 (Rmin d2 d3)). split; [repeat apply Rmin_pos; assumption|].
  intros r' c' _ R1 R2 _. pose proof (Rmin_l d1 (Rmin d2 d3)). pose proof (Rmin_r d1 (Rmin d2 d3)).
  pose proof (Rmin_l d2 d3). pose proof (Rmin_r d2 d3).
  replace e with (e / 2 + e / 2) by field.
  apply chain with (dspl (fun i => spl (g i) c') r).
  - eapply Rle_trans; [apply (Q1 _ (5 / 4 * M)); [intros; apply spl_abs, Hg | lra]|].
    eapply Rle_trans; [|exact Q2]. apply Rmult_le_compat_l; lra.
  - eapply Rle_trans; [apply dspl_sup with (e := 25 * M * d3)|].
    + intros i. eapply Rle_trans; [apply spl_lip with (M := M), Hg|]. apply Rmult_le_compat_l; lra.
    + lra.
Qed.
Lemma dc_cont r c z : cont3 (fun r c _ => spl (fun i => dspl (g i) c) r) r c z.
Proof.
  intros e He. pose proof M_nonneg as M0. destruct (dspl_near c) as [d1 [P1 Q1]].
  assert (E2 : 0 < e / 2) by lra.
  destruct (spl_cont (e / 2) (5 / 4 * (36 * M)) E2) as [d2 [P2 Q2]]; [lra|].
  destruct (spl_cont (e / 2) (25 * (25 * M)) E2) as [d3 [P3 Q3]]; [lra|].
  exists (Rmin d1 (Rmin d2 d3)). split; [repeat apply Rmin_pos; assumption|].
  intros r' c' _ R1 R2 _. pose proof (Rmin_l d1 (Rmin d2 d3)). pose proof (Rmin_r d1 (Rmin d2 d3)).
  pose proof (Rmin_l d2 d3). pose proof (Rmin_r d2 d3).
  replace e with (e / 2 + e / 2) by field.
  apply chain with (spl (fun i => dspl (g i) c') r).
  - eapply Rle_trans; [apply spl_lip with (M := 25 * M); intros; apply dspl_abs, Hg|].
    eapply Rle_trans; [|exact Q3]. apply Rmult_le_compat_l; lra.
  - eapply Rle_trans; [apply spl_sup with (e := 36 * M * d2)|].
    + intros i. eapply Rle_trans; [apply Q1 with (M := M); [intros; apply Hg | lra]|]. apply Rmult_le_compat_l; lra.
    + lra.
Qed.
Lemma zero_cont x y z : cont3 (fun _ _ _ => 0) x y z.
Proof. intros e He. exists 1. split; [lra|]. intros. rewrite Rminus_diag_eq, Rabs_R0 by reflexivity. lra. Qed.
Lemma follows_evaluate t i X Y x y : follows t i X x -> follows t i Y y ->
  follows t i (fun s => evaluate_real g (X s) (Y s)) (evaluate_jet g x y).
Proof.
  intros [Xa Xv] [Ya Yv]. unfold evaluate_real, evaluate_jet. rewrite bicubic_form. split; cbn [j_a j_v].
  - rewrite bicubic_form. cbn [fst]. now rewrite Xa, Ya.
  - rewrite <- Xa, <- Ya.
    replace (dspl (fun i0 => spl (g i0) (Y t)) (X t) * j_v x i + spl (fun i0 => dspl (g i0) (Y t)) (X t) * j_v y i)
      with (dspl (fun i0 => spl (g i0) (Y t)) (X t) * j_v x i + spl (fun i0 => dspl (g i0) (Y t)) (X t) * j_v y i + 0 * 0) by ring.
    apply deriv_ext with (fun s => (fun r c (_ : R) => spl (fun i => spl (g i) c) r) (X s) (Y s) ((fun _ => 0) s)).
    { intros s. reflexivity. }
    apply (along (fun r c _ => spl (fun i => spl (g i) c) r) (fun r c _ => dspl (fun i => spl (g i) c) r)
             (fun r c _ => spl (fun i => dspl (g i) c) r) (fun _ _ _ => 0) X Y (fun _ => 0)).
    + intros. apply spl_deriv.
    + intros a b c. apply (spl_deriv_in (fun i t => spl (g i) t)). intros. apply spl_deriv.
    + intros. apply derivable_pt_lim_const.
    + apply dr_cont.
    + apply dc_cont.
    + apply zero_cont.
    + exact Xv.
    + exact Yv.
    + apply derivable_pt_lim_const.
Qed.
Lemma follows_occupied2 s l pose n p :
  follows (pose n) n (fun u => occupied_residual2 real_scalar (evaluate_real g) s l (vary pose n u) p)
    (occupied_residual2 jet_scalar (evaluate_jet g) s l (fun m => seed (pose m) m) p).
Proof.
  destruct (follows_world2 pose n p) as [X Y]. unfold occupied_residual2.
  destruct (world2 jet_scalar (fun m => seed (pose m) m) p) as [wx wy]. cbn [fst snd] in X, Y.
  apply follows_local with (d := 1) (G := fun u => s * evaluate_real g
    ((l_max_x l - fst (world2 real_scalar (vary pose n u) p)) * / l_res l - 1 / 2 + IZR k_padding)
    ((l_max_y l - snd (world2 real_scalar (vary pose n u) p)) * / l_res l - 1 / 2 + IZR k_padding)); [lra | |].
  { intros u _. destruct (world2 real_scalar (vary pose n u) p). reflexivity. }
  apply (follows_mul _ _ (fun _ => s)); [apply follows_of|].
  apply follows_evaluate.
  - repeat first [ apply X | apply follows_add | apply follows_sub | apply follows_mul | apply follows_of ].
  - repeat first [ apply Y | apply follows_add | apply follows_sub | apply follows_mul | apply follows_of ].
Qed.
End Bounded.

(* the padding *)
Lemma adapter_shift l cost i j : adapter l cost (j + k_padding) (i + k_padding) = continued l cost i j.
Proof.
  unfold adapter, continued, contains2. cbn [fst snd]. generalize k_padding as k. intros k.
  replace (i + k - k)%Z with i by lia. replace (j + k - k)%Z with j by lia. unfold max_correspondence_cost.
  destruct (Z.leb_spec 0 i), (Z.leb_spec 0 j), (Z.ltb_spec i (l_nx l)), (Z.ltb_spec j (l_ny l));
  destruct (Z.ltb_spec (j + k) k), (Z.ltb_spec (i + k) k), (Z.leb_spec (l_ny l + 2 * k - k) (j + k)),
    (Z.leb_spec (l_nx l + 2 * k - k) (i + k)); try lia; reflexivity.
Qed.
Definition row_of (l : limits2) (x : R) : R := (l_max_x l - x) / l_res l - 1 / 2.
Definition column_of (l : limits2) (y : R) : R := (l_max_y l - y) / l_res l - 1 / 2.
Lemma bicubic_shift l cost r c :
  bicubic (adapter l cost) (r + IZR k_padding) (c + IZR k_padding) = bicubic (fun row col => continued l cost col row) r c.
Proof.
  rewrite !bicubic_form.
  assert (E : forall i, spl (adapter l cost (i + k_padding)) (c + IZR k_padding) = spl (fun col => continued l cost col i) c).
  { intros i. rewrite spl_shift. apply spl_ext. intros. apply adapter_shift. }
  assert (E' : forall i, dspl (adapter l cost (i + k_padding)) (c + IZR k_padding) = dspl (fun col => continued l cost col i) c).
  { intros i. rewrite dspl_shift. apply dspl_ext. intros. apply adapter_shift. }
  rewrite !spl_shift, !dspl_shift. rewrite (spl_ext _ _ r E), (dspl_ext _ _ r E), (spl_ext _ _ r E'). reflexivity.
Qed.
Lemma residual2_form s l cost pose p :
  occupied_residual2 real_scalar (evaluate_real (adapter l cost)) s l pose p =
  s * evaluate_real (fun row col => continued l cost col row)
        (row_of l (fst (world2 real_scalar pose p))) (column_of l (snd (world2 real_scalar pose p))).
Proof.
  unfold occupied_residual2. destruct (world2 real_scalar pose p) as [wx wy]. cbn [fst snd].
  cbn [real_scalar s_mul s_add s_sub s_of]. unfold evaluate_real.
  match goal with |- @eq _ ?a ?b => change (@eq R a b) end.
  change ((l_max_x l - wx) * / l_res l - 1 / 2) with (row_of l wx).
  change ((l_max_y l - wy) * / l_res l - 1 / 2) with (column_of l wy).
  now rewrite bicubic_shift.
Qed.
Lemma continued_bounds l cost lo hi i j : lo <= 9 / 10 <= hi ->
  (forall i j, contains2 l (i, j) = true -> lo <= cost i j <= hi) -> lo <= continued l cost i j <= hi.
Proof. intros K B. unfold continued. destruct (contains2 l (i, j)) eqn:E; [now apply B | exact K]. Qed.
Lemma adapter_abs l cost lo hi i j :
  (forall i j, contains2 l (i, j) = true -> lo <= cost i j <= hi) ->
  Rabs (adapter l cost i j) <= Rabs lo + Rabs hi + 1.
Proof.
  intros B. pose proof (adapter_shift l cost (j - k_padding) (i - k_padding)) as E.
  replace (i - k_padding + k_padding)%Z with i in E by lia. replace (j - k_padding + k_padding)%Z with j in E by lia.
  rewrite E. unfold continued. pose proof (Rabs_pos lo). pose proof (Rabs_pos hi).
  destruct (contains2 l (j - k_padding, i - k_padding)%Z) eqn:C.
  - specialize (B _ _ C). apply Rabs_le. pose proof (Rle_abs hi). pose proof (Rle_abs (- lo)). rewrite Rabs_Ropp in H2. lra.
  - apply Rabs_le. lra.
Qed.
