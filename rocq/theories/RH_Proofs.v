From Coq Require Import ZArith Reals Lra Lia List Bool Permutation.
From Verif Require Import CF_Model RG_Model IG_Model IG_Proofs IG_Smooth I2_Match Vec RH_Model RH_Spec.
Import ListNotations.
Open Scope R_scope.

(* ---- buckets *)
Lemma floor_shift_n v k : Int_part (v + IZR k) = (Int_part v + k)%Z.
Proof. apply floor_unique. pose proof (floor_spec v). rewrite plus_IZR. lra. Qed.
Lemma PI_pos : 0 < PI. Proof. exact PI_RGT_0. Qed.
Lemma wrapped_ok a : - PI <= a <= PI -> exists w, wrapped 1 a = Some w /\ 0 <= w <= PI /\
  (w = a \/ w = a + PI) /\ (a < PI -> w < PI).
Proof.
  intros A. pose proof PI_pos. unfold wrapped. cbn [angle_down]. destruct (Rlt_dec PI a); [lra|].
  cbn [angle_up]. destruct (Rlt_dec a 0).
  - destruct (Rlt_dec (a + PI) 0); [lra|]. exists (a + PI). repeat split; lra.
  - exists a. repeat split; lra.
Qed.
Lemma bucket_in n a : (0 < n)%Z -> (0 <= bucket_of n a < n)%Z.
Proof.
  intros N. unfold bucket_of, clamp_int. set (v := lround _).
  destruct (Z.ltb_spec (n - 1) v); [lia|]. destruct (Z.ltb_spec v 0); lia.
Qed.
Lemma lround_half_up x : 0 < x -> lround (x - 1 / 2) = Int_part x \/ (x < 1 / 2 /\ lround (x - 1 / 2) = 0%Z).
Proof.
  intros H. unfold lround. destruct (Rle_dec 0 (x - 1 / 2)).
  - left. f_equal. lra.
  - right. split; [lra|]. replace (- (x - 1 / 2) + 1 / 2) with (1 - x) by field.
    rewrite (floor_unique (1 - x) 0) by lra. reflexivity.
Qed.
Lemma bucket_floor n w : (0 < n)%Z -> 0 <= w < PI -> bucket_of n w = Int_part (IZR n * (w / PI)).
Proof.
  intros N W. pose proof PI_pos as P. unfold bucket_of.
  assert (Q : 0 <= w / PI < 1).
  { split; [apply Rmult_le_pos; [lra|]; left; now apply Rinv_0_lt_compat|].
    apply Rmult_lt_reg_r with PI; [exact P|]. unfold Rdiv. rewrite Rmult_assoc, Rinv_l by lra. lra. }
  assert (N' : 1 <= IZR n) by (apply IZR_le; lia).
  set (x := IZR n * (w / PI)).
  assert (X : 0 <= x < IZR n) by (unfold x; split; nra).
  pose proof (floor_spec x) as F. set (k := Int_part x) in *.
  assert (K0 : (0 <= k)%Z) by (apply Z.lt_succ_r, lt_IZR; rewrite succ_IZR; lra).
  assert (K1 : (k < n)%Z) by (apply lt_IZR; lra).
  unfold clamp_int. destruct (Rle_lt_or_eq_dec 0 x (proj1 X)) as [X0 | X0].
  - destruct (lround_half_up x X0) as [-> | [S ->]].
    + fold k. destruct (Z.ltb_spec (n - 1) k); [lia|]. destruct (Z.ltb_spec k 0); lia.
    + assert (k = 0)%Z by (apply floor_unique; lra).
      destruct (Z.ltb_spec (n - 1) 0); [lia|]. cbn. lia.
  - rewrite <- X0. assert (k = 0)%Z by (apply floor_unique; lra).
    assert (L : lround (0 - 1 / 2) = (-1)%Z).
    { unfold lround. destruct (Rle_dec 0 (0 - 1 / 2)); [lra|].
      rewrite (floor_unique (- (0 - 1 / 2) + 1 / 2) 1) by lra. reflexivity. }
    rewrite L. destruct (Z.ltb_spec (n - 1) (-1)); [lia|]. cbn. lia.
Qed.
(* the bucket of a direction, counted around *)
Lemma bucket_around n a w : (0 < n)%Z -> - PI <= a < PI -> wrapped 1 a = Some w ->
  bucket_of n w = (Int_part (IZR n * (a / PI)) mod n)%Z.
Proof.
  intros N A W. pose proof PI_pos as P. destruct (wrapped_ok a) as [w' [E [B [C D]]]]; [lra|].
  rewrite E in W. injection W as ->. specialize (D (proj2 A)).
  rewrite bucket_floor by (try exact N; lra).
  assert (S : IZR n * (w / PI) = IZR n * (a / PI) \/ IZR n * (w / PI) = IZR n * (a / PI) + IZR n).
  { destruct C as [-> | ->]; [now left|]. right. field. lra. }
  assert (R : (0 <= Int_part (IZR n * (w / PI)) < n)%Z).
  { rewrite <- bucket_floor by (try exact N; lra). now apply bucket_in. }
  destruct S as [S | S]; rewrite S in *.
  - now rewrite Z.mod_small.
  - rewrite floor_shift_n in *. rewrite <- (Z.mod_small _ _ R).
    rewrite <- Zplus_mod_idemp_r, Z_mod_same_full. now rewrite Z.add_0_r.
Qed.
Lemma bucket_turn n a a' k m w w' : (0 < n)%Z -> - PI <= a < PI -> - PI <= a' < PI ->
  a' = a + IZR k * PI / IZR n + IZR m * PI -> wrapped 1 a = Some w -> wrapped 1 a' = Some w' ->
  bucket_of n w' = ((bucket_of n w + k) mod n)%Z.
Proof.
  intros N A A' E W W'. rewrite (bucket_around n a w N A W), (bucket_around n a' w' N A' W').
  assert (N0 : IZR n <> 0) by (apply not_0_IZR; lia). pose proof PI_pos.
  replace (IZR n * (a' / PI)) with (IZR n * (a / PI) + IZR (k + m * n)) by (rewrite E, plus_IZR, mult_IZR; field; lra).
  rewrite floor_shift_n. rewrite Zplus_mod_idemp_l. rewrite Z.add_assoc. now rewrite Z_mod_plus_full.
Qed.

(* ---- adding values *)
Lemma mass_app a b : mass (a ++ b) = mass a + mass b.
Proof. induction a; cbn [app mass]; [ring | rewrite IHa; ring]. Qed.
Lemma mass_repeat n : mass (repeat 0 n) = 0.
Proof. induction n; cbn [repeat mass]; [reflexivity | rewrite IHn; ring]. Qed.
Lemma mass_set l n a l' : set_nth l n a = Some l' -> mass l' = mass l - nth n l 0 + a.
Proof.
  revert n l'. induction l as [|x l IH]; intros [|n] l'; cbn [set_nth]; try discriminate.
  - intros [= <-]. cbn [mass nth]. ring.
  - destruct (set_nth l n a) as [r|] eqn:E; [|discriminate]. intros [= <-]. cbn [mass nth].
    rewrite (IH n r E). ring.
Qed.

Lemma vget_bin h k a : vget h k = Some a -> bin h k = a.
Proof. unfold vget, bin. destruct (0 <=? k)%Z; [|discriminate]. intros E. now apply nth_error_nth. Qed.
Lemma bin_vget h k : (0 <= k < vsize h)%Z -> vget h k = Some (bin h k).
Proof. intros H. destruct (vget_some h k H) as [a E]. now rewrite E, (vget_bin h k a E). Qed.
Lemma bin_ext h h' : length h = length h' -> (forall k, (0 <= k < vsize h)%Z -> bin h k = bin h' k) -> h = h'.
Proof.
  intros L E. apply vec_ext; [unfold vsize; lia|]. intros k K. rewrite !bin_vget by (unfold vsize in *; lia).
  now rewrite E.
Qed.
Lemma in_bin h x : In x h -> exists k, (0 <= k < vsize h)%Z /\ bin h k = x.
Proof.
  intros I. apply (In_nth _ _ 0) in I. destruct I as [k [K E]]. exists (Z.of_nat k).
  unfold vsize, bin. rewrite Nat2Z.id. split; [lia | exact E].
Qed.
Lemma add_ok a v h : - PI <= a <= PI -> h <> [] -> exists w h', wrapped 1 a = Some w /\ add_value 1 a v h = Some h' /\
  length h' = length h /\ mass h' = mass h + v /\
  forall k, (0 <= k < vsize h)%Z -> bin h' k = bin h k + (if (k =? bucket_of (vsize h) w)%Z then v else 0).
Proof.
  intros A NE. destruct (wrapped_ok a A) as [w [W [B _]]]. exists w.
  assert (N : (0 < vsize h)%Z) by (unfold vsize; destruct h; [congruence | cbn [length]; lia]).
  pose proof (bucket_in (vsize h) w N) as K. set (b := bucket_of (vsize h) w) in *.
  unfold add_value. rewrite W. cbv zeta. fold b. rewrite (bin_vget h b K).
  destruct (vset_ok h b (bin h b + v) K) as [h' [E [L G]]]. exists h'. split; [reflexivity|]. split; [exact E|].
  split; [unfold vsize in L; lia|]. split.
  - unfold vset in E. destruct (0 <=? b)%Z; [|discriminate]. rewrite (mass_set _ _ _ _ E).
    unfold bin. ring.
  - intros k Hk. pose proof (G k) as Gk. rewrite (bin_vget h k Hk), (bin_vget h' k) in Gk by lia.
    destruct (Z.eqb_spec k b) as [-> | N']; injection Gk as ->; ring.
Qed.

(* ---- one slice *)
Lemma norm2_pos d : 0 <= norm2 d. Proof. apply sqrt_pos. Qed.
Lemma value_range d e : 0 <= slice_value d e <= 1.
Proof.
  unfold slice_value. set (x := Rabs _). assert (0 <= x) by apply Rabs_pos. clearbody x. split; [apply Rmax_l|].
  apply Rmax_lub; lra.
Qed.
Lemma atan2_range y x : - PI < atan2 y x <= PI.
Proof.
  pose proof PI_pos. unfold atan2. pose proof (atan_bound (y / x)).
  destruct (Rlt_dec 0 x); [lra|]. destruct (Rlt_dec x 0) as [X|X].
  - destruct (Rle_dec 0 y) as [Y|Y].
    + assert (y / x <= 0). { unfold Rdiv. apply Rinv_lt_0_compat in X. nra. }
      assert (atan (y / x) <= 0).
      { destruct (Rle_lt_or_eq_dec _ _ H1) as [Q|Q]; [|rewrite Q, atan_0; lra].
        pose proof (atan_increasing _ _ Q). rewrite atan_0 in H2. lra. }
      lra.
    + assert (0 < y / x). { unfold Rdiv. apply Rinv_lt_0_compat in X. nra. }
      pose proof (atan_increasing _ _ H1). rewrite atan_0 in H2. lra.
  - destruct (Rlt_dec 0 y); [lra|]. destruct (Rlt_dec y 0); lra.
Qed.
(* what holds of the histogram after any part of the loop *)
Definition sound (n : nat) (k : nat) (h : list R) : Prop :=
  length h = n /\ (forall x, In x h -> 0 <= x) /\ mass h <= INR k.
Lemma step_sound n k c last h p : (0 < n)%nat -> sound n k h ->
  exists last' h', slice_step 1 c (Some (last, h)) p = Some (last', h') /\ sound n (S k) h' /\ (last' = last \/ last' = p).
Proof.
  intros N [L [P M]]. unfold slice_step. cbv zeta.
  assert (S0 : sound n (S k) h).
  { split; [exact L|]. split; [exact P|]. rewrite S_INR. lra. }
  destruct (Rlt_dec _ _); [eauto 6|]. destruct (Rlt_dec _ _); [eauto 6|]. destruct (Rlt_dec _ _); [eauto 6|].
  set (v := slice_value _ _). pose proof (value_range (head2 p last) (head2 p c)) as V. fold v in V. clearbody v.
  set (a := atan2 _ _). assert (A : - PI <= a <= PI).
  { pose proof (atan2_range (snd (head2 p last)) (fst (head2 p last))) as Q. fold a in Q. lra. }
  clearbody a. assert (NE : h <> []) by (intros ->; cbn in L; lia).
  destruct (add_ok a v h A NE) as [w [h' [_ [E [L' [M' B]]]]]]. rewrite E. exists last, h'. split; [reflexivity|].
  split; [|now left]. split; [lia|]. split.
  - intros x I. destruct (in_bin h' x I) as [j [J <-]]. rewrite B by (unfold vsize in *; lia).
    assert (0 <= bin h j). { apply P. unfold bin. apply nth_In. unfold vsize in *. lia. }
    destruct (_ =? _)%Z; lra.
  - rewrite S_INR. lra.
Qed.
Lemma loop_sound n c slice : (0 < n)%nat -> forall k last h, sound n k h ->
  exists last' h', fold_left (slice_step 1 c) slice (Some (last, h)) = Some (last', h') /\ sound n (k + length slice) h'.
Proof.
  intros N. induction slice as [|p slice IH]; intros k last h S; cbn [fold_left length].
  - exists last, h. rewrite Nat.add_0_r. auto.
  - destruct (step_sound n k c last h p N S) as [l' [h' [E [S' _]]]]. rewrite E.
    destruct (IH (Datatypes.S k) l' h' S') as [l2 [h2 [E2 S2]]]. exists l2, h2. split; [exact E2|].
    replace (k + Datatypes.S (length slice))%nat with (Datatypes.S k + length slice)%nat by lia. exact S2.
Qed.
Lemma add_slice_sound n k slice h : (0 < n)%nat -> sound n k h ->
  exists h', add_slice 1 slice h = Some h' /\ sound n (k + length slice) h'.
Proof.
  intros N S. unfold add_slice. destruct slice as [|p l].
  - exists h. cbn [length]. rewrite Nat.add_0_r. auto.
  - cbn [centroid]. set (c := vscale _ _).
    destruct (loop_sound n c (p :: l) N k p h S) as [l' [h' [E S']]].
    rewrite E. eauto.
Qed.

(* ---- sorting and slices *)
Lemma insert_perm key p l : Permutation (insert_by key p l) (p :: l).
Proof.
  induction l as [|q l IH]; cbn [insert_by]; [reflexivity|].
  destruct (Rle_dec (key p) (key q)); [reflexivity|]. rewrite IH. apply perm_swap.
Qed.
Lemma insert_sorted key p l : ascending (map key l) -> ascending (map key (insert_by key p l)).
Proof.
  induction l as [|q l IH]; cbn [insert_by map ascending]; intros S.
  - split; [intros b []|exact I].
  - destruct (Rle_dec (key p) (key q)) as [H|H]; cbn [map ascending].
    + split; [|exact S]. intros b [<- | B]; [exact H|]. destruct S as [S _]. specialize (S b B). lra.
    + destruct S as [S1 S2]. split; [|now apply IH]. intros b B.
      apply (Permutation_in b (Permutation_map key (insert_perm key p l))) in B. cbn [map] in B.
      destruct B as [<- | B]; [lra | now apply S1].
Qed.
Lemma sort_perm key l : Permutation (fold_right (insert_by key) [] l) l.
Proof. induction l; cbn [fold_right]; [reflexivity|]. rewrite insert_perm. now constructor. Qed.
Lemma sort_sorted key l : ascending (map key (fold_right (insert_by key) [] l)).
Proof. induction l; cbn [fold_right]; [exact I | now apply insert_sorted]. Qed.
Lemma insert_key_in k l x : In x (insert_key k l) <-> x = k \/ In x l.
Proof.
  induction l as [|m l IH]; cbn [insert_key]; [cbn; intuition congruence|].
  destruct (Z.ltb_spec k m); [cbn; intuition congruence|]. destruct (Z.eqb_spec k m) as [->|N].
  - cbn. intuition congruence.
  - cbn [In]. rewrite IH. intuition congruence.
Qed.
Fixpoint increasing (l : list Z) : Prop :=
  match l with [] => True | a :: l' => (forall b, In b l' -> (a < b)%Z) /\ increasing l' end.
Lemma insert_key_inc k l : increasing l -> increasing (insert_key k l).
Proof.
  induction l as [|m l IH]; cbn [insert_key increasing]; intros H.
  - split; [intros b []|exact I].
  - destruct (Z.ltb_spec k m).
    + cbn [increasing]. split; [|exact H]. intros b [<- | B]; [exact H0|]. destruct H as [H _]. specialize (H b B). lia.
    + destruct (Z.eqb_spec k m) as [->|N]; [exact H|]. cbn [increasing]. destruct H as [H1 H2]. split; [|now apply IH].
      intros b B. apply insert_key_in in B. destruct B as [->|B]; [lia | now apply H1].
Qed.
Lemma increasing_nodup l : increasing l -> NoDup l.
Proof. induction l; intros H; constructor; destruct H as [A B]; [intros I; specialize (A _ I); lia | auto]. Qed.
Lemma keys_fold cloud l : (forall x, In x (fold_left (fun l p => insert_key (slice_key p) l) cloud l) <->
    In x l \/ exists p, In p cloud /\ slice_key p = x) /\
  (increasing l -> increasing (fold_left (fun l p => insert_key (slice_key p) l) cloud l)).
Proof.
  revert l. induction cloud as [|p cloud IH]; intros l; cbn [fold_left].
  - split; [|auto]. intros x. split; [auto|]. intros [H | [q [[] _]]]. exact H.
  - destruct (IH (insert_key (slice_key p) l)) as [A B]. split.
    + intros x. rewrite A, insert_key_in. split.
      * intros [[-> | H] | [q [Q E]]]; [right; exists p; split; [now left | reflexivity] | now left | right; exists q; split; [now right | exact E]].
      * intros [H | [q [[<- | Q] E]]]; [left; now right | left; left; now symmetry | right; eauto].
    + intros H. apply B. now apply insert_key_inc.
Qed.
Lemma slice_keys_ok cloud : NoDup (slice_keys cloud) /\ forall x, In x (slice_keys cloud) <-> exists p, In p cloud /\ slice_key p = x.
Proof.
  destruct (keys_fold cloud []) as [A B]. split.
  - apply increasing_nodup. apply B. exact I.
  - intros x. unfold slice_keys. rewrite A. split; [intros [[] | H]; exact H | now right].
Qed.
Lemma filter_split {A} (f g : A -> bool) l : (forall x, In x l -> f x = true -> g x = false) ->
  Permutation (filter f l ++ filter g l) (filter (fun x => f x || g x) l).
Proof.
  induction l as [|x l IH]; intros D; cbn [filter app]; [reflexivity|].
  assert (IH' := IH (fun y Y => D y (or_intror Y))). clear IH.
  destruct (f x) eqn:F; cbn [orb app].
  - rewrite (D x (or_introl eq_refl) F). now constructor.
  - destruct (g x); [|exact IH']. rewrite <- IH'. symmetry. apply Permutation_middle.
Qed.
Lemma slices_some cloud ks : NoDup ks ->
  Permutation (concat (map (fun k => filter (fun p => (slice_key p =? k)%Z) cloud) ks))
    (filter (fun p => existsb (Z.eqb (slice_key p)) ks) cloud).
Proof.
  induction ks as [|k ks IH]; intros ND; cbn [map concat existsb].
  - induction cloud as [|p cl IHc]; cbn; [reflexivity | exact IHc].
  - inversion ND as [|? ? NI ND']; subst. rewrite (IH ND'). rewrite filter_split; [reflexivity|].
    intros p _ E. apply Z.eqb_eq in E. destruct (existsb (Z.eqb (slice_key p)) ks) eqn:X; [|reflexivity].
    apply existsb_exists in X. destruct X as [m [M Q]]. apply Z.eqb_eq in Q. exfalso. apply NI. congruence.
Qed.
Lemma filter_all {A} (f : A -> bool) l : (forall x, In x l -> f x = true) -> filter f l = l.
Proof.
  induction l as [|x l IH]; intros H; cbn [filter]; [reflexivity|]. rewrite (H x (or_introl eq_refl)). f_equal.
  apply IH. intros y Y. apply H. now right.
Qed.
Lemma slices_perm cloud : Permutation (concat (slices cloud)) cloud.
Proof.
  unfold slices. destruct (slice_keys_ok cloud) as [ND IN]. rewrite (slices_some cloud _ ND).
  rewrite filter_all; [reflexivity|]. intros p P. apply existsb_exists. exists (slice_key p). split; [|apply Z.eqb_refl].
  apply IN. eauto.
Qed.
Lemma slices_nonempty cloud s : In s (slices cloud) -> s <> [].
Proof.
  unfold slices. intros I. apply in_map_iff in I. destruct I as [k [<- K]]. apply slice_keys_ok in K.
  destruct K as [p [P E]]. intros Q. assert (In p (filter (fun p => (slice_key p =? k)%Z) cloud)).
  { apply filter_In. split; [exact P | now apply Z.eqb_eq]. }
  rewrite Q in H. destruct H.
Qed.
Lemma sort_slice_ok slice : slice <> [] -> exists c s, centroid slice = Some c /\ sort_slice slice = Some s /\
  Permutation s (filter (fun p => if Rlt_dec (norm2 (head2 p c)) k_min_distance then false else true) slice) /\
  ascending (map (angle_around c) s).
Proof.
  intros NE. assert (C : exists c, centroid slice = Some c) by (destruct slice; [congruence | eexists; reflexivity]).
  destruct C as [c C]. unfold sort_slice. rewrite C. eexists c, _. split; [reflexivity|]. split; [reflexivity|].
  split; [apply sort_perm | apply sort_sorted].
Qed.
Lemma sort_slice_length slice s : sort_slice slice = Some s -> (length s <= length slice)%nat.
Proof.
  unfold sort_slice. destruct (centroid slice) as [c|]; [|discriminate]. cbv zeta. intros [= <-].
  rewrite (Permutation_length (sort_perm _ _)). induction slice as [|p l IH]; cbn [filter length]; [lia|].
  destruct (Rlt_dec _ _); cbn [length]; lia.
Qed.
Lemma compute_sound n ss : (0 < n)%nat -> (forall s, In s ss -> s <> []) -> forall k h, sound n k h ->
  exists h', fold_left (compute_step 1) ss (Some h) = Some h' /\ sound n (k + length (concat ss)) h'.
Proof.
  intros N. induction ss as [|s ss IH]; intros NE k h S; cbn [fold_left concat].
  - exists h. cbn [length]. rewrite Nat.add_0_r. auto.
  - destruct (sort_slice_ok s (NE s (or_introl eq_refl))) as [c [t [_ [E _]]]].
    unfold compute_step at 2. rewrite E. destruct (add_slice_sound n k t h N S) as [h1 [E1 [L1 [P1 M1]]]]. rewrite E1.
    assert (S1 : sound n (k + length s) h1).
    { split; [exact L1|]. split; [exact P1|]. eapply Rle_trans; [exact M1|]. apply le_INR.
      pose proof (sort_slice_length s t E). lia. }
    destruct (IH (fun x X => NE x (or_intror X)) _ h1 S1) as [h2 [E2 S2]]. exists h2. split; [exact E2|].
    rewrite app_length, Nat.add_assoc. exact S2.
Qed.
