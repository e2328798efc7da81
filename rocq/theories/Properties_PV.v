(* C14 and C16: 16-bit cell values and their conversion to floats. *)
From Coq Require Import ZArith Bool Lia SpecFloat.
From Verif Require Import Float32 PV_Model PV_Bounded PV_Near PV_Proofs.
Open Scope Z_scope.

(* a bit pattern that denotes a binary32 number (Coq's own validity predicate) *)
Definition is_binary32 (x : f32) : Prop := SpecFloat.valid_binary 24 128 x = true.
Definition is_nan (x : f32) : Prop := x = S754_nan.

(* C14: known value -> float -> value is the identity, for both tables *)
Theorem C14_roundtrip : forall v, 1 <= v <= 32767 ->
  prob_to_value (value_to_prob v) = Some v /\
  cost_to_value (value_to_cost v) = Some v.
Proof. intros v H. split; [now apply prob_round | now apply cost_round]. Qed.

(* the floats lie between the bounds and grow strictly with the value *)
Theorem C14_bounds : forall v, 1 <= v <= 32767 ->
  fleb kMinProbability (value_to_prob v) = true /\
  fleb (value_to_prob v) kMaxProbability = true /\
  fleb kMinCost (value_to_cost v) = true /\
  fleb (value_to_cost v) kMaxCost = true.
Proof. exact in_bounds. Qed.

Theorem C14_strictly_monotone : forall u v, 1 <= u -> u < v -> v <= 32767 ->
  fltb (value_to_prob u) (value_to_prob v) = true /\
  fltb (value_to_cost u) (value_to_cost v) = true.
Proof. intros u v H1 H2 H3. split; [now apply prob_strict | now apply cost_strict]. Qed.

(* probability value <-> cost value: the complement on known values; unknown and the
   update marker are kept.  The value 2^15 (marker on an unknown cell) is the only
   16-bit value left out: see C14_marked_unknown_refuted. *)
Theorem C14_complement : forall v, 1 <= v <= 32767 ->
  prob_value_to_cost_value v = Some (32768 - v) /\
  cost_value_to_prob_value v = Some (32768 - v) /\
  prob_value_to_cost_value (v + kUpdateMarker) = Some (32768 - v + kUpdateMarker) /\
  cost_value_to_prob_value (v + kUpdateMarker) = Some (32768 - v + kUpdateMarker).
Proof.
  intros v H. pose proof (prob_compl v H) as C1. pose proof (cost_compl v H) as C2.
  unfold prob_value_to_cost_value, cost_value_to_prob_value, kUnknown, kUpdateMarker.
  destruct (Z.eqb_spec v 0); [lia|]. destruct (Z.eqb_spec (v + 32768) 0); [lia|].
  destruct (Z.ltb_spec 32768 v); [lia|]. destruct (Z.ltb_spec 32768 (v + 32768)); [|lia].
  cbv zeta. replace (v + 32768 - 32768) with v by lia. rewrite C1, C2. auto.
Qed.

Theorem C14_involution : forall v, 0 <= v < 65536 -> v <> 32768 ->
  exists c, prob_value_to_cost_value v = Some c /\ cost_value_to_prob_value c = Some v /\
            0 <= c < 65536 /\ (c >= kUpdateMarker <-> v >= kUpdateMarker) /\
            (c = kUnknown <-> v = kUnknown).
Proof.
  intros v H N. unfold kUpdateMarker, kUnknown in *.
  destruct (Z.eq_dec v 0) as [-> | N0].
  { exists 0. repeat split; lia. }
  destruct (Z_lt_le_dec v 32768) as [L | L].
  - destruct (C14_complement v ltac:(lia)) as [E _].
    destruct (C14_complement (32768 - v) ltac:(lia)) as [_ [E2 _]].
    exists (32768 - v). rewrite E. rewrite E2.
    split; [reflexivity|]. split; [f_equal; lia|]. lia.
  - destruct (C14_complement (v - 32768) ltac:(lia)) as [_ [_ [E _]]].
    destruct (C14_complement (65536 - v) ltac:(lia)) as [_ [_ [_ E2]]].
    unfold kUpdateMarker in *.
    exists (32768 - (v - 32768) + 32768).
    replace (v - 32768 + 32768) with v in E by lia. rewrite E.
    replace (32768 - (v - 32768) + 32768) with (65536 - v + 32768) by lia. rewrite E2.
    split; [reflexivity|]. split; [f_equal; lia|]. lia.
Qed.

(* a marked unknown cell loses the marker and becomes known; such a value is never
   stored (every lookup table entry is at least 2^15 + 1, C16_range) *)
Theorem C14_marked_unknown_refuted : exists v c,
  0 <= v < 65536 /\ prob_value_to_cost_value v = Some c /\
  cost_value_to_prob_value c <> Some v.
Proof.
  exists 32768, 32767. split; [lia|]. split; [vm_compute; reflexivity|].
  vm_compute. discriminate.
Qed.

(* every float except NaN is mapped into 1..32767, and monotonically *)
Theorem C14_range : forall x, is_binary32 x -> ~ is_nan x ->
  (exists v, prob_to_value x = Some v /\ 1 <= v <= 32767) /\
  (exists v, cost_to_value x = Some v /\ 1 <= v <= 32767).
Proof.
  intros x V N. split; [exact (range_of _ _ x prob_bounds V N) | exact (range_of _ _ x cost_bounds V N)].
Qed.

Theorem C14_quantize_monotone : forall x y u v u' v',
  is_binary32 x -> is_binary32 y -> ~ is_nan x -> ~ is_nan y -> fleb x y = true ->
  prob_to_value x = Some u -> prob_to_value y = Some v ->
  cost_to_value x = Some u' -> cost_to_value y = Some v' ->
  u <= v /\ u' <= v'.
Proof.
  intros x y u v u' v' Vx Vy Nx Ny L E1 E2 E3 E4. split.
  - exact (mono_of _ _ x y u v prob_bounds Vx Vy Nx Ny L E1 E2).
  - exact (mono_of _ _ x y u' v' cost_bounds Vx Vy Nx Ny L E3 E4).
Qed.

(* NaN passes through the clamp to lround, whose result is unspecified *)
Theorem C14_nan_refuted : exists x, is_binary32 x /\ prob_to_value x = None.
Proof. exists S754_nan. split; reflexivity. Qed.

Example C14_example :
  prob_to_value (fdiv (f_of_Z 55) (f_of_Z 100)) = Some 18432 /\
  prob_value_to_cost_value 18432 = Some 14336 /\
  prob_to_value (S754_infinity false) = Some 32767 /\
  prob_to_value (f_of_Z (-7)) = Some 1.
Proof. vm_compute. repeat split. Qed.

(* C16: a hit (odds of at least one) never lowers the probability of a known cell, a
   miss (odds of at most one) never raises it; in the correspondence cost encoding
   the order is reversed.  The result, without the update marker, is a known value. *)
Theorem C16_hit : forall o v, is_binary32 o -> fleb f_one o = true -> fleb o two64 = true ->
  1 <= v <= 32767 ->
  (exists r, apply_odds o v = Some (r + kUpdateMarker) /\ v <= r <= 32767) /\
  (exists r, apply_cost_odds o v = Some (r + kUpdateMarker) /\ 1 <= r <= v).
Proof.
  intros o v V L1 L2 H. destruct (oksz_hit o V L1 L2) as [O G].
  split; [now apply hit_prob | now apply hit_cost].
Qed.

Theorem C16_miss : forall o v, is_binary32 o -> fleb fzero o = true -> fleb o f_one = true ->
  1 <= v <= 32767 ->
  (exists r, apply_odds o v = Some (r + kUpdateMarker) /\ 1 <= r <= v) /\
  (exists r, apply_cost_odds o v = Some (r + kUpdateMarker) /\ v <= r <= 32767).
Proof.
  intros o v V L1 L2 H. destruct (oksz_miss o V L1 L2) as [O G].
  split; [now apply miss_prob | now apply miss_cost].
Qed.

(* all entries of both tables, known cells and the unknown one *)
Theorem C16_range : forall o v, is_binary32 o -> fleb fzero o = true -> fleb o two64 = true ->
  0 <= v <= 32767 ->
  (exists r, apply_odds o v = Some (r + kUpdateMarker) /\ 1 <= r <= 32767) /\
  (exists r, apply_cost_odds o v = Some (r + kUpdateMarker) /\ 1 <= r <= 32767).
Proof.
  intros o v V L1 L2 H. destruct (Z.eq_dec v 0) as [-> | N].
  - now apply unknown_entry.
  - destruct (le64 o V L1 L2) as [G | G].
    + destruct (C16_hit o v V G L2 ltac:(lia)) as [[r [E B]] [r' [E' B']]].
      split; [exists r | exists r']; split; auto; lia.
    + destruct (C16_miss o v V L1 G ltac:(lia)) as [[r [E B]] [r' [E' B']]].
      split; [exists r | exists r']; split; auto; lia.
Qed.

(* the tables grow with the cell value, whatever the odds *)
Definition monotone_table (t : Z -> option Z) : Prop :=
  forall u v a b, 1 <= u -> u <= v -> v <= 32767 -> t u = Some a -> t v = Some b -> a <= b.

Theorem C16_tables_monotone : forall o,
  is_binary32 o -> fleb fzero o = true -> fleb o two64 = true ->
  monotone_table (apply_odds o) /\ monotone_table (apply_cost_odds o).
Proof.
  intros o V L1 L2. pose proof (oksz_all o V L1 L2) as O. split; intros u v a b.
  - now apply mono_prob.
  - now apply mono_cost.
Qed.

(* the configured default probabilities, configuration_files/trajectory_builder_2d.lua:97-98
   and trajectory_builder_3d.lua:102-103 *)
Definition default_hit : f32 := fdiv (f_of_Z 55) (f_of_Z 100).
Definition default_miss : f32 := fdiv (f_of_Z 49) (f_of_Z 100).
Definition hit_odds : f32 := odds default_hit.
Definition miss_odds : f32 := odds default_miss.

(* an unknown cell gets the configured probability itself *)
Theorem C16_default_unknown :
  apply_odds hit_odds 0 = mark (prob_to_value default_hit) /\
  apply_odds miss_odds 0 = mark (prob_to_value default_miss) /\
  apply_cost_odds hit_odds 0 = mark (cost_to_value (one_minus default_hit)) /\
  apply_cost_odds miss_odds 0 = mark (cost_to_value (one_minus default_miss)).
Proof. vm_compute. repeat split. Qed.

(* The upper bound on the odds in C16_hit is met by every probability below one, but
   not by hit_probability = 1, which the options accept (only > 0.5 is checked,
   probability_grid_range_data_inserter_2d.cc:111, range_data_inserter_3d.cc:82):
   the odds are infinite and the entry is lround of a NaN. *)
Theorem C16_certain_hit_refuted : exists o, o = odds f_one /\
  forall v, v = 0 \/ v = 1 \/ v = 16384 \/ v = 32767 ->
  apply_odds o v = None /\ apply_cost_odds o v = None.
Proof.
  exists (odds f_one). split; [reflexivity|].
  intros v [-> | [-> | [-> | ->]]]; vm_compute; split; reflexivity.
Qed.

Example C16_example :
  is_binary32 hit_odds /\ fleb f_one hit_odds = true /\ fleb hit_odds two64 = true /\
  is_binary32 miss_odds /\ fleb fzero miss_odds = true /\ fleb miss_odds f_one = true /\
  apply_odds hit_odds 18432 = Some (20439 + kUpdateMarker) /\
  apply_odds miss_odds 18432 = Some (18026 + kUpdateMarker).
Proof. vm_compute. repeat split. Qed.

Print Assumptions C14_roundtrip.
Print Assumptions C14_bounds.
Print Assumptions C14_strictly_monotone.
Print Assumptions C14_complement.
Print Assumptions C14_involution.
Print Assumptions C14_marked_unknown_refuted.
Print Assumptions C14_range.
Print Assumptions C14_quantize_monotone.
Print Assumptions C14_nan_refuted.
Print Assumptions C16_hit.
Print Assumptions C16_miss.
Print Assumptions C16_range.
Print Assumptions C16_tables_monotone.
Print Assumptions C16_default_unknown.
Print Assumptions C16_certain_hit_refuted.
