(* C82: the floors of a building. *)
From Coq Require Import ZArith List Bool Arith Relations Permutation Sorting.Sorted Lia.
From Verif Require Import DF_Model DF_Spec DF_Proofs DF_Floors.
Import ListNotations.

Section Floors.
Variable D : Type.
Variable lt : D -> D -> bool.
Variable apart close : D -> D -> bool.
Variable add : D -> D -> D.
Variables zero limit : D.
Variable dist : nat -> D.
Notation slice := (slice D lt apart).
Notation detect := (detect D lt apart close add zero limit dist).
Notation long := (fun a b => negb (is_short D lt add zero limit dist (mk_span a b []))).
Notation cut_up := (cut_up D lt apart).
Notation same_level := (same_level D close).
Notation anchored := (anchored D close long).
Notation is_long := (is_long D long).

(* The spans cut up the nodes at the jumps ... *)
Theorem C82_spans : (forall a b, lt a b = true -> lt b a = false) -> forall z0 z1 zs, apart z0 z1 = false ->
  exists spans, slice (z0 :: z1 :: zs) = Some spans /\ cut_up (z0 :: z1 :: zs) 0 spans.
Proof. intros ASYM z0 z1 zs A. now apply slice_ok. Qed.
(* ... except that the first one is left empty, though with a value, if there is no node after it before the first jump *)
Theorem C82_spans_jump : (forall a b, lt a b = true -> lt b a = false) -> forall z0 z1 zs, apart z0 z1 = true ->
  exists spans, slice (z0 :: z1 :: zs) = Some (mk_span 0 0 [z0] :: spans) /\ cut_up (z0 :: z1 :: zs) 1 spans.
Proof. intros ASYM z0 z1 zs A. now apply slice_jump. Qed.

(* The length of a span is the sum of the distances of its consecutive nodes; it is short if that is below the limit. *)
Theorem C82_length : forall a b zs,
  span_length D add zero dist (mk_span a a zs) = zero /\ span_length D add zero dist (mk_span a (S a) zs) = zero /\
  ((a < b)%nat -> span_length D add zero dist (mk_span a (S b) zs) = add (span_length D add zero dist (mk_span a b zs)) (dist b)) /\
  is_short D lt add zero limit dist (mk_span a b zs) = lt (span_length D add zero dist (mk_span a b zs)) limit.
Proof.
  intros a b zs. unfold span_length. cbn [s_start s_end]. replace (a - (a + 1))%nat with O by lia. replace (S a - (a + 1))%nat with O by lia.
  repeat split. intros H. replace (S b - (a + 1))%nat with (S (b - (a + 1))) by lia. rewrite seq_S, fold_left_app. cbn [fold_left].
  replace (a + 1 + (b - (a + 1)))%nat with b by lia. reflexivity.
Qed.

(* No CHECK fails, and two spans have the same level just when a chain of spans of similar height connects them. *)
Theorem C82_levels : forall spans, Forall (fun s => s_z s <> []) spans ->
  exists levels, group D close spans (pairs (List.length spans)) (seq 0 (List.length spans)) = Some levels /\
    forall i j, (i < List.length spans)%nat -> (j < List.length spans)%nat ->
      exists a b, find_level i levels = Some a /\ find_level j levels = Some b /\ (a = b <-> same_level spans i j).
Proof.
  intros spans NE. destruct (levels_ok D lt close spans NE) as (lv & E & I). exists lv. split; [exact E|]. intros i j HI HJ.
  destruct (inv_find _ _ _ i I HI) as [FI _]. destruct (inv_find _ _ _ j I HJ) as [FJ _]. exists (rt lv i), (rt lv j).
  split; [exact FI|]. split; [exact FJ|]. now apply I.
Qed.

Lemma index_incr (spans : list (span D)) : StronglySorted (fun s t => (s_start s < s_start t)%nat) spans ->
  forall i j, (i < j < List.length spans)%nat -> forall s t, nth_error spans i = Some s -> nth_error spans j = Some t -> (s_start s < s_start t)%nat.
Proof.
  induction 1 as [|x l S IH F]; intros i j H s t HS HT; [cbn in H; lia|]. destruct j as [|j]; [lia|]. cbn in HT. destruct i as [|i].
  - injection HS as <-. rewrite Forall_forall in F. apply F. now apply nth_error_In in HT.
  - apply (IH i j); [cbn in H; lia | exact HS | exact HT].
Qed.
Lemma concat_perm {A} (a b : list (list A)) : Permutation a b -> Permutation (concat a) (concat b).
Proof.
  induction 1 as [|x a b P IH|x y a|a b c P1 IH1 P2 IH2]; cbn; [constructor | now apply Permutation_app_head | rewrite !app_assoc; apply Permutation_app_tail, Permutation_app_comm | now transitivity (concat b)].
Qed.

(* The floors: sorted by height; each consists of spans and has the median height of its long ones; every floor has a long span;
   every span on the level of a long one is on exactly one floor, once; two of them are on the same floor just when they are on the same level;
   other spans are only on floors of a span next to them; and they are on the floors of both, if no such span is next to one of their level. *)
Theorem C82_floors : (forall a b, lt a b = true -> lt b a = false) ->
  forall z0 z1 zs times, apart z0 z1 = false -> List.length times = List.length (z0 :: z1 :: zs) ->
  exists spans floors groups, slice (z0 :: z1 :: zs) = Some spans /\ detect (z0 :: z1 :: zs) times = Some floors /\
    Sorted (fun f g => lt (f_z g) (f_z f) = false) floors /\
    Forall2 (floor_made_of D lt long spans times) floors groups /\
    (forall g, In g groups -> exists i, In i g /\ is_long spans i) /\
    (forall i, (i < List.length spans)%nat -> anchored spans i -> count_occ Nat.eq_dec (concat groups) i = 1%nat) /\
    (forall g h i j, In g groups -> In h groups -> In i g -> In j h -> anchored spans i -> anchored spans j -> (g = h <-> same_level spans i j)) /\
    (forall g i, In g groups -> In i g -> ~ anchored spans i -> exists j, (j + 1 = i \/ j = i + 1)%nat /\ In j g /\ anchored spans j) /\
    (forall i, (i < List.length spans)%nat -> ~ anchored spans i ->
      (forall k j, same_level spans i k -> (j < List.length spans)%nat -> (j + 1 = k \/ j = k + 1)%nat -> anchored spans j) ->
      forall j, (j < List.length spans)%nat -> (j + 1 = i \/ j = i + 1)%nat -> exists g, In g groups /\ In i g /\ In j g).
Proof.
  intros ASYM z0 z1 zs times AP LT. destruct (slice_ok D lt apart ASYM z0 z1 zs AP) as (spans & ES & CUT).
  pose proof (cut_values D lt apart _ _ _ CUT) as NODES. pose proof (proj1 (cut_starts D lt apart _ _ _ CUT)) as ST. pose proof (index_incr spans ST) as INCR.
  rewrite <- LT in NODES.
  assert (NE : Forall (fun s => s_z s <> []) spans) by (eapply Forall_impl; [|exact NODES]; intros s H; apply H).
  destruct (levels_ok D lt close spans NE) as (lv & EG & INV).
  destruct (add_all_ok D lt add zero limit dist spans lv _ INV) as (ls1 & ls & E1 & E2 & FI).
  destruct (to_floors_ok D lt add zero limit dist ASYM spans INCR times NODES ls (seq 0 (List.length spans))) as (floors & E3 & F2).
  { intros l. apply Forall_forall. intros i I. apply (final_in D lt add zero limit dist spans lv ls l i FI I). }
  destruct (final_groups D lt add zero limit dist spans lv _ INV ls FI) as [GR CNT].
  set (groups0 := map (fun l => sort_spans D spans (ls l)) (filter (fun l => has_long D lt add zero limit dist spans (ls l)) (seq 0 (List.length spans)))) in *.
  destruct (Permutation_Forall2 (Permutation_sym (sort_floors_perm D lt floors)) F2) as (groups & PG & F3).
  set (anchb := anch D lt add zero limit dist spans lv) in *.
  assert (LB : forall i, longb D lt add zero limit dist spans i = true <-> is_long spans i).
  { intros i. unfold longb, DF_Spec.is_long. destruct (nth_error spans i) as [s|]; [|split; [discriminate | intros (s & X & _); discriminate]].
    split; [intros H; exists s; split; [reflexivity | exact H] | intros (t & X & H); injection X as <-; exact H]. }
  assert (RNG : forall i j, same_level spans i j -> i = j \/ (i < List.length spans)%nat /\ (j < List.length spans)%nat).
  { intros i j Z. induction Z as [a b (A & sa & sb & _ & _ & SA & SB & _)|a|a b Z IH|a b c Z1 IH1 Z2 IH2]; [|now left | lia | lia].
    right. split; apply nth_error_Some; congruence. }
  assert (LR : forall i, is_long spans i -> (i < List.length spans)%nat) by (intros i (s & X & _); apply nth_error_Some; congruence).
  destruct INV as (LV1 & LV2 & RT). assert (INV : Inv (List.length spans) (similar D close spans) lv) by (split; [exact LV1 | split; assumption]).
  assert (AN : forall i, (i < List.length spans)%nat -> anchb i = true <-> anchored spans i).
  { intros i H. unfold anchb. rewrite (anch_iff D lt add zero limit dist spans lv i H). split.
    - intros (j & J & L & R). exists j. split; [apply rst_sym, (RT j i J H), R | now apply LB].
    - intros (j & S & L). exists j. pose proof (LR j L) as J. split; [exact J|]. split; [now apply LB|]. apply (RT j i J H). now apply rst_sym. }
  assert (AR : forall i, anchored spans i -> (i < List.length spans)%nat) by (intros i (j & S & L); pose proof (LR j L); destruct (RNG i j S) as [->|[]]; assumption).
  assert (GR' : forall g, In g groups <-> exists l, (l < List.length spans)%nat /\ L1 D lt add zero limit dist spans lv l <> [] /\ g = sort_spans D spans (ls l)).
  { intros g. rewrite <- GR. split; apply Permutation_in; [now apply Permutation_sym | exact PG]. }
  assert (MEM : forall i, anchored spans i -> In (sort_spans D spans (ls (rt lv i))) groups /\ In i (sort_spans D spans (ls (rt lv i)))).
  { intros i A. pose proof (AR i A) as H. apply (AN i H) in A. split.
    - apply GR'. exists (rt lv i). destruct (inv_find _ _ _ i INV H) as [_ B]. split; [exact B|]. split; [|reflexivity].
      unfold anchb, anch in A. destruct (L1 D lt add zero limit dist spans lv (rt lv i)); discriminate.
    - apply sort_in. apply (count_occ_In Nat.eq_dec). rewrite (final_count D lt add zero limit dist spans lv ls (rt lv i) i FI H A), Nat.eqb_refl. lia. }
  assert (OWN : forall l i, In i (sort_spans D spans (ls l)) -> anchored spans i -> l = rt lv i).
  { intros l i I A. apply sort_in in I. destruct (final_in D lt add zero limit dist spans lv ls l i FI I) as (H & O & _). apply O. now apply AN. }
  exists spans, (sort_floors D lt floors), groups. split; [exact ES|]. split.
  { unfold DF_Model.detect. rewrite ES, EG. unfold find_floors. rewrite E1, E2, E3. reflexivity. }
  split; [now apply sort_floors_sorted|]. split; [exact F3|]. split; [|split; [|split; [|split]]].
  - intros g G. apply GR' in G. destruct G as (l & _ & N & ->). destruct (L1 D lt add zero limit dist spans lv l) as [|x xs] eqn:EL; [congruence|].
    assert (I : In x (L1 D lt add zero limit dist spans lv l)) by (rewrite EL; now left). exists x. split.
    + apply sort_in. destruct FI as (tail & P & _). rewrite P. apply in_app_iff. now left.
    + apply filter_In in I. destruct I as [_ I]. apply andb_prop in I. now apply LB.
  - intros i H A. rewrite <- (CNT i H); [|now apply AN]. apply count_perm. apply concat_perm. now apply Permutation_sym.
  - intros g h i j G H IG JH AI AJ. apply GR' in G, H. destruct G as (l & _ & _ & ->), H as (m & _ & _ & ->).
    pose proof (OWN l i IG AI) as ->. pose proof (OWN m j JH AJ) as ->. split.
    + intros EQ. rewrite EQ in IG. pose proof (OWN _ i IG AI) as R. apply (RT i j (AR i AI) (AR j AJ)). now symmetry.
    + intros S. now rewrite (proj2 (RT i j (AR i AI) (AR j AJ)) S).
  - intros g i G IG NA. apply GR' in G. destruct G as (l & LL & N & ->). pose proof (proj1 (sort_in D spans (ls l) i) IG) as IL.
    destruct (final_in D lt add zero limit dist spans lv ls l i FI IL) as (H & _ & TG & _).
    assert (AL : forall j, (j < List.length spans)%nat -> l = rt lv j -> anchored spans j).
    { intros j J EJ. apply (AN j J). unfold anchb, anch. rewrite <- EJ. destruct (L1 D lt add zero limit dist spans lv l); [congruence | reflexivity]. }
    destruct TG as [T|[[Z T]|[Z T]]].
    + elim NA. now apply AL.
    + exists (i - 1)%nat. assert (A : anchored spans (i - 1)) by (apply AL; [lia | exact T]). split; [lia|]. split; [|exact A]. rewrite T. now apply MEM.
    + exists (i + 1)%nat. assert (A : anchored spans (i + 1)) by (apply AL; [lia | exact T]). split; [lia|]. split; [|exact A]. rewrite T. now apply MEM.
  - intros i H NA Q j J NB.
    assert (QU : quiet2 D lt add zero limit dist spans lv (rt lv i)).
    { split.
      - destruct (L1 D lt add zero limit dist spans lv (rt lv i)) eqn:EL; [reflexivity|]. elim NA. apply (AN i H). unfold anchb, anch. now rewrite EL.
      - intros k K AK. assert (NAK : ~ anchored spans k) by (intros X; apply (AN k K) in X; unfold anchb in X; congruence).
        split; intros Z R; apply NAK; [apply (Q (k - 1)%nat k) | apply (Q (k + 1)%nat k)]; try lia; apply (RT i _ H); try lia; now symmetry. }
    assert (LI : longb D lt add zero limit dist spans i = false).
    { destruct (longb D lt add zero limit dist spans i) eqn:X; [|reflexivity]. elim NA. exists i. split; [apply rst_refl | now apply LB]. }
    assert (AJ : anchored spans j) by (apply (Q i j); [apply rst_refl | exact J | exact NB]).
    destruct (MEM j AJ) as [M1 M2]. exists (sort_spans D spans (ls (rt lv j))). split; [exact M1|]. split; [|exact M2]. apply sort_in.
    destruct FI as (tail & _ & _ & _ & U & _). destruct (U i H LI QU) as [U1 U2]. destruct NB as [NB|NB].
    + replace j with (i - 1)%nat by lia. apply U1. lia.
    + subst j. apply U2. exact J.
Qed.

(* A single node makes no floor. *)
Theorem C82_single : lt zero limit = true -> forall z t, detect [z] [t] = Some [].
Proof.
  intros LZ z t. unfold DF_Model.detect, DF_Model.slice, slice_loop, group, pairs, find_floors.
  assert (S : is_short D lt add zero limit dist (mk_span 0 0 [z]) = true) by exact LZ.
  cbn [List.length seq flat_map map app Nat.add Nat.sub add_long nth_error]. rewrite S. cbn [negb add_short nth_error]. rewrite S. reflexivity.
Qed.
(* It fails just when there are no nodes or the second one is already apart from the first: then node(-1) is read. *)
Theorem C82_abort : (forall a b, lt a b = true -> lt b a = false) -> lt zero limit = true ->
  forall zs times, List.length times = List.length zs ->
  (detect zs times = None <-> zs = [] \/ exists z0 z1 rest, zs = z0 :: z1 :: rest /\ apart z0 z1 = true).
Proof.
  intros ASYM LZ zs times LT. destruct zs as [|z0 zs]; [split; [now left | reflexivity]|]. destruct zs as [|z1 zs].
  - split; [|intros [X|(a & b & c & X & _)]; discriminate]. intros X. exfalso.
    destruct times as [|t [|? ?]]; try discriminate. rewrite (C82_single LZ) in X. discriminate.
  - destruct (apart z0 z1) eqn:AP.
    + split; [intros _; right; exists z0, z1, zs; auto|]. intros _.
      destruct (slice_jump D lt apart ASYM z0 z1 zs AP) as (ss & ES & CUT).
      pose proof (cut_values D lt apart _ _ _ CUT) as NODES.
      assert (NE : Forall (fun s => s_z s <> []) (mk_span 0 0 [z0] :: ss)).
      { constructor; [discriminate|]. eapply Forall_impl; [|exact NODES]; intros s H; apply H. }
      destruct (levels_ok D lt close _ NE) as (lv & EG & INV).
      destruct (add_all_ok D lt add zero limit dist _ lv _ INV) as (ls1 & ls & E1 & E2 & FI).
      unfold DF_Model.detect. rewrite ES, EG. unfold find_floors. rewrite E1, E2.
      destruct FI as (tail & _ & _ & _ & _ & V). destruct (V O) as (l & L & I).
      * cbn. lia.
      * unfold longb. cbn [nth_error]. unfold is_short, span_length. cbn [s_start s_end seq Nat.sub Nat.add fold_left]. rewrite LZ. reflexivity.
      * inversion CUT; cbn; lia.
      * rewrite (floors_bad D lt add zero limit dist _ times ls _ l O (mk_span 0 0 [z0])); [reflexivity | apply in_seq; lia | exact I | reflexivity | reflexivity].
    + destruct (C82_floors ASYM z0 z1 zs times AP LT) as (spans & floors & groups & _ & E & _). rewrite E.
      split; [discriminate|]. intros [X|(a & b & c & X & Y)]; [discriminate|]. injection X as -> -> _. congruence.
Qed.
End Floors.

(* Examples with heights and distances in decimetres. *)
Definition far (a b : Z) : bool := (25 <? Z.abs (a - b))%Z.
Definition near (a b : Z) : bool := (Z.abs (a - b) <? 10)%Z.
Definition walk (zs : list Z) (ds : list Z) : option (list (floor Z)) :=
  detect Z Z.ltb far near Z.add 0%Z 250%Z (fun i => nth i ds 0%Z) zs (map Z.of_nat (seq 0 (List.length zs))).
(* the ground floor, up the stairs with a landing, the first floor, and down again *)
Example C82_example :
  walk [0; 0; 1; 30; 31; 60; 61; 60; 2; 1; 0]%Z [0; 200; 200; 20; 1; 20; 300; 10; 20; 200; 200]%Z =
  Some [mk_floor [(0, 2); (3, 4); (8, 10)]%Z 1%Z; mk_floor [(3, 4); (5, 7)]%Z 60%Z].
Proof. vm_compute. reflexivity. Qed.

(* That every span is on some floor is false: with two landings in a row the second one is lost. *)
Theorem C82_lost_refuted : exists zs ds spans floors, slice Z Z.ltb far zs = Some spans /\ walk zs ds = Some floors /\
  nth_error spans 2 = Some (mk_span 5 7 [60; 60]%Z) /\ forall f t0 t1, In f floors -> In (t0, t1) (f_timespans f) -> t0 <> 5%Z.
Proof.
  exists [0; 0; 1; 30; 31; 60; 60; 90; 90; 91]%Z, [0; 200; 200; 20; 1; 20; 1; 20; 200; 200]%Z.
  eexists. eexists. split; [vm_compute; reflexivity|]. split; [vm_compute; reflexivity|]. split; [reflexivity|].
  intros f t0 t1 F. repeat destruct F as [<-|F]; cbn [f_timespans]; intros T; repeat destruct T as [T|T]; try (injection T as <- <-; discriminate); destruct T || destruct F.
Qed.
(* That the time spans of a floor do not overlap is false: an excursion between two spans of one level is listed twice. *)
Theorem C82_twice_refuted : exists zs ds floors f, walk zs ds = Some floors /\ In f floors /\ ~ NoDup (f_timespans f).
Proof.
  exists [0; 0; 1; 30; 31; 0; 1; 0]%Z, [0; 200; 200; 20; 1; 20; 200; 200]%Z.
  eexists. eexists. split; [vm_compute; reflexivity|]. split; [left; reflexivity|]. cbn [f_timespans]. intros N.
  inversion N as [|x l N1 N2]; subst. inversion N2 as [|x l N3 N4]; subst. apply N3. now left.
Qed.
(* That every trajectory has its floors detected is false: a jump between the first two nodes reads node(-1). *)
Theorem C82_first_refuted : exists zs ds, zs <> [] /\ walk zs ds = None.
Proof. exists [0; 30; 30]%Z, [0; 10; 300]%Z. split; [discriminate | vm_compute; reflexivity]. Qed.

Print Assumptions C82_spans.
Print Assumptions C82_spans_jump.
Print Assumptions C82_length.
Print Assumptions C82_levels.
Print Assumptions C82_floors.
Print Assumptions C82_abort.
Print Assumptions C82_single.
Print Assumptions C82_lost_refuted.
Print Assumptions C82_twice_refuted.
Print Assumptions C82_first_refuted.
