(* A stream of messages in order of time never makes the local trajectory builder abort. *)
From Coq Require Import ZArith List Bool Permutation Sorted Lia.
From Verif Require Import RDC_Model RDC_Spec RDC_Proofs PE_Model PE_Proofs LTB_Model LTB_Spec LTB_Proofs.
Import ListNotations.
Open Scope Z_scope.

Section Run.
Context {K : kit} {F : parts K}.
Notation pose := (Vec K * Rot K)%type.
Notation point := (Pnt F * Tim F * Int F * nat)%type.
Notation merge := (merged (Pnt F) (Org F) (Int F) (Tim F)).
Hypothesis CALM : forall d v a, observe K d v a <> None.
Hypothesis FIT : forall m p c, fit F m p c <> None.
Hypothesis INS : forall m s p, insert F m s p <> None.
Variable tlt : Tim F -> Tim F -> bool.
Variables sent shifted : Tim F -> Prop.
Hypothesis CL : clock_ok tlt sent shifted.
Hypothesis SO : sorts tlt.
Variable opt : options.
Notation dur := (queue_duration opt).

(* the poses of the points are the answers for their times, but not before the last prediction *)
Definition asked (t : Z) (l : list point) (x : ext K) : list (call K) :=
  map (fun q : point => CExtrapolate (Z.max (t + tick_of F (snd (fst (fst q)))) (last_extrapolated_time x))) l.
Lemma point_poses_ready t : forall (l : list point) p e now x, ready p e now x -> e <= t -> t <= now ->
  StronglySorted (fun a b => ptick a <= ptick b) l -> Forall (fun q : point => ptick q <= 0) l ->
  exists ps x' e', point_poses F t l x = Some (ps, x') /\ ready p e' now x' /\ e' <= t /\
    PE_Model.run dur (asked t l x) x = Some (map APose ps, x').
Proof.
  induction l as [|q l IH]; intros p e now x R L N S D; cbn [point_poses].
  { exists [], x, e. auto. }
  apply StronglySorted_inv in S as [S G]. apply Forall_cons_iff in D as [D1 D].
  pose proof (ready_predicted _ _ _ _ R) as LE. unfold asked. cbn [map]. rewrite LE.
  destruct q as [[[q s] i] n]. cbn [fst snd]. unfold ptick in D1, G. cbn [fst snd] in D1, G.
  set (tp := Z.max (t + tick_of F s) e).
  destruct (extrapolate_ready CALM p e now tp x R) as (r & x1 & E & R1); [lia | lia|].
  cbn [PE_Model.run PE_Model.step]. rewrite E. cbn [option_map fst snd].
  destruct (IH p tp now x1 R1) as (ps & x2 & e2 & E2 & R2 & L2 & Q2); [lia | exact N | exact S | exact D|].
  exists (r :: ps), x2, e2. rewrite E2. split; [reflexivity|]. split; [exact R2|]. split; [exact L2|].
  unfold asked in Q2. rewrite (ready_predicted _ _ _ _ R1) in Q2.
  replace (map (fun q0 : point => CExtrapolate (Z.max (t + tick_of F (snd (fst (fst q0)))) e)) l)
    with (map (fun q0 : point => @CExtrapolate K (Z.max (t + tick_of F (snd (fst (fst q0)))) tp)) l).
  { rewrite Q2. reflexivity. }
  apply map_ext_in. intros y Y. rewrite Forall_forall in G. specialize (G y Y). unfold ptick in G. f_equal. lia.
Qed.

(* the extrapolator between calls: not predicted past the newest pose and the last merge *)
Definition ext_ok (now merged_to : Z) (o : option (ext K)) : Prop :=
  match o with None => True | Some x => exists p e, ready p e now x /\ e <= Z.max p merged_to end.
Definition merge_ok' (m : merge) : Prop :=
  StronglySorted (fun a b : point => ptick a <= ptick b) (m_ranges m) /\
  Forall (fun q : point => shifted (snd (fst (fst q)))) (m_ranges m) /\
  Forall (fun q : point => nth_error (m_origins m) (snd q) <> None) (m_ranges m).

Lemma accumulated_ok t s g p e now x (b : builder F) : ready p e now x -> e <= t -> t <= now ->
  exists r b', add_accumulated F opt t s g x b = Some (r, b') /\ ext_ok now t (b_ext b').
Proof.
  intros R L N. unfold add_accumulated. destruct (no_returns F s).
  { eexists _, _. split; [reflexivity|]. exists p, e. split; [exact R | lia]. }
  destruct (extrapolate_ready CALM p e now t x R L N) as (q & x1 & -> & R1). destruct (is_empty F (thin F s)).
  { eexists _, _. split; [reflexivity|]. exists p, t. split; [exact R1 | lia]. }
  assert (exists flat, scan_match F (b_maps b) (project F q g) (thin F s) = Some flat) as (flat & ->).
  { unfold scan_match. destruct (no_maps F (b_maps b)); [eexists; reflexivity|]. destruct (fit F _ _ _) eqn:E; [eexists; reflexivity | now apply FIT in E]. }
  destruct (add_pose_ready CALM dur p t now t (embed F flat g) x1 R1) as (x2 & -> & R2); [lia | exact N|].
  destruct (is_similar F t (embed F flat g) (b_filter b)) as [sim f].
  assert (OK : ext_ok now t (Some x2)) by (exists t, t; split; [exact R2 | lia]).
  destruct sim; [eexists _, _; split; [reflexivity | exact OK]|].
  destruct (insert F (b_maps b) s flat) eqn:E; [|now apply INS in E]. eexists _, _. split; [reflexivity | exact OK].
Qed.

Lemma initialize_ok t now (b : builder F) merged_to : ext_ok now merged_to (b_ext b) -> t <= now -> tmin <= t ->
  exists b1 x, initialize F opt t b = Some b1 /\ b_ext b1 = Some x /\ ext_ok now merged_to (Some x) /\
    (b_ext b <> None -> b1 = b) /\ (b_ext b = None -> add_pose dur t (zero K, identity K) new_ext = Some x).
Proof.
  intros E L M. unfold initialize. destruct (b_ext b) as [x|] eqn:X.
  { exists b, x. split; [reflexivity|]. split; [exact X|]. split; [exact E|]. split; [reflexivity | discriminate]. }
  destruct (new_ready CALM dur t (zero K, identity K) now L M) as (x & E0 & R). rewrite E0. eexists _, x. split; [reflexivity|]. split; [reflexivity|].
  split; [exists t, t; split; [exact R | lia]|]. split; [now intros []|]. reflexivity.
Qed.

Definition placed_ok (e : event F) : Prop :=
  match e with
  | EPlaced m ps _ => exists x x', PE_Model.run dur (asked (m_time m) (m_ranges m) x) x = Some (map APose ps, x')
  | _ => True
  end.
Lemma add_merged_ok (m : merge) now merged_to (b : builder F) : merge_ok' m -> ext_ok now merged_to (b_ext b) ->
  merged_to <= m_time m -> m_time m <= now -> tmin <= m_time m ->
  exists e b', add_merged F opt m b = Some (e, b') /\ ext_ok now (m_time m) (b_ext b') /\
    (forall r, result_of e = Some r -> r_time r = m_time m) /\
    match e with
    | EPlaced m' ps _ => m' = m /\ exists x x', (b_ext b = Some x \/ b_ext b = None /\ add_pose dur (m_time m) (zero K, identity K) new_ext = Some x) /\
        PE_Model.run dur (asked (m_time m) (m_ranges m) x) x = Some (map APose ps, x')
    | _ => True
    end.
Proof.
  intros (S & SH & IX) X L N M. destruct CL as (C1 & C2 & C3 & C4). unfold add_merged.
  assert (WEAK : forall o, ext_ok now merged_to o -> ext_ok now (m_time m) o).
  { intros [x|]; [|auto]. intros (p & e & R & E). exists p, e. split; [exact R | lia]. }
  destruct (m_ranges m) as [|[[[q0 s0] i0] n0] l] eqn:ML.
  { eexists _, _. split; [reflexivity|]. split; [now apply WEAK|]. split; [discriminate | exact I]. }
  rewrite <- ML in *. destruct (back (m_ranges m)) as [[[[q1 s1] i1] n1]|] eqn:MB.
  2:{ apply back_none in MB. congruence. }
  assert (IN1 : In (q1, s1, i1, n1) (m_ranges m)).
  { apply back_some in MB as (l' & ->). apply in_or_app. right. now left. }
  rewrite Forall_forall in SH. pose proof (SH _ IN1) as P1. cbn [fst snd] in P1.
  assert (exists b1, (if use_imu opt then Some b else initialize F opt (m_time m) b) = Some b1 /\ ext_ok now merged_to (b_ext b1) /\
     (forall x, b_ext b1 = Some x -> b_ext b = Some x \/ b_ext b = None /\ add_pose dur (m_time m) (zero K, identity K) new_ext = Some x)) as (b1 & -> & X1 & XB).
  { destruct (use_imu opt); [exists b; auto|]. destruct (initialize_ok (m_time m) now b merged_to X N M) as (b1 & x & E1 & E2 & E3 & E4 & E5).
    exists b1. split; [exact E1|]. rewrite E2. split; [exact E3|]. intros y [= <-].
    destruct (b_ext b) as [x0|] eqn:EB; [left; rewrite E4 in E2 by discriminate; congruence | right; auto]. }
  destruct (b_ext b1) as [x|] eqn:EX.
  2:{ eexists _, _. split; [reflexivity|]. rewrite EX. split; [exact I|]. split; [discriminate | exact I]. }
  rewrite (C2 _ P1). cbn [negb]. destruct X1 as (p & e & R & E). rewrite (ready_pose _ _ _ _ R).
  destruct (Z.ltb_spec (m_time m + tick_of F s0) p) as [EA|EA].
  { eexists _, _. split; [reflexivity|]. rewrite EX. split; [apply WEAK; exists p, e; auto|]. split; [discriminate | exact I]. }
  assert (T0 : tick_of F s0 <= 0). { apply C3. apply (SH (q0, s0, i0, n0)). rewrite ML. now left. }
  assert (T : Forall (fun q : point => ptick q <= 0) (m_ranges m)).
  { apply Forall_forall. intros q Q. apply C3, SH, Q. }
  destruct (point_poses_ready (m_time m) (m_ranges m) p e now x R) as (ps & x1 & e1 & PP & R1 & L1 & Q1); [lia | exact N | exact S | exact T|].
  rewrite PP. pose proof (point_poses_length _ _ _ _ _ PP) as PL.
  destruct (sort_out_total (m_origins m) (m_ranges m) ps PL IX) as ([rs ms] & ->).
  destruct (back ps) as [lastp|] eqn:BP.
  2:{ apply back_none in BP. subst ps. rewrite ML in PL. discriminate. }
  cbv zeta. destruct (num_accumulated_range_data opt <=? b_num b1 + 1).
  - destruct (gravity_ready CALM p e1 now (m_time m) x1 R1) as (g & ->); [lia|].
    match goal with |- context [add_accumulated F opt ?t ?s g x1 ?b2] =>
      destruct (accumulated_ok t s g p e1 now x1 b2 R1 L1 N) as (r & b3 & A1 & A2) end.
    rewrite A1. apply accumulated_keeps in A1 as (_ & _ & A3).
    eexists _, _. split; [reflexivity|]. split; [exact A2|]. split.
    + intros r0. cbn [result_of]. intros ->. apply A3.
    + split; [reflexivity|]. exists x, x1. split; [now apply XB | exact Q1].
  - eexists _, _. split; [reflexivity|]. cbn [b_ext]. split; [exists p, e1; split; [exact R1 | lia]|].
    split; [discriminate|]. split; [reflexivity|]. exists x, x1. split; [now apply XB | exact Q1].
Qed.

(* the whole state *)
Definition J (last : Z) (b : builder F) : Prop :=
  RDC_Proofs.inv (Pnt F) (Org F) (Int F) (Tim F) (tick_of F) last (b_collator b) /\
  Forall (fun e => sent (e_rel e) /\ time_min <= e_time e <= time_max) (pents (Pnt F) (Org F) (Int F) (Tim F) (pending (b_collator b))) /\
  ext_ok last (end' (b_collator b)) (b_ext b).
Lemma J_new : J time_min new_builder.
Proof.
  split; [|split; [constructor | exact I]]. split; [constructor|]. split; [constructor|]. cbn [end' b_collator new_builder new]. lia.
Qed.

Lemma entries_sent d : message_ok (tick_of F) d -> Forall (fun p => sent (snd p)) (ranges d) ->
  Forall (fun e => sent (e_rel e) /\ time_min <= e_time e <= time_max) (entries (P:=Pnt F) (O:=Org F) (no_intensity F) d).
Proof.
  intros (_ & _ & B) A. unfold entries. apply Forall_forall. intros e I. apply in_map_iff in I as ([[p t] i] & <- & I).
  apply in_combine_l in I. rewrite Forall_forall in A. cbn [e_rel e_time]. split; [exact (A _ I) | exact B].
Qed.

Lemma step_ok last (b : builder F) m : J last b -> acceptable opt sent m -> last <= message_time m ->
  exists e b', step F opt m b = Some (e, b') /\ J (message_time m) b' /\
    end' (b_collator b) <= end' (b_collator b') /\
    (forall r, result_of e = Some r -> r_time r = end' (b_collator b')) /\
    match e with
    | EPlaced mg ps _ => merge_ok' mg /\ exists x x', (b_ext b = Some x \/ b_ext b = None /\ add_pose dur (m_time mg) (zero K, identity K) new_ext = Some x) /\
        PE_Model.run dur (asked (m_time mg) (m_ranges mg) x) x = Some (map APose ps, x')
    | _ => True
    end.
Proof.
  intros (IV & SE & EX) A L. destruct m as [k d|r|o]; cbn [step message_time acceptable] in *.
  - destruct A as (IN & MO & SN). destruct SO as (SO1 & SO2).
    destruct (add_ok _ _ _ _ (no_intensity F) (tick_of F) (shift_by F) tlt (sort_by F) SO1 SO2 (expected opt) last (b_collator b) k d IV IN MO L)
      as (o & c' & x & n & E & IV' & PM & OK).
    assert (SE' : Forall (fun e => sent (e_rel e) /\ time_min <= e_time e <= time_max)
       (x ++ n ++ pents (Pnt F) (Org F) (Int F) (Tim F) (pending c'))).
    { eapply Permutation_Forall; [exact PM|]. apply Forall_app. split; [now apply entries_sent | exact SE]. }
    apply Forall_app in SE' as [_ SE']. apply Forall_app in SE' as [SN' SE'].
    assert (EX' : forall mt, end' (b_collator b) <= mt -> ext_ok (time d) mt (b_ext b)).
    { intros mt LM. destruct (b_ext b) as [y|]; [|exact I]. destruct EX as (p & e & R & LE). exists p, e. split; [now apply (ready_later _ _ last) | lia]. }
    unfold add_range. rewrite E. destruct o as [m|].
    + destruct OK as (M1 & M2 & M3 & M4 & _ & M6).
      destruct IV' as (V1 & V2 & V3).
      assert (MK : merge_ok' m).
      { destruct CL as (C1 & C2 & C3 & C4).
        assert (SH : Forall (fun o => exists a b c d, o = Some (a, b, c, d) /\ shifted c) (seen m)).
        { eapply Permutation_Forall; [symmetry; exact M3|]. apply Forall_forall. intros z Z0. apply in_map_iff in Z0 as (en & <- & I1).
          unfold view. eexists _, _, _, _. split; [reflexivity|]. rewrite Forall_forall in SN', M6. destruct (SN' _ I1) as (Q1 & Q2).
          specialize (M6 _ I1). unfold abs_time in M6. destruct MO as (_ & _ & MT). apply C1; [exact Q1 | | lia].
          unfold time_min, time_max in *. lia. }
        assert (BOTH : Forall (fun q : point => shifted (snd (fst (fst q))) /\ nth_error (m_origins m) (snd q) <> None) (m_ranges m)).
        { unfold seen in SH. rewrite Forall_map in SH. eapply Forall_impl; [|exact SH]. cbv beta. intros [[[p t] i] nn] (a & b0 & c0 & d0 & Q & Q').
          cbn [fst snd]. destruct (nth_error (m_origins m) nn); [|discriminate]. injection Q as -> -> -> ->. split; [exact Q' | discriminate]. }
        split; [|split; (eapply Forall_impl; [|exact BOTH]); cbv beta; tauto].
        unfold by_time in M4. clear - M4 BOTH C4. revert M4 BOTH. generalize (m_ranges m) as l. induction l as [|a l IH]; intros S B; [constructor|].
        apply StronglySorted_inv in S as [S G]. apply Forall_cons_iff in B as [[B1 _] B]. constructor; [now apply IH|].
        rewrite Forall_forall in *. intros y Y. unfold ptick. apply C4; [exact B1 | now apply B | now apply G]. }
      destruct (add_merged_ok m (time d) (end' (b_collator b)) (set_collator F c' b) MK) as (e & b' & AM & EX2 & RT & PL).
      * cbn [b_ext set_collator]. apply EX'. lia.
      * lia.
      * lia.
      * unfold tmin. unfold time_min in V3. lia.
      * rewrite AM. pose proof (add_merged_shape opt m _ _ _ AM) as (_ & CO). cbn [b_collator set_collator] in CO.
        exists e, b'. split; [reflexivity|]. unfold J. rewrite CO. split; [split; [exact (conj V1 (conj V2 V3))|]; split; [exact SE' | now rewrite <- M1]|].
        split; [exact M2|]. split; [intros r0 Q; rewrite <- M1; now apply RT|].
        destruct e; try exact I. destruct PL as (-> & y & x' & Q1 & Q2). split; [exact MK|]. exists y, x'. auto.
    + destruct OK as (_ & _ & EN). eexists _, _. split; [reflexivity|]. cbn [b_collator set_collator b_ext]. unfold J. cbn [b_collator set_collator b_ext].
      rewrite EN. split; [split; [exact IV'|]; split; [exact SE' | apply EX'; lia]|]. split; [lia|]. split; [discriminate | exact I].
  - unfold add_imu_data. rewrite A. destruct IV as (V1 & V2 & V3).
    assert (IV' : RDC_Proofs.inv (Pnt F) (Org F) (Int F) (Tim F) (tick_of F) (fst r) (b_collator b)).
    { split; [|split; [exact V2 | lia]]. eapply Forall_impl; [|exact V1]. cbv beta. intros a (Q1 & Q2). split; [exact Q1 | lia]. }
    assert (EX1 : ext_ok (fst r) (end' (b_collator b)) (b_ext b)).
    { destruct (b_ext b) as [y|]; [|exact I]. destruct EX as (p & e & R & LE). exists p, e. split; [now apply (ready_later _ _ last) | lia]. }
    destruct (initialize_ok (fst r) (fst r) b (end' (b_collator b)) EX1) as (b1 & x & E1 & E2 & (p & e & R & LE) & _); [lia | unfold tmin; unfold time_min in V3; lia|].
    rewrite E1, E2. destruct (add_imu_ready p e (fst r) r x R) as (x' & E3 & R'); [lia|]. rewrite E3. cbn [option_map].
    apply initialize_keeps in E1 as (_ & _ & _ & _ & _ & CO). eexists _, _. split; [reflexivity|]. unfold J. cbn [b_collator set_ext b_ext]. rewrite CO.
    split; [split; [exact IV'|]; split; [exact SE | exists p, e; auto]|]. split; [lia|]. split; [discriminate | exact I].
  - unfold add_odometry_data. destruct IV as (V1 & V2 & V3).
    assert (IV' : RDC_Proofs.inv (Pnt F) (Org F) (Int F) (Tim F) (tick_of F) (fst o) (b_collator b)).
    { split; [|split; [exact V2 | lia]]. eapply Forall_impl; [|exact V1]. cbv beta. intros a (Q1 & Q2). split; [exact Q1 | lia]. }
    destruct (b_ext b) as [x|] eqn:EB.
    + destruct EX as (p & e & R & LE). destruct (add_odometry_ready CALM p e last o x R L) as (x' & -> & R'). cbn [option_map].
      eexists _, _. split; [reflexivity|]. unfold J. cbn [b_collator set_ext b_ext].
      split; [split; [exact IV'|]; split; [exact SE | exists p, e; auto]|]. split; [lia|]. split; [discriminate | exact I].
    + eexists _, _. split; [reflexivity|]. unfold J. rewrite EB. split; [split; [exact IV'|]; split; [exact SE | exact I]|].
      split; [lia|]. split; [discriminate | exact I].
Qed.

Lemma run_stream : forall ms last (b : builder F), J last b -> Forall (acceptable opt sent) ms ->
  StronglySorted Z.le (last :: map message_time ms) ->
  exists es b', run F opt ms b = Some (es, b') /\ J (fold_left Z.max (map message_time ms) last) b' /\
    StronglySorted Z.le (end' (b_collator b) :: map r_time (results es)).
Proof.
  induction ms as [|m ms IH]; intros last b Jb A S.
  { exists [], b. split; [reflexivity|]. split; [exact Jb|]. repeat constructor. }
  apply Forall_cons_iff in A as [A1 A]. cbn [map] in S. apply StronglySorted_inv in S as [S G]. apply Forall_cons_iff in G as [G _].
  destruct (step_ok last b m Jb A1 G) as (e & b1 & E1 & J1 & L1 & T1 & _).
  destruct (IH (message_time m) b1 J1 A S) as (es & b2 & E2 & J2 & S2).
  exists (e :: es), b2. cbn [run]. rewrite E1, E2. split; [reflexivity|]. cbn [map fold_left]. rewrite Z.max_r by exact G. split; [exact J2|].
  unfold results. cbn [flat_map]. fold (results es). rewrite map_app. apply StronglySorted_inv in S2 as [S3 F3].
  destruct (result_of e) as [r|]; cbn [map app].
  - rewrite (T1 r eq_refl). constructor; [constructor; [exact S3 | exact F3]|]. constructor; [exact L1|].
    eapply Forall_impl; [|exact F3]. cbv beta. intros. lia.
  - constructor; [exact S3|]. eapply Forall_impl; [|exact F3]. cbv beta. intros. lia.
Qed.
End Run.
