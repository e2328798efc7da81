(* If every message ends with a point at its time, so does the merged range data. *)
From Coq Require Import ZArith List Bool Permutation Sorted Lia.
From Verif Require Import ZMap RDC_Model RDC_Spec RDC_Proofs PE_Model PE_Proofs LTB_Model LTB_Spec LTB_Proofs LTB_Run.
Import ListNotations.
Open Scope Z_scope.

Section Merge.
Variables P O I T : Type.
Variable z0 : I.
Variable ticks : T -> Z.
Variable shift : Z -> T -> T.
Variable sort : list (P * T * I * nat) -> list (P * T * I * nat).
Hypothesis sort_perm : forall l, Permutation (sort l) l.
Notation data := (data P O I T).

Definition fresh (d : data) : Prop := exists l p t, ranges d = l ++ [(p, t)] /\ ticks t = 0.

Lemma measure_in corr idx p t : forall (ps : list (P * T)) (is : list I) r, measure shift corr idx ps is = Some r ->
  In (p, t) ps -> exists i, In (p, shift corr t, i, idx) r.
Proof.
  induction ps as [|[p0 t0] ps IH]; intros [|i is] r E N; try destruct N; cbn [measure] in E; try discriminate.
  - destruct (measure shift corr idx ps is) as [r0|] eqn:M; [|discriminate]. injection E as <-. injection H as -> ->. exists i. now left.
  - destruct (measure shift corr idx ps is) as [r0|] eqn:M; [|discriminate]. injection E as <-. destruct (IH is r0 M H) as (j & J). exists j. now right.
Qed.
Lemma end_le cs ce (d : data) : (overlap_end ticks cs ce d <= length (ranges d))%nat.
Proof.
  unfold overlap_end, overlap_begin. pose proof (count_while_le (fun p => time d + ticks (snd p) <? cs) (ranges d)).
  set (b := count_while _ (ranges d)) in *. pose proof (count_while_le (fun p => time d + ticks (snd p) <=? ce) (skipn b (ranges d))) as L.
  rewrite skipn_length in L. lia.
Qed.
Lemma crop_rest cs ce (d d' : data) acc acc' : fresh d -> crop ticks shift cs ce d acc = Some (acc', Some d') -> fresh d'.
Proof.
  intros (l & p & t & E & Z). unfold crop. pose proof (end_le cs ce d) as L.
  destruct (if (overlap_begin ticks cs d <? _)%nat then _ else _) as [a|]; [|discriminate]. intros [= <- H].
  destruct (Nat.eqb_spec (overlap_end ticks cs ce d) (length (ranges d))) as [|N]; [discriminate|].
  destruct (Nat.eqb_spec (overlap_end ticks cs ce d) 0) as [|N0]; injection H as <-; [now exists l, p, t|].
  exists (skipn (overlap_end ticks cs ce d) l), p, t. split; [|exact Z]. cbn [ranges]. rewrite E in *. rewrite app_length in *. cbn [length] in *.
  rewrite skipn_app. replace (overlap_end ticks cs ce d - length l)%nat with 0%nat by lia. reflexivity.
Qed.
Lemma crop_grows cs ce (d : data) acc acc' rest y : crop ticks shift cs ce d acc = Some (acc', rest) -> In y (snd acc) -> In y (snd acc').
Proof.
  unfold crop. destruct (_ <? _)%nat.
  - destruct (measure shift _ _ _ _); [|discriminate]. intros [= <- _] H. cbn [snd]. apply in_or_app. now left.
  - now intros [= <- _].
Qed.
Lemma crop_now cs ce (d : data) acc acc' rest : fresh d -> Forall (fun p => ticks (snd p) <= 0) (ranges d) -> time d = ce -> cs <= ce ->
  crop ticks shift cs ce d acc = Some (acc', rest) -> exists p t i n, In (p, shift 0 t, i, n) (snd acc') /\ In (p, t) (ranges d) /\ ticks t = 0.
Proof.
  intros (l & p & t & E & Z) LE TC CE. unfold crop.
  assert (B : (overlap_begin ticks cs d <= length l)%nat).
  { unfold overlap_begin. rewrite E. clear - Z TC CE. induction l as [|q l IH]; cbn [app count_while snd].
    - destruct (Z.ltb_spec (time d + ticks t) cs); cbn; lia.
    - destruct (_ <? cs); cbn [length]; lia. }
  assert (Ee : overlap_end ticks cs ce d = length (ranges d)).
  { unfold overlap_end. rewrite count_while_all; [|apply forall_skipn; eapply Forall_impl; [|exact LE]; cbv beta; intros q Q; apply Z.leb_le; lia].
    rewrite skipn_length, E, app_length in *. cbn [length]. lia. }
  rewrite Ee. assert (LT : (overlap_begin ticks cs d <? length (ranges d))%nat = true).
  { apply Nat.ltb_lt. rewrite E, app_length. cbn [length]. lia. }
  rewrite LT. destruct (measure shift _ _ _ _) as [r|] eqn:M; [|discriminate]. intros [= <- _].
  rewrite firstn_all2 in M by (rewrite skipn_length; lia).
  apply (measure_in _ _ p t) in M as (i & M).
  - exists p, t, i, (length (fst acc)). cbn [snd]. replace (time d - ce) with 0 in M by lia. split; [apply in_or_app; now right|].
    split; [rewrite E; apply in_or_app; right; now left | exact Z].
  - rewrite E, skipn_app. apply in_or_app. right. replace (_ - length l)%nat with 0%nat by lia. now left.
Qed.

Definition good (sent : T -> Prop) (d : data) : Prop :=
  fresh d /\ Forall (fun p => ticks (snd p) <= 0) (ranges d) /\ Forall (fun p => sent (snd p)) (ranges d).
Lemma crop_good sent cs ce (d d' : data) acc acc' : good sent d -> crop ticks shift cs ce d acc = Some (acc', Some d') -> good sent d'.
Proof.
  intros (A & B & C) H. split; [exact (crop_rest _ _ _ _ _ _ A H)|].
  assert (R : exists n, ranges d' = skipn n (ranges d)).
  { unfold crop in H. destruct (if (overlap_begin ticks cs d <? _)%nat then _ else _) as [a|]; [|discriminate]. injection H as _ H.
    destruct (_ =? _)%nat; [discriminate|]. destruct (_ =? 0)%nat; injection H as <-; [now exists 0%nat|]. eexists. reflexivity. }
  destruct R as (n & ->). split; now apply forall_skipn.
Qed.
Lemma crop_all_good sent cs ce : forall (m : list (Z * data)) acc acc' m', Forall (fun kd => good sent (snd kd)) m ->
  crop_all ticks shift cs ce m acc = Some (acc', m') ->
  Forall (fun kd => good sent (snd kd)) m' /\ (forall y, In y (snd acc) -> In y (snd acc')) /\
  (forall k d, In (k, d) m -> time d = ce -> cs <= ce ->
     exists p t i n, In (p, shift 0 t, i, n) (snd acc') /\ sent t /\ ticks t = 0).
Proof.
  induction m as [|[k d] m IH]; intros acc acc' m' G H; cbn [crop_all] in H.
  { injection H as <- <-. split; [constructor|]. split; [auto | intros ? ? []]. }
  apply Forall_cons_iff in G as [G1 G]. cbn [snd] in G1.
  destruct (crop ticks shift cs ce d acc) as [[acc1 rest]|] eqn:C; [|discriminate].
  destruct (crop_all ticks shift cs ce m acc1) as [[acc2 r2]|] eqn:CA; [|discriminate]. injection H as <- <-.
  destruct (IH _ _ _ G CA) as (H1 & H2 & H3). split; [|split].
  - destruct rest as [d'|]; [|exact H1]. constructor; [|exact H1]. cbn [snd]. exact (crop_good _ _ _ _ _ _ _ G1 C).
  - intros y Y. apply H2. exact (crop_grows _ _ _ _ _ _ _ C Y).
  - intros k0 d0 [[= <- <-]|N] TC CE; [|exact (H3 k0 d0 N TC CE)]. destruct G1 as (A1 & A2 & A3).
    destruct (crop_now _ _ _ _ _ _ A1 A2 TC CE C) as (p & t & i & n & Q1 & Q2 & Q3). exists p, t, i, n. split; [now apply H2|].
    split; [|exact Q3]. rewrite Forall_forall in A3. exact (A3 _ Q2).
Qed.
Lemma oldest_in : forall (m : list (Z * data)) t0, Forall (fun kd => time (snd kd) <= t0) m -> m <> [] ->
  exists k d, In (k, d) m /\ time d = fold_left (fun t kd => Z.min t (time (snd kd))) m t0.
Proof.
  induction m as [|[k d] m IH]; intros t0 L N; [contradiction|]. apply Forall_cons_iff in L as [L1 L]. cbn [fold_left snd] in *.
  rewrite Z.min_r by exact L1. clear IH N L L1. revert k d. induction m as [|[k1 d1] m IH]; intros k d; [exists k, d; split; [now left | reflexivity]|].
  cbn [fold_left snd]. destruct (Z.min_spec (time d) (time d1)) as [[_ ->]|[_ ->]].
  - destruct (IH k d) as (k2 & d2 & [Q|Q] & E); exists k2, d2; (split; [|exact E]); [left; exact Q | right; right; exact Q].
  - destruct (IH k1 d1) as (k2 & d2 & Q & E). exists k2, d2. split; [now right | exact E].
Qed.
Lemma emplace_good sent k (d : data) m : Forall (fun kd => good sent (snd kd)) m -> good sent d ->
  Forall (fun kd => good sent (snd kd)) (emplace k d m).
Proof.
  intros G D. unfold emplace. destruct (zfind k m); [exact G|]. rewrite Forall_forall in *. intros e E.
  apply In_zput in E as [->|E]; [exact D | now apply G].
Qed.
Lemma add_last sent expected (c c' : collator P O I T) k (d : data) o last :
  RDC_Proofs.inv P O I T ticks last c -> last <= time d <= time_max ->
  Forall (fun kd => good sent (snd kd)) (pending c) -> good sent d ->
  RDC_Model.add z0 ticks shift sort expected c k d = Some (o, c') ->
  Forall (fun kd => good sent (snd kd)) (pending c') /\
  match o with
  | Some m => exists p t i n, In (p, shift 0 t, i, n) (m_ranges m) /\ sent t /\ ticks t = 0
  | None => True
  end.
Proof.
  intros (V1 & V2 & V3) LT G D. unfold RDC_Model.add. destruct (existsb _ _); [|discriminate]. cbv zeta.
  set (d0 := {| time := time d |}). assert (D0 : good sent d0) by exact D.
  destruct (zfind k (pending c)) as [old|] eqn:F.
  - pose proof (zfind_In _ _ _ F) as HI. pose proof (proj1 (Forall_forall _ _) V1 _ HI) as (_ & T1). cbn [snd] in T1.
    unfold crop_and_merge. cbn [pending start end'].
    destruct (crop_all _ _ _ _ _ _) as [[[os ms] m']|] eqn:C; [|discriminate]. intros [= <- <-].
    destruct (crop_all_good sent _ _ _ _ _ _ G C) as (H1 & _ & H3). cbn [pending m_ranges]. split; [now apply emplace_good|].
    destruct (H3 k old HI eq_refl) as (p & t & i & n & Q1 & Q2); [lia|]. exists p, t, i, n. split; [|exact Q2].
    apply (Permutation_in _ (Permutation_sym (sort_perm ms))). exact Q1.
  - pose proof (emplace_good sent k d0 _ G D0) as G2. set (m := emplace k d0 (pending c)) in *.
    destruct (_ =? _)%nat; [|intros [= <- <-]; cbn [pending]; auto].
    unfold crop_and_merge. cbn [pending start end'].
    destruct (crop_all _ _ _ _ _ _) as [[[os ms] m']|] eqn:C; [|discriminate]. intros [= <- <-].
    destruct (crop_all_good sent _ _ _ _ _ _ G2 C) as (H1 & _ & H3). cbn [pending m_ranges]. split; [exact H1|].
    destruct (emplace_new P O I T k d0 (pending c) F V2) as (P1 & _). fold m in P1.
    assert (TM : Forall (fun kd : Z * data => time (snd kd) <= time_max /\ end' c <= time (snd kd)) m).
    { eapply Permutation_Forall; [symmetry; exact P1|]. constructor; [cbn [snd d0 time]; lia|]. eapply Forall_impl; [|exact V1]. cbv beta. intros a (_ & A). lia. }
    destruct (oldest_in m time_max) as (k2 & d2 & I2 & E2).
    { eapply Forall_impl; [|exact TM]. cbv beta. tauto. }
    { intros E. rewrite E in P1. apply Permutation_nil in P1. discriminate. }
    fold (oldest m) in E2. rewrite Forall_forall in TM. pose proof (TM _ I2) as (_ & T2). cbn [snd] in T2.
    destruct (H3 k2 d2 I2 E2) as (p & t & i & n & Q1 & Q2); [lia|]. exists p, t, i, n. split; [|exact Q2].
    apply (Permutation_in _ (Permutation_sym (sort_perm ms))). exact Q1.
Qed.
End Merge.

Section Last.
Context {K : kit} {F : parts K}.
Hypothesis CALM : forall d v a, observe K d v a <> None.
Hypothesis FIT : forall m p c, fit F m p c <> None.
Hypothesis INS : forall m s p, insert F m s p <> None.
Variable tlt : Tim F -> Tim F -> bool.
Variables sent shifted : Tim F -> Prop.
Hypothesis CL : clock_ok tlt sent shifted.
Hypothesis SO : sorts tlt.
Hypothesis SAME : forall t, sent t -> tick_of F t = 0 -> tick_of F (shift_by F 0 t) = 0.
Variable opt : options.

Definition ends_now (e : event F) : Prop :=
  match e with
  | EPlaced m _ _ => exists p s i n, back (m_ranges m) = Some (p, s, i, n) /\ tick_of F s = 0
  | _ => True
  end.
Definition pending_good (b : builder F) : Prop :=
  Forall (fun kd => good (Pnt F) (Org F) (Int F) (Tim F) (tick_of F) sent (snd kd)) (pending (b_collator b)).
Lemma step_collator (m : message F) (b b' : builder F) e : step F opt m b = Some (e, b') ->
  match m with
  | MRange k d => exists o, RDC_Model.add (no_intensity F) (tick_of F) (shift_by F) (sort_by F) (expected opt) (b_collator b) k d = Some (o, b_collator b') /\
      match e with EPlaced mg _ _ => o = Some mg | _ => True end
  | _ => b_collator b' = b_collator b /\ e = EData
  end.
Proof.
  destruct m as [k d|r|o]; cbn [step].
  - unfold add_range. destruct (RDC_Model.add _ _ _ _ _ _ _ _) as [[[mg|] c]|]; [| |discriminate]; intros H.
    + apply add_merged_shape in H as (H & CO). cbn [b_collator set_collator] in CO. exists (Some mg). rewrite CO. split; [reflexivity|].
      destruct e; try exact I. destruct H as (-> & _). reflexivity.
    + injection H as <- <-. exists None. split; [reflexivity | exact I].
  - unfold add_imu_data. destruct (use_imu opt); [|discriminate]. destruct (initialize F opt (fst r) b) as [b1|] eqn:E; [|discriminate].
    apply initialize_keeps in E as (_ & _ & _ & _ & _ & CO). destruct (b_ext b1) as [x|]; [|discriminate].
    destruct (add_imu r x); [|discriminate]. intros [= <- <-]. split; [exact CO | reflexivity].
  - unfold add_odometry_data. destruct (b_ext b) as [x|]; [|intros [= <- <-]; auto].
    destruct (add_odometry o x); [|discriminate]. intros [= <- <-]. split; reflexivity.
Qed.
Lemma run_last : forall ms last (b b' : builder F) es, J sent last b -> pending_good b -> Forall (acceptable opt sent) ms ->
  StronglySorted Z.le (last :: map message_time ms) ->
  Forall (fun m => match m with MRange _ d => fresh (Pnt F) (Org F) (Int F) (Tim F) (tick_of F) d | _ => True end) ms ->
  run F opt ms b = Some (es, b') -> Forall ends_now es.
Proof.
  induction ms as [|m ms IH]; intros last b b' es Jb G A S FR R; cbn [run] in R.
  { injection R as <- _. constructor. }
  apply Forall_cons_iff in A as [A1 A]. apply Forall_cons_iff in FR as [F1 FR]. cbn [map] in S. apply StronglySorted_inv in S as [S L].
  apply Forall_cons_iff in L as [L _].
  destruct (step_ok CALM FIT INS tlt sent shifted CL SO opt last b m Jb A1 L) as (e & b1 & E1 & J1 & _ & _ & PL). rewrite E1 in R.
  destruct (run F opt ms b1) as [[es1 b2]|] eqn:R1; [|discriminate]. injection R as <- <-.
  pose proof (step_collator m b b1 e E1) as C.
  assert (pending_good b1 /\ ends_now e) as (G1 & EN).
  { destruct m as [k d|r|o].
    - destruct C as (o & AD & EV). destruct SO as (SO1 & SO2). destruct A1 as (IN & (MO1 & MO2 & MO3) & SN).
      destruct Jb as (IV & _). cbn [message_time] in L.
      destruct (add_last _ _ _ _ _ _ _ _ SO1 sent (expected opt) (b_collator b) (b_collator b1) k d o last IV (conj L (proj2 MO3)) G (conj F1 (conj MO2 SN)) AD) as (G1 & Q).
      split; [exact G1|]. destruct e as [| | | |mg ps sc]; try exact I. subst o. destruct Q as (p & t & i & n & IN1 & ST & TZ).
      cbn [ends_now].
      destruct (back (m_ranges mg)) as [[[[p1 s1] i1] n1]|] eqn:B; [|apply back_none in B; rewrite B in IN1; destruct IN1].
      exists p1, s1, i1, n1. split; [reflexivity|].
      destruct PL as ((MS & MSH & _) & _). rewrite Forall_forall in MSH. apply back_some in B as (l' & B).
      destruct CL as (_ & _ & C3 & _). assert (LE : tick_of F s1 <= 0).
      { apply C3. apply (MSH (p1, s1, i1, n1)). rewrite B. apply in_or_app. right. now left. }
      rewrite B in IN1. apply in_app_or in IN1 as [IN1|[[= -> -> -> ->]|[]]]; [|now apply SAME].
      rewrite B in MS. apply RDC_Proofs.sorted_app in MS as (_ & _ & MS). specialize (MS _ _ IN1 (or_introl eq_refl)). unfold ptick in MS. cbn [fst snd] in MS.
      rewrite SAME in MS by assumption. lia.
    - destruct C as (C & ->). unfold pending_good. rewrite C. split; [exact G | exact I].
    - destruct C as (C & ->). unfold pending_good. rewrite C. split; [exact G | exact I]. }
  constructor; [exact EN|]. exact (IH (message_time m) b1 b2 es1 J1 G1 A S FR R1).
Qed.
End Last.
