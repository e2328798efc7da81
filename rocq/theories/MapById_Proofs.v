From Coq Require Import List ZArith Bool Lia Sorted.
From Verif Require Import ZMap MapById_Model MapById_Spec.
Import ListNotations.
Open Scope Z_scope.

Section P.
Context {D : Type}.
Implicit Types (m : mbi D).

Record wf (m : mbi D) : Prop := {
  wf_sorted : zsorted m;
  wf_data : forall t c d, In (t, (c, d)) m -> zsorted d /\ d <> [];
  wf_nonneg : forall t c d, In (t, (c, d)) m -> 0 <= t;
  wf_idx : forall t c d i v, In (t, (c, d)) m -> In (i, v) d -> 0 <= i
}.

Definition rel (m : mbi D) (s : sstate D) : Prop :=
  (forall t i, sf s t i = mbi_at t i m) /\
  (forall t, sealed s t = match zfind t m with Some (c, _) => negb c | None => false end).

Lemma wf_nil : wf [].
Proof. constructor; simpl; try tauto. constructor. Qed.

Lemma wf_find : forall m t c d, wf m -> zfind t m = Some (c, d) ->
  zsorted d /\ d <> [] /\ 0 <= t.
Proof.
  intros m t c d W H. apply zfind_In in H. destruct (wf_data _ W _ _ _ H).
  pose proof (wf_nonneg _ W _ _ _ H). auto.
Qed.

Lemma In_zput_inv : forall {V} k (v : V) l k' v', zsorted l ->
  In (k', v') (zput k v l) -> (k' = k /\ v' = v) \/ (k' <> k /\ In (k', v') l).
Proof.
  intros V k v l k' v' S H. apply In_zfind in H; [|apply zput_sorted; auto].
  rewrite zfind_zput in H; auto. destruct (Z.eqb_spec k' k).
  - left. split; auto. congruence.
  - right. split; auto. apply zfind_In; auto.
Qed.

Lemma zput_nonnil : forall {V} k (v : V) l, zput k v l <> [].
Proof.
  intros V k v [|[k' v'] r]; simpl; [discriminate|].
  destruct (k <? k'); [discriminate|]. destruct (k =? k'); discriminate.
Qed.

Lemma wf_put : forall m t c d, wf m -> zsorted d -> d <> [] -> 0 <= t ->
  (forall i v, In (i, v) d -> 0 <= i) -> wf (zput t (c, d) m).
Proof.
  intros m t c d W Sd Nd Ht Hi. constructor.
  - apply zput_sorted, W.
  - intros t' c' d' H. apply In_zput_inv in H; [|apply W].
    destruct H as [[-> E]|[N H]].
    + inversion E; subst; auto.
    + eapply wf_data; eauto.
  - intros t' c' d' H. apply In_zput_inv in H; [|apply W].
    destruct H as [[-> E]|[N H]]; auto. eapply wf_nonneg; eauto.
  - intros t' c' d' i v H Hv. apply In_zput_inv in H; [|apply W].
    destruct H as [[-> E]|[N H]].
    + inversion E; subst; eauto.
    + eapply wf_idx; eauto.
Qed.

Lemma wf_erase : forall m t, wf m -> wf (zerase t m).
Proof.
  intros m t W. constructor.
  - apply zerase_sorted, W.
  - intros t' c d H. apply In_zerase in H. eapply wf_data; eauto.
  - intros t' c d H. apply In_zerase in H. eapply wf_nonneg; eauto.
  - intros t' c d i v H. apply In_zerase in H. eapply wf_idx; eauto.
Qed.

Lemma slot_sorted : forall m t c d, wf m -> slot t m = (c, d) ->
  zsorted d /\ (forall i v, In (i, v) d -> 0 <= i).
Proof.
  unfold slot. intros m t c d W H. destruct (zfind t m) as [[c' d']|] eqn:E.
  - inversion H; subst. apply wf_find in E as E'; auto. destruct E' as (A & B & C).
    split; auto. intros. eapply wf_idx; eauto. apply zfind_In; eauto.
  - inversion H; subst. split; [constructor|simpl; tauto].
Qed.

Lemma slot_at : forall m t c d i, slot t m = (c, d) -> mbi_at t i m = zfind i d.
Proof.
  unfold slot, mbi_at. intros m t c d i H. destruct (zfind t m) as [[c' d']|].
  - now inversion H.
  - now inversion H.
Qed.

Lemma at_put : forall m t c d a b, wf m ->
  mbi_at a b (zput t (c, d) m) = if a =? t then zfind b d else mbi_at a b m.
Proof.
  unfold mbi_at. intros m t c d a b W. rewrite zfind_zput by apply W.
  destruct (a =? t); auto.
Qed.

Lemma pair_neq : forall a b t i : Z, (a, b) <> (t, i) -> a = t -> b <> i.
Proof. intros. subst. intros ->. auto. Qed.

(* the step theorem: model and specification enable the same steps *)
Lemma step_sim : forall m s o, wf m -> rel m s ->
  match mstep m o with
  | Some (r, m') => wf m' /\ exists s', spec_step s o r s' /\ rel m' s'
  | None => forall r s', ~ spec_step s o r s'
  end.
Proof.
  intros m s o W [Rf Rs]. destruct o as [t d | t i d | t i]; simpl.
  - (* Append *)
    unfold mbi_append. destruct (Z.ltb_spec t 0) as [Ht|Ht].
    { intros r s' (H & _). lia. }
    destruct (slot t m) as [c data] eqn:ES.
    destruct (slot_sorted _ _ _ _ W ES) as [Sd Hi].
    assert (Hat : forall i, mbi_at t i m = zfind i data)
      by (intros; eapply slot_at; eauto).
    assert (Hseal : sealed s t = negb c).
    { rewrite Rs. unfold slot in ES. destruct (zfind t m) as [[c' d']|];
        inversion ES; subst; auto. }
    destruct c; simpl.
    2:{ intros r s' (_ & H & _). simpl in Hseal. congruence. }
    set (idx := match zlast data with None => 0 | Some (i, _) => i + 1 end).
    assert (Hidx : 0 <= idx).
    { unfold idx. destruct (zlast data) as [[i v]|] eqn:EL; [|lia].
      apply zlast_In in EL. apply Hi in EL. lia. }
    split.
    + apply wf_put; auto.
      * apply zput_sorted; auto.
      * apply zput_nonnil.
      * intros j v Hj. apply In_zput in Hj. destruct Hj as [E|Hj]; [|eauto].
        inversion E; subst; auto.
    + exists {| sf := fun a b => mbi_at a b (zput t (true, zput idx d data) m);
                sealed := fun a => match zfind a (zput t (true, zput idx d data) m)
                                   with Some (c, _) => negb c | None => false end |}.
      split; [|split; simpl; auto].
      split; [auto|]. split; [auto|]. split.
      * exists idx. split; [|split; [auto|]].
        -- unfold next_index. destruct (zlast data) as [[i v]|] eqn:EL.
           ++ right. unfold idx. replace (i + 1 - 1) with i by lia. rewrite Rf, Hat.
              split.
              ** rewrite (In_zfind _ v); auto; [discriminate|]. apply zlast_In; auto.
              ** intros j Hj. rewrite Rf, Hat. apply zfind_None. intros w Hw.
                 apply (zlast_max _ _ Sd EL) in Hw. simpl in Hw. lia.
           ++ left. split; auto. intros j. rewrite Rf, Hat.
              apply zlast_None in EL. subst. auto.
        -- split; simpl.
           ++ rewrite at_put, Z.eqb_refl, zfind_zput, Z.eqb_refl; auto.
           ++ intros a b N. rewrite at_put; auto. rewrite Rf.
              destruct (Z.eqb_spec a t); auto. subst. rewrite zfind_zput; auto.
              destruct (Z.eqb_spec b idx); [congruence|]. auto.
      * intros a. simpl. rewrite zfind_zput by apply W.
        destruct (Z.eqb_spec a t); subst; auto.
  - (* Insert *)
    unfold mbi_insert. destruct (Z.ltb_spec t 0) as [Ht|Ht].
    { intros r s' (H & _). lia. }
    destruct (Z.ltb_spec i 0) as [Hi0|Hi0].
    { intros r s' (_ & H & _). lia. }
    destruct (slot t m) as [c data] eqn:ES.
    destruct (slot_sorted _ _ _ _ W ES) as [Sd Hi].
    assert (Hat : forall i, mbi_at t i m = zfind i data)
      by (intros; eapply slot_at; eauto).
    destruct (zfind i data) eqn:EF.
    { intros r s' (_ & _ & H & _). rewrite Rf, Hat in H. congruence. }
    split.
    + apply wf_put; auto.
      * apply zput_sorted; auto.
      * apply zput_nonnil.
      * intros j v Hj. apply In_zput in Hj. destruct Hj as [E|Hj]; [|eauto].
        inversion E; subst; auto.
    + exists {| sf := fun a b => mbi_at a b (zput t (false, zput i d data) m);
                sealed := fun a => match zfind a (zput t (false, zput i d data) m)
                                   with Some (c, _) => negb c | None => false end |}.
      split; [|split; simpl; auto]. simpl.
      split; auto. split; auto. split; [rewrite Rf, Hat; auto|]. split; auto.
      split; [split; simpl|split].
      * rewrite at_put, Z.eqb_refl, zfind_zput, Z.eqb_refl; auto.
      * intros a b N. rewrite at_put; auto. rewrite Rf.
        destruct (Z.eqb_spec a t); auto. subst. rewrite zfind_zput; auto.
        destruct (Z.eqb_spec b i); [congruence|]. auto.
      * rewrite zfind_zput, Z.eqb_refl by apply W. auto.
      * intros a Na. rewrite zfind_zput by apply W.
        destruct (Z.eqb_spec a t); [congruence|]. auto.
  - (* Trim *)
    unfold mbi_trim. destruct (zfind t m) as [[c data]|] eqn:EF.
    2:{ intros r s' (H & _). apply H. rewrite Rf. unfold mbi_at. now rewrite EF. }
    destruct (zfind i data) as [v|] eqn:EI.
    2:{ intros r s' (H & _). apply H. rewrite Rf. unfold mbi_at. now rewrite EF. }
    destruct (wf_find _ _ _ _ W EF) as (Sd & Nd & Ht).
    assert (Hat : forall i, mbi_at t i m = zfind i data)
      by (intros; unfold mbi_at; now rewrite EF).
    assert (Hi : forall j w, In (j, w) (zerase i data) -> 0 <= j).
    { intros j w Hj. apply In_zerase in Hj. eapply wf_idx; eauto.
      apply zfind_In; eauto. }
    set (c' := match zupper i data with [] => false | _ => c end).
    assert (HG : greatest s t i <-> zupper i data = []).
    { unfold greatest. split; intros H.
      - destruct (zupper i data) as [|[j w] r] eqn:EU; auto.
        assert (HI : In (j, w) (zupper i data)) by (rewrite EU; simpl; auto).
        pose proof (zupper_gt _ _ _ Sd HI) as HJ. simpl in HJ.
        destruct (zupper_suffix i data) as (p & Ep & _).
        assert (HI2 : In (j, w) data) by (rewrite Ep; apply in_or_app; auto).
        apply In_zfind in HI2; auto.
        rewrite <- Hat, <- Rf, H in HI2 by auto. discriminate.
      - intros j Hj. rewrite Rf, Hat. apply zfind_None. intros w Hw.
        destruct (zupper_suffix i data) as (p & Ep & Hp).
        rewrite H, app_nil_r in Ep. subst p. apply Hp in Hw. simpl in Hw. lia. }
    destruct (zerase i data) as [|e0 r0] eqn:EE.
    + assert (Wf' : wf (zerase t (zput t (c', []) m))).
      { constructor.
        - apply zerase_sorted, zput_sorted, W.
        - intros t' c2 d2 H. apply In_zfind in H;
            [|apply zerase_sorted, zput_sorted, W].
          rewrite zfind_zerase in H by (apply zput_sorted, W).
          rewrite zfind_zput in H by apply W.
          destruct (Z.eqb_spec t' t); [discriminate|]. apply zfind_In in H.
          eapply wf_data; eauto.
        - intros t' c2 d2 H. apply In_zfind in H;
            [|apply zerase_sorted, zput_sorted, W].
          rewrite zfind_zerase in H by (apply zput_sorted, W).
          rewrite zfind_zput in H by apply W.
          destruct (Z.eqb_spec t' t); [discriminate|]. apply zfind_In in H.
          eapply wf_nonneg; eauto.
        - intros t' c2 d2 j w H. apply In_zfind in H;
            [|apply zerase_sorted, zput_sorted, W].
          rewrite zfind_zerase in H by (apply zput_sorted, W).
          rewrite zfind_zput in H by apply W.
          destruct (Z.eqb_spec t' t); [discriminate|]. apply zfind_In in H.
          eapply wf_idx; eauto. }
      split; auto.
      set (m' := zerase t (zput t (c', []) m)) in *.
      assert (Hf' : forall a, zfind a m' = if a =? t then None else zfind a m).
      { intros a. unfold m'. rewrite zfind_zerase by (apply zput_sorted, W).
        rewrite zfind_zput by apply W. destruct (a =? t); auto. }
      assert (HE : forall j, zfind j data = if j =? i then Some v else None).
      { intros j. pose proof (zfind_zerase i data j Sd) as Q. rewrite EE in Q.
        simpl in Q. destruct (Z.eqb_spec j i); subst; auto. }
      exists {| sf := fun a b => mbi_at a b m';
                sealed := fun a => match zfind a m'
                                   with Some (c, _) => negb c | None => false end |}.
      split; [|split; simpl; auto]. simpl.
      split; [rewrite Rf, Hat, EI; discriminate|]. split; auto.
      split; [split; simpl|split; [|split]].
      * unfold mbi_at. rewrite Hf', Z.eqb_refl. auto.
      * intros a b N. unfold mbi_at at 1. rewrite Hf'. destruct (Z.eqb_spec a t).
        -- subst. rewrite Rf, Hat, HE. destruct (Z.eqb_spec b i); congruence.
        -- now rewrite Rf.
      * intros a Na. rewrite Hf'. destruct (Z.eqb_spec a t); [congruence|auto].
      * intros _. rewrite Hf', Z.eqb_refl. auto.
      * intros j Hj. exfalso. apply Hj. unfold mbi_at.
        rewrite Hf', Z.eqb_refl. auto.
    + assert (Wf' : wf (zput t (c', e0 :: r0) m)).
      { rewrite <- EE. apply wf_put; auto.
        - apply zerase_sorted; auto.
        - rewrite EE; discriminate.
        - intros j w Hj. rewrite EE in Hj. apply (Hi j w). auto. }
      split; auto. rewrite <- EE in *.
      set (m' := zput t (c', zerase i data) m) in *.
      assert (Hf' : forall a, zfind a m' = if a =? t then Some (c', zerase i data)
                                           else zfind a m).
      { intros a. unfold m'. rewrite zfind_zput by apply W. auto. }
      exists {| sf := fun a b => mbi_at a b m';
                sealed := fun a => match zfind a m'
                                   with Some (c, _) => negb c | None => false end |}.
      split; [|split; simpl; auto]. simpl.
      split; [rewrite Rf, Hat, EI; discriminate|]. split; auto.
      split; [split; simpl|split; [|split]].
      * unfold mbi_at. rewrite Hf', Z.eqb_refl, zfind_zerase, Z.eqb_refl; auto.
      * intros a b N. unfold mbi_at at 1. rewrite Hf'. destruct (Z.eqb_spec a t).
        -- subst. rewrite Rf, Hat, zfind_zerase; auto.
           destruct (Z.eqb_spec b i); [congruence|auto].
        -- now rewrite Rf.
      * intros a Na. rewrite Hf'. destruct (Z.eqb_spec a t); [congruence|auto].
      * intros H. exfalso. destruct e0 as [j w].
        specialize (H j). unfold mbi_at in H. rewrite Hf', Z.eqb_refl in H.
        rewrite EE in H. simpl in H. rewrite Z.eqb_refl in H. discriminate.
      * intros j Hj. rewrite Hf', Z.eqb_refl. unfold c'. split.
        -- intros G. apply HG in G. now rewrite G.
        -- intros G. rewrite Rs, EF. destruct (zupper i data); auto.
           exfalso. apply G. now apply HG.
Qed.

Lemma run_sim : forall ops m s, wf m -> rel m s ->
  match mrun m ops with
  | Some (rs, m') => wf m' /\ exists s', spec_run s ops rs s' /\ rel m' s'
  | None => True
  end.
Proof.
  induction ops as [|o ops IH]; intros m s W R; simpl.
  - split; auto. exists s. split; [constructor|auto].
  - pose proof (step_sim m s o W R) as H.
    destruct (mstep m o) as [[r m']|]; auto.
    destruct H as (W' & s' & H1 & R').
    specialize (IH m' s' W' R'). destruct (mrun m' ops) as [[rs m'']|]; auto.
    destruct IH as (W'' & s'' & H2 & R''). split; auto.
    exists s''. split; auto. econstructor; eauto.
Qed.

Lemma rel_init : rel [] spec_init.
Proof. split; auto. Qed.

Lemma reach_wf : forall ops rs m, mrun [] ops = Some (rs, m) -> wf m.
Proof.
  intros ops rs m H. pose proof (run_sim ops [] spec_init wf_nil rel_init) as Q.
  rewrite H in Q. tauto.
Qed.

(* spec steps are deterministic up to pointwise equality, so that an aborting
   model run means that the specification has no run either *)
Definition seq_eq (s1 s2 : sstate D) : Prop :=
  (forall t i, sf s1 t i = sf s2 t i) /\ (forall t, sealed s1 t = sealed s2 t).

Lemma next_index_unique : forall (s : sstate D) t i j,
  next_index s t i -> next_index s t j -> i = j.
Proof.
  intros s t i j [[E1 H1]|[H1 G1]] [[E2 H2]|[H2 G2]].
  - lia.
  - exfalso. apply H2, H1.
  - exfalso. apply H1, H2.
  - destruct (Z.lt_trichotomy i j) as [L|[L|L]]; auto; exfalso.
    + apply H2. apply G1. lia.
    + apply H1. apply G2. lia.
Qed.

Lemma spec_step_det : forall m s o r1 s1 r2 s2, wf m -> rel m s ->
  spec_step s o r1 s1 -> spec_step s o r2 s2 -> r1 = r2 /\ seq_eq s1 s2.
Proof.
  intros m s o r1 s1 r2 s2 W R H1 H2. destruct o as [t d|t i d|t i]; simpl in *.
  - destruct H1 as (_ & _ & (i & N1 & E1 & U1) & S1).
    destruct H2 as (_ & _ & (j & N2 & E2 & U2) & S2).
    assert (i = j) by (eapply next_index_unique; eauto). subst j.
    split; [congruence|]. split.
    + intros a b. destruct U1 as [A1 B1], U2 as [A2 B2].
      destruct (Z.eq_dec a t); [destruct (Z.eq_dec b i)|]; subst;
        try congruence; rewrite B1, B2; auto; congruence.
    + intros a. now rewrite S1, S2.
  - destruct H1 as (_ & _ & _ & E1 & U1 & T1 & S1).
    destruct H2 as (_ & _ & _ & E2 & U2 & T2 & S2).
    split; [congruence|]. split.
    + intros a b. destruct U1 as [A1 B1], U2 as [A2 B2].
      destruct (Z.eq_dec a t); [destruct (Z.eq_dec b i)|]; subst;
        try congruence; rewrite B1, B2; auto; congruence.
    + intros a. destruct (Z.eq_dec a t); subst; [congruence|].
      now rewrite S1, S2.
  - destruct H1 as (_ & E1 & U1 & S1 & Z1 & G1).
    destruct H2 as (_ & E2 & U2 & S2 & Z2 & G2).
    assert (EQ : forall a b, sf s1 a b = sf s2 a b).
    { intros a b. destruct U1 as [A1 B1], U2 as [A2 B2].
      destruct (Z.eq_dec a t); [destruct (Z.eq_dec b i)|]; subst;
        try congruence; rewrite B1, B2; auto; congruence. }
    split; [congruence|]. split; auto.
    intros a. destruct (Z.eq_dec a t); subst; [|now rewrite S1, S2].
    (* decidable emptiness and greatestness from the finite representation *)
    destruct R as [Rf Rs].
    assert (DE : (forall j, sf s1 t j = None) \/ exists j, sf s1 t j <> None).
    { destruct U1 as [A1 B1].
      assert (HH : (forall j, mbi_at t j m = None \/ j = i) \/
                   exists j, j <> i /\ mbi_at t j m <> None).
      { unfold mbi_at. destruct (zfind t m) as [[c d]|]; [|left; auto].
        clear - d. induction d as [|[k v] d IH]; simpl; [left; auto|].
        destruct (Z.eq_dec k i).
        - destruct IH as [IH|(j & N & IH)].
          + left. intros j. destruct (Z.eqb_spec j k); [right; lia|auto].
          + right. exists j. split; auto. destruct (j =? k); [discriminate|auto].
        - right. exists k. split; auto. rewrite Z.eqb_refl. discriminate. }
      destruct HH as [HH|(j & N & HH)].
      - left. intros j. destruct (HH j) as [E|E].
        + destruct (Z.eq_dec j i); [subst; auto|]. rewrite B1 by congruence.
          now rewrite Rf.
        + subst; auto.
      - right. exists j. rewrite B1 by congruence. now rewrite Rf. }
    destruct DE as [DE|[j DE]].
    + rewrite Z1, Z2; auto. intros j. now rewrite <- EQ.
    + destruct (G1 j DE) as [P1 Q1]. rewrite EQ in DE.
      destruct (G2 j DE) as [P2 Q2].
      assert (DG : greatest s t i \/ ~ greatest s t i).
      { unfold greatest.
        assert (HH : (forall j, i < j -> mbi_at t j m = None) \/
                     exists j, i < j /\ mbi_at t j m <> None).
        { unfold mbi_at. destruct (zfind t m) as [[c d]|]; [|left; auto].
          clear - d. induction d as [|[k v] d IH]; simpl; [left; auto|].
          destruct (Z_lt_dec i k).
          - right. exists k. split; auto. rewrite Z.eqb_refl. discriminate.
          - destruct IH as [IH|(j & N & IH)].
            + left. intros j Hj. destruct (Z.eqb_spec j k); [lia|auto].
            + right. exists j. split; auto. destruct (j =? k); [discriminate|auto]. }
        destruct HH as [HH|(j' & N & HH)].
        - left. intros j' Hj. rewrite Rf. auto.
        - right. intros C. apply HH. rewrite <- Rf. auto. }
      destruct DG as [DG|DG].
      * rewrite P1, P2; auto.
      * rewrite Q1, Q2; auto.
Qed.

Lemma seq_eq_rel : forall m s1 s2, rel m s1 -> seq_eq s1 s2 -> rel m s2.
Proof.
  intros m s1 s2 [A B] [C E]. split; intros.
  - rewrite <- C. auto.
  - rewrite <- E. auto.
Qed.

Lemma run_abort : forall ops m s, wf m -> rel m s -> mrun m ops = None ->
  forall rs s', ~ spec_run s ops rs s'.
Proof.
  induction ops as [|o ops IH]; intros m s W R H rs s' HR; simpl in H; [discriminate|].
  inversion HR as [|s0 o0 r s1 ops0 rs0 s2 HS HR']; subst.
  pose proof (step_sim m s o W R) as Q.
  destruct (mstep m o) as [[r' m']|].
  - destruct Q as (W' & s1' & HS' & R').
    destruct (mrun m' ops) as [[? ?]|] eqn:E; [discriminate|].
    destruct (spec_step_det m s o _ _ _ _ W R HS HS') as [_ EQ].
    refine (IH m' s1 W' _ E rs0 s' HR').
    apply (seq_eq_rel _ s1'); auto. destruct EQ as [A B]. split; intros; symmetry; auto.
  - eapply Q; eauto.
Qed.

End P.
