(* Id reuse (C11) and sequences of trims (C12) *)
From Coq Require Import List ZArith Bool Lia Sorted.
From Verif Require Import ZMap MapById_Model MapById_Spec MapById_Proofs
  MapById_Iter MapByTime_Proofs.
Import ListNotations.
Open Scope Z_scope.

(* OptimizationProblem2D::TrimTrajectoryNode,
   cartographer/mapping/internal/optimization/optimization_problem_2d.cc:210-218,
   for one kind of sensor data, repeated for a list of nodes *)
Fixpoint trim_nodes {D N} (node_time : N -> Z) (nodes : mbi N) (m : mbt D)
  (ids : list (Z * Z)) : option (mbi N * mbt D) :=
  match ids with
  | [] => Some (nodes, m)
  | (t, i) :: ids' =>
      match mbt_trim node_time nodes t i m with
      | None => None
      | Some m' =>
          match mbi_trim t i nodes with
          | None => None
          | Some nodes' => trim_nodes node_time nodes' m' ids'
          end
      end
  end.

Section M.
Context {D N : Type}.

Definition sstate_of (m : mbi N) : sstate N :=
  {| sf := fun a b => mbi_at a b m;
     sealed := fun t => match zfind t m with Some (c, _) => negb c | None => false end |}.

Lemma rel_of : forall m, rel m (sstate_of m).
Proof. intros m. split; auto. Qed.

Lemma trim_wf : forall (m m' : mbi N) t i, wf m -> mbi_trim t i m = Some m' ->
  wf m' /\ mbi_at t i m <> None /\ mbi_at t i m' = None /\
  (forall a b, (a, b) <> (t, i) -> mbi_at a b m' = mbi_at a b m).
Proof.
  intros m m' t i W H. pose proof (step_sim m (sstate_of m) (OpTrim t i) W (rel_of m)) as Q.
  simpl in Q. rewrite H in Q. destruct Q as (W' & s' & (A & _ & (B & C) & _) & (Rf & _)).
  split; auto. split; [exact A|]. split.
  - rewrite <- Rf. auto.
  - intros a b Hab. rewrite <- Rf. rewrite C; auto.
Qed.

Lemma zfind_at_nonempty : forall (m : mbi N) t x, wf m -> zfind t m = Some x ->
  exists i v, mbi_at t i m = Some v.
Proof.
  intros m t [c d] W H. destruct (wf_find _ _ _ _ W H) as (_ & Nd & _).
  destruct d as [|[i v] d]; [congruence|]. exists i, v. unfold mbi_at. rewrite H.
  simpl. now rewrite Z.eqb_refl.
Qed.

Variable node_time : N -> Z.

Lemma at_find : forall (m : mbi N) t i v, mbi_at t i m = Some v -> exists x, zfind t m = Some x.
Proof. unfold mbi_at. intros m t i v H. destruct (zfind t m); eauto. discriminate. Qed.

Lemma trim_nodes_spec : forall ids (nodes nodes' : mbi N) (m m' : mbt D),
  wf nodes -> twf m ->
  (forall a x, zfind a nodes = Some x -> a < int_max) ->
  (forall t, times_monotone node_time (fun a b => mbi_at a b nodes) t) ->
  (forall t, times_inside node_time nodes t) ->
  trim_nodes node_time nodes m ids = Some (nodes', m') ->
  (forall t j nj, mbi_at t j nodes' = Some nj -> mbi_at t j nodes = Some nj /\ ~ In (t, j) ids) /\
  (forall t j nj, mbi_at t j nodes = Some nj -> ~ In (t, j) ids -> mbi_at t j nodes' = Some nj) /\
  (forall t j nj e, mbi_at t j nodes' = Some nj ->
     (latest_not_after (node_time nj) (traj t m) e <->
      latest_not_after (node_time nj) (traj t m') e) /\
     (earliest_not_before (node_time nj) (traj t m) e <->
      earliest_not_before (node_time nj) (traj t m') e)).
Proof.
  induction ids as [|[t i] ids IH]; intros nodes nodes' m m' W Wt Mx Mo Ti H; simpl in H.
  - inversion H; subst. split; [auto|]. split; [auto|]. intros; tauto.
  - destruct (mbt_trim node_time nodes t i m) as [m1|] eqn:E1; [|discriminate].
    destruct (mbi_trim t i nodes) as [nodes1|] eqn:E2; [|discriminate].
    destruct (trim_wf _ _ _ _ W E2) as (W1 & A & B & C).
    destruct (mbi_at t i nodes) as [nd|] eqn:At; [|congruence].
    assert (SUB : forall a b v, mbi_at a b nodes1 = Some v -> mbi_at a b nodes = Some v /\ (a, b) <> (t, i)).
    { intros a b v Hv.
      destruct (Z.eq_dec a t); [destruct (Z.eq_dec b i)|].
      - subst. congruence.
      - rewrite C in Hv by congruence. split; congruence.
      - rewrite C in Hv by congruence. split; congruence. }
    destruct (trim_spec node_time nodes m t i nd m1 W Wt At Mx (Mo t) (Ti t) E1)
      as (Wt1 & Br & _ & _ & Oth & _).
    assert (Mx1 : forall a x, zfind a nodes1 = Some x -> a < int_max).
    { intros a x Hx. destruct (zfind_at_nonempty _ _ _ W1 Hx) as (j & v & Hv).
      apply SUB in Hv. destruct Hv as [Hv _]. apply at_find in Hv. destruct Hv as [y Hy].
      eauto. }
    assert (Mo1 : forall a, times_monotone node_time (fun x y => mbi_at x y nodes1) a).
    { intros a j k v1 v2 H1 H2. apply SUB in H1, H2. apply (Mo a j k); tauto. }
    assert (Ti1 : forall a, times_inside node_time nodes1 a).
    { intros a j v Hv. apply SUB in Hv. apply (Ti a j v); tauto. }
    destruct (IH nodes1 nodes' m1 m' W1 Wt1 Mx1 Mo1 Ti1 H) as (I1 & I2 & I3).
    split; [|split].
    + intros a j nj Hj. apply I1 in Hj. destruct Hj as [Hj Hn]. apply SUB in Hj.
      destruct Hj as [Hj Hne]. split; auto. simpl. intros [E|E]; [congruence|auto].
    + intros a j nj Hj Hn. simpl in Hn. apply I2; auto. rewrite C; auto. 
    + intros a j nj e Hj. pose proof (I1 _ _ _ Hj) as [Hj1 Hn]. apply SUB in Hj1.
      destruct Hj1 as [Hj1 Hne]. destruct (I3 a j nj e Hj) as [L1 L2].
      destruct (Z.eq_dec a t).
      * subst a. assert (j <> i) by congruence.
        destruct (Br j nj e H0 Hj1) as [B1 B2]. split; [rewrite B1|rewrite B2]; auto.
      * unfold traj in *. rewrite (Oth a) in L1, L2 by auto. auto.
Qed.

End M.

Section Reuse.
Context {D : Type}.

(* trajectory t never becomes empty along the history *)
Fixpoint stays_nonempty (t : Z) (m : mbi D) (ops : list (mop D)) : Prop :=
  match ops with
  | [] => True
  | o :: ops' =>
      match mstep m o with
      | None => True
      | Some (_, m') => (mbi_traj_size t m' <> 0)%nat /\ stays_nonempty t m' ops'
      end
  end.

Lemma no_reuse : forall ops (m : mbi D) t i rs m',
  wf m ->
  (sealed (sstate_of m) t = true \/ exists k v, i <= k /\ mbi_at t k m = Some v) ->
  mrun m ops = Some (rs, m') -> stays_nonempty t m ops ->
  forall j, In (Some (t, j)) rs -> i < j.
Proof.
  induction ops as [|o ops IH]; intros m t i rs m' W Inv H SN j Hj; simpl in H.
  - inversion H; subst. destruct Hj.
  - simpl in SN. pose proof (step_sim m (sstate_of m) o W (rel_of m)) as Q.
    destruct (mstep m o) as [[r m1]|] eqn:E; [|discriminate].
    destruct (mrun m1 ops) as [[rs1 m2]|] eqn:E1; [|discriminate].
    inversion H; subst. destruct SN as [SN1 SN2]. destruct Q as (W1 & s1 & ST & R1).
    assert (Inv1 : sealed (sstate_of m1) t = true \/ exists k v, i <= k /\ mbi_at t k m1 = Some v).
    { destruct R1 as [Rf Rs].
      assert (SE : sealed (sstate_of m1) t = sealed s1 t) by (symmetry; apply Rs).
      rewrite SE. destruct o as [a d|a b d|a b]; simpl in ST.
      - destruct ST as (_ & _ & (ix & _ & _ & U1 & U2) & S2).
        destruct Inv as [Inv|(k & v & Lk & Hk)].
        + left. rewrite S2. auto.
        + right. destruct (Z.eq_dec a t); [destruct (Z.eq_dec k ix)|].
          * subst. exists ix, d. split; auto. now rewrite <- Rf.
          * exists k, v. split; auto. rewrite <- Rf, U2 by congruence. auto.
          * exists k, v. split; auto. rewrite <- Rf, U2 by congruence. auto.
      - destruct ST as (_ & _ & _ & _ & (U1 & U2) & S1 & S2).
        destruct (Z.eq_dec a t); [subst; auto|].
        destruct Inv as [Inv|(k & v & Lk & Hk)].
        + left. rewrite S2 by auto. auto.
        + right. exists k, v. split; auto. rewrite <- Rf, U2 by congruence. auto.
      - destruct ST as (A & _ & (U1 & U2) & S1 & S2 & S3).
        destruct (Z.eq_dec a t).
        + subst a.
          assert (NE : exists j, sf s1 t j <> None).
          { unfold mbi_traj_size in SN1. destruct (zfind t m1) as [[c d]|] eqn:EZ; [|congruence].
            destruct d as [|[j0 v0] d]; [simpl in SN1; congruence|].
            exists j0. rewrite Rf. unfold mbi_at. rewrite EZ. simpl.
            rewrite Z.eqb_refl. discriminate. }
          destruct NE as [j0 NE]. destruct (S3 j0 NE) as [S3a S3b].
          assert (DG : greatest (sstate_of m) t b \/ exists k v, b < k /\ mbi_at t k m = Some v).
          { unfold greatest; simpl. unfold mbi_at. destruct (zfind t m) as [[c d]|]; [|left; auto].
            clear. induction d as [|[k v] d IH]; simpl; [left; auto|].
            destruct (Z_lt_dec b k).
            - right. exists k, v. split; auto. rewrite Z.eqb_refl. auto.
            - destruct IH as [IH|(k2 & v2 & L & IH)].
              + left. intros j Hj. destruct (Z.eqb_spec j k); [lia|auto].
              + right. exists k2. destruct (Z.eqb_spec k2 k); [lia|]. eauto. }
          destruct DG as [DG|(k2 & v2 & L2 & H2)]; [left; auto|].
          assert (NG : ~ greatest (sstate_of m) t b).
          { intros G. specialize (G k2 L2). simpl in G. congruence. }
          destruct Inv as [Inv|(k & v & Lk & Hk)].
          * left. rewrite S3b; auto.
          * right. destruct (Z.eq_dec k b).
            -- subst. exists k2, v2. split; [lia|]. rewrite <- Rf, U2 by (intros C; inversion C; lia). auto.
            -- exists k, v. split; auto. rewrite <- Rf, U2 by congruence. auto.
        + destruct Inv as [Inv|(k & v & Lk & Hk)].
          * left. rewrite S1 by auto. auto.
          * right. exists k, v. split; auto. rewrite <- Rf, U2 by congruence. auto. }
    destruct Hj as [Hj|Hj].
    + subst r. destruct o as [a d|a b d|a b]; simpl in ST.
      * destruct ST as (_ & Sl & (ix & Nx & Er & _) & _). inversion Er; subst a ix.
        destruct Inv as [Inv|(k & v & Lk & Hk)]; [simpl in *; congruence|].
        destruct Nx as [[-> Nx]|[N1 N2]].
        -- simpl in Nx. rewrite Nx in Hk. discriminate.
        -- destruct (Z_lt_le_dec i j); auto. simpl in N2. rewrite N2 in Hk by lia. discriminate.
      * destruct ST as (_ & _ & _ & C & _). discriminate.
      * destruct ST as (_ & C & _). discriminate.
    + eapply IH; eauto.
Qed.
End Reuse.
