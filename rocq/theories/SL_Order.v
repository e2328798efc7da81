(* The order of the trajectories in a file: proofs. *)
From Coq Require Import List ZArith Bool Lia Sorted.
From Verif Require Import ZMap MapById_Model MapById_Spec MapById_Proofs PG_Model PG_Maps PG_Spec
  PG_Proofs PG_Session_Handle SL_Model SL_Spec SL_Run SL_Write SL_Load.
Import ListNotations.
Open Scope Z_scope.

Lemma at_order t f l : (forall q, tp_id (f q) = tp_id q) ->
  (In t (map tp_id l) /\ map tp_id (at_traj t f l) = map tp_id l) \/
  (~ In t (map tp_id l) /\ map tp_id (at_traj t f l) = map tp_id l ++ [t]).
Proof.
  intros F. induction l as [|q l IH]; cbn.
  - right. split; [auto|]. now rewrite F.
  - destruct (Z.eqb_spec (tp_id q) t) as [E|E]; cbn.
    + left. split; [now left | now rewrite F].
    + destruct IH as [[I1 I2] | [I1 I2]]; [left | right]; rewrite I2; intuition.
Qed.
Lemma ss_snoc l t : StronglySorted Z.lt l -> (forall u, In u l -> u < t) -> StronglySorted Z.lt (l ++ [t]).
Proof.
  induction 1 as [|a l S IH Fa]; intros B; cbn; [repeat constructor|]. constructor.
  - apply IH. intros u I. apply B. now right.
  - apply Forall_app. split; [exact Fa|]. repeat constructor. apply B. now left.
Qed.
Lemma folded_sorted {A} (k : A -> Z) f l : (forall e q, tp_id (f e q) = tp_id q) -> StronglySorted Z.le (map k l) ->
  forall ts, StronglySorted Z.lt (map tp_id ts) -> (forall u e, In u (map tp_id ts) -> In e l -> u <= k e) ->
  StronglySorted Z.lt (map tp_id (folded k f l ts)).
Proof.
  intros F. induction l as [|e l IH]; intros Sl ts St B; [exact St|]. cbn in Sl. apply StronglySorted_inv in Sl as [Sl Fl].
  rewrite Forall_forall in Fl. unfold folded in *. cbn [fold_left].
  destruct (at_order (k e) (f e) ts (F e)) as [[I1 I2] | [I1 I2]]; apply IH; auto; rewrite I2.
  - exact St.
  - intros u e' Iu I. apply B; [exact Iu | now right].
  - apply ss_snoc; [exact St|]. intros u Iu. assert (u <= k e) by (apply B; [exact Iu | now left]).
    assert (u <> k e) by (intros ->; contradiction). lia.
  - intros u e' Iu I. apply in_app_or in Iu as [Iu | [<- | []]]; [apply B; [exact Iu | now right]|].
    apply Fl. now apply in_map.
Qed.
Lemma folded_same {A} (k : A -> Z) f l : (forall e q, tp_id (f e q) = tp_id q) ->
  forall ts, (forall e, In e l -> In (k e) (map tp_id ts)) -> map tp_id (folded k f l ts) = map tp_id ts.
Proof.
  intros F. induction l as [|e l IH]; intros ts B; [reflexivity|]. unfold folded in *. cbn [fold_left].
  destruct (at_order (k e) (f e) ts (F e)) as [[I1 I2] | [I1 I2]].
  - rewrite IH; [exact I2|]. intros e' I. rewrite I2. apply B. now right.
  - elim I1. apply B. now left.
Qed.
Lemma entries_le {D} (m : mbi D) : zsorted m -> StronglySorted Z.le (map (fun e : id * D => fst (fst e)) (entries m)).
Proof.
  unfold entries. induction 1 as [|[t [c d]] m S IH Fm]; cbn; [constructor|]. rewrite map_app, map_map. cbn.
  assert (B : forall u, In u (map (fun e : id * D => fst (fst e)) (flat_map (fun e => map (fun x => (fst e, fst x, snd x)) (snd (snd e))) m)) -> t <= u).
  { intros u I. apply in_map_iff in I as (e & <- & I). apply in_flat_map in I as (a & I & J). apply in_map_iff in J as (x & <- & _). cbn.
    rewrite Forall_forall in Fm. pose proof (Fm _ I) as Q. apply Z.lt_le_incl, Q. }
  clear Fm. induction d as [|x d IHd]; cbn; [exact IH|]. constructor; [exact IHd|]. apply Forall_app. split.
  - apply Forall_forall. intros u I. apply in_map_iff in I as (y & <- & _). lia.
  - apply Forall_forall. exact B.
Qed.
Lemma ss_unique a : forall b, StronglySorted Z.lt a -> StronglySorted Z.lt b -> (forall x, In x a <-> In x b) -> a = b.
Proof.
  induction a as [|x a IH]; intros b Sa Sb E.
  - destruct b as [|y b]; [reflexivity|]. exfalso. apply (E y). now left.
  - destruct b as [|y b]; [exfalso; apply (E x); now left|].
    apply StronglySorted_inv in Sa as [Sa Fa], Sb as [Sb Fb]. rewrite Forall_forall in Fa, Fb.
    assert (x = y).
    { destruct (proj1 (E x) (or_introl eq_refl)) as [|I1]; [auto|]. destruct (proj2 (E y) (or_introl eq_refl)) as [|I2]; [auto|].
      apply Fa in I2. apply Fb in I1. lia. }
    subst y. f_equal. apply IH; auto. intros z. split; intros I.
    + destruct (proj1 (E z) (or_intror I)) as [<- | J]; [apply Fa in I; lia | exact J].
    + destruct (proj2 (E z) (or_intror I)) as [<- | J]; [apply Fb in I; lia | exact J].
Qed.
Lemma valid_sorted g : zsorted (trajs g) -> StronglySorted Z.lt (valid_ids g).
Proof.
  unfold valid_ids. induction 1 as [|[t st] l S IH F]; cbn; [constructor|]. rewrite Forall_forall in F.
  assert (H : StronglySorted Z.lt (t :: map fst (filter (fun e : Z * (tstate * dstate) => match fst (snd e) with Deleted => false | _ => true end) l))).
  { constructor; [exact IH|]. apply Forall_forall. intros u I. apply in_map_iff in I as (e & <- & I). apply filter_In in I as [I _]. exact (F _ I). }
  destruct (fst st); auto.
Qed.
Lemma options_nth l all os : options_of l all = Some os -> forall k t, nth_error l k = Some t ->
  nth_error os k = nth_error all (Z.to_nat t).
Proof.
  revert os. induction l as [|u l IH]; cbn; intros os E k t Ek; [now destruct k|].
  destruct (0 <=? u); [|discriminate]. destruct (nth_error all (Z.to_nat u)) as [o|] eqn:Eo; [|discriminate]. cbn [bind] in E.
  destruct (options_of l all) as [os'|]; [|discriminate]. injection E as <-. destruct k; cbn in *; [congruence|]. eauto.
Qed.
(* in ascending order if every trajectory has a submap *)
Lemma file_order incl g p : wf (subs g) -> wf (nodes g) -> zsorted (trajs g) ->
  (forall t, mentioned g t <-> listed g t) ->
  (forall n, stored n (nodes g) -> exists j, stored (fst n, j) (subs g)) ->
  map tp_id (trajs2 incl g p) = valid_ids g.
Proof.
  intros Ws Wn St Ml Ns.
  set (fs := fun (e : id * sub) q => if written incl p (fst e) then add_sub (snd (fst e)) (s_pose (sp p (fst e))) q else q).
  assert (Hs : forall e q, tp_id (fs e q) = tp_id q) by (intros e q; unfold fs; destruct (written incl p (fst e)); reflexivity).
  assert (I1 : forall t, In t (map tp_id (trajs1 incl g p)) <-> exists j, stored (t, j) (subs g)).
  { intros t. destruct (folded_ids (fun e : id * sub => fst (fst e)) fs Hs (entries (subs g)) [] (NoDup_nil _)) as [_ H].
    etransitivity; [apply H|]. cbn. rewrite in_map_iff. split.
    - intros [([[a b] v] & <- & I) | []]. exists b. apply ids_In; [exact Ws|]. apply in_map_iff. exists ((a, b), v). auto.
    - intros (j & S). left. apply ids_In in S; [|exact Ws]. apply in_map_iff in S as (e & E & I). exists e. rewrite E. auto. }
  unfold trajs2. rewrite folded_same.
  - apply ss_unique.
    + apply (folded_sorted _ fs _ Hs).
      * apply entries_le, Ws.
      * constructor.
      * intros u e [].
    + now apply valid_sorted.
    + intros t. rewrite I1. rewrite (proj2 (valid_enumerates g St) t), <- Ml. split.
      * intros (j & S). exists j. now left.
      * intros (j & [S | S]); [eauto | exact (Ns _ S)].
  - reflexivity.
  - intros [n u] I. cbn. apply I1. apply Ns. apply ids_In; [exact Wn|]. unfold ids_of. now apply (in_map fst) in I.
Qed.
