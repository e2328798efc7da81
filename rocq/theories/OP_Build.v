(* The parts of the problem, one loop of Solve after the other. *)
From Coq Require Import List ZArith Bool Lia Sorted.
From Verif Require Import ZMap MapById_Model MapById_Spec MapById_Proofs MapById_Iter MapById_More MapByTime_Proofs
  PG_Model PG_Maps PG_Session_Handle OP_Model OP_Spec OP_Iter OP_Proofs.
Import ListNotations.
Open Scope Z_scope.

Section Lists.
Lemma NoDup_flat_map {A B} (f : A -> list B) l : NoDup l -> (forall x, In x l -> NoDup (f x)) ->
  (forall x y z, In x l -> In y l -> In z (f x) -> In z (f y) -> x = y) -> NoDup (flat_map f l).
Proof.
  induction 1 as [|a l Na N IH]; intros H1 H2; cbn; [constructor|]. apply NoDup_join.
  - apply H1. now left.
  - apply IH; [intros x I; apply H1; now right|]. intros x y z Ix Iy. apply H2; now right.
  - intros z I J. apply in_flat_map in J as (y & Iy & J). assert (a = y) by (eapply H2; [now left | now right | exact I | exact J]). congruence.
Qed.
Lemma NoDup_combine {A B} (l : list A) (l' : list B) : NoDup l -> NoDup (combine l l').
Proof.
  intros N. revert l'. induction N as [|a l Na N IH]; intros l'; [constructor|]. destruct l' as [|b l']; cbn; [constructor|].
  constructor; [|apply IH]. intros I. apply in_combine_l in I. contradiction.
Qed.
Lemma zsorted_NoDup' {V} (l : list (Z * V)) : zsorted l -> NoDup l.
Proof. intros S. eapply NoDup_map_inv. apply zsorted_NoDup. exact S. Qed.
Lemma In_pairs {V} (d : list (Z * V)) x y : In (x, y) (combine d (tl d)) -> In x d /\ In y d.
Proof.
  intros I. split; [eapply in_combine_l; exact I|]. apply in_combine_r in I. destruct d; [contradiction | now right].
Qed.
Lemma consecutive {V} (d : list (Z * V)) i a b : zsorted d ->
  In ((i, a), (i + 1, b)) (combine d (tl d)) <-> In (i, a) d /\ In (i + 1, b) d.
Proof.
  intros S. split; [apply In_pairs|]. intros [Ia Ib]. induction d as [|[k v] d IH]; [contradiction|].
  pose proof (zsorted_inv _ _ S) as [S' L]. cbn [tl] in *.
  destruct d as [|[k2 v2] d2].
  { destruct Ia as [[= <- <-]|[]]. destruct Ib as [[= E _]|[]]. lia. }
  destruct Ia as [[= -> ->]|Ia].
  - destruct Ib as [[= E _]|Ib]; [lia|]. destruct Ib as [[= -> ->]|Ib]; [now left|]. exfalso.
    apply zsorted_inv in S' as [_ L2]. apply L2 in Ib. specialize (L _ (or_introl eq_refl)). cbn in Ib, L. lia.
  - destruct Ib as [[= -> ->]|Ib]; [apply L in Ia; cbn in Ia; lia|]. right. now apply IH.
Qed.
Lemma fold_opt_app {A B} (f : B -> A -> option A) l l' a :
  fold_opt f (l ++ l') a = match fold_opt f l a with Some a' => fold_opt f l' a' | None => None end.
Proof. revert a. induction l as [|x l IH]; intros a; cbn; [reflexivity|]. destruct (f x a); cbn; [apply IH | reflexivity]. Qed.
End Lists.

Section Build.
Context {G : geometry}.
Implicit Types (o : data G) (q : problem G).

Lemma push_nil q : push G [] q = q.
Proof. destruct q. unfold push. cbn. now rewrite app_nil_r. Qed.
Lemma push_push a b q : push G b (push G a q) = push G (a ++ b) q.
Proof. destruct q. unfold push. cbn. now rewrite <- app_assoc. Qed.

(* q has a block for every node and submap *)
Definition covers o q : Prop :=
  (forall x, find_id x (q_nodes G q) = option_map (fun n => from_pose G (n_global G n)) (get x (o_nodes G o))) /\
  (forall x, find_id x (q_subs G q) = option_map (from_pose G) (get x (o_subs G o))).
Lemma covers_push o q r : covers o q -> covers o (push G r q).
Proof. intros C. exact C. Qed.
Lemma covers_node o q x n : covers o q -> get x (o_nodes G o) = Some n -> find_id x (q_nodes G q) = Some (from_pose G (n_global G n)).
Proof. intros [C _] H. rewrite C, H. reflexivity. Qed.

(* constraints *)
Lemma constraints_ok o cs q : covers o q ->
  match fold_opt (add_constraint G) cs q with
  | Some q' => q' = push G (map (RConstraint G) cs) q /\
      forall c, In c cs -> get (k_sub G c) (o_subs G o) <> None /\ get (k_node G c) (o_nodes G o) <> None
  | None => exists c, In c cs /\ (get (k_sub G c) (o_subs G o) = None \/ get (k_node G c) (o_nodes G o) = None)
  end.
Proof.
  revert q. induction cs as [|c cs IH]; intros q C; cbn [fold_opt map].
  { split; [now rewrite push_nil | contradiction]. }
  unfold add_constraint at 1. destruct C as [C1 C2]. rewrite C2.
  destruct (get (k_sub G c) (o_subs G o)) as [s|] eqn:ES; cbn [option_map bind].
  2:{ exists c. split; [now left | now left]. }
  rewrite C1. destruct (get (k_node G c) (o_nodes G o)) as [n|] eqn:EN; cbn [option_map bind].
  2:{ exists c. split; [now left | now right]. }
  specialize (IH (push G [RConstraint G c] q) ltac:(split; assumption)).
  destruct (fold_opt (add_constraint G) cs _) as [q'|].
  - destruct IH as [-> H]. split; [now rewrite push_push|]. intros c' [<-|I]; [|now apply H]. rewrite ES, EN. split; discriminate.
  - destruct IH as (c' & I & H). exists c'. split; [now right | exact H].
Qed.

(* neighbouring nodes *)
Definition step_terms o (t : Z) (ab : (Z * node G) * (Z * node G)) : list (residual G) :=
  let '((i, a), (j, b)) := ab in
  if j =? i + 1 then
    match odometry_between G t a b o with Some (Some p) => [ROdometry G p (t, i) (t, j)] | _ => [] end ++
    [RLocal G (compose G (invert G (n_local G a)) (n_local G b)) (t, i) (t, j)]
  else [].
Lemma series_sorted {V} (m : mbt V) t : twf m -> zsorted (series m t).
Proof. exact (traj_sorted m t). Qed.
Lemma odometry_between_total o t a b : twf (o_odo G o) -> odometry_between G t a b o <> None.
Proof.
  intros W. unfold odometry_between. pose proof (series_sorted (o_odo G o) t W) as S. unfold series in S.
  destruct (zfind t (o_odo G o)) as [tr|]; [|discriminate].
  pose proof (odometry_at_total tr (n_time G a) S). pose proof (odometry_at_total tr (n_time G b) S).
  destruct (odometry_at G tr (n_time G a)); [|congruence]. destruct (odometry_at G tr (n_time G b)); [|congruence]. discriminate.
Qed.
Lemma odometry_between_iff o t a b r : twf (o_odo G o) -> odometry_between G t a b o = Some (Some r) <->
  exists p p', odometry_estimate (series (o_odo G o) t) (n_time G a) p /\ odometry_estimate (series (o_odo G o) t) (n_time G b) p' /\
    r = odometry_step G (n_grav G a) p p' (n_grav G b).
Proof.
  intros W. unfold odometry_between. pose proof (series_sorted (o_odo G o) t W) as S. unfold series in *.
  destruct (zfind t (o_odo G o)) as [tr|].
  2:{ split; [discriminate|]. intros (p & p' & H & _). now apply no_odometry in H. }
  pose proof (odometry_at_total tr (n_time G a) S) as T1. pose proof (odometry_at_total tr (n_time G b) S) as T2.
  destruct (odometry_at G tr (n_time G a)) as [pa|] eqn:EA; [|congruence]. destruct (odometry_at G tr (n_time G b)) as [pb|] eqn:EB; [|congruence].
  cbn [bind]. split.
  - destruct pa as [pa|]; [|discriminate]. destruct pb as [pb|]; [|discriminate]. intros [= <-].
    exists pa, pb. split; [now apply odometry_at_iff|]. split; [now apply odometry_at_iff | reflexivity].
  - intros (p & p' & H1 & H2 & ->). apply odometry_at_iff in H1; [|exact S]. apply odometry_at_iff in H2; [|exact S].
    rewrite EA in H1. rewrite EB in H2. injection H1 as ->. injection H2 as ->. reflexivity.
Qed.
Lemma traj_get o t c d i n : wf (o_nodes G o) -> In (t, (c, d)) (o_nodes G o) -> In (i, n) d <-> get (t, i) (o_nodes G o) = Some n.
Proof.
  intros W I. unfold get, mbi_at. cbn [fst snd]. rewrite (In_zfind _ _ _ (wf_sorted _ W) I). symmetry. apply zfind_iff.
  now apply (wf_data _ W _ _ _ I).
Qed.
Lemma get_traj o t i n : get (t, i) (o_nodes G o) = Some n -> exists c d, In (t, (c, d)) (o_nodes G o) /\ In (i, n) d.
Proof.
  unfold get, mbi_at. cbn [fst snd]. destruct (zfind t (o_nodes G o)) as [[c d]|] eqn:F; [|discriminate]. intros H.
  exists c, d. split; now apply zfind_In.
Qed.
Lemma steps_of_trajectory o t c d ps q : wf (o_nodes G o) -> twf (o_odo G o) -> covers o q -> In (t, (c, d)) (o_nodes G o) ->
  incl ps (combine d (tl d)) -> fold_opt (add_step G o t) ps q = Some (push G (flat_map (step_terms o t) ps) q).
Proof.
  intros W WO C I. revert q C. induction ps as [|[[i a] [j b]] ps IH]; intros q C S; cbn [fold_opt flat_map].
  { now rewrite push_nil. }
  destruct (In_pairs d (i, a) (j, b) (S _ (or_introl eq_refl))) as [Ia Ib].
  apply (traj_get o t c d i a W I) in Ia. apply (traj_get o t c d j b W I) in Ib.
  unfold add_step at 1, step_terms at 1. destruct (Z.eqb_spec j (i + 1)) as [E|E]; cbn [negb].
  - pose proof (odometry_between_total o t a b WO) as T. destruct (odometry_between G t a b o) as [p|]; [|congruence]. cbn [bind].
    rewrite (covers_node o q _ a C Ia). cbn [bind]. rewrite (covers_node o q _ b C Ib). cbn [bind].
    rewrite IH; [|now apply covers_push | intros x Ix; apply S; now right]. now rewrite push_push.
  - cbn [app bind]. apply IH; [exact C | intros x Ix; apply S; now right].
Qed.
Definition all_steps o (frozen : list Z) : list (residual G) :=
  flat_map (fun e => if existsb (Z.eqb (fst e)) frozen then [] else flat_map (step_terms o (fst e)) (combine (snd (snd e)) (tl (snd (snd e))))) (o_nodes G o).
Lemma steps_ok o frozen q : wf (o_nodes G o) -> twf (o_odo G o) -> covers o q ->
  add_steps G o frozen q = Some (push G (all_steps o frozen) q).
Proof.
  intros W WO. unfold add_steps, all_steps. generalize (incl_refl (o_nodes G o)).
  generalize (o_nodes G o) at 1 3 4 as es. intros es. revert q. induction es as [|[t [c d]] es IH]; intros q S C; cbn [fold_opt flat_map].
  { now rewrite push_nil. }
  assert (I : In (t, (c, d)) (o_nodes G o)) by (apply S; now left). cbn [fst snd].
  destruct (existsb (Z.eqb t) frozen).
  - cbn [bind app]. apply IH; [intros x Ix; apply S; now right | exact C].
  - rewrite (steps_of_trajectory o t c d _ q W WO C I (incl_refl _)). cbn [bind].
    rewrite IH; [now rewrite push_push | intros x Ix; apply S; now right | now apply covers_push].
Qed.
Lemma frozen_spec t frozen : existsb (Z.eqb t) frozen = true <-> In t frozen.
Proof.
  rewrite existsb_exists. split.
  - intros (x & I & E). apply Z.eqb_eq in E. now subst.
  - intros I. exists t. split; [exact I | apply Z.eqb_refl].
Qed.
Definition is_frame (r : residual G) : bool := match r with RFrame _ _ _ _ => true | _ => false end.
Lemma all_steps_wanted o frozen r : wf (o_nodes G o) -> twf (o_odo G o) ->
  In r (all_steps o frozen) <-> wanted o frozen r /\ is_frame r = false.
Proof.
  intros W WO. unfold all_steps. rewrite in_flat_map. split.
  - intros ([t [c d]] & I & J). cbn [fst snd] in J. destruct (existsb (Z.eqb t) frozen) eqn:F; [contradiction|].
    assert (NF : ~ In t frozen) by (rewrite <- frozen_spec; congruence).
    apply in_flat_map in J as ([[i a] [j b]] & P & J). unfold step_terms in J. destruct (Z.eqb_spec j (i + 1)) as [->|]; [|contradiction].
    destruct (In_pairs _ _ _ P) as [Ia Ib]. apply (traj_get o t c d _ _ W I) in Ia. apply (traj_get o t c d _ _ W I) in Ib.
    apply in_app_or in J as [J|[<-|[]]].
    + destruct (odometry_between G t a b o) as [[p|]|] eqn:E; try contradiction. destruct J as [<-|[]].
      apply odometry_between_iff in E; [|exact WO]. destruct E as (p1 & p2 & E1 & E2 & ->). split; [|reflexivity]. now apply wanted_odometry.
    + split; [|reflexivity]. now apply wanted_local.
  - intros [H F]. destruct H as [t i a b NF Ga Gb|t i a b p p' NF Ga Gb Pa Pb|]; [| |discriminate].
    all: destruct (get_traj o t i a Ga) as (c & d & I & Ia); apply (traj_get o t c d _ _ W I) in Gb.
    all: exists (t, (c, d)); split; [exact I|]; cbn [fst snd].
    all: destruct (existsb (Z.eqb t) frozen) eqn:E; [apply frozen_spec in E; contradiction|].
    all: apply in_flat_map; exists ((i, a), (i + 1, b)); split; [apply consecutive; [now apply (wf_data _ W _ _ _ I) | split; assumption]|].
    all: unfold step_terms; rewrite Z.eqb_refl; apply in_or_app.
    + right. now left.
    + left. rewrite (proj2 (odometry_between_iff o t a b (odometry_step G (n_grav G a) p p' (n_grav G b)) WO)); [now left|]. exists p, p'. auto.
Qed.
Lemma all_steps_NoDup o frozen : wf (o_nodes G o) -> NoDup (all_steps o frozen).
Proof.
  intros W.
  assert (K : forall t ab r, In r (step_terms o t ab) ->
    match r with ROdometry _ _ x y | RLocal _ _ x y => x = (t, fst (fst ab)) /\ y = (t, fst (snd ab)) | _ => False end).
  { intros t [[i a] [j b]] r H. unfold step_terms in H. destruct (j =? i + 1); [|contradiction].
    apply in_app_or in H as [H|[<-|[]]]; [|split; reflexivity]. destruct (odometry_between G t a b o) as [[p|]|]; try contradiction.
    destruct H as [<-|[]]. split; reflexivity. }
  apply NoDup_flat_map.
  - apply zsorted_NoDup'. apply W.
  - intros [t [c d]] I. cbn [fst snd]. destruct (existsb (Z.eqb t) frozen); [constructor|].
    pose proof (wf_data _ W _ _ _ I) as [Sd _]. apply NoDup_flat_map.
    + apply NoDup_combine, zsorted_NoDup', Sd.
    + intros [[i a] [j b]] _. unfold step_terms. destruct (j =? i + 1); [|constructor].
      destruct (odometry_between G t a b o) as [[p|]|]; cbn; repeat (constructor; [cbn; intuition discriminate|]); constructor.
    + intros [x x'] [y y'] r Ix Iy Rx Ry. apply K in Rx. apply K in Ry. cbn [fst snd] in *.
      apply In_pairs in Ix as [? ?]. apply In_pairs in Iy as [? ?].
      destruct r; try contradiction; destruct Rx as [-> ->]; destruct Ry as [R1 R2]; injection R1 as R1; injection R2 as R2;
        f_equal; apply (same_key d); auto.
  - intros [t e] [t' e'] r I I' J J'. cbn [fst snd] in *.
    destruct (existsb (Z.eqb t) frozen); [contradiction|]. destruct (existsb (Z.eqb t') frozen); [contradiction|].
    apply in_flat_map in J as (ab & _ & J). apply in_flat_map in J' as (ab' & _ & J'). apply K in J. apply K in J'.
    apply (same_key (o_nodes G o)); [apply W | exact I | exact I'|]. cbn.
    destruct r; try contradiction; destruct J as [-> _]; destruct J' as [E _]; congruence.
Qed.
End Build.
