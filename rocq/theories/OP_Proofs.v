(* The problem that is built. *)
From Coq Require Import List ZArith Bool Lia Sorted.
From Verif Require Import ZMap MapById_Model MapById_Spec MapById_Proofs MapById_Iter MapById_More MapByTime_Proofs
  PG_Model PG_Maps PG_Session_Handle OP_Model OP_Spec OP_Iter.
Import ListNotations.
Open Scope Z_scope.

Section Times.
Context {V : Type}.
Implicit Type l : list (Z * V).

Lemma same_key l a b : zsorted l -> In a l -> In b l -> fst a = fst b -> a = b.
Proof.
  intros S Ia Ib E. destruct a as [k v], b as [k' v']. cbn in E. subst k'.
  apply In_zfind in Ia; [|exact S]. apply In_zfind in Ib; [|exact S]. congruence.
Qed.
Lemma zlower_cases q l : zsorted l ->
  match zlower q l with
  | [] => forall e, In e l -> fst e < q
  | b :: _ => In b l /\ q <= fst b /\ forall e, In e l -> q <= fst e -> fst b <= fst e
  end.
Proof.
  intros S. destruct (zlower_suffix q l) as (p & E & B). destruct (zlower q l) as [|b r] eqn:Z.
  - rewrite app_nil_r in E. subst p. exact B.
  - split; [rewrite E; apply in_or_app; right; now left|]. split; [apply (zlower_ge q l); [exact S | rewrite Z; now left]|].
    intros e I Q. rewrite E in I. apply in_app_or in I as [I|[<-|I]]; [apply B in I; lia | lia|].
    rewrite E in S. apply zsorted_app in S as (_ & S & _). apply zsorted_inv in S as [_ L]. apply L in I. lia.
Qed.
Lemma lower_prev q l : zsorted l ->
  match zlower q l with
  | [] => forall e, In e l -> fst e < q
  | b :: _ => match zprev (fst b) l with
              | Some a => around l q a b
              | None => In b l /\ q <= fst b /\ forall e, In e l -> fst b <= fst e
              end
  end.
Proof.
  intros S. pose proof (zlower_cases q l S) as H. destruct (zlower q l) as [|b r]; [exact H|].
  destruct H as (I & Q & M). pose proof (zprev_spec (fst b) l S) as P. destruct (zprev (fst b) l) as [[k v]|]; [|auto].
  destruct P as (Ia & La & Ma). split; [exact Ia|]. split; [exact I|]. split.
  - cbn. split; [|exact Q]. destruct (Z_lt_le_dec k q) as [?|C]; [assumption|]. specialize (M _ Ia C). cbn in M. lia.
  - intros e Ie. destruct (Z_lt_le_dec (fst e) (fst b)) as [C|C]; [left; cbn; now apply Ma | now right].
Qed.
Lemma around_lower q l a b : zsorted l -> around l q a b -> (exists r, zlower q l = b :: r) /\ zprev (fst b) l = Some a.
Proof.
  intros S (Ia & Ib & (L1 & L2) & M). pose proof (zlower_cases q l S) as H. destruct (zlower q l) as [|b' r].
  { apply H in Ib. lia. }
  destruct H as (I' & Q' & M').
  assert (b' = b).
  { apply (same_key l); auto. specialize (M' _ Ib L2). destruct (M _ I'); lia. }
  subst b'. split; [eauto|]. pose proof (zprev_spec (fst b) l S) as P. destruct (zprev (fst b) l) as [[k v]|].
  - destruct P as (Ik & Lk & Mk). f_equal. apply (same_key l); auto. cbn. specialize (Mk _ Ia ltac:(lia)). destruct (M _ Ik) as [C|C]; cbn in C; lia.
  - specialize (P _ Ia). lia.
Qed.
Lemma starts_lower q l v : zsorted l -> starts_at l q v -> (exists r, zlower q l = (q, v) :: r) /\ zprev q l = None.
Proof.
  intros S (I & M). pose proof (zlower_cases q l S) as H. destruct (zlower q l) as [|b' r].
  { apply H in I. cbn in I. lia. }
  destruct H as (I' & Q' & M').
  assert (b' = (q, v)).
  { apply (same_key l); auto. cbn. specialize (M' _ I). cbn in M'. lia. }
  subst b'. split; [eauto|]. pose proof (zprev_spec q l S) as P. destruct (zprev q l) as [[k w]|]; [|reflexivity].
  destruct P as (Ik & Lk & _). specialize (M _ Ik). cbn in M. lia.
Qed.
End Times.

Section Estimates.
Context {G : geometry}.

Lemma interpolate_ok (a b : Z * P3 G) q : fst a <= q -> q <= fst b -> interpolate G a b q = Some (blend G a b q).
Proof. intros A B. unfold interpolate. apply Z.leb_le in A, B. now rewrite A, B. Qed.

Lemma odometry_at_total l q : zsorted l -> odometry_at G l q <> None.
Proof.
  intros S. unfold odometry_at. pose proof (lower_prev q l S) as H. destruct (zlower q l) as [|[s p] r]; [discriminate|].
  cbn [fst] in H. destruct (zprev s l) as [a|]; [|discriminate]. destruct H as (_ & _ & (L1 & L2) & _). cbn [fst] in L2.
  rewrite interpolate_ok by (cbn [fst]; lia). discriminate.
Qed.
Lemma odometry_at_iff l q p : zsorted l -> odometry_at G l q = Some (Some p) <-> odometry_estimate l q p.
Proof.
  intros S. split.
  - unfold odometry_at. pose proof (lower_prev q l S) as H. destruct (zlower q l) as [|[s p'] r]; [discriminate|].
    cbn [fst] in H. destruct (zprev s l) as [a|].
    + pose proof H as (_ & _ & (L1 & L2) & _). cbn [fst] in L2. rewrite interpolate_ok by (cbn [fst]; lia). cbn [bind]. intros [= <-].
      now apply odo_between.
    + destruct H as (I & Q & M). destruct (Z.eqb_spec s q) as [->|]; [|discriminate]. intros [= <-]. apply odo_first. split; assumption.
  - intros E. unfold odometry_at. destruct E as [a b A|p ST].
    + destruct (around_lower q l a b S A) as ((r & ->) & P). destruct b as [s p']. cbn [fst] in P. rewrite P.
      destruct A as (_ & _ & (L1 & L2) & _). cbn [fst] in L2. rewrite interpolate_ok by (cbn [fst]; lia). reflexivity.
    + destruct (starts_lower q l p S ST) as ((r & ->) & P). rewrite P, Z.eqb_refl. reflexivity.
Qed.
Lemma frame_at_total l q : zsorted l -> frame_at G l q <> None.
Proof.
  intros S. unfold frame_at. pose proof (lower_prev q l S) as H. destruct (zlower q l) as [|[s [p|]] r]; [discriminate| |discriminate].
  cbn [fst] in H. destruct (zprev s l) as [[s0 [p0|]]|]; [|discriminate|discriminate]. destruct H as (_ & _ & (L1 & L2) & _). cbn [fst] in L1, L2.
  rewrite interpolate_ok by (cbn [fst]; lia). discriminate.
Qed.
Lemma frame_at_iff l q p : zsorted l -> frame_at G l q = Some (Some p) <-> frame_estimate l q p.
Proof.
  intros S. split.
  - unfold frame_at. pose proof (lower_prev q l S) as H. destruct (zlower q l) as [|[s [p'|]] r]; [discriminate| |discriminate].
    cbn [fst] in H. destruct (zprev s l) as [[s0 [p0|]]|]; [|discriminate|].
    + pose proof H as (_ & _ & (L1 & L2) & _). cbn [fst] in L1, L2. rewrite interpolate_ok by (cbn [fst]; lia). cbn [bind]. intros [= <-].
      now apply frame_between.
    + destruct H as (I & Q & M). destruct (Z.eqb_spec s q) as [->|]; [|discriminate]. intros [= <-]. apply frame_first. split; assumption.
  - intros E. unfold frame_at. destruct E as [s p s' p' A|p ST].
    + destruct (around_lower q l _ _ S A) as ((r & ->) & P). cbn [fst] in P. rewrite P.
      destruct A as (_ & _ & (L1 & L2) & _). cbn [fst] in L1, L2. rewrite interpolate_ok by (cbn [fst]; lia). reflexivity.
    + destruct (starts_lower q l _ S ST) as ((r & ->) & P). rewrite P, Z.eqb_refl. reflexivity.
Qed.
Lemma odometry_unique l q p p' : zsorted l -> odometry_estimate (G := G) l q p -> odometry_estimate l q p' -> p = p'.
Proof. intros S A B. apply odometry_at_iff in A; [|exact S]. apply odometry_at_iff in B; [|exact S]. congruence. Qed.
Lemma frame_unique l q p p' : zsorted l -> frame_estimate (G := G) l q p -> frame_estimate l q p' -> p = p'.
Proof. intros S A B. apply frame_at_iff in A; [|exact S]. apply frame_at_iff in B; [|exact S]. congruence. Qed.
Lemma no_odometry q p : ~ odometry_estimate (G := G) [] q p.
Proof. intros H. apply odometry_at_iff in H; [discriminate | constructor]. Qed.
Lemma no_frame q p : ~ frame_estimate (G := G) [] q p.
Proof. intros H. apply frame_at_iff in H; [discriminate | constructor]. Qed.

Lemma find_id_entries {D A} (f : D -> A) (m : mbi D) x : wf m ->
  find_id x (map (fun e => (fst e, f (snd e))) (entries m)) = option_map f (get x m).
Proof.
  intros W. unfold find_id. destruct (find _ _) as [[y a]|] eqn:F.
  - apply find_some in F as [I E]. cbn [fst] in E. destruct (id_eqb_spec x y) as [<-|]; [|discriminate].
    apply in_map_iff in I as ([z v] & [= -> <-] & I). apply entries_In in I; [|exact W]. rewrite I. reflexivity.
  - destruct (get x m) as [v|] eqn:E; [|reflexivity]. exfalso. apply entries_In in E; [|exact W].
    pose proof (find_none _ _ F (x, f v)) as N. cbn [fst] in N. rewrite id_eqb_refl in N. discriminate N.
    apply in_map_iff. exists (x, v). split; [reflexivity | exact E].
Qed.
End Estimates.
