(* What the changes do, and that trimming a node leaves the terms of the others alone. *)
From Coq Require Import List ZArith Bool Lia.
From Verif Require Import ZMap MapById_Model MapById_Spec MapById_Proofs MapById_Iter MapByTime_Proofs
  PG_Model PG_Maps OP_Model OP_Spec OP_Proofs OP_Solve.
Import ListNotations.
Open Scope Z_scope.

Section Trim.
Context {G : geometry}.
Implicit Types (o : data G).

Lemma put_eq {D} x (v : option D) m m' : (forall y, get y m' = if id_eqb y x then v else get y m) -> put x v m m'.
Proof. intros R y. rewrite R. destruct (id_eqb_spec y x); split; congruence. Qed.
Lemma grown_append {V} (m m' : mbt V) t q p : twf m -> mbt_append t q p m = Some m' -> grown t q p m m'.
Proof.
  intros W E. destruct (append_twf _ _ _ _ _ W E) as (_ & A & B). split; [exact A|]. intros a N. unfold series. now rewrite B.
Qed.
Lemma known_touch t m : zsorted m -> known t m (touch G t m).
Proof. intros S a. rewrite touch_find by exact S. destruct (zfind a m); reflexivity. Qed.
Lemma size_zero {D} (m : mbi D) t : wf m -> Nat.eqb (mbi_traj_size t m) 0 = true <-> forall i, get (t, i) m = None.
Proof.
  intros W. unfold mbi_traj_size, get, mbi_at. cbn [fst snd]. destruct (zfind t m) as [[c d]|] eqn:E; [|split; reflexivity].
  apply zfind_In in E. destruct (wf_data _ W _ _ _ E) as [_ N]. destruct d as [|[i v] d]; [congruence|]. split; [discriminate|].
  intros H. specialize (H i). cbn [zfind] in H. rewrite Z.eqb_refl in H. discriminate.
Qed.
Lemma apply_changed c o o' : inv o -> apply G c o = Some o' -> changed c o o'.
Proof.
  intros V. destruct V as [V1 V2 V3 V4 V5 V6 V7]. unfold changed. destruct c as [t q p|t q p|t n|x n|x|t w|t p|x p|x]; cbn [apply].
  - destruct (mbt_append t q p (o_odo G o)) as [m|] eqn:E; cbn [bind]; [|discriminate]. intros [= <-]. cbn. do 6 (split; [trivial; reflexivity|]). now apply grown_append.
  - destruct (mbt_append t q p (o_frames G o)) as [m|] eqn:E; cbn [bind]; [|discriminate]. intros [= <-]. cbn. do 6 (split; [trivial; reflexivity|]). now apply grown_append.
  - pose proof (append_get (o_nodes G o) t n V2) as A. destruct (mbi_append t n (o_nodes G o)) as [[[a i] m]|]; cbn [bind snd]; [|discriminate].
    intros [= <-]. cbn. do 6 (split; [trivial; reflexivity|]). destruct A as (W & Ex & F & _ & R & _). cbn in Ex. subst a.
    split; [now apply known_touch|]. exists i. split; [exact F | now apply put_eq].
  - pose proof (insert_get (o_nodes G o) (fst x) (snd x) n V2) as A. destruct (mbi_insert (fst x) (snd x) n (o_nodes G o)) as [m|]; cbn [bind]; [|discriminate].
    intros [= <-]. cbn. do 6 (split; [trivial; reflexivity|]). destruct A as (W & F & _ & _ & R & _). destruct x as [a i]. cbn [fst snd] in *.
    split; [now apply known_touch|]. split; [exact F | now apply put_eq].
  - destruct (mbt_trim (n_time G) (o_nodes G o) (fst x) (snd x) []) as [u0|]; cbn [bind]; [|discriminate].
    destruct (mbt_trim (n_time G) (o_nodes G o) (fst x) (snd x) (o_odo G o)) as [od|] eqn:E1; cbn [bind]; [|discriminate].
    destruct (mbt_trim (n_time G) (o_nodes G o) (fst x) (snd x) (o_frames G o)) as [fr|] eqn:E2; cbn [bind]; [|discriminate].
    pose proof (trim_get (o_nodes G o) x V2) as A. destruct (mbi_trim (fst x) (snd x) (o_nodes G o)) as [m|]; cbn [bind]; [|discriminate].
    destruct A as (W & F & R & _). intros [= <-]. cbn. do 6 (split; [trivial; reflexivity|]). split; [exact F|]. split; [now apply put_eq|].
    pose proof (size_zero m (fst x) W) as SZ. destruct (Nat.eqb (mbi_traj_size (fst x) m) 0).
    + split; [intros a N; rewrite zfind_zerase by exact V5; destruct (Z.eqb_spec a (fst x)); [contradiction | reflexivity]|].
      split; [intros _; rewrite zfind_zerase by exact V5; now rewrite Z.eqb_refl|]. intros i H. exfalso. apply H. now apply SZ.
    + split; [reflexivity|]. split; [|reflexivity]. intros H. apply SZ in H. discriminate.
  - intros [= <-]. cbn. do 6 (split; [trivial; reflexivity|]). intros a. now rewrite zfind_zput by exact V5.
  - pose proof (append_get (o_subs G o) t p V1) as A. destruct (mbi_append t p (o_subs G o)) as [[[a i] m]|]; cbn [bind snd]; [|discriminate].
    intros [= <-]. cbn. do 6 (split; [trivial; reflexivity|]). destruct A as (W & Ex & F & _ & R & _). cbn in Ex. subst a.
    exists i. split; [exact F | now apply put_eq].
  - pose proof (insert_get (o_subs G o) (fst x) (snd x) p V1) as A. destruct (mbi_insert (fst x) (snd x) p (o_subs G o)) as [m|]; cbn [bind]; [|discriminate].
    intros [= <-]. cbn. do 6 (split; [trivial; reflexivity|]). destruct A as (W & F & _ & _ & R & _). destruct x as [a i]. cbn [fst snd] in *.
    split; [exact F | now apply put_eq].
  - pose proof (trim_get (o_subs G o) x V1) as A. destruct (mbi_trim (fst x) (snd x) (o_subs G o)) as [m|]; cbn [bind]; [|discriminate].
    intros [= <-]. cbn. do 6 (split; [trivial; reflexivity|]). destruct A as (W & F & R & _). split; [exact F | now apply put_eq].
Qed.

(* estimates in terms of what trimming keeps *)
Lemma nearest_before {V} (l : list (Z * V)) q :
  (forall e, In e l -> q <= fst e) \/ exists a, In a l /\ fst a < q /\ forall e, In e l -> fst e < q -> fst e <= fst a.
Proof.
  induction l as [|x l IH]; [left; contradiction|]. destruct (Z_lt_le_dec (fst x) q) as [X|X].
  - right. destruct IH as [N|(a & I & L & M)].
    + exists x. split; [now left|]. split; [exact X|]. intros e [<-|J] Q; [lia|]. apply N in J. lia.
    + destruct (Z_le_gt_dec (fst x) (fst a)).
      * exists a. split; [now right|]. split; [exact L|]. intros e [<-|J] Q; [lia | now apply M].
      * exists x. split; [now left|]. split; [exact X|]. intros e [<-|J] Q; [lia|]. specialize (M e J Q). lia.
  - destruct IH as [N|(a & I & L & M)].
    + left. intros e [<-|J]; [lia | now apply N].
    + right. exists a. split; [now right|]. split; [exact L|]. intros e [<-|J] Q; [lia | now apply M].
Qed.
Lemma around_earliest {V} (l : list (Z * V)) q a b : around l q a b -> earliest_not_before q l b.
Proof. intros (Ia & Ib & L & M). split; [exact Ib|]. split; [lia|]. intros e I Q. destruct (M e I); lia. Qed.
Lemma around_latest {V} (l : list (Z * V)) q a b : around l q a b -> q < fst b -> latest_not_after q l a.
Proof. intros (Ia & Ib & L & M) N. split; [exact Ia|]. split; [lia|]. intros e I Q. destruct (M e I); lia. Qed.
Lemma brackets_around {V} (l : list (Z * V)) q a b : latest_not_after q l a -> earliest_not_before q l b -> fst a < q -> q < fst b -> around l q a b.
Proof.
  intros (Ia & La & Ma) (Ib & Lb & Mb) A B. split; [exact Ia|]. split; [exact Ib|]. split; [lia|]. intros e I.
  destruct (Z_le_gt_dec (fst e) q) as [Q|Q]; [left; now apply Ma | right; apply Mb; [exact I | lia]].
Qed.
Section Estimates.
Hypothesis sharp : forall a b : Z * P3 G, fst a < fst b -> blend G a b (fst b) = snd b.
Lemma odometry_bracket (l : list (Z * P3 G)) q p : odometry_estimate l q p <->
  earliest_not_before q l (q, p) \/
  exists a b, latest_not_after q l a /\ fst a < q /\ earliest_not_before q l b /\ q < fst b /\ p = blend G a b q.
Proof.
  split.
  - intros [a b A|p' [I M]].
    + pose proof (around_earliest l q a b A) as E. destruct (Z.eq_dec (fst b) q) as [Q|Q].
      * left. subst q. rewrite sharp by (destruct A as (_ & _ & ? & _); lia). destruct b; exact E.
      * right. exists a, b. destruct A as (Ia & Ib & L & M). split; [apply (around_latest l q a b); [repeat split; auto; lia | lia]|].
        split; [lia|]. split; [exact E|]. split; [lia | reflexivity].
    + left. split; [exact I|]. split; [cbn; lia|]. intros e J _. now apply M.
  - intros [(I & _ & M)|(a & b & A & La & B & Lb & ->)].
    + destruct (nearest_before l q) as [N|(a & Ia & La & Ma)].
      * apply odo_first. split; [exact I | exact N].
      * assert (P : p = blend G a (q, p) q) by (symmetry; exact (sharp a (q, p) La)). rewrite P. apply odo_between.
        split; [exact Ia|]. split; [exact I|]. split; [cbn; lia|]. intros e J. destruct (Z_lt_le_dec (fst e) q); [left; now apply Ma | right; exact l0].
    + apply odo_between. now apply brackets_around.
Qed.
Lemma frame_bracket (l : list (Z * option (P3 G))) q p : (forall e, In e l -> snd e <> None) ->
  frame_estimate l q p <->
  earliest_not_before q l (q, Some p) \/
  exists s v s' v', latest_not_after q l (s, Some v) /\ s < q /\ earliest_not_before q l (s', Some v') /\ q < s' /\ p = blend G (s, v) (s', v') q.
Proof.
  intros VAL. split.
  - intros [s v s' v' A|p' [I M]].
    + pose proof (around_earliest l q _ _ A) as E. destruct (Z.eq_dec s' q) as [Q|Q].
      * left. subst q. assert (L : s < s') by (destruct A as (_ & _ & ? & _); cbn in *; lia). change s' with (fst (s', v')) at 4. rewrite (sharp (s, v) (s', v') L). exact E.
      * right. exists s, v, s', v'. destruct A as (Ia & Ib & L & M). cbn in L. split; [apply (around_latest l q _ (s', Some v')); [repeat split; auto; cbn; lia | cbn; lia]|].
        split; [lia|]. split; [exact E|]. split; [lia | reflexivity].
    + left. split; [exact I|]. split; [cbn; lia|]. intros e J _. now apply M.
  - intros [(I & _ & M)|(s & v & s' & v' & A & La & B & Lb & ->)].
    + destruct (nearest_before l q) as [N|([s [v|]] & Ia & La & Ma)]; [| |destruct (VAL _ Ia eq_refl)].
      * apply frame_first. split; [exact I | exact N].
      * cbn [fst] in *. assert (P : p = blend G (s, v) (q, p) q) by (symmetry; exact (sharp (s, v) (q, p) La)). rewrite P. apply frame_between.
        split; [exact Ia|]. split; [exact I|]. split; [cbn; lia|]. intros e J. destruct (Z_lt_le_dec (fst e) q) as [Q|Q]; [left; exact (Ma e J Q) | right; exact Q].
    + apply frame_between. now apply brackets_around.
Qed.

Lemma bounded {N} (m : mbi N) : wf m -> (forall a j, get (a, j) m <> None -> a < int_max) -> forall a x, zfind a m = Some x -> a < int_max.
Proof.
  intros W B a [c d] H. pose proof (zfind_In _ _ _ H) as I. destruct (wf_data _ W _ _ _ I) as [S N0]. destruct d as [|[j v] d]; [congruence|].
  apply (B a j). unfold get, mbi_at. cbn [fst snd]. rewrite H. cbn [zfind]. rewrite Z.eqb_refl. discriminate.
Qed.
Lemma trimmed_series {V} o (m m' : mbt V) x : wf (o_nodes G o) -> twf m -> in_order (o_nodes G o) ->
  (forall a j n, get (a, j) (o_nodes G o) = Some n -> a < int_max /\ time_min < n_time G n < time_max) ->
  get x (o_nodes G o) <> None -> mbt_trim (n_time G) (o_nodes G o) (fst x) (snd x) m = Some m' ->
  (forall t i n e, (t, i) <> x -> get (t, i) (o_nodes G o) = Some n ->
     (latest_not_after (n_time G n) (series m t) e <-> latest_not_after (n_time G n) (series m' t) e) /\
     (earliest_not_before (n_time G n) (series m t) e <-> earliest_not_before (n_time G n) (series m' t) e)) /\
  forall t e, In e (series m' t) -> In e (series m t).
Proof.
  intros W WT O B Gx E. destruct (get x (o_nodes G o)) as [n0|] eqn:E0; [|congruence].
  assert (BF : forall a y, zfind a (o_nodes G o) = Some y -> a < int_max).
  { apply bounded; [exact W|]. intros a j H. destruct (get (a, j) (o_nodes G o)) as [n|] eqn:H1; [|congruence]. exact (proj1 (B a j n H1)). }
  destruct (trim_spec (n_time G) (o_nodes G o) m (fst x) (snd x) n0 m' W WT E0 BF) as (_ & K & IN & _ & OT & _).
  - intros i j a b Ha Hb. exact (O (fst x) i j a b Ha Hb).
  - intros j nd H. exact (proj2 (B (fst x) j nd H)).
  - exact E.
  - split.
    + intros t i n e NE Gn. destruct (Z.eq_dec t (fst x)) as [->|NT].
      * apply (K i n e); [|exact Gn]. intros ->. apply NE. now destruct x.
      * unfold series. rewrite (OT t NT). tauto.
    + intros t e H. destruct (Z.eq_dec t (fst x)) as [->|NT]; [now apply IN|]. unfold series in *. now rewrite (OT t NT) in H.
Qed.
Lemma trim_terms o x o' frozen r : inv o -> in_order (o_nodes G o) ->
  (forall a j n, get (a, j) (o_nodes G o) = Some n -> a < int_max /\ time_min < n_time G n < time_max) ->
  (forall t e, In e (series (o_frames G o) t) -> snd e <> None) ->
  apply G (TrimNode G x) o = Some o' ->
  wanted o' frozen r <-> wanted o frozen r /\ ~ In x (nodes_of r).
Proof.
  intros V O B VAL E. pose proof (apply_changed _ o o' V E) as (_ & _ & _ & _ & _ & _ & Gx & P & _).
  assert (OD : mbt_trim (n_time G) (o_nodes G o) (fst x) (snd x) (o_odo G o) = Some (o_odo G o') /\
    mbt_trim (n_time G) (o_nodes G o) (fst x) (snd x) (o_frames G o) = Some (o_frames G o')).
  { cbn [apply] in E. destruct (mbt_trim (n_time G) (o_nodes G o) (fst x) (snd x) []); cbn [bind] in E; [|discriminate].
    destruct (mbt_trim (n_time G) (o_nodes G o) (fst x) (snd x) (o_odo G o)); cbn [bind] in E; [|discriminate].
    destruct (mbt_trim (n_time G) (o_nodes G o) (fst x) (snd x) (o_frames G o)); cbn [bind] in E; [|discriminate].
    destruct (mbi_trim (fst x) (snd x) (o_nodes G o)); cbn [bind] in E; [|discriminate]. injection E as <-. cbn. auto. }
  destruct OD as [OD FR].
  destruct (trimmed_series o _ _ x (iv_nodes o V) (iv_odo o V) O B Gx OD) as [KO _].
  destruct (trimmed_series o _ _ x (iv_nodes o V) (iv_frames o V) O B Gx FR) as [KF INF].
  assert (PG : forall y n, get y (o_nodes G o') = Some n <-> get y (o_nodes G o) = Some n /\ y <> x).
  { intros y n. destruct (P y) as [P1 P2]. split.
    - intros H. assert (N : y <> x) by (intros ->; rewrite (P1 eq_refl) in H; discriminate). rewrite (P2 N) in H. auto.
    - intros [H N]. now rewrite (P2 N). }
  assert (EO : forall t i n p, (t, i) <> x -> get (t, i) (o_nodes G o) = Some n ->
    odometry_estimate (series (o_odo G o) t) (n_time G n) p <-> odometry_estimate (series (o_odo G o') t) (n_time G n) p).
  { intros t i n p NE Gn. rewrite !odometry_bracket. rewrite (proj2 (KO t i n _ NE Gn)).
    assert (Q : (exists a b, latest_not_after (n_time G n) (series (o_odo G o) t) a /\ fst a < n_time G n /\
        earliest_not_before (n_time G n) (series (o_odo G o) t) b /\ n_time G n < fst b /\ p = blend G a b (n_time G n)) <->
      (exists a b, latest_not_after (n_time G n) (series (o_odo G o') t) a /\ fst a < n_time G n /\
        earliest_not_before (n_time G n) (series (o_odo G o') t) b /\ n_time G n < fst b /\ p = blend G a b (n_time G n))).
    { split; intros (a & b & H1 & H2 & H3 & H4 & H5); exists a, b; apply (proj1 (KO t i n a NE Gn)) in H1; apply (proj2 (KO t i n b NE Gn)) in H3; auto. }
    rewrite Q. tauto. }
  assert (EF : forall t i n p, (t, i) <> x -> get (t, i) (o_nodes G o) = Some n ->
    frame_estimate (series (o_frames G o) t) (n_time G n) p <-> frame_estimate (series (o_frames G o') t) (n_time G n) p).
  { intros t i n p NE Gn. rewrite (frame_bracket _ _ _ (VAL t)), (frame_bracket (series (o_frames G o') t)) by (intros e I; exact (VAL t e (INF t e I))).
    rewrite (proj2 (KF t i n _ NE Gn)).
    assert (Q : (exists s v s' v', latest_not_after (n_time G n) (series (o_frames G o) t) (s, Some v) /\ s < n_time G n /\
        earliest_not_before (n_time G n) (series (o_frames G o) t) (s', Some v') /\ n_time G n < s' /\ p = blend G (s, v) (s', v') (n_time G n)) <->
      (exists s v s' v', latest_not_after (n_time G n) (series (o_frames G o') t) (s, Some v) /\ s < n_time G n /\
        earliest_not_before (n_time G n) (series (o_frames G o') t) (s', Some v') /\ n_time G n < s' /\ p = blend G (s, v) (s', v') (n_time G n))).
    { split; intros (s & v & s' & v' & H1 & H2 & H3 & H4 & H5); exists s, v, s', v';
        apply (proj1 (KF t i n _ NE Gn)) in H1; apply (proj2 (KF t i n _ NE Gn)) in H3; auto. }
    rewrite Q. tauto. }
  split.
  - intros H. destruct H as [t i a b F Ga Gb|t i a b p p' F Ga Gb Ea Eb|t i n p Gn En].
    + apply PG in Ga as [Ga Na]. apply PG in Gb as [Gb Nb]. split; [now constructor|]. cbn. intuition congruence.
    + apply PG in Ga as [Ga Na]. apply PG in Gb as [Gb Nb]. apply (EO t i a) in Ea; [|assumption..]. apply (EO t (i + 1) b) in Eb; [|assumption..].
      split; [econstructor; eassumption|]. cbn. intuition congruence.
    + apply PG in Gn as [Gn Nn]. apply (EF t i n) in En; [|assumption..]. split; [econstructor; eassumption|]. cbn. intuition congruence.
  - intros [H N]. destruct H as [t i a b F Ga Gb|t i a b p p' F Ga Gb Ea Eb|t i n p Gn En]; cbn [nodes_of In] in N.
    + constructor; [exact F | apply PG; split; [exact Ga | intuition congruence] | apply PG; split; [exact Gb | intuition congruence]].
    + apply (EO t i a) in Ea; [|intuition congruence|exact Ga]. apply (EO t (i + 1) b) in Eb; [|intuition congruence|exact Gb].
      econstructor; try eassumption; apply PG; (split; [eassumption | intuition congruence]).
    + apply (EF t i n) in En; [|intuition congruence|exact Gn]. econstructor; [apply PG; split; [eassumption | intuition congruence] | exact En].
Qed.
End Estimates.
End Trim.
