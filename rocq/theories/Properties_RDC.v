(* Properties of the range data collator (C32). *)
From Coq Require Import ZArith List Bool Permutation Sorted Lia.
From Verif Require Import ZMap RDC_Model RDC_Spec RDC_Proofs.
Import ListNotations.
Open Scope Z_scope.

(* Messages of expected sensors in the order of their times, with sorted points not
   later than the message: every point received is delivered exactly once, was dropped
   for being older than the result before, or is pending; results are in order. *)
Theorem C32_collate : forall (P O I T : Type) (z0 : I) (ticks : T -> Z) (shift : Z -> T -> T)
    (tlt : T -> T -> bool) sort expected (ms : list (Z * data P O I T)),
  (forall l, Permutation (sort l) l) ->
  (forall l, StronglySorted (fun a b => tlt (snd (fst (fst b))) (snd (fst (fst a))) = false) (sort l)) ->
  Forall (fun kd => In (fst kd) expected /\ message_ok ticks (snd kd)) ms ->
  StronglySorted (fun a b => time (snd a) <= time (snd b)) ms ->
  exists os c del drop,
    run z0 ticks shift sort expected new ms = Some (os, c) /\
    results_ok ticks shift tlt time_min os del drop /\
    Permutation (flat_map (fun kd => entries z0 (snd kd)) ms)
      (concat del ++ concat drop ++ flat_map (fun kd => entries z0 (snd kd)) (pending c)).
Proof.
  intros P O I T z0 ticks shift tlt sort expected ms SP SS F S.
  destruct (run_ok P O I T z0 ticks shift tlt sort SP SS expected ms time_min new) as
    (os & c & del & drop & R & V & RO & PM).
  - split; [constructor|]. split; [constructor|]. cbn [end' new]. lia.
  - eapply Forall_impl; [|exact F]. cbv beta. intros a (A & B). split; auto. split; auto.
    destruct B as (_ & _ & B). lia.
  - exact S.
  - exists os, c, del, drop. split; auto. split; [exact RO|].
    cbn [pending new pents flat_map] in PM. rewrite app_nil_r in PM. rewrite PM.
    assert (E : pents P O I T (pending c) = flat_map (fun kd => entries z0 (snd kd)) (pending c)).
    { clear - V. unfold pents. induction V as [|kd r H V IH]; [reflexivity|]. cbn [flat_map].
      rewrite IH. f_equal. now apply ent_even. }
    rewrite E. rewrite !app_assoc. apply Permutation_app_tail, Permutation_app_comm.
Qed.

(* Points delivered in an earlier result are not later than points of a later result. *)
Theorem C32_monotone : forall (P O I T : Type) (ticks : T -> Z) shift tlt last
    (os : list (option (merged P O I T))) del drop,
  results_ok ticks shift tlt last os del drop ->
  ForallOrdPairs (fun a b => forall e f, In e a -> In f b -> abs_time ticks e <= abs_time ticks f) del.
Proof.
  intros P O I T ticks shift tlt.
  assert (LB : forall os last del drop, results_ok (P:=P) (O:=O) (I:=I) ticks shift tlt last os del drop ->
    Forall (Forall (fun e => last <= abs_time ticks e)) del).
  { induction os as [|[m|] os IH]; intros last del drop R; destruct del as [|d del], drop as [|x drop];
      cbn [results_ok] in R; try contradiction.
    - constructor.
    - destruct R as (_ & _ & L & D & _ & R). constructor.
      + eapply Forall_impl; [|exact D]. cbv beta. intros a A. lia.
      + eapply Forall_impl; [|exact (IH _ _ _ R)]. intros a A. eapply Forall_impl; [|exact A].
        cbv beta. intros b B. lia.
    - destruct d; contradiction.
    - destruct d, x; try contradiction. constructor; [constructor|]. eapply IH. exact R. }
  intros last os. revert last. induction os as [|[m|] os IH]; intros last del drop R;
    destruct del as [|d del], drop as [|x drop]; cbn [results_ok] in R; try contradiction.
  - constructor.
  - destruct R as (_ & _ & _ & D & _ & R). constructor; [|eapply IH; exact R].
    eapply Forall_impl; [|exact (LB _ _ _ _ R)]. intros b B e f He Hf.
    rewrite Forall_forall in B, D. specialize (B f Hf). specialize (D e He). cbv beta in *. lia.
  - destruct d; contradiction.
  - destruct d, x; try contradiction. constructor; [|eapply IH; exact R].
    apply Forall_forall. intros b _ e f [].
Qed.

(* An instance: integer times, insertion sort *)
Definition Zpoint : Type := (Z * Z * Z * nat)%type.
Definition ztime (r : Zpoint) : Z := snd (fst (fst r)).
Fixpoint insert (r : Zpoint) (l : list Zpoint) : list Zpoint :=
  match l with
  | [] => [r]
  | x :: s => if ztime r <? ztime x then r :: l else x :: insert r s
  end.
Definition isort (l : list Zpoint) : list Zpoint := fold_right insert [] l.
Lemma insert_perm r : forall l, Permutation (insert r l) (r :: l).
Proof.
  induction l as [|x s IH]; simpl; auto. destruct (ztime r <? ztime x); auto.
  rewrite IH. apply perm_swap.
Qed.
Lemma isort_perm : forall l, Permutation (isort l) l.
Proof. induction l as [|x s IH]; simpl; auto. rewrite insert_perm. now rewrite IH. Qed.
Lemma isort_sorted : forall l,
  StronglySorted (fun a b : Zpoint => Z.ltb (snd (fst (fst b))) (snd (fst (fst a))) = false) (isort l).
Proof.
  induction l as [|x s IH]; simpl; [constructor|]. revert IH. generalize (isort s). clear s.
  induction l as [|y l IHl]; intros S; simpl; [repeat constructor|]. inversion S; subst.
  destruct (Z.ltb_spec (ztime x) (ztime y)) as [L|L].
  - constructor; auto. constructor; [apply Z.ltb_ge; unfold ztime in *; lia|].
    eapply Forall_impl; [|exact H2]. cbv beta. intros a A. apply Z.ltb_ge in A. apply Z.ltb_ge.
    unfold ztime in *. lia.
  - constructor; auto. eapply Permutation_Forall; [symmetry; apply insert_perm|].
    constructor; auto. apply Z.ltb_ge. exact L.
Qed.

Definition zrun := run (P:=Z) (O:=Z) (I:=Z) (T:=Z) 0 (fun t => t) Z.add isort.
(* Two sensors; the second result is the whole of sensor 2 with the part of sensor 1 up
   to its time, sorted; the rest of sensor 1 is pending, the old point of sensor 2 is
   dropped and missing intensities are zero. *)
Example C32_example :
  let ms := [(1, {| time := 10; origin := 100; ranges := [(11, -4); (12, 0)]; intensities := [7] |});
             (1, {| time := 20; origin := 101; ranges := [(13, -8); (14, 0)]; intensities := [8; 9] |});
             (2, {| time := 20; origin := 200; ranges := [(21, -15); (22, -7)]; intensities := [] |});
             (2, {| time := 30; origin := 201; ranges := [(23, 0)]; intensities := [5; 6] |})] in
  (Forall (fun kd => In (fst kd) [1; 2] /\ message_ok (fun t => t) (snd kd)) ms /\
   StronglySorted (fun a b => time (snd a) <= time (snd b)) ms) /\
  exists c, zrun [1; 2] new ms =
    Some ([None;
           Some {| m_time := 10; m_origins := [100]; m_ranges := [(11, -4, 7, 0%nat); (12, 0, 0, 0%nat)] |};
           Some {| m_time := 20; m_origins := [101; 200];
                   m_ranges := [(13, -8, 8, 0%nat); (22, -7, 0, 1%nat); (14, 0, 9, 0%nat)] |};
           None], c) /\
    flat_map (fun kd => entries 0 (snd kd)) (pending c) =
      [{| e_time := 30; e_origin := 201; e_point := 23; e_rel := 0; e_int := 5 |}].
Proof.
  cbv zeta. split.
  - split.
    + repeat (apply Forall_cons; [split; [simpl; auto|]|]); [..|apply Forall_nil];
        unfold message_ok, time_min, time_max; cbn [ranges time snd];
        (split; [repeat constructor; simpl; lia|split; [repeat constructor; simpl; lia|lia]]).
    + repeat constructor; simpl; lia.
  - eexists. split; [vm_compute; reflexivity|]. reflexivity.
Qed.

(* A point later than its message makes the collator forget the next message of the
   sensor: its point is neither delivered nor pending. *)
Theorem C32_future_point_refuted : exists ms os c,
  StronglySorted (fun a b => time (snd a) <= time (snd b)) ms /\
  zrun [1; 2] new ms = Some (os, c) /\
  exists e, In e (flat_map (fun kd => entries 0 (snd kd)) ms) /\
    ~ In e (flat_map (fun kd => entries 0 (snd kd)) (pending c)) /\
    forall m, In (Some m) os -> m_ranges m = [].
Proof.
  exists [(1, {| time := 10; origin := 0; ranges := [(1, 5)]; intensities := [0] |});
          (1, {| time := 20; origin := 0; ranges := [(2, 0)]; intensities := [0] |})].
  eexists _, _. split; [repeat constructor; simpl; lia|]. split; [vm_compute; reflexivity|].
  exists {| e_time := 20; e_origin := 0; e_point := 2; e_rel := 0; e_int := 0 |}.
  split; [simpl; auto|]. split.
  - simpl. intros [H|[]]. discriminate.
  - simpl. intros m [H|[H|[]]]; [discriminate|]. injection H as <-. reflexivity.
Qed.

(* Order within each sensor is not enough: the results then go back in time. *)
Theorem C32_cross_sensor_refuted : exists ms os c m m' r r',
  Forall (fun kd => In (fst kd) [1; 2] /\ message_ok (fun t => t) (snd kd)) ms /\
  (forall k, StronglySorted (fun a b => time (snd a) <= time (snd b)) (filter (fun kd => fst kd =? k) ms)) /\
  zrun [1; 2] new ms = Some (os, c) /\
  (exists a b d, os = a ++ Some m :: b ++ Some m' :: d) /\
  In r (m_ranges m) /\ In r' (m_ranges m') /\ m_time m' + ztime r' < m_time m + ztime r.
Proof.
  exists [(1, {| time := 10; origin := 0; ranges := [(1, 0)]; intensities := [0] |});
          (1, {| time := 20; origin := 0; ranges := [(2, 0)]; intensities := [0] |});
          (2, {| time := 5; origin := 0; ranges := [(3, 0)]; intensities := [0] |});
          (2, {| time := 30; origin := 0; ranges := [(4, -23)]; intensities := [0] |})].
  eexists _, _, {| m_time := 10; m_origins := [0]; m_ranges := [(1, 0, 0, 0%nat)] |},
    {| m_time := 20; m_origins := [0; 0]; m_ranges := [(4, -13, 0, 1%nat); (2, 0, 0, 0%nat)] |},
    (1, 0, 0, 0%nat), (4, -13, 0, 1%nat).
  split.
  { repeat (apply Forall_cons; [split; [simpl; auto|]|]); [..|apply Forall_nil];
        unfold message_ok, time_min, time_max; cbn [ranges time snd];
        (split; [repeat constructor; simpl; lia|split; [repeat constructor; simpl; lia|lia]]). }
  split.
  { intros k. cbn [filter fst]. destruct (1 =? k) eqn:E1, (2 =? k) eqn:E2; repeat constructor; simpl; lia. }
  split; [vm_compute; reflexivity|].
  split; [exists [None], [Some {| m_time := 5; m_origins := []; m_ranges := [] |}], []; reflexivity|].
  split; [simpl; auto|]. split; [simpl; auto|]. vm_compute. reflexivity.
Qed.

Print Assumptions C32_collate.
Print Assumptions C32_monotone.
Print Assumptions C32_future_point_refuted.
Print Assumptions C32_cross_sensor_refuted.
