(* Property theorems for mapping::MapById and sensor::MapByTime: C09 - C12. *)
From Coq Require Import List ZArith Bool Lia Sorted.
From Verif Require Import ZMap MapById_Model MapById_Spec MapById_Proofs
  MapById_Iter MapByTime_Proofs MapById_More.
Import ListNotations.
Open Scope Z_scope.

(* ---- C09 ---- *)

(* Every history either runs in the model exactly as in the abstract finite map
   (same returned ids, same final map), or aborts and then the abstract map does
   not allow it either. *)
Theorem C09_refines_finite_map :
  forall (D : Type) (ops : list (mop D)),
    match mrun [] ops with
    | Some (rs, m) =>
        exists s, spec_run spec_init ops rs s /\
          (forall t i, sf s t i = mbi_at t i m) /\
          (forall t i, mbi_contains t i m = true <-> sf s t i <> None)
    | None => forall rs s, ~ spec_run spec_init ops rs s
    end.
Proof.
  intros D ops. pose proof (run_sim ops [] spec_init wf_nil rel_init) as H.
  destruct (mrun [] ops) as [[rs m]|] eqn:E.
  - destruct H as (W & s & HR & Rf & _). exists s. split; auto. split; auto.
    intros t i. rewrite Rf. unfold mbi_contains.
    destruct (mbi_at t i m); split; intros; congruence.
  - apply (run_abort ops [] spec_init); auto using wf_nil, rel_init.
Qed.

(* The loop over begin()..end() lists the map: every id once, ascending; size()
   is the number of entries.  Trajectory ids below INT_MAX. *)
Theorem C09_iteration :
  forall (D : Type) (ops : list (mop D)) rs m,
    mrun [] ops = Some (rs, m) ->
    (forall t i, mbi_at t i m <> None -> t < int_max) ->
    exists l, mbi_items m = Some l /\ lists_map (fun t i => mbi_at t i m) l /\
              mbi_size m = length l.
Proof.
  intros D ops rs m H B. apply reach_wf in H as W. exists (flat_all m).
  assert (B' : forall t x, zfind t m = Some x -> t < int_max).
  { intros t x Hx. destruct (zfind_at_nonempty m t x W Hx) as (i & v & Hv).
    apply (B t i). congruence. }
  split; [|split].
  - apply wf_items; auto.
    + destruct (zfind int_max m) eqn:E; auto. apply B' in E. lia.
    + intros t x Hx. apply B' in Hx. lia.
  - split; [now apply flat_all_sorted|]. intros. now apply In_flat_all.
  - apply mbi_size_flat.
Qed.

(* The loop over one trajectory, its size, and find *)
Theorem C09_trajectory :
  forall (D : Type) (ops : list (mop D)) rs m t,
    mrun [] ops = Some (rs, m) ->
    (exists l, mbi_traj_items t m = Some l /\
       lists_map (fun a i => if a =? t then mbi_at a i m else None) l /\
       mbi_traj_size t m = length l) /\
    (In t (mbi_ids m) <-> exists i, mbi_at t i m <> None) /\
    (forall i, it_deref (it_find m t i) =
       match mbi_at t i m with Some v => Some ((t, i), v) | None => None end).
Proof.
  intros D ops rs m t H. apply reach_wf in H as W. split; [|split].
  - exists (traj_flat t m). split; [now apply wf_traj_items|].
    split; [now apply traj_flat_spec|]. symmetry. apply traj_flat_size.
  - unfold mbi_ids. rewrite in_map_iff. split.
    + intros ([t' x] & E & HI). simpl in E. subst t'. apply In_zfind in HI; [|apply W].
      destruct (zfind_at_nonempty m t x W HI) as (i & v & Hv). exists i. congruence.
    + intros [i Hi]. destruct (mbi_at t i m) as [v|] eqn:E; [|congruence].
      apply at_find in E. destruct E as [x Hx]. exists (t, x). split; auto.
      now apply zfind_In.
  - intros i. now apply it_find_spec.
Qed.

Definition ex_ops : list (mop Z) :=
  [OpAppend 0 10; OpAppend 0 11; OpAppend 3 30; OpAppend 0 12; OpTrim 0 1;
   OpInsert 7 5 70; OpAppend 0 13].
Example C09_case : exists rs m, mrun [] ex_ops = Some (rs, m) /\
  mbi_items m = Some [((0,0),10); ((0,2),12); ((0,3),13); ((3,0),30); ((7,5),70)] /\
  mbi_traj_items 0 m = Some [((0,0),10); ((0,2),12); ((0,3),13)] /\
  forall t i, mbi_at t i m <> None -> t < int_max.
Proof.
  eexists. eexists. split; [reflexivity|]. split; [reflexivity|]. split; [reflexivity|].
  intros t i H. unfold mbi_at in H. simpl in H. unfold int_max.
  destruct (Z.eqb_spec t 0); [lia|]. destruct (Z.eqb_spec t 3); [lia|].
  destruct (Z.eqb_spec t 7); [lia|]. congruence.
Qed.
Example C09_case_abort : mrun [] [OpAppend 0 10; OpTrim 0 0; OpTrim 0 0 : mop Z] = None.
Proof. reflexivity. Qed.

(* Without the bound on trajectory ids iteration is wrong: end() is
   BeginOfTrajectory(INT_MAX), so data of trajectory INT_MAX is never visited. *)
Theorem C09_iteration_int_max_refuted :
  exists (ops : list (mop Z)) rs m,
    mrun [] ops = Some (rs, m) /\ mbi_at int_max 0 m = Some 1 /\ mbi_items m = Some [].
Proof. exists [OpAppend int_max 1]. eexists. eexists. repeat split. Qed.

(* ---- C10 ---- *)
Theorem C10_lower_bound :
  forall (D : Type) (time : D -> Z) (ops : list (mop D)) rs m t q,
    mrun [] ops = Some (rs, m) ->
    times_monotone time (fun a i => mbi_at a i m) t ->
    exists it, mbi_lower_bound time t q m = Some it /\
      ((exists i v, first_not_before time (fun a j => mbi_at a j m) t q i v /\
                    it_deref it = Some ((t, i), v)) \/
       ((forall i v, mbi_at t i m = Some v -> time v < q) /\ it = it_end m t)).
Proof.
  intros D time ops rs m t q H Mo. apply reach_wf in H as W.
  destruct (lower_bound_spec time m t q W Mo) as (it & E & C).
  exists it. split; auto. destruct C as [(i & v & F & ->)|C]; [left|right; auto].
  exists i, v. split; auto. destruct (it_find_spec m t i W) as (_ & -> & _).
  destruct F as (F & _). now rewrite F.
Qed.

Definition ex_lb : list (mop Z) :=
  [OpInsert 2 0 5; OpInsert 2 7 9; OpInsert 2 8 9; OpInsert 2 100 20; OpInsert 3 0 1].
Example C10_case : exists rs m, mrun [] ex_lb = Some (rs, m) /\
  times_monotone (fun d => d) (fun a i => mbi_at a i m) 2 /\
  option_map it_deref (mbi_lower_bound (fun d => d) 2 9 m) = Some (Some ((2, 7), 9)) /\
  option_map it_deref (mbi_lower_bound (fun d => d) 2 10 m) = Some (Some ((2, 100), 20)) /\
  mbi_lower_bound (fun d => d) 2 21 m = Some (it_end m 2).
Proof.
  eexists. eexists. split; [reflexivity|]. split; [|repeat split].
  intros i j d d'. unfold mbi_at. simpl.
  repeat (match goal with |- context [?x =? ?y] => destruct (Z.eqb_spec x y) end);
    intros H1 H2 H3; inversion H1; inversion H2; subst; lia.
Qed.

(* ---- C11 ---- *)

(* The full claim is false: trimming the only node of a trajectory forgets that
   appending is forbidden, and the next Append hands out the same id again. *)
Theorem C11_ids_never_reused_refuted :
  exists (ops : list (mop Z)) rs m id i j,
    mrun [] ops = Some (rs, m) /\ i <> j /\
    nth_error rs i = Some (Some id) /\ nth_error rs j = Some (Some id).
Proof.
  exists [OpAppend 0 1; OpTrim 0 0; OpAppend 0 2]. eexists. eexists.
  exists (0, 0), 0%nat, 2%nat. repeat split; auto.
Qed.

(* It holds as long as the trajectory never becomes empty: whatever id is stored
   at some moment, all ids handed out later are larger. *)
Theorem C11_no_reuse_while_nonempty :
  forall (D : Type) (ops1 ops2 : list (mop D)) rs1 m1 rs2 m2 t i,
    mrun [] ops1 = Some (rs1, m1) -> mbi_at t i m1 <> None ->
    mrun m1 ops2 = Some (rs2, m2) -> stays_nonempty t m1 ops2 ->
    forall j, In (Some (t, j)) rs2 -> i < j.
Proof.
  intros D ops1 ops2 rs1 m1 rs2 m2 t i H1 At H2 SN j Hj.
  apply reach_wf in H1 as W. eapply no_reuse; eauto. right.
  destruct (mbi_at t i m1) as [v|] eqn:E; [|congruence]. exists i, v. split; [lia|auto].
Qed.
Example C11_case : exists rs1 m1 rs2 m2,
  mrun [] [OpAppend 0 1; OpAppend 0 2] = Some (rs1, m1) /\ mbi_at 0 0 m1 <> None /\
  mrun m1 [OpTrim 0 0; OpAppend 0 3] = Some (rs2, m2) /\
  stays_nonempty 0 m1 [OpTrim 0 0; OpAppend 0 3] /\ In (Some (0, 2)) rs2.
Proof.
  do 4 eexists. split; [reflexivity|]. split; [discriminate|]. split; [reflexivity|].
  simpl. repeat split; auto; discriminate.
Qed.

(* ---- C12 ---- *)

(* sensor data containers built by Append and Trim calls *)
Inductive mbt_reach {D N : Type} (node_time : N -> Z) : mbt D -> Prop :=
| mbt_reach_init : mbt_reach node_time []
| mbt_reach_append : forall m t q d m', mbt_reach node_time m ->
    mbt_append t q d m = Some m' -> mbt_reach node_time m'
| mbt_reach_trim : forall m (nodes : mbi N) ops rs t i m', mbt_reach node_time m ->
    mrun [] ops = Some (rs, nodes) ->
    (forall a j, mbi_at a j nodes <> None -> a < int_max) ->
    mbt_trim node_time nodes t i m = Some m' -> mbt_reach node_time m'.

Lemma bound_find : forall {N} (nodes : mbi N), wf nodes ->
  (forall a j, mbi_at a j nodes <> None -> a < int_max) ->
  forall a x, zfind a nodes = Some x -> a < int_max.
Proof.
  intros N nodes W B t x Hx. destruct (zfind_at_nonempty nodes t x W Hx) as (i & v & Hv).
  apply (B t i). congruence.
Qed.

Lemma mbt_reach_wf : forall {D N} (node_time : N -> Z) (m : mbt D),
  mbt_reach node_time m -> twf m.
Proof.
  intros D N node_time m H. induction H as [|m t q d m' H IH E|m nodes ops rs t i m' H IH R B E].
  - constructor; [constructor|simpl; tauto].
  - eapply append_twf; eauto.
  - apply reach_wf in R. pose proof (bound_find nodes R B) as B'.
    destruct (mbi_at t i nodes) as [nd|] eqn:At.
    + assert (0 <= t).
      { apply at_find in At. destruct At as [[c d] Hx]. eapply wf_find; eauto. }
      destruct (trim_effect node_time nodes m t i nd m' R IH H0 At B' E)
        as (? & ? & ? & ? & ? & ? & ? & ? & ? & ? & W'). auto.
    + unfold mbt_trim in E. destruct (t <? 0); [discriminate|].
      destruct (zfind t m); [|inversion E; subst; auto].
      destruct (it_find_spec nodes t i R) as (_ & _ & Q). rewrite (Q At) in E.
      destruct (begin_spec nodes int_max (wf_nonempty _ R)) as [_ _].
      assert (it_begin nodes int_max = ([], [])) as Z.
      { unfold it_begin. destruct (zlower int_max nodes) as [|[a x] r] eqn:EL; auto. exfalso.
        assert (HI : In (a, x) (zlower int_max nodes)) by (rewrite EL; left; auto).
        pose proof (zlower_ge _ _ _ (wf_sorted _ R) HI) as G. simpl in G.
        destruct (zlower_suffix int_max nodes) as (p & Ep & _).
        assert (HM : In (a, x) nodes) by (rewrite Ep; apply in_or_app; auto).
        apply In_zfind in HM; [|apply R]. pose proof (B' _ _ HM). lia. }
      rewrite Z in E. simpl in E. discriminate.
Qed.

(* One trim. *)
Theorem C12_trim :
  forall (D N : Type) (node_time : N -> Z) (m m' : mbt D) (nodes : mbi N) ops rs t i,
    mbt_reach node_time m -> mrun [] ops = Some (rs, nodes) ->
    (forall a j, mbi_at a j nodes <> None -> a < int_max) ->
    mbi_at t i nodes <> None ->
    times_monotone node_time (fun a b => mbi_at a b nodes) t ->
    times_inside node_time nodes t ->
    mbt_trim node_time nodes t i m = Some m' ->
    (* every other node keeps both of its neighbouring sensor data *)
    (forall j nj e, j <> i -> mbi_at t j nodes = Some nj ->
       (latest_not_after (node_time nj) (traj t m) e <->
        latest_not_after (node_time nj) (traj t m') e) /\
       (earliest_not_before (node_time nj) (traj t m) e <->
        earliest_not_before (node_time nj) (traj t m') e)) /\
    (* nothing is invented, nothing outside the gap is touched *)
    (forall e, In e (traj t m') -> In e (traj t m)) /\
    (forall e j nj, In e (traj t m) -> mbi_at t j nodes = Some nj ->
       (j < i /\ fst e < node_time nj \/ i < j /\ node_time nj < fst e) ->
       In e (traj t m')) /\
    (* other trajectories are untouched *)
    (forall x, x <> t -> zfind x m' = zfind x m) /\
    (* the last node takes all data with it *)
    ((forall j, j <> i -> mbi_at t j nodes = None) ->
     (forall e, In e (traj t m) -> time_min <= fst e <= time_max) ->
     traj t m' = []) /\
    (* data of the gap strictly between other data of the gap is removed *)
    (forall e1 e e2, In e1 (traj t m) -> In e (traj t m) -> In e2 (traj t m) ->
       fst e1 < fst e < fst e2 ->
       (forall j nj, j < i -> mbi_at t j nodes = Some nj -> node_time nj <= fst e1) ->
       (forall j nj, i < j -> mbi_at t j nodes = Some nj -> fst e2 <= node_time nj) ->
       time_min <= fst e1 -> fst e2 <= time_max ->
       ~ In e (traj t m')).
Proof.
  intros D N node_time m m' nodes ops rs t i R1 R2 B At Mo Ti H.
  apply reach_wf in R2 as W. pose proof (mbt_reach_wf node_time m R1) as Wt.
  destruct (mbi_at t i nodes) as [nd|] eqn:E; [|congruence].
  destruct (trim_spec node_time nodes m t i nd m' W Wt E (bound_find nodes W B) Mo Ti H)
    as (_ & Q). exact Q.
Qed.

(* Any sequence of trims: every node still there at the end has the same
   neighbouring data as before the first trim. *)
Theorem C12_trim_sequence :
  forall (D N : Type) (node_time : N -> Z) ids (m m' : mbt D) (nodes nodes' : mbi N) ops rs,
    mbt_reach node_time m -> mrun [] ops = Some (rs, nodes) ->
    (forall a j, mbi_at a j nodes <> None -> a < int_max) ->
    (forall t, times_monotone node_time (fun a b => mbi_at a b nodes) t) ->
    (forall t, times_inside node_time nodes t) ->
    trim_nodes node_time nodes m ids = Some (nodes', m') ->
    (forall t j nj, mbi_at t j nodes' = Some nj <->
       (mbi_at t j nodes = Some nj /\ ~ In (t, j) ids)) /\
    (forall t j nj e, mbi_at t j nodes' = Some nj ->
       (latest_not_after (node_time nj) (traj t m) e <->
        latest_not_after (node_time nj) (traj t m') e) /\
       (earliest_not_before (node_time nj) (traj t m) e <->
        earliest_not_before (node_time nj) (traj t m') e)).
Proof.
  intros D N node_time ids m m' nodes nodes' ops rs R1 R2 B Mo Ti H.
  apply reach_wf in R2 as W. pose proof (mbt_reach_wf node_time m R1) as Wt.
  destruct (trim_nodes_spec node_time ids nodes nodes' m m' W Wt (bound_find nodes W B) Mo Ti H)
    as (A & C & E).
  split; auto. intros t j nj. split; [auto|]. intros [? ?]; auto.
Qed.

(* With strictly increasing node times Trim of an existing node cannot abort. *)
Theorem C12_trim_no_abort :
  forall (D N : Type) (node_time : N -> Z) (m : mbt D) (nodes : mbi N) ops rs t i,
    mbt_reach node_time m -> mrun [] ops = Some (rs, nodes) ->
    (forall a j, mbi_at a j nodes <> None -> a < int_max) ->
    mbi_at t i nodes <> None ->
    (forall j k nj nk, mbi_at t j nodes = Some nj -> mbi_at t k nodes = Some nk ->
       j < k -> node_time nj < node_time nk) ->
    times_inside node_time nodes t ->
    mbt_trim node_time nodes t i m <> None.
Proof.
  intros D N node_time m nodes ops rs t i R1 R2 B At St Ti.
  apply reach_wf in R2 as W. pose proof (mbt_reach_wf node_time m R1) as Wt.
  destruct (mbi_at t i nodes) as [nd|] eqn:E; [|congruence].
  eapply trim_no_abort; eauto using bound_find.
Qed.

(* Appending keeps time order: accepted data is later than everything stored. *)
Theorem C12_append :
  forall (D N : Type) (node_time : N -> Z) (m m' : mbt D) t q d,
    mbt_reach node_time m -> mbt_append t q d m = Some m' ->
    traj t m' = traj t m ++ [(q, d)] /\ zsorted (traj t m') /\
    (forall a, a <> t -> zfind a m' = zfind a m).
Proof.
  intros D N node_time m m' t q d R H. pose proof (mbt_reach_wf node_time m R) as W.
  destruct (append_twf m t q d m' W H) as (W' & A & B).
  split; auto. split; auto. now apply traj_sorted.
Qed.

Definition ex_nodes : list (mop Z) := [OpAppend 0 10; OpAppend 0 20; OpAppend 0 30].
Definition ex_data : option (mbt unit) :=
  fold_left (fun o q => match o with Some m => mbt_append 0 q tt m | None => None end)
    [5; 11; 14; 17; 21; 25; 28; 31] (Some []).
Example C12_case : exists rs nodes m m',
  mrun [] ex_nodes = Some (rs, nodes) /\ ex_data = Some m /\
  mbt_trim (fun z => z) nodes 0 1 m = Some m' /\
  traj 0 m' = [(5, tt); (11, tt); (28, tt); (31, tt)].
Proof. do 4 eexists. repeat split; reflexivity. Qed.
Example C12_case_last : exists rs nodes m m',
  mrun [] [OpAppend 0 10] = Some (rs, nodes) /\ ex_data = Some m /\
  mbt_trim (fun z => z) nodes 0 0 m = Some m' /\ zfind 0 m' = None.
Proof. do 4 eexists. repeat split; reflexivity. Qed.

Print Assumptions C09_refines_finite_map.
Print Assumptions C09_iteration.
Print Assumptions C09_trajectory.
Print Assumptions C09_iteration_int_max_refuted.
Print Assumptions C10_lower_bound.
Print Assumptions C11_ids_never_reused_refuted.
Print Assumptions C11_no_reuse_while_nonempty.
Print Assumptions C12_trim.
Print Assumptions C12_trim_sequence.
Print Assumptions C12_trim_no_abort.
Print Assumptions C12_append.
