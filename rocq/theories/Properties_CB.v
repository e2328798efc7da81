(* C46: the constraint builder. *)
From Coq Require Import List ZArith Bool PeanoNat Lia.
From Verif Require Import CB_Model CB_Spec CB_Proofs.
Import ListNotations.
Open Scope Z_scope.

(* a client that ends every node before it gives a callback, then waits for the callback, and
   deletes scan matchers only between a callback and the next search is safe from failing
   CHECKs and from freed memory, however the tasks are scheduled, and every callback gets what the
   searches found since the previous one, in the order in which they were asked for *)
Theorem C46_reports found es : polite newcomer es = true -> possible found es start ->
  exists s, run found es start = Some s /\
    match when_done s with
    | None => reports s = expected found 0 [] es
    | Some c => exists r, reports s ++ [(c, r)] = expected found 0 [] es
    end.
Proof.
  intros Po Ps. destruct (inv_run found es newcomer start [] (inv_start found) Po Ps) as (s & rq & H & I & O). exists s. split; [exact H|].
  unfold outlook in O at 1. cbn [reports when_done base start app] in O. rewrite O. unfold outlook. destruct (when_done s) as [c|].
  - exists (answers found (base s) rq). cbn [expected]. reflexivity.
  - cbn [expected]. now rewrite app_nil_r.
Qed.

(* when a callback is called all nodes have been finished and no task is left *)
Theorem C46_all_finished found es t s : polite newcomer es = true -> possible found (es ++ [Report t]) start ->
  run found (es ++ [Report t]) start = Some s ->
  started s = finished s /\ forallb (fun x => match t_status x with Done => true | _ => false end) (tasks s) = true.
Proof.
  intros Po Ps H.
  assert (Split : forall l s0, run found (l ++ [Report t]) s0 = match run found l s0 with Some s1 => step found (Report t) s1 | None => None end).
  { induction l as [|e l IH]; intros s0; cbn; [destruct (step found (Report t) s0); reflexivity|]. destruct (step found e s0); auto. }
  assert (PS : forall l s0 s1, possible found (l ++ [Report t]) s0 -> run found l s0 = Some s1 -> possible found l s0 /\ enabled (Report t) s1 = true).
  { induction l as [|e l IH]; intros s0 s1 P R; cbn [app possible run] in *; [injection R as <-; easy|]. destruct P as [En P]. destruct (step found e s0) as [s2|] eqn:E; [|discriminate].
    destruct (IH s2 s1 P R). auto. }
  rewrite Split in H. destruct (run found es start) as [s1|] eqn:R; [|discriminate]. destruct (PS es start s1 Ps R) as [P1 En].
  destruct (inv_run found es newcomer start [] (inv_start found) Po P1) as (s1' & rq & R' & I & _). rewrite R in R'. injection R' as <-.
  destruct (report_ready found _ _ _ t I En) as (W & Cn & Only & _). cbn [enabled] in En. destruct (nth_error (tasks s1) t) as [x|] eqn:X; [|discriminate].
  destruct s1 as [sl b ms ts nd dd wd st fi rp]. cbn [tasks started finished when_done] in *. unfold step in H. destruct wd; [|easy]. injection H as <-. cbn. split; [exact Cn|].
  apply forallb_forall. intros y Y. apply In_nth_error in Y as (i & Y). apply (status_inv _ _ _ Done X) in Y as [[N Y]|[-> ->]]; [|reflexivity].
  destruct (t_status y) eqn:St; [exfalso | exfalso | reflexivity]; (apply N, (Only i y Y); unfold live; rewrite St; discriminate).
Qed.

(* left alone, the tasks come to an end, and only when every callback has been called *)
Theorem C46_bounded found es es' s s' : run found es start = Some s -> possible found es' s -> forallb internal es' = true -> run found es' s = Some s' ->
  (length es' <= 2 * length (filter (fun x => match t_status x with Done => false | _ => true end) (tasks s)))%nat.
Proof. intros _ P O H. pose proof (run_todo found es' s s' P O H). pose proof (todo_bound s). lia. Qed.
Theorem C46_stops found es s : polite newcomer es = true -> possible found es start -> run found es start = Some s ->
  (forall e, internal e = true -> enabled e s = false) ->
  when_done s = None /\ reports s = expected found 0 [] es /\ started s = finished s /\
  forallb (fun x => match t_status x with Done => true | _ => false end) (tasks s) = true.
Proof.
  intros Po Ps H D. destruct (C46_reports found es Po Ps) as (s' & H' & R). rewrite H in H'. injection H' as <-.
  destruct (inv_run found es newcomer start [] (inv_start found) Po Ps) as (s' & rq & H' & I & _). rewrite H in H'. injection H' as <-.
  assert (Dead : forall t x, nth_error (tasks s) t = Some x -> t_status x = Done).
  { intros t x X. destruct (t_status x) eqn:St; try reflexivity; exfalso;
      (destruct (progress found _ _ _ I) as (e & E1 & E2); [exists t, x; split; [exact X | unfold live; rewrite St; discriminate] | now rewrite D in E2]). }
  assert (W : when_done s = None).
  { destruct (when_done s) eqn:E; [|reflexivity]. destruct (i_quiet _ _ _ _ I) as (_ & _ & t & x & X & _ & L); [congruence|]. now apply Dead in X. }
  rewrite W in R. split; [exact W|]. split; [exact R|]. split.
  - pose proof (i_count _ _ _ _ I) as Cn. assert (Z : open_nodes (tasks s) = 0%nat); [|lia]. unfold open_nodes.
    destruct (filter is_node (tasks s)) as [|y l] eqn:F; [reflexivity|]. assert (Y : In y (filter is_node (tasks s))) by (rewrite F; now left).
    apply filter_In in Y as [Y1 Y2]. apply In_nth_error in Y1 as (i & Y1). apply Dead in Y1. unfold is_node in Y2. rewrite Y1 in Y2. destruct (t_kind y); discriminate.
  - apply forallb_forall. intros y Y. apply In_nth_error in Y as (i & Y). apply Dead in Y. now rewrite Y.
Qed.
(* then it may be destroyed if nothing was asked for since the last callback *)
Theorem C46_destructor found es s : polite newcomer es = true -> possible found es start -> run found es start = Some s ->
  (forall e, internal e = true -> enabled e s = false) -> asked (after newcomer es) = false -> destructible s = true.
Proof.
  intros Po Ps H D A. destruct (C46_stops found es s Po Ps H D) as (W & _ & E & _).
  destruct (inv_run found es newcomer start [] (inv_start found) Po Ps) as (s' & rq & H' & I & _). rewrite H in H'. injection H' as <-.
  pose proof (i_asked _ _ _ _ I A) as Q. pose proof (i_len _ _ _ _ I) as Ln. subst rq. unfold destructible. destruct (slots s); [|discriminate]. rewrite W, E. apply Nat.eqb_refl.
Qed.

(* the conditions on the client are needed: a search while a callback is waiting writes to an
   element that has been freed; the code only warns of this *)
Theorem C46_late_search_refuted : exists found es, possible found es start /\ run found es start = None /\
  forallb (fun e => match e with Delete _ => false | _ => true end) es = true.
Proof.
  exists (fun k => Some (Z.of_nat k)), [Search 1 10; EndOfNode; WhenDone 7; Search 1 11; Begin 0; End 0; Begin 1; End 1; Finish 2; Begin 4; Report 3; End 4].
  split; [vm_compute; repeat split|]. split; reflexivity.
Qed.
(* so does a search whose node has not been ended *)
Theorem C46_unended_refuted : exists found es, possible found es start /\ run found es start = None /\
  forallb (fun e => match e with Search _ _ | WhenDone _ => true | e => internal e end) es = true.
Proof.
  exists (fun k => Some (Z.of_nat k)), [Search 1 10; WhenDone 7; Begin 0; End 0; Begin 1; Report 2; End 1].
  split; [vm_compute; repeat split|]. split; reflexivity.
Qed.
(* a scan matcher is deleted that a search is going to use; the code only warns if a callback is
   waiting *)
Theorem C46_delete_refuted : exists found es, possible found es start /\ run found es start = None /\
  forallb (fun e => match e with WhenDone _ => false | _ => true end) es = true.
Proof.
  exists (fun k => Some (Z.of_nat k)), [Search 1 10; EndOfNode; Begin 0; End 0; Delete 1; Begin 1].
  split; [vm_compute; repeat split|]. split; reflexivity.
Qed.
(* a second callback *)
Theorem C46_two_callbacks_refuted : exists found es, possible found es start /\ run found es start = None /\
  forallb (fun e => match e with WhenDone _ => true | _ => false end) es = true.
Proof. exists (fun _ => None), [WhenDone 1; WhenDone 2]. split; [vm_compute; repeat split|]. split; reflexivity. Qed.

(* two nodes, three searches of which the second finds nothing and which end in another order,
   a callback, a scan matcher deleted and made again, and a second callback *)
Definition life : list event :=
  [Search 1 10; Search 2 10; EndOfNode; Search 1 11; EndOfNode; WhenDone 7;
   Begin 0; Begin 2; End 2; End 0; Begin 5; End 5; Finish 6; Begin 3; Begin 1; End 3; End 1; Finish 4; Report 7;
   Delete 1; Search 1 12; EndOfNode; WhenDone 8; Begin 8; End 8; Begin 9; End 9; Finish 10; Report 11].
Definition finds (k : nat) : option Z := match k with 1%nat => None | _ => Some (100 + Z.of_nat k) end.
Example life_ok : polite newcomer life = true /\ possible finds life start /\
  expected finds 0 [] life = [(7, [(1, 10, 100); (1, 11, 102)]); (8, [(1, 12, 103)])] /\
  option_map reports (run finds life start) = Some [(7, [(1, 10, 100); (1, 11, 102)]); (8, [(1, 12, 103)])] /\
  option_map destructible (run finds life start) = Some true.
Proof. split; [reflexivity|]. split; [vm_compute; repeat split|]. split; [reflexivity|]. split; vm_compute; reflexivity. Qed.

Print Assumptions C46_reports.
Print Assumptions C46_all_finished.
Print Assumptions C46_bounded.
Print Assumptions C46_stops.
Print Assumptions C46_destructor.
Print Assumptions C46_late_search_refuted.
Print Assumptions C46_unended_refuted.
Print Assumptions C46_delete_refuted.
Print Assumptions C46_two_callbacks_refuted.
