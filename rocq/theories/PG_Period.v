(* How often the pose graph optimizes. *)
From Coq Require Import List ZArith Bool Lia.
From Verif Require Import ZMap MapById_Model PG_Model PG_Proofs.
Import ListNotations.
Open Scope Z_scope.

(* the nodes executed since the last optimization was handled; n: before es *)
Fixpoint recent (k : Z) (es : list event) (s : sys) (n : Z) : Z :=
  match es with
  | [] => n
  | e :: r =>
      match step k e s with
      | None => n
      | Some s' => recent k r s' (match e, md s, queue s with
                                  | Work _, Draining, INode _ _ _ :: _ => n + 1
                                  | Handle _, Handling _, _ => 0
                                  | _, _, _ => n
                                  end)
      end
  end.

Lemma compute_all_since o l : forall g g', compute_all o l g = Some g' -> since_closure g' = since_closure g.
Proof.
  induction l as [|[n s] l IH]; intros g g' H; cbn [compute_all] in H; [now injection H as <-|].
  ob H. rewrite (IH _ _ H). clear H IH. unfold compute_constraint in E.
  destruct (get s (subs g)); [|discriminate]. ob E. destruct (v_skip (o n s)); [now injection E as <-|].
  ob E. ob E. injection E as <-. now destruct (v_search (o n s)).
Qed.
Lemma insert_node_since n l : forall g g', insert_node n l g = Some g' -> since_closure g' = since_closure g.
Proof.
  induction l as [|s l IH]; intros g g' H; cbn [insert_node] in H; [now injection H as <-|].
  ob H. ob H. ob H. now rewrite (IH _ _ H).
Qed.
Lemma initialize_since t objs g r : initialize_poses t objs g = Some r -> since_closure (snd r) = since_closure g.
Proof.
  unfold initialize_poses. destruct objs as [|o1 [|o2 [|]]]; try discriminate; intros H.
  - ob H. ob H. ob H. ob H. injection H as <-. cbn. destruct (mbi_traj_size t (osubs g) =? 0)%nat.
    + ob E. ob E. ob E. now injection E as <-.
    + now injection E as <-.
  - destruct (last_id t (osubs g)); [|discriminate]. ob H. destruct b.
    + ob H. now injection H as <-.
    + ob H. ob H. ob H. ob H. now injection H as <-.
Qed.
Lemma node_item_since k o n objs nw g r : node_item k o n objs nw g = Some r ->
  since_closure (fst r) = since_closure g + 1 /\ (snd r = true <-> 0 < k /\ k <= since_closure g).
Proof.
  unfold node_item. intros H. ob H. ob H. cbv zeta in H. destruct (fst p) as [|front l]; [discriminate|].
  ob H. ob H. ob H. ob H. ob H. ob H. ob H. cbv zeta in H. injection H as <-. cbn [fst snd].
  apply initialize_since in E0. apply insert_node_since in E3. cbn in E3.
  assert (A : since_closure (fst p1) = since_closure g0) by (destruct nw; [ob E5; ob E5; ob E5|]; injection E5 as <-; reflexivity).
  apply compute_all_since in E6.
  assert (B : since_closure g2 = since_closure g1) by (destruct nw; [eapply compute_all_since; eassumption | now injection E7 as <-]).
  assert (C : since_closure g2 = since_closure g) by congruence. cbn. rewrite C, andb_true_iff, !Z.ltb_lt. split; [reflexivity | lia].
Qed.
Lemma add_constraints_since l : forall g g', add_constraints l g = Some g' -> since_closure g' = since_closure g.
Proof.
  induction l as [|c l IH]; intros g g' H; cbn [add_constraints] in H; [now injection H as <-|].
  ob H. ob H. ob H. rewrite (IH _ _ H). cbn. destruct (c_inter c); [ob E1; ob E1; now injection E1 as <-|]. ob E1. ob E1. now injection E1 as <-.
Qed.
Lemma exec_since k o i g r : exec k o i g = Some r -> (forall n objs nw, i <> INode n objs nw) -> since_closure (fst r) = since_closure g.
Proof.
  intros H N. destruct i; cbn [exec] in H.
  - destruct (N n objs newly eq_refl).
  - ob H. now injection H as <-.
  - destruct (zfind t (trajs g)) as [[[] []]|]; try discriminate; now injection H as <-.
  - ob H. now injection H as <-.
  - ob H. ob H. now injection H as <-.
  - ob H. ob H. now injection H as <-.
  - ob H. ob H. now injection H as <-.
  - ob H. ob H. now injection H as <-.
  - ob H. injection H as <-. now apply add_constraints_since in E.
  - now injection H as <-.
  - now injection H as <-.
  - now injection H as <-.
Qed.
Lemma call_since c g r : do_call c g = Some r -> since_closure (fst r) = since_closure g.
Proof.
  assert (At : forall t g g', add_trajectory t g = Some g' -> since_closure g' = since_closure g).
  { intros t g0 g1 H. unfold add_trajectory in H. destruct (traj_state t g0) as [[] []]; try discriminate; now injection H as <-. }
  intros H. destruct c; cbn [do_call] in H.
  - ob H. ob H. injection H as <-. cbn. unfold append_node in E0. destruct (rev objs); [discriminate|]. ob E0. ob E0. ob E0. cbv zeta in E0. apply At in E1.
    match type of E0 with (if ?b then _ else _) = _ => destruct b end; [ob E0|]; injection E0 as <-; exact E1.
  - now injection H as <-.
  - destruct (zfind t (trajs g)) as [[]|]; now injection H as <-.
  - now injection H as <-.
  - now injection H as <-.
  - ob H. ob H. ob H. ob H. injection H as <-. now apply At in E.
  - ob H. ob H. ob H. injection H as <-. now apply At in E.
  - now injection H as <-.
  - now injection H as <-.
  - destruct tr; [ob H|]; now injection H as <-.
  - now injection H as <-.
  - now injection H as <-.
  - now injection H as <-.
  - ob H. now injection H as <-.
  - ob H. now injection H as <-.
Qed.

Lemma run_since k es : forall s s' n, since_closure (gr s) = n -> run k es s = Some s' -> since_closure (gr s') = recent k es s n.
Proof.
  induction es as [|e es IH]; intros s s' n S H; cbn [run recent] in *; [now injection H as <-|]. ob H. apply IH; [|exact H]. clear H IH.
  unfold step in E. destruct e as [c|o|found| |chs|found].
  - ob E. injection E as <-. cbn. apply call_since in E0. congruence.
  - destruct (md s) eqn:M; try (injection E as <-; exact S). destruct (queue s) as [|i q] eqn:Q; [injection E as <-; exact S|]. ob E. injection E as <-. cbn [gr].
    destruct i; try (apply exec_since in E0; [congruence | intros; discriminate]). cbn [exec] in E0. apply node_item_since in E0 as [E0 _]. congruence.
  - destruct (md s) eqn:M; try (injection E as <-; exact S).
  - destruct (md s) eqn:M; try (injection E as <-; exact S). ob E. injection E as <-. cbn [gr]. unfold run_optimization in E0.
    destruct (entries (osubs (gr s))); [injection E0 as <-; exact S|]. ob E0. ob E0. ob E0. injection E0 as <-. exact S.
  - destruct (md s) eqn:M; try (injection E as <-; exact S). ob E. injection E as <-. cbn [gr]. unfold finish_handling in E0. ob E0. ob E0. ob E0. now injection E0 as <-.
  - destruct (md s) eqn:M; try (injection E as <-; exact S). cbv zeta in E. ob E. injection E as <-. exact S.
Qed.
