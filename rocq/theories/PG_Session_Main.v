(* A well-behaved session never aborts. *)
From Coq Require Import List ZArith Bool Lia Sorted.
From Verif Require Import ZMap MapById_Model MapById_Spec MapById_Proofs PG_Model PG_Maps PG_Spec PG_Proofs PG_Trim PG_Client PG_Delete PG_Session PG_Session_Call PG_Session_Node PG_Session_Work PG_Session_Trim PG_Session_Handle.
Import ListNotations.
Open Scope Z_scope.

Lemma good_init : good init new_client.
Proof.
  assert (Em : forall D x, ~ stored x (@nil (Z * (bool * list (Z * D))))) by (intros D x H; now apply H).
  assert (Re : forall s n, ~ recorded (gr init) s n) by (intros s n (d & E & _); discriminate).
  constructor.
  - constructor; try reflexivity; try (intros; discriminate); try (intros; contradiction).
    + constructor; apply wf_nil.
    + intros s n R. now apply Re in R.
    + intros x [S|S]; now apply Em in S.
  - intros t x E. discriminate.
  - intros t. apply (st_open _ _ [] P0 0 0 P0); [reflexivity | constructor|].
    constructor; try (intros; discriminate); auto; try exact I.
    + constructor.
    + intros j. split; [intros A; now apply Em in A | intros [A _]; now apply Em in A].
    + left. split; [reflexivity|]. reflexivity.
    + intros j. split; [intros A; now apply Em in A | intros [A|A]; [now apply Em in A | lia]].
    + congruence.
  - constructor.
  - constructor.
  - intros. contradiction.
  - intros. discriminate.
  - reflexivity.
  - constructor.
  - reflexivity.
  - exact I.
Qed.

Lemma good_step every_n e s k k' : good s k -> enabled e s = true ->
  match e with
  | Call c => allowed c k (gr s) = Some k'
  | Handle chs => spares_last chs (gr s) /\ k' = k
  | _ => k' = k
  end -> exists s', step every_n e s = Some s' /\ good s' k'.
Proof.
  intros G En A. destruct e as [c|o|found| |chs|found].
  - now apply (good_call every_n c s k k').
  - subst k'. cbn in En. destruct (md s) eqn:M; try discriminate. now apply good_work.
  - subst k'. cbn in En. destruct (md s) eqn:M; try discriminate. unfold step. rewrite M. eexists. split; [reflexivity|].
    apply good_results; auto. discriminate.
  - subst k'. cbn in En. destruct (md s) eqn:M; try discriminate. eapply good_optimize; eassumption.
  - destruct A as [Sp ->]. cbn in En. destruct (md s) eqn:M; try discriminate. eapply good_handle; eassumption.
  - subst k'. cbn in En. destruct (md s) eqn:M; try discriminate. unfold step. rewrite M.
    pose proof (s_idle _ _ G M) as Q. pose proof (s_count _ _ G) as C. rewrite Q in C. cbn in C.
    assert (E : num_finished (gr s) =? num_nodes (gr s) = true) by lia. rewrite E. eexists. split; [reflexivity|].
    apply good_results; auto.
Qed.

Lemma good_run every_n es : forall s k, good s k -> polite every_n es s k ->
  exists s' k', run every_n es s = Some s' /\ good s' k'.
Proof.
  induction es as [|e es IH]; intros s k G P; cbn [polite run] in *; [eauto|].
  destruct P as (En & k' & A & P). destruct (good_step every_n e s k k' G En A) as (s1 & H & G1).
  rewrite H in P |- *. cbn [bind]. eauto.
Qed.
