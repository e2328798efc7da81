(* The front end makes its nodes the way a well-behaved client does: ActiveSubmaps2D with
   submaps that carry their identity, and the protocol of PG_Client. *)
From Coq Require Import List ZArith Bool Lia.
From Verif Require Import ASM_Model PG_Client.
Import ListNotations.
Open Scope Z_scope.

(* the content of a submap is the number of the call that made it *)
Definition insert_id (N : Z) : list (submap Z) -> Z -> option (list (submap Z)) :=
  insert_range_data Z Z (fun d => d) (fun c _ => Some c) (fun c => Some c) N.
(* What LocalTrajectoryBuilder2D hands over for each range data, 2d/local_trajectory_builder_2d.cc:
   279-300, and what PoseGraph2D::AddNode reads from it, pg:166-168: the submaps and whether the
   first of them is finished. *)
Fixpoint hand_over (N : Z) (ss : list (submap Z)) (ds : list Z) : option (list (list Z * bool)) :=
  match ds with
  | [] => Some []
  | d :: r =>
      match insert_id N ss d with
      | None => None
      | Some ss' =>
          match hand_over N ss' r with
          | None => None
          | Some l => Some ((map s_content ss', match ss' with f :: _ => s_fin f | [] => false end) :: l)
          end
      end
  end.
(* the nodes of one trajectory, one after the other *)
Fixpoint accepted (w : phase) (l : list (list Z * bool)) : bool :=
  match l with
  | [] => true
  | (objs, newly) :: r => match adv w objs newly with Some w' => accepted w' r | None => false end
  end.

Definition fits (N : Z) (ss : list (submap Z)) (w : phase) (later : list Z) : Prop :=
  match w with
  | P0 => ss = []
  | P1 a => exists n, ss = [mk_submap a n false] /\ 1 <= n <= N /\ ~ In a later
  | P2 k a b => exists n, ss = [mk_submap a (N + n) false; mk_submap b n false] /\ 1 <= n < N /\ ~ In b later
  | P3 k a b => ss = [mk_submap a (2 * N) true; mk_submap b N false] /\ ~ In b later
  end.

Lemma hand_over_step N ss w d r : 1 <= N -> 2 * N < 2 ^ 31 -> fits N ss w (d :: r) -> ~ In d r ->
  exists ss' w', insert_id N ss d = Some ss' /\
    adv w (map s_content ss') (match ss' with f :: _ => s_fin f | [] => false end) = Some w' /\
    fits N ss' w' r.
Proof.
  intros H1 H2 F Nd. assert (B : (2 * N <? 2 ^ 31) = true) by lia.
  assert (B1 : forall x, x < 2 ^ 31 -> (x <? 2 ^ 31) = true) by (intros; lia).
  destruct w as [|a|k a b|k a b]; cbn in F.
  - subst ss. unfold insert_id, insert_range_data, add_submap, insert_all, submap_insert.
    cbn [rev app length Z.of_nat Z.leb Z.compare s_fin s_num s_content]. rewrite B1 by lia. rewrite ?B. cbn [s_num].
    destruct (Z.eqb_spec (0 + 1) (2 * N)); [lia|]. do 2 eexists. split; [reflexivity|]. cbn. split; [reflexivity|]. cbn.
    exists 1. split; [reflexivity|]. split; [lia | exact Nd].
  - destruct F as (n & -> & Hn & Na). unfold insert_id, insert_range_data. cbn [rev app s_num].
    destruct (Z.eqb_spec n N) as [->|Nn].
    + unfold add_submap, insert_all, submap_insert. cbn [app length Z.of_nat Z.leb Z.compare Pos.of_succ_nat Pos.compare Pos.compare_cont Pos.succ s_fin s_num s_content].
      rewrite !B1 by lia. rewrite ?B. cbn [s_num]. destruct (Z.eqb_spec (N + 1) (2 * N)) as [E|E].
      * unfold submap_finish. cbn [s_fin s_num s_content]. do 2 eexists. split; [reflexivity|]. cbn [map s_content s_fin adv].
        rewrite Z.eqb_refl. destruct (Z.eqb_spec d a) as [->|]; [elim Na; now left|]. cbn. split; [reflexivity|]. cbn.
        assert (N = 1) by lia. subst N. split; [reflexivity | exact Nd].
      * do 2 eexists. split; [reflexivity|]. cbn [map s_content s_fin adv].
        rewrite Z.eqb_refl. destruct (Z.eqb_spec d a) as [->|]; [elim Na; now left|]. cbn. split; [reflexivity|]. cbn.
        exists 1. split; [reflexivity | split; [lia | exact Nd]].
    + unfold insert_all, submap_insert. cbn [s_fin s_num s_content]. rewrite B1 by lia. rewrite ?B. cbn [s_num].
      destruct (Z.eqb_spec (n + 1) (2 * N)); [lia|]. do 2 eexists. split; [reflexivity|]. cbn. rewrite Z.eqb_refl. cbn. split; [reflexivity|]. cbn.
      exists (n + 1). split; [reflexivity|]. split; [lia|]. intros I. apply Na. now right.
  - destruct F as (n & -> & Hn & Nb). unfold insert_id, insert_range_data. cbn [rev app s_num].
    assert (Nb' : ~ In b r) by (intros I; apply Nb; now right).
    destruct (Z.eqb_spec n N); [lia|]. unfold insert_all, submap_insert. cbn [s_fin s_num s_content]. rewrite !B1 by lia. rewrite ?B. cbn [s_num].
    destruct (Z.eqb_spec (N + n + 1) (2 * N)) as [E|E].
    + unfold submap_finish. cbn [s_fin s_num s_content]. do 2 eexists. split; [reflexivity|]. cbn [map s_content s_fin adv]. rewrite !Z.eqb_refl.
      cbn [andb two]. split; [reflexivity|]. cbn [fits].
      replace (N + n + 1) with (2 * N) by lia. replace (n + 1) with N by lia. auto.
    + do 2 eexists. split; [reflexivity|]. cbn [map s_content s_fin adv]. rewrite !Z.eqb_refl. cbn [andb two]. split; [reflexivity|].
      exists (n + 1). split; [do 2 f_equal; lia | split; [lia | exact Nb']].
  - destruct F as (-> & Nb). unfold insert_id, insert_range_data. cbn [rev app s_num]. rewrite Z.eqb_refl.
    unfold add_submap. cbn [app length Z.of_nat Z.leb Z.compare Pos.of_succ_nat Pos.compare Pos.compare_cont Pos.succ s_fin].
    unfold insert_all, submap_insert. cbn [s_fin s_num s_content]. rewrite !B1 by lia. rewrite ?B. cbn [s_num].
    assert (Nd' : (d =? b) = false) by (apply Z.eqb_neq; intros ->; apply Nb; now left).
    destruct (Z.eqb_spec (N + 1) (2 * N)) as [E|E].
    + unfold submap_finish. cbn [s_fin s_num s_content]. do 2 eexists. split; [reflexivity|]. cbn [map s_content s_fin adv]. rewrite Z.eqb_refl, Nd'.
      cbn [andb two negb]. split; [reflexivity|]. cbn [fits]. assert (N = 1) by lia. subst N. split; [reflexivity | exact Nd].
    + do 2 eexists. split; [reflexivity|]. cbn [map s_content s_fin adv]. rewrite Z.eqb_refl, Nd'. cbn [andb two negb]. split; [reflexivity|].
      exists 1. split; [reflexivity | split; [lia | exact Nd]].
Qed.

Lemma hand_over_ok N ds : 1 <= N -> 2 * N < 2 ^ 31 -> NoDup ds -> forall ss w, fits N ss w ds ->
  exists l, hand_over N ss ds = Some l /\ length l = length ds /\ accepted w l = true.
Proof.
  intros H1 H2. induction 1 as [|d r Nd _ IH]; intros ss w F; cbn [hand_over]; [exists []; auto|].
  destruct (hand_over_step N ss w d r H1 H2 F Nd) as (ss' & w' & E & A & F'). rewrite E.
  destruct (IH ss' w' F') as (l & El & Ln & Ac). rewrite El. eexists. split; [reflexivity|]. cbn [length accepted]. rewrite A. auto.
Qed.
