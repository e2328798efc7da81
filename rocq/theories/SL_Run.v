(* Executing the calls of LoadState: proofs. *)
From Coq Require Import List ZArith Bool Lia Sorted.
From Verif Require Import ZMap MapById_Model MapById_Spec MapById_Proofs PG_Model PG_Maps PG_Spec
  PG_Proofs SL_Model.
Import ListNotations.
Open Scope Z_scope.

Definition sub_ids (l : list lcall) : list id :=
  flat_map (fun c => match c with LSubmap s _ => [s] | _ => [] end) l.
Definition node_ids (l : list lcall) : list id :=
  flat_map (fun c => match c with LNode n _ => [n] | _ => [] end) l.
Definition freeze_ids (l : list lcall) : list Z :=
  flat_map (fun c => match c with LFreeze t => [t] | _ => [] end) l.
Definition intra (l : list cons) : list (id * id) :=
  flat_map (fun c => if c_inter c then [] else [(c_sub c, c_node c)]) l.
Definition recs (l : list lcall) : list (id * id) :=
  flat_map (fun c => match c with
                     | LNodeToSubmap n s => [(s, n)]
                     | LConstraints l => intra (map fst l)
                     | _ => []
                     end) l.
Definition loaded_cons (l : list lcall) : list (cons * val) :=
  flat_map (fun c => match c with LConstraints l => l | _ => [] end) l.
Definition item_of (c : lcall) : item :=
  match c with
  | LFreeze t => IFreeze t
  | LLandmarkPose _ _ => IOther
  | LSubmap s _ => ISubmap s
  | LNode n _ => INodeProto n
  | LTrajectory t _ | LOdometry t _ _ | LFixed t _ _ | LLandmark t _ _ _ => IData t
  | LNodeToSubmap n s => INodeToSubmap n s
  | LConstraints l => IConstraints (map fst l)
  end.
Fixpoint run_items (l : list lcall) (p : pay) : option pay :=
  match l with [] => Some p | c :: r => match in_item c p with Some p' => run_items r p' | None => None end end.

Lemma app_flat {A B} (f : A -> list B) a b : flat_map f (a ++ b) = flat_map f a ++ flat_map f b.
Proof. induction a; cbn; [reflexivity|]. now rewrite IHa, app_assoc. Qed.
Lemma sub_ids_app a b : sub_ids (a ++ b) = sub_ids a ++ sub_ids b. Proof. apply app_flat. Qed.
Lemma node_ids_app a b : node_ids (a ++ b) = node_ids a ++ node_ids b. Proof. apply app_flat. Qed.
Lemma freeze_ids_app a b : freeze_ids (a ++ b) = freeze_ids a ++ freeze_ids b. Proof. apply app_flat. Qed.
Lemma recs_app a b : recs (a ++ b) = recs a ++ recs b. Proof. apply app_flat. Qed.
Lemma loaded_app a b : loaded_cons (a ++ b) = loaded_cons a ++ loaded_cons b. Proof. apply app_flat. Qed.
Lemma run_items_app a : forall b p, run_items (a ++ b) p =
  match run_items a p with Some p' => run_items b p' | None => None end.
Proof. induction a as [|c a IH]; intros b p; cbn; [reflexivity|]. destruct (in_item c p); auto. Qed.
Lemma mem_app x a b : mem x (a ++ b) = mem x a || mem x b.
Proof. unfold mem. apply existsb_app. Qed.

(* ---- the constraints ---- *)
Definition same_but_nids (R : id -> id -> Prop) (m m' : mbi sub) : Prop :=
  forall x, match get x m with
            | None => get x m' = None
            | Some d => exists d', get x m' = Some d' /\ obj d' = obj d /\ fin d' = fin d /\
                          forall n, In n (nids d') <-> In n (nids d) \/ R x n
            end.
Lemma add_constraints_ok l : forall g, wf (subs g) ->
  (forall c, In c l -> stored (c_node c) (nodes g) /\ stored (c_sub c) (subs g)) ->
  (forall c, In c l -> knows (fst (c_node c)) g = true /\ knows (fst (c_sub c)) g = true) ->
  (forall c n, In c l -> recorded g (c_sub c) n -> stored n (nodes g)) ->
  NoDup (intra l) -> (forall x n, In (x, n) (intra l) -> ~ recorded g x n) ->
  exists m, add_constraints l g = Some (set_constraints (constraints g ++ l) (set_subs m g)) /\ wf m /\
    same_but_nids (fun x n => In (x, n) (intra l)) (subs g) m /\
    forall x, (forall n, ~ In (x, n) (intra l)) -> get x m = get x (subs g).
Proof.
  induction l as [|c l IH]; intros g W St Kn Rec ND New.
  - exists (subs g). cbn [add_constraints]. rewrite app_nil_r. split; [now destruct g|]. split; [exact W|].
    split; [|reflexivity].
    intros x. destruct (get x (subs g)) as [d|]; [|reflexivity]. exists d. repeat split; auto. intros [?|[]]; auto.
  - cbn [add_constraints]. destruct (St c (or_introl eq_refl)) as [S1 S2].
    destruct (Kn c (or_introl eq_refl)) as [K1 K2].
    rewrite (proj2 (has_stored _ _) S1). unfold stored in S2. change (mbi_at (fst (c_sub c)) (snd (c_sub c)) (subs g)) with (get (c_sub c) (subs g)) in S2.
    destruct (get (c_sub c) (subs g)) as [d|] eqn:G; [|congruence]. cbn [bind].
    destruct (c_inter c) eqn:Ti.
    + assert (L : latest_ok (c_node c) (c_sub c) g = true).
      { unfold latest_ok. rewrite (proj2 (has_stored _ _) S1), G. cbn [andb].
        destruct (rev (nids d)) as [|y r] eqn:Rv; [reflexivity|]. apply has_stored, (Rec c); [now left|].
        exists d. split; [exact G|]. apply in_rev. rewrite Rv. now left. }
      rewrite L. unfold connect_ok. rewrite K1, K2, orb_true_r. cbn [bind].
      destruct (IH (set_constraints (constraints g ++ [c]) g)) as (m & E & Wm & Sm & Fm); cbn [subs nodes set_constraints].
      * exact W.
      * intros c' I. apply St. now right.
      * intros c' I. apply (Kn c'). now right.
      * intros c' n I. apply Rec. now right.
      * cbn [intra flat_map] in ND. now rewrite Ti in ND.
      * intros x n I. apply New. cbn [intra flat_map]. now rewrite Ti.
      * exists m. rewrite E. split; [|split; [exact Wm|]].
        -- destruct g; cbn. now rewrite <- app_assoc.
        -- cbn [intra flat_map]. rewrite Ti. exact (conj Sm Fm).
    + assert (Nm : mem (c_node c) (nids d) = false).
      { apply mem_false. intros I. apply (New (c_sub c) (c_node c)).
        - cbn [intra flat_map]. rewrite Ti. now left.
        - exists d. auto. }
      rewrite Nm. cbn [negb].
      pose proof (upd_get (subs g) (c_sub c) (fun d => mk_sub (obj d) (fin d) (set_add (c_node c) (nids d))) W) as U.
      destruct (upd _ _ (subs g)) as [m1|] eqn:Eu; [|congruence]. cbn [bind].
      destruct U as (W1 & (d0 & G0 & U) & _). rewrite G in G0. injection G0 as <-.
      cbn [intra flat_map] in ND, New. rewrite Ti in ND, New. cbn [app] in ND, New.
      apply NoDup_cons_iff in ND as [N1 ND].
      assert (R1 : forall x n, recorded (set_constraints (constraints g ++ [c]) (set_subs m1 g)) x n <->
                               recorded g x n \/ (x = c_sub c /\ n = c_node c)).
      { intros x n. rewrite !recorded_iff. cbn [subs set_constraints set_subs]. rewrite U.
        destruct (id_eqb_spec x (c_sub c)) as [->|Nx].
        - rewrite G. split.
          + intros (d' & [= <-] & I). cbn in I. apply set_add_In in I as [-> | I]; eauto.
          + intros [(d' & [= <-] & I) | [_ ->]]; (eexists; split; [reflexivity|]; cbn; apply set_add_In; auto).
        - split; [intros H; now left|]. intros [H | [-> _]]; [exact H | congruence]. }
      destruct (IH (set_constraints (constraints g ++ [c]) (set_subs m1 g))) as (m & E & Wm & Sm & Fm); cbn [subs nodes set_constraints set_subs].
      * exact W1.
      * intros c' I. destruct (St c' (or_intror I)) as [A B]. split; [exact A|].
        unfold stored in *. fold (get (c_sub c') m1). fold (get (c_sub c') (subs g)) in B. rewrite U.
        destruct (id_eqb _ _); congruence.
      * intros c' I. apply (Kn c'). now right.
      * intros c' n I R. apply R1 in R as [R | [_ ->]]; [|exact S1]. eapply Rec; [right; exact I | exact R].
      * exact ND.
      * intros x n I R. apply R1 in R as [R | [-> ->]]; [|contradiction]. eapply New; [right; exact I | exact R].
      * exists m. split; [|split; [exact Wm|]].
        -- etransitivity; [exact E|]. destruct g; cbn. now rewrite <- app_assoc.
        -- cbn [intra flat_map]. rewrite Ti. cbn [app]. split.
           2:{ intros x Nx. rewrite Fm by (intros n I; apply (Nx n); now right).
               cbn [subs set_constraints set_subs]. rewrite U.
               destruct (id_eqb_spec x (c_sub c)) as [Ex|]; [subst x | reflexivity].
               elim (Nx (c_node c)). now left. }
           intros x. specialize (Sm x). cbn [subs set_constraints set_subs] in Sm. rewrite U in Sm.
           destruct (id_eqb_spec x (c_sub c)) as [Ex|Nx]; [subst x|].
           ++ rewrite G. destruct Sm as (d' & E1 & E2 & E3 & E4). exists d'. cbn in E2, E3, E4.
              split; [exact E1|]. split; [exact E2|]. split; [exact E3|]. intros n. rewrite E4, set_add_In.
              cbn [In]. split; [intros [[-> | H] | H]; auto | intros [H | [H | H]]; auto]. left. left. congruence.
           ++ destruct (get x (subs g)) as [d2|]; [|exact Sm]. destruct Sm as (d' & E1 & E2 & E3 & E4).
              exists d'. split; [exact E1|]. split; [exact E2|]. split; [exact E3|]. intros n. rewrite E4.
              cbn [In]. split; [intros [H | H]; auto | intros [H | [H | H]]; auto; congruence].
Qed.

(* ---- what a list of calls must be like ---- *)
Definition touches (c : lcall) : option Z :=
  match c with
  | LFreeze t | LTrajectory t _ | LOdometry t _ _ | LFixed t _ _ | LLandmark t _ _ _ => Some t
  | LSubmap x _ | LNode x _ | LNodeToSubmap _ x => Some (fst x)
  | _ => None
  end.
Definition need (pre : list lcall) (c : lcall) : Prop :=
  match c with
  | LNodeToSubmap n s => In n (node_ids pre) /\ In s (sub_ids pre)
  | LConstraints l =>
      (forall e, In e l -> In (c_node (fst e)) (node_ids pre) /\ In (c_sub (fst e)) (sub_ids pre)) /\
      NoDup (intra (map fst l)) /\ recs pre = []
  | _ => True
  end.
Record orderly (n0 : Z) (C : list lcall) : Prop := {
  o_sub : NoDup (sub_ids C);
  o_node : NoDup (node_ids C);
  o_freeze : NoDup (freeze_ids C);
  o_new : forall c t, In c C -> touches c = Some t -> n0 <= t;
  o_nonneg : forall x, In x (sub_ids C) \/ In x (node_ids C) -> 0 <= snd x;
  o_need : forall pre c post, C = pre ++ c :: post -> need pre c
}.
(* the map builder it is loaded into has n0 trajectories *)
Record host (n0 : Z) (g : graph) : Prop := {
  h_pos : 0 <= n0;
  h_wf : wfg g;
  h_sorted : zsorted (trajs g);
  h_trajs : forall t, n0 <= t -> zfind t (trajs g) = None;
  h_none : forall t j, n0 <= t -> get (t, j) (subs g) = None /\ get (t, j) (nodes g) = None /\
             get (t, j) (osubs g) = None /\ get (t, j) (onodes g) = None /\ get (t, j) (gposes g) = None;
  h_frozen : forall t, is_frozen t g = true -> knows t g = true
}.

Section R.
Variables (ob : id -> Z) (every_n n0 : Z) (g0 : graph) (p0 : pay) (C : list lcall) (p1 : pay).
Hypothesis O : orderly n0 C.
Hypothesis H0 : host n0 g0.
Hypothesis P1 : run_items C p0 = Some p1.

Record J (A B q : list lcall) (s : lsys) : Prop := {
  j_split : A = B ++ q;
  j_lq : lq s = q;
  j_queue : queue (ls s) = map item_of q;
  j_md : md (ls s) = Draining \/ (md (ls s) = Idle /\ q = []);
  j_wf : wfg (gr (ls s));
  j_sorted : zsorted (trajs (gr (ls s)));
  j_nodes : forall x, get x (nodes (gr (ls s))) = if mem x (node_ids A) then Some tt else get x (nodes g0);
  j_onodes : forall x, get x (onodes (gr (ls s))) = if mem x (node_ids B) then Some tt else get x (onodes g0);
  j_gposes : forall x, get x (gposes (gr (ls s))) = if mem x (sub_ids A) then Some tt else get x (gposes g0);
  j_osubs : forall x, get x (osubs (gr (ls s))) = if mem x (sub_ids B) then Some tt else get x (osubs g0);
  j_subs : forall x, if mem x (sub_ids A)
             then exists d, get x (subs (gr (ls s))) = Some d /\ obj d = ob x /\ fin d = mem x (sub_ids B) /\
                  forall n, In n (nids d) <-> In (x, n) (recs B)
             else get x (subs (gr (ls s))) = get x (subs g0);
  j_new : forall t, n0 <= t -> traj_state t (gr (ls s)) =
             (if existsb (Z.eqb t) (freeze_ids B) then Frozen else Active, Normal);
  j_old : forall t, t < n0 -> zfind t (trajs (gr (ls s))) = zfind t (trajs g0);
  j_knows : forall t, In t (map fst (sub_ids A)) \/ In t (map fst (node_ids A)) \/ In t (freeze_ids A) \/
              knows t g0 = true -> knows t (gr (ls s)) = true;
  j_cons : constraints (gr (ls s)) = constraints g0 ++ map fst (loaded_cons B);
  j_rest : initial (gr (ls s)) = initial g0 /\ trimmers (gr (ls s)) = trimmers g0 /\
           searches (gr (ls s)) = searches g0 /\ num_nodes (gr (ls s)) = num_nodes g0 /\
           num_finished (gr (ls s)) = num_finished g0 /\ since_closure (gr (ls s)) = since_closure g0;
  j_pay : exists p, run_items B p0 = Some p /\ lp s = set_sp (sp (lp s)) (set_np (np (lp s)) p);
  j_sp : (forall x v, In (LSubmap x v) A -> sp (lp s) x = v) /\
         (forall x, ~ In x (sub_ids A) -> sp (lp s) x = sp p0 x);
  j_np : (forall x v, In (LNode x v) A -> np (lp s) x = v) /\
         (forall x, ~ In x (node_ids A) -> np (lp s) x = np p0 x)
}.

Lemma start : J [] [] [] (mk_lsys (mk_sys g0 [] Idle) p0 []).
Proof.
  destruct H0. constructor; cbn; auto.
  - intros t L. unfold traj_state. now rewrite h_trajs0.
  - intros t [[] | [[] | [[] | K]]]. exact K.
  - now rewrite app_nil_r.
  - repeat split.
  - exists p0. split; [reflexivity|]. now destruct p0.
  - split; [tauto | reflexivity].
  - split; [tauto | reflexivity].
Qed.

Lemma state_normal A B q s t : J A B q s -> n0 <= t ->
  traj_state t (gr (ls s)) = (Active, Normal) \/ traj_state t (gr (ls s)) = (Frozen, Normal).
Proof. intros V L. rewrite (j_new _ _ _ _ V t L). destruct (existsb _ _); auto. Qed.
Lemma modify A B q s t : J A B q s -> n0 <= t -> can_modify t (gr (ls s)) = true.
Proof.
  intros V L. pose proof (state_normal _ _ _ _ t V L) as S. unfold can_modify, traj_state in *.
  destruct (zfind t (trajs (gr (ls s)))) as [[[] []]|]; destruct S; try discriminate; reflexivity.
Qed.
Lemma add_ok A B q s t : J A B q s -> n0 <= t ->
  add_trajectory t (gr (ls s)) = Some (set_added (t :: added (gr (ls s)))
    (set_trajs (zput t (traj_state t (gr (ls s))) (trajs (gr (ls s)))) (gr (ls s)))).
Proof. intros V L. unfold add_trajectory. destruct (state_normal _ _ _ _ t V L) as [-> | ->]; reflexivity. Qed.
Lemma put_state t a g : zsorted (trajs g) -> traj_state a (set_trajs (zput t (traj_state t g) (trajs g)) g) = traj_state a g.
Proof.
  intros S. unfold traj_state at 1. cbn. rewrite zfind_zput by exact S. destruct (Z.eqb_spec a t) as [->|]; reflexivity.
Qed.
Lemma new_sub pre c post s : C = pre ++ c :: post -> sub_ids [c] = [s] -> ~ In s (sub_ids pre).
Proof.
  intros E F I. pose proof (o_sub _ _ O) as ND. rewrite E in ND.
  change (pre ++ c :: post) with (pre ++ [c] ++ post) in ND. rewrite !sub_ids_app, F in ND. cbn in ND.
  apply NoDup_remove_2 in ND. apply ND. apply in_app_iff. auto.
Qed.
Lemma new_node pre c post s : C = pre ++ c :: post -> node_ids [c] = [s] -> ~ In s (node_ids pre).
Proof.
  intros E F I. pose proof (o_node _ _ O) as ND. rewrite E in ND.
  change (pre ++ c :: post) with (pre ++ [c] ++ post) in ND. rewrite !node_ids_app, F in ND. cbn in ND.
  apply NoDup_remove_2 in ND. apply ND. apply in_app_iff. auto.
Qed.
Lemma new_freeze pre c post s : C = pre ++ c :: post -> freeze_ids [c] = [s] -> ~ In s (freeze_ids pre).
Proof.
  intros E F I. pose proof (o_freeze _ _ O) as ND. rewrite E in ND.
  change (pre ++ c :: post) with (pre ++ [c] ++ post) in ND. rewrite !freeze_ids_app, F in ND. cbn in ND.
  apply NoDup_remove_2 in ND. apply ND. apply in_app_iff. auto.
Qed.
Lemma touch pre c post t : C = pre ++ c :: post -> touches c = Some t -> n0 <= t.
Proof. intros E T. eapply (o_new _ _ O); [|exact T]. rewrite E. apply in_app_iff. right. now left. Qed.

(* calls that only add an item *)
Definition lazy (c : lcall) : bool :=
  match c with LFreeze _ | LSubmap _ _ | LNode _ _ => false | _ => true end.
Lemma md_draining m (its : list item) i : m = Draining \/ m = Idle ->
  match m, i :: its with Idle, _ :: _ => Draining | _, _ => m end = Draining.
Proof. now intros [-> | ->]. Qed.
Lemma call_lazy A B q s c post : J A B q s -> C = A ++ c :: post -> lazy c = true ->
  exists s', lstep ob every_n (LCall c) s = Some s' /\ J (A ++ [c]) B (q ++ [c]) s'.
Proof.
  intros V E L. destruct s as [[g qu m] p lq']. pose proof V as []. cbn in *. subst lq' qu A.
  assert (D : do_call (plain ob c) g = Some (g, [item_of c])) by (destruct c; try discriminate; reflexivity).
  assert (Ids : sub_ids [c] = [] /\ node_ids [c] = [] /\ freeze_ids [c] = [] /\ at_once c p = p)
    by (destruct c; try discriminate; repeat split).
  destruct Ids as (I1 & I2 & I3 & I4).
  unfold lstep. cbn [step ls md gr queue]. rewrite D. cbn [bind fst snd]. rewrite I4.
  eexists. split; [reflexivity|]. constructor; cbn [ls lp lq gr queue md]; auto.
  - apply app_assoc_reverse.
  - now rewrite map_app.
  - left. destruct j_md0 as [-> | [-> _]]; reflexivity.
  - intros x. rewrite node_ids_app, I2, app_nil_r. apply j_nodes0.
  - intros x. rewrite sub_ids_app, I1, app_nil_r. apply j_gposes0.
  - intros x. rewrite sub_ids_app, I1, app_nil_r. apply j_subs0.
  - intros t. rewrite (sub_ids_app _ [c]), (node_ids_app _ [c]), (freeze_ids_app _ [c]), I1, I2, I3, !app_nil_r. apply j_knows0.
  - split; intros x; [|rewrite sub_ids_app, I1, app_nil_r; apply j_sp0].
    intros v I. apply in_app_iff in I as [I | [-> | []]]; [now apply j_sp0 | discriminate].
  - split; intros x; [|rewrite node_ids_app, I2, app_nil_r; apply j_np0].
    intros v I. apply in_app_iff in I as [I | [-> | []]]; [now apply j_np0 | discriminate].
Qed.

Lemma knows_cons t a l g : knows a (set_added (t :: l) g) = (a =? t) || existsb (Z.eqb a) l.
Proof. reflexivity. Qed.

Lemma call_freeze A B q s t post : J A B q s -> C = A ++ LFreeze t :: post ->
  exists s', lstep ob every_n (LCall (LFreeze t)) s = Some s' /\ J (A ++ [LFreeze t]) B (q ++ [LFreeze t]) s'.
Proof.
  intros V E. destruct s as [[g qu m] p lq']. pose proof V as []. cbn in *. subst lq' qu A.
  unfold lstep. cbn. eexists. split; [reflexivity|]. constructor; cbn [ls lp lq gr queue md]; auto.
  - apply app_assoc_reverse.
  - now rewrite map_app.
  - left. destruct j_md0 as [-> | [-> _]]; reflexivity.
  - destruct j_wf0. constructor; auto.
  - intros x. rewrite node_ids_app, app_nil_r. apply j_nodes0.
  - intros x. rewrite sub_ids_app, app_nil_r. apply j_gposes0.
  - intros x. rewrite sub_ids_app, app_nil_r. apply j_subs0.
  - intros a. rewrite (sub_ids_app _ [LFreeze t]), (node_ids_app _ [LFreeze t]), (freeze_ids_app _ [LFreeze t]), !app_nil_r.
    rewrite knows_cons, orb_true_iff. intros K. cbn in K. rewrite (in_app_iff (freeze_ids _)) in K.
    destruct (Z.eqb_spec a t) as [->|Na]; [now left|]. right. apply j_knows0.
    destruct K as [K | [K | [[K | [K | []]] | K]]]; auto. congruence.
  - split; intros x; [|rewrite sub_ids_app, app_nil_r; apply j_sp0].
    intros v I. apply in_app_iff in I as [I | [I | []]]; [now apply j_sp0 | discriminate].
  - split; intros x; [|rewrite node_ids_app, app_nil_r; apply j_np0].
    intros v I. apply in_app_iff in I as [I | [I | []]]; [now apply j_np0 | discriminate].
Qed.

Lemma over_spec {X} x (v : X) f y : over x v f y = if id_eqb y x then v else f y.
Proof. reflexivity. Qed.
Lemma mem_snoc x A c l : l = [c] -> mem x (A ++ l) = mem x A || id_eqb x c.
Proof. intros ->. rewrite mem_app. cbn. now rewrite orb_false_r. Qed.
Lemma In_sub_ids x l : In x (sub_ids l) <-> exists v, In (LSubmap x v) l.
Proof.
  unfold sub_ids. rewrite in_flat_map. split.
  - intros (c & I & J'). destruct c; try contradiction. destruct J' as [-> | []]. eauto.
  - intros [v I]. eexists. split; [exact I|]. now left.
Qed.
Lemma In_node_ids x l : In x (node_ids l) <-> exists v, In (LNode x v) l.
Proof.
  unfold node_ids. rewrite in_flat_map. split.
  - intros (c & I & J'). destruct c; try contradiction. destruct J' as [-> | []]. eauto.
  - intros [v I]. eexists. split; [exact I|]. now left.
Qed.

Lemma call_submap A B q s x v post : J A B q s -> C = A ++ LSubmap x v :: post ->
  exists s', lstep ob every_n (LCall (LSubmap x v)) s = Some s' /\
             J (A ++ [LSubmap x v]) B (q ++ [LSubmap x v]) s'.
Proof.
  intros V E. pose proof (touch _ _ _ (fst x) E eq_refl) as L.
  pose proof (new_sub _ _ _ x E eq_refl) as Nx.
  assert (Nn : 0 <= snd x).
  { apply (o_nonneg _ _ O). left. rewrite E, sub_ids_app. apply in_app_iff. right. now left. }
  assert (Rx : forall n, ~ In (x, n) (recs B)).
  { intros n I. unfold recs in I. apply in_flat_map in I as (c & I & R).
    destruct (in_split _ _ I) as (b1 & b2 & Eb).
    assert (Nd : need b1 c).
    { apply (o_need _ _ O b1 c (b2 ++ q ++ LSubmap x v :: post)). rewrite E, (j_split _ _ _ _ V), Eb.
      now rewrite <- !app_assoc. }
    assert (Sx : In x (sub_ids b1)).
    { destruct c; try contradiction.
      - destruct R as [[= -> ->] | []]. apply Nd.
      - apply in_flat_map in R as (k & Ik & Rk). destruct (c_inter k); [contradiction|].
        destruct Rk as [[= <- <-] | []]. apply in_map_iff in Ik as (e & <- & Ie). now apply Nd. }
    apply Nx. rewrite (j_split _ _ _ _ V), Eb, !sub_ids_app, !in_app_iff. auto. }
  destruct s as [[g qu m] p lq']. pose proof V as []. cbn in *. subst lq' qu.
  pose proof (add_ok _ _ _ _ (fst x) V L) as Ad. pose proof (put_state (fst x)) as Ps.
  unfold lstep. cbn [step ls md gr queue plain do_call]. cbn [ls gr] in Ad. rewrite Ad. cbn [bind].
  set (g1 := set_added _ _).
  assert (S1 : forall a, traj_state a g1 = traj_state a g) by (intros a; apply (Ps a g j_sorted0)).
  assert (Cm : can_modify (fst x) g1 = true).
  { pose proof (state_normal _ _ _ _ (fst x) V L) as S. cbn [ls gr] in S. rewrite <- S1 in S.
    unfold can_modify, traj_state in *. destruct (zfind (fst x) (trajs g1)) as [[[] []]|]; destruct S; try discriminate; reflexivity. }
  rewrite Cm. cbn [subs gposes g1 set_added set_trajs].
  destruct (h_none _ _ H0 (fst x) (snd x) L) as (F1 & _ & _ & _ & F2).
  replace (fst x, snd x) with x in F1, F2 by (now destruct x).
  assert (Mx : mem x (sub_ids A) = false) by now apply mem_false.
  assert (G1 : get x (subs g) = None).
  { specialize (j_subs0 x). now rewrite Mx, F1 in j_subs0. }
  assert (G2 : get x (gposes g) = None) by now rewrite j_gposes0, Mx.
  pose proof (insert_get (subs g) (fst x) (snd x) (mk_sub (ob x) false []) (w_subs _ j_wf0)) as I1.
  pose proof (insert_get (gposes g) (fst x) (snd x) tt (w_gposes _ j_wf0)) as I2.
  replace (fst x, snd x) with x in I1, I2 by (now destruct x).
  destruct (mbi_insert (fst x) (snd x) (mk_sub (ob x) false []) (subs g)) as [ms|].
  2:{ destruct I1 as [K | [K | K]]; [destruct H0; lia | lia | congruence]. }
  destruct (mbi_insert (fst x) (snd x) tt (gposes g)) as [mg|].
  2:{ destruct I2 as [K | [K | K]]; [destruct H0; lia | lia | congruence]. }
  cbn [bind fst snd]. destruct I1 as (W1 & _ & _ & _ & I1 & _). destruct I2 as (W2 & _ & _ & _ & I2 & _).
  eexists. split; [reflexivity|]. constructor; cbn [ls lp lq gr queue md]; auto.
  - rewrite j_split0. apply app_assoc_reverse.
  - now rewrite map_app.
  - left. destruct j_md0 as [-> | [-> _]]; reflexivity.
  - destruct j_wf0. constructor; auto.
  - cbn. now apply zput_sorted.
  - intros y. rewrite node_ids_app, app_nil_r. apply j_nodes0.
  - intros y. cbn [gposes set_gposes]. rewrite I2, sub_ids_app, (mem_snoc y _ x) by reflexivity.
    destruct (id_eqb y x); [now rewrite orb_true_r | rewrite orb_false_r; apply j_gposes0].
  - intros y. cbn [subs set_gposes set_subs]. rewrite sub_ids_app, (mem_snoc y _ x) by reflexivity. rewrite I1.
    destruct (id_eqb_spec y x) as [->|Ny].
    + rewrite orb_true_r. eexists. split; [reflexivity|]. cbn. split; [reflexivity|]. split.
      * symmetry. apply mem_false. intros I. apply Nx. rewrite j_split0, sub_ids_app, in_app_iff. auto.
      * intros n. split; [intros [] | apply Rx].
    + rewrite orb_false_r. apply j_subs0.
  - intros t Lt. transitivity (traj_state t g1); [reflexivity|]. rewrite S1. now apply j_new0.
  - intros t Lt. cbn [trajs set_gposes set_subs g1 set_added set_trajs]. rewrite zfind_zput by exact j_sorted0.
    destruct (Z.eqb_spec t (fst x)); [lia | now apply j_old0].
  - intros a K. rewrite sub_ids_app, node_ids_app, freeze_ids_app in K. cbn in K. rewrite !app_nil_r, map_app in K.
    unfold knows. cbn [added set_gposes set_subs g1 set_added]. cbn [existsb]. rewrite orb_true_iff.
    destruct (Z.eqb_spec a (fst x)) as [->|Na]; [now left|]. right. apply j_knows0.
    rewrite in_app_iff in K. cbn in K. destruct K as [[K | [K | []]] | K]; auto. congruence.
  - destruct j_pay0 as (pp & R & Ep). exists pp. split; [exact R|]. cbn. rewrite Ep. reflexivity.
  - destruct j_sp0 as [Q1 Q2]. split; cbn [at_once sp set_sp].
    + intros y w I. rewrite over_spec. apply in_app_iff in I as [I | [[= -> ->] | []]].
      * destruct (id_eqb_spec y x) as [->|]; [|now apply Q1]. elim Nx. apply In_sub_ids. eauto.
      * now rewrite id_eqb_refl.
    + intros y I. rewrite sub_ids_app, in_app_iff in I. cbn in I. rewrite over_spec.
      destruct (id_eqb_spec y x) as [->|]; [tauto | apply Q2; tauto].
  - destruct j_np0 as [Q1 Q2]. split; cbn [at_once np set_sp].
    + intros y w I. apply in_app_iff in I as [I | [I | []]]; [now apply Q1 | discriminate].
    + intros y I. rewrite node_ids_app, app_nil_r in I. now apply Q2.
Qed.

Lemma call_node A B q s x v post : J A B q s -> C = A ++ LNode x v :: post ->
  exists s', lstep ob every_n (LCall (LNode x v)) s = Some s' /\
             J (A ++ [LNode x v]) B (q ++ [LNode x v]) s'.
Proof.
  intros V E. pose proof (touch _ _ _ (fst x) E eq_refl) as L.
  pose proof (new_node _ _ _ x E eq_refl) as Nx.
  assert (Nn : 0 <= snd x).
  { apply (o_nonneg _ _ O). right. rewrite E, node_ids_app. apply in_app_iff. right. now left. }
  destruct s as [[g qu m] p lq']. pose proof V as []. cbn in *. subst lq' qu.
  pose proof (add_ok _ _ _ _ (fst x) V L) as Ad. pose proof (put_state (fst x)) as Ps.
  unfold lstep. cbn [step ls md gr queue plain do_call]. cbn [ls gr] in Ad. rewrite Ad. cbn [bind].
  set (g1 := set_added _ _).
  assert (S1 : forall a, traj_state a g1 = traj_state a g) by (intros a; apply (Ps a g j_sorted0)).
  assert (Cm : can_modify (fst x) g1 = true).
  { pose proof (state_normal _ _ _ _ (fst x) V L) as S. cbn [ls gr] in S. rewrite <- S1 in S.
    unfold can_modify, traj_state in *. destruct (zfind (fst x) (trajs g1)) as [[[] []]|]; destruct S; try discriminate; reflexivity. }
  rewrite Cm. cbn [nodes g1 set_added set_trajs].
  destruct (h_none _ _ H0 (fst x) (snd x) L) as (_ & F1 & _).
  replace (fst x, snd x) with x in F1 by (now destruct x).
  assert (Mx : mem x (node_ids A) = false) by now apply mem_false.
  assert (G1 : get x (nodes g) = None) by now rewrite j_nodes0, Mx.
  pose proof (insert_get (nodes g) (fst x) (snd x) tt (w_nodes _ j_wf0)) as I1.
  replace (fst x, snd x) with x in I1 by (now destruct x).
  destruct (mbi_insert (fst x) (snd x) tt (nodes g)) as [ms|].
  2:{ destruct I1 as [K | [K | K]]; [destruct H0; lia | lia | congruence]. }
  cbn [bind fst snd]. destruct I1 as (W1 & _ & _ & _ & I1 & _).
  eexists. split; [reflexivity|]. constructor; cbn [ls lp lq gr queue md]; auto.
  - rewrite j_split0. apply app_assoc_reverse.
  - now rewrite map_app.
  - left. destruct j_md0 as [-> | [-> _]]; reflexivity.
  - destruct j_wf0. constructor; auto.
  - cbn. now apply zput_sorted.
  - intros y. cbn [nodes set_nodes]. rewrite I1, node_ids_app, (mem_snoc y _ x) by reflexivity.
    destruct (id_eqb y x); [now rewrite orb_true_r | rewrite orb_false_r; apply j_nodes0].
  - intros y. rewrite sub_ids_app, app_nil_r. apply j_gposes0.
  - intros y. rewrite sub_ids_app, app_nil_r. apply j_subs0.
  - intros t Lt. transitivity (traj_state t g1); [reflexivity|]. rewrite S1. now apply j_new0.
  - intros t Lt. cbn [trajs set_nodes g1 set_added set_trajs]. rewrite zfind_zput by exact j_sorted0.
    destruct (Z.eqb_spec t (fst x)); [lia | now apply j_old0].
  - intros a K. rewrite sub_ids_app, node_ids_app, freeze_ids_app in K. cbn in K. rewrite !app_nil_r, map_app in K.
    unfold knows. cbn [added set_nodes g1 set_added]. cbn [existsb]. rewrite orb_true_iff.
    destruct (Z.eqb_spec a (fst x)) as [->|Na]; [now left|]. right. apply j_knows0.
    rewrite in_app_iff in K. cbn in K. destruct K as [K | [[K | [K | []]] | K]]; auto. congruence.
  - destruct j_pay0 as (pp & R & Ep). exists pp. split; [exact R|]. cbn. rewrite Ep. reflexivity.
  - destruct j_sp0 as [Q1 Q2]. split; cbn [at_once sp set_np].
    + intros y w I. apply in_app_iff in I as [I | [I | []]]; [now apply Q1 | discriminate].
    + intros y I. rewrite sub_ids_app, app_nil_r in I. now apply Q2.
  - destruct j_np0 as [Q1 Q2]. split; cbn [at_once np set_np].
    + intros y w I. rewrite over_spec. apply in_app_iff in I as [I | [[= -> ->] | []]].
      * destruct (id_eqb_spec y x) as [->|]; [|now apply Q1]. elim Nx. apply In_node_ids. eauto.
      * now rewrite id_eqb_refl.
    + intros y I. rewrite node_ids_app, in_app_iff in I. cbn in I. rewrite over_spec.
      destruct (id_eqb_spec y x) as [->|]; [tauto | apply Q2; tauto].
Qed.

Lemma call_ok A B q s c post : J A B q s -> C = A ++ c :: post ->
  exists s', lstep ob every_n (LCall c) s = Some s' /\ J (A ++ [c]) B (q ++ [c]) s'.
Proof.
  intros V E. destruct (lazy c) eqn:L; [eapply call_lazy; eassumption|].
  destruct c; try discriminate; [eapply call_freeze | eapply call_submap | eapply call_node]; eassumption.
Qed.

(* ---- the worker ---- *)
Lemma in_item_commute c p f h :
  in_item c (set_sp f (set_np h p)) = option_map (fun p' => set_sp f (set_np h p')) (in_item c p).
Proof.
  destruct c; cbn; try reflexivity.
  - destruct (zfind (fst n) (tdata p)); reflexivity.
  - destruct (mbt_append t time v (odometry p)); reflexivity.
  - destruct (mbt_append t time v (fixed p)); reflexivity.
Qed.
Lemma existsb_In t l : existsb (Z.eqb t) l = true <-> In t l.
Proof.
  rewrite existsb_exists. split.
  - intros (y & I & E). apply Z.eqb_eq in E. now subst.
  - intros I. exists t. split; [exact I | apply Z.eqb_refl].
Qed.

(* the conclusion once the item is executed: what changes in the graph *)
Lemma work_pay A B c q s post : J A B (c :: q) s -> C = A ++ post ->
  exists p', in_item c (lp s) = Some p' /\
    (exists p, run_items (B ++ [c]) p0 = Some p /\ p' = set_sp (sp p') (set_np (np p') p)) /\
    sp p' = sp (lp s) /\ np p' = np (lp s).
Proof.
  intros V E. destruct (j_pay _ _ _ _ V) as (p & R & Ep).
  assert (Hc : exists p2, in_item c p = Some p2).
  { rewrite E, (j_split _ _ _ _ V), <- app_assoc, run_items_app, R in P1. cbn in P1.
    destruct (in_item c p); [eauto | discriminate]. }
  destruct Hc as [p2 Hc]. rewrite Ep, in_item_commute, Hc. cbn. eexists. split; [reflexivity|]. split.
  - exists p2. rewrite run_items_app, R. cbn. rewrite Hc. split; reflexivity.
  - split; reflexivity.
Qed.

(* the items that do not change the graph *)
Definition quiet (c : lcall) : bool :=
  match c with
  | LLandmarkPose _ _ | LTrajectory _ _ | LOdometry _ _ _ | LFixed _ _ _ | LLandmark _ _ _ _ => true
  | _ => false
  end.

Lemma work_ok A B c q s o post : J A B (c :: q) s -> C = A ++ post ->
  exists s', lstep ob every_n (LWork o) s = Some s' /\ J A (B ++ [c]) q s'.
Proof.
  intros V E. destruct (work_pay _ _ _ _ _ _ V E) as (p' & Ip & Pp & Esp & Enp).
  assert (Ec : C = B ++ c :: (q ++ post)) by (rewrite E, (j_split _ _ _ _ V), <- app_assoc; reflexivity).
  pose proof (o_need _ _ O _ _ _ Ec) as Nd.
  destruct s as [[g qu m] p lq']. pose proof V as []. cbn [ls lp lq gr queue md] in *.
  destruct j_md0 as [-> | [_ K]]; [|discriminate]. subst lq' qu.
  assert (Tch : forall t, touches c = Some t -> can_modify t g = true).
  { intros t T. apply (modify _ _ _ _ t V). eapply touch; [exact Ec | exact T]. }
  assert (Sn : A = (B ++ [c]) ++ q) by (rewrite j_split0, <- app_assoc; reflexivity).
  assert (Fin : forall g', exec every_n o (item_of c) g = Some (g', false) ->
    lstep ob every_n (LWork o) (mk_lsys (mk_sys g (map item_of (c :: q)) Draining) p (c :: q)) =
      Some (mk_lsys (mk_sys g' (map item_of q) Draining) p' q)).
  { intros g' Ex. unfold lstep. cbn [ls step md queue gr map]. rewrite Ex. cbn [bind lq lp fst snd].
    now rewrite Ip. }
  assert (Go : forall g', exec every_n o (item_of c) g = Some (g', false) ->
     wfg g' -> zsorted (trajs g') -> nodes g' = nodes g -> gposes g' = gposes g -> added g' = added g ->
     (forall x, get x (onodes g') = if mem x (node_ids [c]) then Some tt else get x (onodes g)) ->
     (forall x, get x (osubs g') = if mem x (sub_ids [c]) then Some tt else get x (osubs g)) ->
     (forall x, match get x (subs g) with
                | None => get x (subs g') = None
                | Some d => exists d', get x (subs g') = Some d' /\ obj d' = obj d /\
                    fin d' = fin d || mem x (sub_ids [c]) /\
                    forall n, In n (nids d') <-> In n (nids d) \/ In (x, n) (recs [c])
                end) ->
     (forall x, ~ In x (sub_ids A) -> get x (subs g') = get x (subs g)) ->
     (forall t, n0 <= t -> traj_state t g' =
        if existsb (Z.eqb t) (freeze_ids [c]) then (Frozen, Normal) else traj_state t g) ->
     (forall t, t < n0 -> zfind t (trajs g') = zfind t (trajs g)) ->
     constraints g' = constraints g ++ map fst (loaded_cons [c]) ->
     (initial g' = initial g /\ trimmers g' = trimmers g /\ searches g' = searches g /\
      num_nodes g' = num_nodes g /\ num_finished g' = num_finished g /\ since_closure g' = since_closure g) ->
     exists s', lstep ob every_n (LWork o) (mk_lsys (mk_sys g (map item_of (c :: q)) Draining) p (c :: q)) = Some s' /\
       J A (B ++ [c]) q s').
  { intros g' Ex Wg Zs En Eg Ea Eon Eos Es Es2 Et1 Et2 Econ Er.
    eexists. split; [apply (Fin _ Ex)|]. constructor; cbn [ls lp lq gr queue md]; auto.
    - intros x. rewrite En. apply j_nodes0.
    - intros x. rewrite Eon, node_ids_app, mem_app, j_onodes0. destruct (mem x (node_ids [c])); [now rewrite orb_true_r | now rewrite orb_false_r].
    - intros x. rewrite Eg. apply j_gposes0.
    - intros x. rewrite Eos, sub_ids_app, mem_app, j_osubs0. destruct (mem x (sub_ids [c])); [now rewrite orb_true_r | now rewrite orb_false_r].
    - intros x. specialize (j_subs0 x). specialize (Es x). destruct (mem x (sub_ids A)) eqn:M.
      + destruct j_subs0 as (d & G & E1 & E2 & E3). rewrite G in Es. destruct Es as (d' & G' & F1 & F2 & F3).
        exists d'. split; [exact G'|]. split; [congruence|]. split.
        * rewrite F2, E2, sub_ids_app, mem_app. reflexivity.
        * intros n. rewrite F3, E3, recs_app, in_app_iff. reflexivity.
      + rewrite <- j_subs0. apply Es2. now apply mem_false.
    - intros t Lt. rewrite (Et1 t Lt), freeze_ids_app, existsb_app, (j_new0 t Lt).
      destruct (existsb (Z.eqb t) (freeze_ids [c])); [now rewrite orb_true_r | now rewrite orb_false_r].
    - intros t Lt. rewrite (Et2 t Lt). now apply j_old0.
    - intros t K. unfold knows. rewrite Ea. now apply j_knows0.
    - rewrite Econ, j_cons0, loaded_app, map_app, app_assoc. reflexivity.
    - destruct Er as (-> & -> & -> & -> & -> & ->). exact j_rest0.
    - rewrite Esp. exact j_sp0.
    - rewrite Enp. exact j_np0. }
  assert (Same : forall x, match get x (subs g) with
                | None => get x (subs g) = None
                | Some d => exists d', get x (subs g) = Some d' /\ obj d' = obj d /\
                    fin d' = fin d || false /\
                    forall n, In n (nids d') <-> In n (nids d) \/ False
                end).
  { intros x. destruct (get x (subs g)) as [d|]; [|reflexivity]. exists d. rewrite orb_false_r. intuition. }
  assert (Quiet : quiet c = true -> exec every_n o (item_of c) g = Some (g, false) ->
     exists s', lstep ob every_n (LWork o) (mk_lsys (mk_sys g (map item_of (c :: q)) Draining) p (c :: q)) = Some s' /\
       J A (B ++ [c]) q s').
  { intros Qc Ex. apply (Go g Ex); try reflexivity; auto.
    - destruct c; try discriminate; reflexivity.
    - destruct c; try discriminate; reflexivity.
    - destruct c; try discriminate; exact Same.
    - destruct c; try discriminate; reflexivity.
    - destruct c; try discriminate; cbn; now rewrite app_nil_r.
    - repeat split. }
  destruct c as [t | lm v | x v | x v | t v | t ti v | t ti v | t ti lm v | n x | l].
  - (* LFreeze *)
    pose proof (touch _ _ _ t Ec eq_refl) as Lt.
    pose proof (new_freeze _ _ _ t Ec eq_refl) as Nt.
    assert (S : traj_state t g = (Active, Normal)).
    { rewrite (j_new0 t Lt). destruct (existsb (Z.eqb t) (freeze_ids B)) eqn:X; [|reflexivity].
      now apply existsb_In in X. }
    assert (Ex : exec every_n o (IFreeze t) g = Some (set_trajs (zput t (Frozen, Normal) (trajs g)) g, false)).
    { cbn [exec]. unfold is_frozen at 1. rewrite S. cbn [fst snd negb].
      assert (F : forallb (fun e => if is_frozen (fst e) g then connect_ok t (fst e) g else true) (trajs g) = true).
      { apply forallb_forall. intros e Ie. destruct (is_frozen (fst e) g) eqn:Fe; [|reflexivity].
        unfold connect_ok. rewrite (j_knows0 t).
        2:{ right. right. left. rewrite j_split0, freeze_ids_app, in_app_iff. right. now left. }
        rewrite (j_knows0 (fst e)); [apply orb_true_r|]. right. right.
        destruct (Z.ltb_spec (fst e) n0) as [Le|Le].
        - right. apply (h_frozen _ _ H0). unfold is_frozen, traj_state in *. rewrite <- (j_old0 _ Le). exact Fe.
        - left. unfold is_frozen in Fe. rewrite (j_new0 _ Le) in Fe.
          destruct (existsb (Z.eqb (fst e)) (freeze_ids B)) eqn:X; [|discriminate].
          apply existsb_In in X. rewrite j_split0, freeze_ids_app, in_app_iff. auto. }
      rewrite F. reflexivity. }
    apply (Go _ Ex); try reflexivity.
    + destruct j_wf0. constructor; auto.
    + cbn. now apply zput_sorted.
    + exact Same.
    + intros a La. cbn [freeze_ids flat_map app existsb]. rewrite orb_false_r. unfold traj_state at 1. cbn [trajs set_trajs].
      rewrite zfind_zput by exact j_sorted0. destruct (a =? t); reflexivity.
    + intros a La. cbn [trajs set_trajs]. rewrite zfind_zput by exact j_sorted0. destruct (Z.eqb_spec a t); [lia | reflexivity].
    + cbn. now rewrite app_nil_r.
    + repeat split.
  - apply Quiet; reflexivity.
  - (* LSubmap *)
    pose proof (touch _ _ _ (fst x) Ec eq_refl) as Lt.
    pose proof (new_sub _ _ _ x Ec eq_refl) as Nx.
    assert (Nn : 0 <= snd x).
    { apply (o_nonneg _ _ O). left. rewrite Ec, sub_ids_app. apply in_app_iff. right. now left. }
    assert (Ix : In x (sub_ids A)).
    { rewrite j_split0, sub_ids_app. apply in_app_iff. right. now left. }
    pose proof (j_subs0 x) as Jx. rewrite (proj2 (mem_spec _ _) Ix) in Jx. destruct Jx as (d & G & _).
    pose proof (upd_get (subs g) x (fun d => mk_sub (obj d) true (nids d)) (w_subs _ j_wf0)) as U.
    pose proof (insert_get (osubs g) (fst x) (snd x) tt (w_osubs _ j_wf0)) as I2.
    replace (fst x, snd x) with x in I2 by (now destruct x).
    assert (G2 : get x (osubs g) = None).
    { rewrite j_osubs0. destruct (mem x (sub_ids B)) eqn:M; [now apply mem_spec in M|].
      destruct (h_none _ _ H0 (fst x) (snd x) Lt) as (_ & _ & F & _). now destruct x. }
    destruct (upd x _ (subs g)) as [ms|] eqn:Eu; [|congruence].
    destruct (mbi_insert (fst x) (snd x) tt (osubs g)) as [mo|] eqn:Ei.
    2:{ destruct I2 as [K | [K | K]]; [destruct H0; lia | lia | congruence]. }
    destruct U as (W1 & (d0 & G0 & U) & _). rewrite G in G0. injection G0 as <-.
    destruct I2 as (W2 & _ & _ & _ & I2 & _).
    assert (Ex : exec every_n o (ISubmap x) g = Some (set_osubs mo (set_subs ms g), false)).
    { cbn [exec]. rewrite Eu. cbn [bind]. rewrite Ei. reflexivity. }
    apply (Go _ Ex); try reflexivity; auto.
    + destruct j_wf0. constructor; auto.
    + intros y. cbn [osubs set_osubs]. rewrite I2. cbn [sub_ids flat_map app mem existsb]. rewrite orb_false_r. reflexivity.
    + intros y. cbn [subs set_osubs set_subs]. rewrite U. cbn [sub_ids recs flat_map app mem existsb]. rewrite orb_false_r.
      destruct (id_eqb_spec y x) as [Ey|Ny]; [subst y|].
      * rewrite G. eexists. split; [reflexivity|]. cbn. rewrite orb_true_r. intuition.
      * apply Same.
    + intros y Ny. cbn [subs set_osubs set_subs]. rewrite U. destruct (id_eqb_spec y x) as [Ey|]; [subst y; contradiction | reflexivity].
    + cbn. now rewrite app_nil_r.
    + repeat split.
  - (* LNode *)
    pose proof (touch _ _ _ (fst x) Ec eq_refl) as Lt.
    pose proof (new_node _ _ _ x Ec eq_refl) as Nx.
    assert (Nn : 0 <= snd x).
    { apply (o_nonneg _ _ O). right. rewrite Ec, node_ids_app. apply in_app_iff. right. now left. }
    assert (Ix : In x (node_ids A)).
    { rewrite j_split0, node_ids_app. apply in_app_iff. right. now left. }
    assert (G : has x (nodes g) = true).
    { apply has_get_ne. rewrite j_nodes0, (proj2 (mem_spec _ _) Ix). discriminate. }
    pose proof (insert_get (onodes g) (fst x) (snd x) tt (w_onodes _ j_wf0)) as I2.
    replace (fst x, snd x) with x in I2 by (now destruct x).
    assert (G2 : get x (onodes g) = None).
    { rewrite j_onodes0. destruct (mem x (node_ids B)) eqn:M; [now apply mem_spec in M|].
      destruct (h_none _ _ H0 (fst x) (snd x) Lt) as (_ & _ & _ & F & _). now destruct x. }
    destruct (mbi_insert (fst x) (snd x) tt (onodes g)) as [mo|] eqn:Ei.
    2:{ destruct I2 as [K | [K | K]]; [destruct H0; lia | lia | congruence]. }
    destruct I2 as (W2 & _ & _ & _ & I2 & _).
    assert (Ex : exec every_n o (INodeProto x) g = Some (set_onodes mo g, false)).
    { cbn [exec]. rewrite G, Ei. reflexivity. }
    apply (Go _ Ex); try reflexivity; auto.
    + destruct j_wf0. constructor; auto.
    + intros y. cbn [onodes set_onodes]. rewrite I2. cbn [node_ids flat_map app mem existsb]. rewrite orb_false_r. reflexivity.
    + cbn. now rewrite app_nil_r.
    + repeat split.
  - apply Quiet; [reflexivity|]. cbn [item_of exec]. rewrite (Tch t eq_refl). reflexivity.
  - apply Quiet; [reflexivity|]. cbn [item_of exec]. rewrite (Tch t eq_refl). reflexivity.
  - apply Quiet; [reflexivity|]. cbn [item_of exec]. rewrite (Tch t eq_refl). reflexivity.
  - apply Quiet; [reflexivity|]. cbn [item_of exec]. rewrite (Tch t eq_refl). reflexivity.
  - (* LNodeToSubmap *)
    destruct Nd as [Nn Ns].
    assert (Ix : In x (sub_ids A)) by (rewrite j_split0, sub_ids_app; apply in_app_iff; auto).
    pose proof (j_subs0 x) as Jx. rewrite (proj2 (mem_spec _ _) Ix) in Jx. destruct Jx as (d & G & _).
    pose proof (upd_get (subs g) x (fun d => mk_sub (obj d) (fin d) (set_add n (nids d))) (w_subs _ j_wf0)) as U.
    destruct (upd x _ (subs g)) as [ms|] eqn:Eu; [|congruence].
    destruct U as (W1 & (d0 & G0 & U) & _). rewrite G in G0. injection G0 as <-.
    assert (Ex : exec every_n o (INodeToSubmap n x) g = Some (set_subs ms g, false)).
    { cbn [exec]. rewrite (Tch (fst x) eq_refl), Eu. reflexivity. }
    apply (Go _ Ex); try reflexivity; auto.
    + destruct j_wf0. constructor; auto.
    + intros y. cbn [subs set_subs]. rewrite U. cbn [sub_ids recs flat_map app mem existsb].
      destruct (id_eqb_spec y x) as [Ey|Ny]; [subst y|].
      * rewrite G. eexists. split; [reflexivity|]. cbn. rewrite orb_false_r. split; [reflexivity|]. split; [reflexivity|].
        intros k. rewrite set_add_In. split; [intros [-> | K]; auto | intros [K | [[= ->] | []]]; auto].
      * specialize (Same y). destruct (get y (subs g)) as [d2|]; [|exact Same]. destruct Same as (d' & Q1 & Q2 & Q3 & Q4).
        exists d'. split; [exact Q1|]. split; [exact Q2|]. split; [exact Q3|]. intros k. rewrite Q4. cbn [In].
        split; [intros [K | []]; auto | intros [K | [K | []]]; auto; congruence].
    + intros y Ny. cbn [subs set_subs]. rewrite U. destruct (id_eqb_spec y x) as [Ey|]; [subst y; contradiction | reflexivity].
    + cbn. now rewrite app_nil_r.
    + repeat split.
  - (* LConstraints *)
    destruct Nd as (Nd1 & Nd2 & Nd3).
    assert (Sd : forall x, In x (sub_ids B) -> exists d, get x (subs g) = Some d /\ nids d = []).
    { intros x Ix. specialize (j_subs0 x). rewrite j_split0, sub_ids_app, mem_app, (proj2 (mem_spec _ _) Ix) in j_subs0.
      destruct j_subs0 as (d & G & _ & _ & Q). exists d. split; [exact G|]. rewrite Nd3 in Q.
      destruct (nids d) as [|y r]; [reflexivity|]. elim (proj1 (Q y)). now left. }
    assert (St : forall c, In c (map fst l) -> In (c_node c) (node_ids B) /\ In (c_sub c) (sub_ids B)).
    { intros c Ic. apply in_map_iff in Ic as (e & <- & Ie). now apply Nd1. }
    destruct (add_constraints_ok (map fst l) g) as (ms & Ea & Wm & Sm & Fm).
    + apply j_wf0.
    + intros c Ic. destruct (St c Ic) as [Q1 Q2]. split.
      * unfold stored. fold (get (c_node c) (nodes g)). rewrite j_nodes0.
        rewrite (proj2 (mem_spec (c_node c) (node_ids A))); [discriminate|]. rewrite j_split0, node_ids_app, in_app_iff. auto.
      * destruct (Sd _ Q2) as (d & G & _). unfold stored. fold (get (c_sub c) (subs g)). congruence.
    + intros c Ic. destruct (St c Ic) as [Q1 Q2]. split; apply j_knows0.
      * right. left. apply in_map. rewrite j_split0, node_ids_app, in_app_iff. auto.
      * left. apply in_map. rewrite j_split0, sub_ids_app, in_app_iff. auto.
    + intros c n Ic (d & G & K). destruct (Sd _ (proj2 (St c Ic))) as (d2 & G2 & E2).
      unfold get in G2. rewrite G in G2. injection G2 as ->. now rewrite E2 in K.
    + exact Nd2.
    + intros x n Ixn (d & G & K). unfold intra in Ixn. apply in_flat_map in Ixn as (c & Ic & Q).
      destruct (c_inter c); [contradiction|]. destruct Q as [[= <- <-] | []].
      destruct (Sd _ (proj2 (St c Ic))) as (d2 & G2 & E2). unfold get in G2. rewrite G in G2. injection G2 as ->.
      now rewrite E2 in K.
    + assert (Ex : exec every_n o (item_of (LConstraints l)) g =
                   Some (set_constraints (constraints g ++ map fst l) (set_subs ms g), false)).
      { cbn [item_of exec]. rewrite Ea. reflexivity. }
      apply (Go _ Ex); try reflexivity; auto.
      * destruct j_wf0. constructor; auto.
      * intros x. specialize (Sm x). cbn [subs set_constraints set_subs].
        destruct (get x (subs g)) as [d|]; [|exact Sm]. destruct Sm as (d' & Q1 & Q2 & Q3 & Q4). exists d'.
        split; [exact Q1|]. split; [exact Q2|]. cbn [sub_ids flat_map mem existsb]. rewrite orb_false_r.
        split; [exact Q3|]. cbn [recs flat_map]. rewrite app_nil_r. exact Q4.
      * intros x Nx. cbn [subs set_constraints set_subs]. apply Fm. intros n I. apply Nx.
        unfold intra in I. apply in_flat_map in I as (c & Ic & Q). destruct (c_inter c); [contradiction|].
        destruct Q as [[= <- <-] | []]. rewrite j_split0, sub_ids_app, in_app_iff. left. now apply St.
      * cbn [loaded_cons flat_map constraints set_constraints]. now rewrite app_nil_r.
      * repeat split.
Qed.

(* all interleavings *)
Lemma run_ok es : forall A B q s rest, J A B q s -> C = A ++ calls_of es ++ rest ->
  lfair ob every_n es s ->
  exists s' B' q', lrun ob every_n es s = Some s' /\ J (A ++ calls_of es) B' q' s'.
Proof.
  induction es as [|e es IH]; intros A B q s rest V E F.
  - exists s, B, q. cbn. rewrite app_nil_r. auto.
  - cbn [lfair] in F. destruct F as [En F]. cbn [lrun]. destruct e as [c | o].
    + cbn in E. destruct (call_ok _ _ _ _ c _ V E) as (s1 & E1 & V1). rewrite E1 in F |- *. cbn [bind].
      destruct (IH (A ++ [c]) B (q ++ [c]) s1 rest V1) as (s' & B' & q' & R & V'); auto.
      { rewrite <- app_assoc. exact E. }
      exists s', B', q'. split; [exact R|]. cbn. rewrite <- app_assoc in V'. exact V'.
    + cbn in E. destruct q as [|c q].
      * destruct s as [[g qu m] p lq']. pose proof V as []. cbn in *. subst lq' qu.
        destruct m; try discriminate. unfold lstep in F |- *. cbn in F |- *.
        apply (IH A B [] _ rest); auto. constructor; cbn; auto.
      * destruct (work_ok _ _ _ _ _ o _ V E) as (s1 & E1 & V1). rewrite E1 in F |- *. cbn [bind].
        eapply IH; eassumption.
Qed.
End R.
