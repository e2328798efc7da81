From Coq Require Import List ZArith Bool Lia Sorted.
From Verif Require Import ZMap MapById_Model MapById_Spec MapById_Proofs PG_Model PG_Maps PG_Spec
  PG_Proofs PG_Trim PG_Client.
Import ListNotations.
Open Scope Z_scope.

(* ---- maps ---- *)
Lemma stored_get {D} x (m : mbi D) : stored x m <-> get x m <> None.
Proof. reflexivity. Qed.
Lemma stored_nonneg {D} t j (m : mbi D) : wf m -> stored (t, j) m -> 0 <= j /\ 0 <= t.
Proof.
  intros W S. unfold stored, mbi_at in S. cbn in S. destruct (zfind t m) as [[c d]|] eqn:F; [|congruence].
  destruct (zfind j d) as [v|] eqn:G; [|congruence]. apply zfind_In in F, G.
  split; [eapply wf_idx; eassumption | eapply wf_nonneg; eassumption].
Qed.
Lemma next_of_unique {D} t (m : mbi D) i i' : wf m -> next_of t m i -> next_of t m i' -> i = i'.
Proof.
  intros W [[-> A] | [A B]] [[-> A'] | [A' B']]; auto.
  - now rewrite A in A'.
  - now rewrite A' in A.
  - destruct (Z.lt_trichotomy i i') as [L | [E | L]]; [|exact E|].
    + elim A'. apply B. lia.
    + elim A. apply B'. lia.
Qed.
Lemma next_of_above {D} t (m : mbi D) i j : next_of t m i -> i <= j -> get (t, j) m = None.
Proof. intros [[-> A] | [A B]] L; auto. Qed.
Lemma next_of_nonneg {D} t (m : mbi D) i : wf m -> next_of t m i -> 0 <= i.
Proof.
  intros W [[-> A] | [A B]]; [lia|].
  destruct (Z.leb_spec 0 (i - 1)); [lia|]. apply (stored_nonneg t (i - 1) m W) in A. lia.
Qed.

Lemma size_one {D} t (m : mbi D) : wf m -> stored (t, 0) m ->
  (forall j, stored (t, j) m -> j = 0) -> mbi_traj_size t m = 1%nat.
Proof.
  intros W S U. unfold stored, mbi_at in *. cbn in *. unfold mbi_traj_size.
  destruct (zfind t m) as [[c d]|] eqn:F; [|congruence]. destruct (wf_find _ _ _ _ W F) as (Sd & Nd & _).
  destruct d as [|[i v] [|[i' v'] r]]; [congruence | reflexivity |]. exfalso.
  destruct (zsorted_inv _ _ Sd) as [Sd' Fa]. 
  assert (Z0 : i = 0) by (apply U; cbn; now rewrite Z.eqb_refl).
  assert (Z1 : i' = 0).
  { apply U. rewrite (In_zfind i' v' _ Sd); [discriminate | right; now left]. }
  pose proof (zsorted_NoDup _ Sd) as ND. cbn in ND. inversion ND as [|? ? N _]; subst. apply N. now left.
Qed.

Lemma SS_NoDup l : StronglySorted idlt l -> NoDup l.
Proof.
  induction 1 as [|a l S IH F]; constructor; auto. intros I. rewrite Forall_forall in F. specialize (F a I).
  unfold idlt in F. rewrite id_ltb_spec in F. lia.
Qed.

(* ---- one trajectory ---- *)
Definition idx (w : phase) : Z := match w with P0 => -1 | P1 _ => 0 | P2 k _ _ | P3 k _ _ => k end.
Definition tobj (w : phase) : Z := match w with P0 => 0 | P1 a => a | P2 _ _ b | P3 _ _ b => b end.
Definition low (w : phase) : Z := match w with P0 | P1 _ => 0 | P2 k _ _ => k - 1 | P3 k _ _ => k end.
Definition unfin (g : graph) (x : id) (o : Z) : Prop :=
  exists d, get x (subs g) = Some d /\ obj d = o /\ fin d = false.
Definition at_phase (g : graph) (t : Z) (w : phase) : Prop :=
  match w with
  | P0 => True
  | P1 a => unfin g (t, 0) a
  | P2 k a b => 1 <= k /\ a <> b /\ unfin g (t, k) b /\ unfin g (t, k - 1) a
  | P3 k a b => 1 <= k /\ unfin g (t, k) b
  end.
Definition pending : Type := (id * list Z * bool)%type.
(* w is where the worker is, c where the client is *)
Inductive chain (t : Z) : Z -> phase -> list pending -> phase -> Z -> Prop :=
| chain_nil p w : chain t p w [] w p
| chain_cons p w objs nw w' r c p' : adv w objs nw = Some w' -> chain t (p + 1) w' r c p' ->
    chain t p w (((t, p), objs, nw) :: r) c p'.
Fixpoint fresh (g : graph) (t : Z) (w : phase) (l : list pending) : Prop :=
  match l with
  | [] => True
  | (_, objs, nw) :: r =>
      match adv w objs nw with
      | Some w' => (idx w' <> idx w -> get (t, idx w') (subs g) = Some (mk_sub (tobj w') false [])) /\
                   fresh g t w' r
      | None => False
      end
  end.
Record live (g : graph) (t : Z) (w c : phase) (p p' : Z) (l : list pending) : Prop := {
  l_chain : chain t p w l c p';
  l_phase : at_phase g t w;
  l_fin : forall j d, get (t, j) (subs g) = Some d -> j < low w -> fin d = true;
  l_dom : forall j, stored (t, j) (osubs g) <-> stored (t, j) (subs g) /\ j <= idx w;
  l_fresh : fresh g t w l;
  l_end : forall j, idx c < j -> get (t, j) (subs g) = None;
  l_next : next_of t (onodes g) p;
  l_nodes : forall j, stored (t, j) (nodes g) <-> stored (t, j) (onodes g) \/ p <= j < p';
  l_last : w <> P0 -> recorded g (t, idx w) (t, p - 1);
  l_zero : w = P0 -> p = 0;
  l_shut : shut t (subs g) = false /\ shut t (osubs g) = false /\
           shut t (nodes g) = false /\ shut t (onodes g) = false
}.
Record done (g : graph) (t : Z) : Prop := {
  d_dom : forall j, stored (t, j) (osubs g) <-> stored (t, j) (subs g);
  d_fin : forall j d, get (t, j) (subs g) = Some d -> fin d = true;
  d_nodes : forall j, stored (t, j) (nodes g) <-> stored (t, j) (onodes g)
}.

(* the items of a trajectory *)
Definition concerns (t : Z) (i : item) : bool :=
  match i with
  | INode n _ _ => fst n =? t
  | IData a | IFinish a | IDelete a => a =? t
  | _ => false
  end.
Definition is_data (i : item) : Prop :=
  match i with INode _ _ _ | IData _ => True | _ => False end.
Definition pend (l : list item) : list pending :=
  flat_map (fun i => match i with INode n objs nw => [(n, objs, nw)] | _ => [] end) l.
Inductive status (g : graph) (t : Z) : list item -> bool -> bool -> phase -> Prop :=
| st_open its w p p' c : traj_state t g = (Active, Normal) -> Forall is_data its ->
    live g t w c p p' (pend its) -> status g t its false false c
| st_closing its w p p' c : traj_state t g = (Active, Normal) -> Forall is_data its ->
    live g t w c p p' (pend its) -> status g t (its ++ [IFinish t]) true false c
| st_closed c : traj_state t g = (Finished, Normal) -> done g t -> status g t [] true false c
| st_deleting c : traj_state t g = (Finished, Scheduled) -> done g t ->
    status g t [IDelete t] true true c
| st_waiting c : traj_state t g = (Finished, Waiting) -> done g t -> status g t [] true true c
| st_deleted b c : traj_state t g = (Deleted, Normal) -> (forall j, get (t, j) (subs g) = None) ->
    done g t -> status g t [] true b c.

(* ---- the whole graph ---- *)
Record glob (g : graph) : Prop := {
  g_wf : wfg g;
  g_fin : forall s d, get s (subs g) = Some d -> fin d = true -> stored s (osubs g);
  g_rec : forall s n, recorded g s n -> stored n (onodes g) /\ fst s = fst n;
  g_node : forall n, stored n (onodes g) -> exists s, recorded g s n;
  g_con : forall c, In c (constraints g) -> stored (c_sub c) (osubs g) /\ stored (c_node c) (onodes g);
  g_search : forall s n, In (s, n) (searches g) -> stored s (osubs g) /\ stored n (onodes g);
  g_sort : forall s d, get s (subs g) = Some d -> StronglySorted idlt (nids d);
  g_osub : forall s, stored s (osubs g) -> stored s (subs g);
  g_onode : forall n, stored n (onodes g) -> stored n (nodes g);
  g_knows : forall x, stored x (subs g) \/ stored x (nodes g) -> knows (fst x) g = true;
  g_init : initial g = []
}.
(* the last optimized submap of a trajectory is there, unless the trajectory is gone *)
Definition gone (g : graph) (t : Z) : Prop :=
  (forall j, get (t, j) (osubs g) = None) /\ fst (traj_state t g) <> Active.
Definition poses_ok (g : graph) : Prop :=
  forall t x, last_id t (gposes g) = Some x -> stored x (subs g) \/ gone g t.

Definition plain (i : item) : Prop :=
  match i with
  | INode n objs _ => objs <> []
  | IData _ | IFinish _ | IDelete _ | IOptimize | IOther => True
  | ITrimmer (Pure _ keep f) => 2 <= keep /\ f = false
  | ITrimmer Overlapping => True
  | _ => False
  end.
Definition trimmer_ok (k : client) (tr : trimmer) : Prop :=
  match tr with Pure t keep f => 2 <= keep /\ pure k t = true | Overlapping => True end.
Definition count_nodes (l : list item) : Z := Z.of_nat (length (pend l)).

Record good (s : sys) (k : client) : Prop := {
  s_glob : glob (gr s);
  s_poses : poses_ok (gr s);
  s_status : forall t, status (gr s) t (filter (concerns t) (queue s)) (closed k t) (del k t) (ph k t);
  s_plain : Forall plain (queue s);
  s_trimmers : Forall (trimmer_ok k) (trimmers (gr s));
  s_pure : forall t kp f, In (ITrimmer (Pure t kp f)) (queue s) -> pure k t = true;
  s_del : forall t, del k t = true -> pure k t = false;
  s_count : num_nodes (gr s) = num_finished (gr s) + count_nodes (queue s);
  s_trajs : zsorted (trajs (gr s));
  s_idle : md s = Idle -> queue s = [];
  s_mode : match md s with
           | Optimizing res =>
               searches (gr s) = [] /\ forall c, In c res -> In c (constraints (gr s)) /\ c_inter c = true
           | Handling res =>
               searches (gr s) = [] /\ (forall c, In c res -> In c (constraints (gr s)) /\ c_inter c = true) /\
               (forall x, stored x (osubs (gr s)) -> stored x (gposes (gr s)))
           | _ => True
           end
}.

(* ---- frames ---- *)
Definition same_at (t : Z) (g g' : graph) : Prop :=
  (forall j, get (t, j) (subs g') = get (t, j) (subs g)) /\
  (forall j, get (t, j) (osubs g') = get (t, j) (osubs g)) /\
  (forall j, get (t, j) (nodes g') = get (t, j) (nodes g)) /\
  (forall j, get (t, j) (onodes g') = get (t, j) (onodes g)) /\
  shut t (subs g') = shut t (subs g) /\ shut t (osubs g') = shut t (osubs g) /\
  shut t (nodes g') = shut t (nodes g) /\ shut t (onodes g') = shut t (onodes g).
Lemma same_refl t g : same_at t g g.
Proof. repeat split. Qed.

Lemma fresh_same g g' t l : (forall j, get (t, j) (subs g') = get (t, j) (subs g)) ->
  forall w, fresh g t w l -> fresh g' t w l.
Proof.
  intros E. induction l as [|[[n objs] nw] l IH]; intros w; cbn; [auto|].
  destruct (adv w objs nw); [|auto]. rewrite E. intros [A B]. auto.
Qed.
Lemma unfin_same g g' t j o : (forall j, get (t, j) (subs g') = get (t, j) (subs g)) ->
  unfin g (t, j) o -> unfin g' (t, j) o.
Proof. intros E (d & A & B). exists d. now rewrite E. Qed.
Lemma live_same g g' t w c p p' l : same_at t g g' -> live g t w c p p' l -> live g' t w c p p' l.
Proof.
  intros (E1 & E2 & E3 & E4 & H1 & H2 & H3 & H4) [L1 L2 L11 L3 L4 L5 L6 L7 L8 L9 L10].
  assert (S1 : forall j, stored (t, j) (subs g') <-> stored (t, j) (subs g)) by (intros; rewrite !stored_get, E1; tauto).
  assert (S2 : forall j, stored (t, j) (osubs g') <-> stored (t, j) (osubs g)) by (intros; rewrite !stored_get, E2; tauto).
  assert (S3 : forall j, stored (t, j) (nodes g') <-> stored (t, j) (nodes g)) by (intros; rewrite !stored_get, E3; tauto).
  assert (S4 : forall j, stored (t, j) (onodes g') <-> stored (t, j) (onodes g)) by (intros; rewrite !stored_get, E4; tauto).
  constructor; auto.
  - destruct w; cbn in *; [exact I | | |].
    + eapply unfin_same; eauto.
    + destruct L2 as (A & B & C & D). repeat split; auto; eapply unfin_same; eauto.
    + destruct L2 as (A & B). split; auto; eapply unfin_same; eauto.
  - intros j d. rewrite E1. apply L11.
  - intros j. rewrite S1, S2. apply L3.
  - eapply fresh_same; eauto.
  - intros j Hj. rewrite E1. auto.
  - destruct L6 as [[A B] | [A B]]; [left | right]; (split; [try rewrite E4; exact A | intros; rewrite E4; auto]).
  - intros j. rewrite S3, S4. apply L7.
  - intros N. destruct (L8 N) as (d & A & B). exists d. fold (get (t, idx w) (subs g')). rewrite E1. auto.
  - now rewrite H1, H2, H3, H4.
Qed.
Lemma done_same g g' t : same_at t g g' -> done g t -> done g' t.
Proof.
  intros (E1 & E2 & E3 & E4 & _) [D1 D2 D3].
  constructor; intros j; rewrite ?stored_get, ?E1, ?E2, ?E3, ?E4.
  - apply D1.
  - apply D2.
  - apply D3.
Qed.
Lemma status_same g g' t l a b c : same_at t g g' -> traj_state t g' = traj_state t g ->
  status g t l a b c -> status g' t l a b c.
Proof.
  intros S T H. pose proof S as (E1 & _). inversion H; subst;
    [eapply st_open | eapply st_closing | eapply st_closed | eapply st_deleting | eapply st_waiting | eapply st_deleted];
    try (rewrite T; eassumption); try eassumption; try (eapply live_same; eassumption); try (eapply done_same; eassumption).
  intros j. rewrite E1. auto.
Qed.

(* graphs with the same maps *)
Lemma same_maps t g g' : subs g' = subs g -> osubs g' = osubs g -> nodes g' = nodes g ->
  onodes g' = onodes g -> same_at t g g'.
Proof. intros A B C D. unfold same_at. rewrite A, B, C, D. repeat split. Qed.

Lemma recorded_subs g g' s n : subs g' = subs g -> recorded g' s n <-> recorded g s n.
Proof. intros E. unfold recorded. now rewrite E. Qed.

Lemma glob_maps g g' : subs g' = subs g -> osubs g' = osubs g -> nodes g' = nodes g ->
  onodes g' = onodes g -> wf (gposes g') -> incl (constraints g') (constraints g) ->
  incl (searches g') (searches g) -> incl (added g) (added g') -> initial g' = [] ->
  glob g -> glob g'.
Proof.
  intros A B C D W Ic Is Ia In0 [G1 G2 G3 G4 G5 G6 G7 G8 G9 G10 G11]. destruct G1.
  constructor; rewrite ?A, ?B, ?C, ?D; auto.
  - constructor; rewrite ?A, ?B, ?C, ?D; auto.
  - intros s n R. rewrite recorded_subs in R by exact A. auto.
  - intros n S. destruct (G4 n S) as (s & R). exists s. now apply (recorded_subs g g' s n A).
  - intros x S. specialize (G10 x S). unfold knows in *. rewrite existsb_exists in *.
    destruct G10 as (y & I & E). eauto.
Qed.

Lemma adv_idx w objs nw w' : adv w objs nw = Some w' ->
  w' <> P0 /\ objs <> [] /\ (idx w' = idx w \/ idx w' = idx w + 1) /\
  (idx w' = idx w -> tobj w' = tobj w).
Proof.
  unfold adv, two. destruct w, objs as [|x [|y [|z r]]]; try discriminate;
    repeat match goal with |- context [if ?b then _ else _] => destruct b eqn:? end;
    intros [= <-]; cbn; repeat split; try discriminate; try lia; auto.
Qed.
