(* Theorems about the upload of sensor data (C50). *)
From Coq Require Import List ZArith Bool Lia.
From Verif Require Import LTU_Model.
Import ListNotations.
Open Scope Z_scope.

(* what the clients enqueued, in order *)
Definition enqueued (es : list event) : list item :=
  flat_map (fun e => match e with Enqueue x => [x] | _ => [] end) es.
Definition items (l : list (item * Z)) : list item := map fst l.
(* what the uplink received, in order *)
Definition uplink (s : state) : list item := flat_map items (received s).
Definition in_flight (s : state) : list item := items (batch s) ++ queue s.

(* l1 and l2 are complementary subsequences of l *)
Inductive merge {A} : list A -> list A -> list A -> Prop :=
| merge_nil : merge [] [] []
| merge_l x l1 l2 l : merge l1 l2 l -> merge (x :: l1) l2 (x :: l)
| merge_r x l1 l2 l : merge l1 l2 l -> merge l1 (x :: l2) (x :: l).

Definition fate (b : bool) (l : list (item * bool)) : list item :=
  map fst (filter (fun e => Bool.eqb (snd e) b) l).

Lemma fate_app b l m : fate b (l ++ m) = fate b l ++ fate b m.
Proof. unfold fate. now rewrite filter_app, map_app. Qed.
Lemma fate_lost b l : fate b (lost l) = if b then [] else items l.
Proof. unfold fate, lost, items. induction l as [|[x u] l IH]; cbn; destruct b; cbn in *; congruence. Qed.
Lemma fate_arrived b l : fate b (arrived l) = if b then items l else [].
Proof. unfold fate, arrived, items. induction l as [|[x u] l IH]; cbn; destruct b; cbn in *; congruence. Qed.
Lemma fate_merge l : merge (fate true l) (fate false l) (map fst l).
Proof.
  induction l as [|[x []] l IH]; cbn; [constructor | |];
    [apply merge_l; exact IH | apply merge_r; exact IH].
Qed.
Lemma fst_lost l : map fst (lost l) = items l.
Proof. unfold lost, items. rewrite map_map. now apply map_ext. Qed.
Lemma fst_arrived l : map fst (arrived l) = items l.
Proof. unfold arrived, items. rewrite map_map. now apply map_ext. Qed.
Lemma items_app l m : items (l ++ m) = items l ++ items m.
Proof. apply map_app. Qed.
Lemma flat_app (l m : list (list (item * Z))) :
  flat_map items (l ++ m) = flat_map items l ++ flat_map items m.
Proof. apply flat_map_app. Qed.

Ltac norm := unfold uplink, in_flight in *; cbn [queue batch ids shutting_down at_ received past] in *;
  repeat (rewrite ?map_app, ?items_app, ?flat_app, ?fate_app, ?fate_lost, ?fate_arrived,
    ?fst_lost, ?fst_arrived, ?app_nil_r, <- ?app_assoc in *; cbn [map app flat_map items fst snd fate filter Bool.eqb] in *).

(* accounting *)
Definition inv (es : list event) (s : state) : Prop :=
  enqueued es = map fst (past s) ++ in_flight s /\ uplink s = fate true (past s) /\
  (at_ s = InRecovery -> batch s = []).

Lemma tick_inv n w c rs es s : inv es s -> inv es (tick n w c rs s).
Proof.
  intros I. pose proof I as (A & B & E). unfold tick. destruct (at_ s) eqn:At.
  - destruct (shutting_down s); [split; [|split]; auto; discriminate|].
    destruct (queue s) as [|x q] eqn:Q; [exact I|].
    destruct (translate (ids s) (traj x)) as [u|].
    + destruct (Z.of_nat (length (batch s ++ [(x, u)])) =? n).
      * destruct w as [|[]]; (split; [|split]); norm; rewrite ?A, ?B, ?Q; norm; reflexivity.
      * split; [|split]; norm; rewrite ?A, ?B, ?Q; norm; try reflexivity; discriminate.
    + split; [|split]; norm; rewrite ?A, ?B, ?Q; norm; reflexivity.
  - specialize (E eq_refl). destruct (shutting_down s); [split; [|split]; auto; discriminate|].
    destruct (queue s) as [|x q] eqn:Q; [exact I|].
    destruct (new_submap x).
    + split; [|split]; norm; rewrite ?A, ?B, ?Q; auto.
    + split; [|split]; norm; rewrite ?A, ?B, ?Q, ?E; norm; reflexivity.
  - exact I.
Qed.

Lemma enqueued_app es fs : enqueued (es ++ fs) = enqueued es ++ enqueued fs.
Proof. apply flat_map_app. Qed.

Lemma step_inv n es e s s' : inv es s -> step n s e = Some s' -> inv (es ++ [e]) s'.
Proof.
  intros I H. pose proof I as (A & B & E). destruct e as [x | t u | | w c rs]; cbn in H.
  - injection H as <-. unfold inv. rewrite enqueued_app. norm. rewrite A. norm. auto.
  - destruct (existsb _ _); [discriminate|]. injection H as <-. unfold inv.
    rewrite enqueued_app. norm. auto.
  - destruct (shutting_down s); [discriminate|]. injection H as <-. unfold inv.
    rewrite enqueued_app. norm. auto.
  - injection H as <-. pose proof (tick_inv n w c rs es s I) as T. unfold inv in *.
    rewrite enqueued_app. norm. auto.
Qed.

(* properties of all executions by induction, given a condition on the events *)
Lemma steps_ind n (P : list event -> state -> Prop) (ok : event -> Prop) :
  P [] start ->
  (forall es e s s', P es s -> ok e -> step n s e = Some s' -> P (es ++ [e]) s') ->
  forall es s, steps n start es = Some s -> (forall e, In e es -> ok e) -> P es s.
Proof.
  intros H0 HS.
  enough (G : forall es pre s0 s, P pre s0 -> (forall e, In e es -> ok e) ->
              steps n s0 es = Some s -> P (pre ++ es) s) by (intros; now apply (G es [] start)).
  induction es as [|e es IH]; intros pre s0 s H O E; cbn in E.
  - injection E as <-. now rewrite app_nil_r.
  - destruct (step n s0 e) as [s1|] eqn:S; [|discriminate].
    replace (pre ++ e :: es) with ((pre ++ [e]) ++ es) by (rewrite <- app_assoc; reflexivity).
    apply (IH _ s1); [|intros; apply O; now right|exact E].
    apply (HS _ _ s0); auto. apply O. now left.
Qed.

Lemma reach_inv n es s : steps n start es = Some s -> inv es s.
Proof.
  intros H. apply (steps_ind n inv (fun _ => True)); auto.
  - repeat split.
  - intros. eapply step_inv; eauto.
Qed.

(* C50: nothing is duplicated, reordered or invented: what was enqueued is what left (received
   by the uplink or lost, in order) followed by what is in the batch and in the queue. *)
Theorem C50_accounted n es s : steps n start es = Some s ->
  exists gone lost_items, merge (uplink s) lost_items gone /\ enqueued es = gone ++ in_flight s.
Proof.
  intros H. destruct (reach_inv _ _ _ H) as (A & B & _).
  exists (map fst (past s)), (fate false (past s)). split; [|exact A].
  rewrite B. apply fate_merge.
Qed.

(* all batches have the configured size *)
Theorem C50_batches n es s : steps n start es = Some s ->
  Forall (fun b => Z.of_nat (length b) = n) (received s).
Proof.
  intros H. revert H. intros H.
  apply (steps_ind n (fun _ s => Forall (fun b => Z.of_nat (length b) = n) (received s))
           (fun _ => True)) with (es := es); auto.
  - constructor.
  - clear. intros _ e s s' F _ H. destruct e as [x | t u | | w c rs]; cbn in H.
    + now injection H as <-.
    + destruct (existsb _ _); [discriminate|]. now injection H as <-.
    + destruct (shutting_down s); [discriminate|]. now injection H as <-.
    + injection H as <-. unfold tick. destruct (at_ s); [| |exact F].
      * destruct (shutting_down s); [exact F|]. destruct (queue s) as [|x q]; [exact F|].
        destruct (translate (ids s) (traj x)) as [u|]; [|exact F].
        destruct (Z.eqb_spec (Z.of_nat (length (batch s ++ [(x, u)]))) n) as [L|L]; [|exact F].
        destruct w as [|[]]; cbn; try exact F; apply Forall_app; auto.
      * destruct (shutting_down s); [exact F|]. destruct (queue s) as [|x q]; [exact F|].
        destruct (new_submap x); exact F.
Qed.

(* as long as no write fails and the trajectories of all data are registered before their
   data, nothing is lost: the uplink has a prefix, missing less than a batch plus the queue *)
Definition good (e : event) : Prop :=
  match e with
  | Tick w _ _ => w = WriteOk
  | AddTrajectory _ u => u <> None
  | _ => True
  end.
Fixpoint registered_first (known : list Z) (es : list event) : Prop :=
  match es with
  | [] => True
  | AddTrajectory t _ :: r => registered_first (t :: known) r
  | Enqueue x :: r => In (traj x) known /\ registered_first known r
  | _ :: r => registered_first known r
  end.

Definition has_id (m : idmap) (t : Z) : Prop := translate m t <> None.
Definition clean (known : list Z) (s : state) : Prop :=
  at_ s <> InRecovery /\ fate false (past s) = [] /\
  (forall t, In t known -> has_id (ids s) t) /\
  (forall x, In x (queue s) -> has_id (ids s) (traj x)).

Lemma insert_id m t u t' : has_id m t' -> existsb (fun e => fst e =? t) m = false ->
  has_id (insert m t u) t'.
Proof.
  unfold has_id. induction m as [|[k v] m IH]; intros H X; [now elim H|].
  cbn in H, X |- *. apply orb_false_iff in X as [X1 X2].
  destruct (t <? k); cbn.
  - destruct (Z.eqb_spec t t') as [-> | N]; [|exact H].
    rewrite X1 in H. exfalso. clear - H X2. induction m as [|[k' v'] m IH]; [now elim H|].
    cbn in *. apply orb_false_iff in X2 as [X1 X2]. rewrite X1 in H. auto.
  - destruct (k =? t'); [exact H|]. now apply IH.
Qed.
Lemma insert_new m t u : u <> None -> existsb (fun e => fst e =? t) m = false ->
  has_id (insert m t u) t.
Proof.
  unfold has_id. induction m as [|[k v] m IH]; intros N X; cbn.
  - now rewrite Z.eqb_refl.
  - cbn in X. apply orb_false_iff in X as [X1 X2]. destruct (t <? k); cbn.
    + now rewrite Z.eqb_refl.
    + rewrite X1. now apply IH.
Qed.

Lemma clean_tick n c rs known s : clean known s -> clean known (tick n WriteOk c rs s).
Proof.
  intros (A & B & K & Q). unfold tick. destruct (at_ s) eqn:E; [| congruence | repeat split; auto; congruence].
  destruct (shutting_down s); [repeat split; auto; discriminate|].
  destruct (queue s) as [|x q] eqn:Eq; [repeat split; auto; try congruence; rewrite Eq; auto|].
  pose proof (Q x (or_introl eq_refl)) as T. unfold has_id in T.
  destruct (translate (ids s) (traj x)) as [u|]; [|congruence].
  destruct (_ =? n); (split; [discriminate|]; split; [|split; [exact K|]]; cbn [past queue];
    [| intros y Hy; apply Q; now right]).
  - rewrite fate_app, fate_arrived, B. reflexivity.
  - exact B.
Qed.

Lemma clean_steps n es : forall known s s', clean known s -> (forall e, In e es -> good e) ->
  registered_first known es -> steps n s es = Some s' -> exists known', clean known' s'.
Proof.
  induction es as [|e es IH]; intros known s s' C G R H; cbn in H; [injection H as <-; eauto|].
  destruct (step n s e) as [s1|] eqn:S; [|discriminate].
  assert (G' : forall e, In e es -> good e) by (intros; apply G; now right).
  pose proof (G e (or_introl eq_refl)) as Ge.
  destruct e as [x | t u | | w c rs]; cbn in S, R.
  - destruct R as [Rx R]. injection S as <-. destruct C as (A & B & K & Q).
    eapply IH; eauto. repeat split; auto. cbn. intros y Hy. apply in_app_iff in Hy as [Hy | [<- | []]]; auto.
  - destruct (existsb _ _) eqn:X; [discriminate|]. injection S as <-. destruct C as (A & B & K & Q).
    eapply IH; [| exact G' | exact R | exact H]. repeat split; auto; cbn.
    + intros t' [<- | Ht]; [now apply insert_new | apply insert_id; auto].
    + intros y Hy. apply insert_id; auto.
  - destruct (shutting_down s); [discriminate|]. injection S as <-. eapply IH; [| exact G' | exact R | exact H]. exact C.
  - cbn in Ge. subst w. injection S as <-. eapply IH; [| exact G' | exact R | exact H].
    now apply clean_tick.
Qed.

Theorem C50_lossless n es s : steps n start es = Some s ->
  (forall e, In e es -> good e) -> registered_first [] es ->
  enqueued es = uplink s ++ in_flight s.
Proof.
  intros H G R. destruct (clean_steps n es [] start s) as (known & C); auto.
  { repeat split; cbn; try contradiction. discriminate. }
  destruct C as (_ & B & _). destruct (reach_inv _ _ _ H) as (A & U & _).
  rewrite A, U. f_equal. clear - B. induction (past s) as [|[x []] l IH]; cbn in *; try discriminate.
  - reflexivity.
  - f_equal. now apply IH.
Qed.

(* After a loss the upload resumes with a local SLAM result that starts a new submap, as long
   as the connection is ready whenever recovery is tried. *)
Definition connected_ev (e : event) : Prop := match e with Tick _ c _ => c = true | _ => True end.
Definition resumes (l : list (item * bool)) : Prop :=
  forall l1 l2 x y, l = l1 ++ (x, false) :: (y, true) :: l2 -> new_submap y = true.

Definition last_lost (l : list (item * bool)) : Prop := exists l1 x, l = l1 ++ [(x, false)].
Definition ginv (s : state) : Prop :=
  resumes (past s) /\
  (last_lost (past s) -> at_ s = InRecovery \/ shutting_down s = true \/ at_ s = Stopped \/
     exists x r, in_flight s = x :: r /\ new_submap x = true) /\
  (at_ s = InRecovery -> batch s = []).

Lemma resumes_app l m : resumes l -> resumes m ->
  (last_lost l -> forall y r, m = (y, true) :: r -> new_submap y = true) -> resumes (l ++ m).
Proof.
  intros Hl Hm Hb l1 l2 x y E.
  revert l1 E Hl Hb. induction l as [|a l IH]; intros l1 E Hl Hb.
  - eapply Hm. exact E.
  - destruct l1 as [|b l1].
    + cbn in E. injection E as -> E. destruct l as [|c l].
      * cbn in E. eapply Hb; [|exact E]. exists [], x. reflexivity.
      * cbn in E. injection E as -> E. apply (Hl [] l x y). reflexivity.
    + cbn in E. injection E as <- E. eapply (IH l1 E).
      * intros m1 m2 u v Em. apply (Hl (a :: m1) m2 u v). cbn. now rewrite Em.
      * intros (m1 & u & Em). apply Hb. exists (a :: m1), u. cbn. now rewrite Em.
Qed.
Lemma resumes_lost l : resumes (lost l).
Proof.
  intros l1 l2 x y E. exfalso. assert (In (y, true) (lost l)).
  { rewrite E. apply in_or_app. right. right. now left. }
  unfold lost in H. apply in_map_iff in H as (? & H & _). discriminate.
Qed.
Lemma resumes_arrived l : resumes (arrived l).
Proof.
  intros l1 l2 x y E. exfalso. assert (In (x, false) (arrived l)).
  { rewrite E. apply in_or_app. right. now left. }
  unfold arrived in H. apply in_map_iff in H as (? & H & _). discriminate.
Qed.
Lemma last_lost_arrived l b : b <> [] -> ~ last_lost (l ++ arrived b).
Proof.
  intros N (l1 & x & E). destruct (exists_last N) as (b' & [y u] & ->).
  unfold arrived in E. rewrite map_app, app_assoc in E. cbn in E.
  apply app_inj_tail in E as [_ E]. discriminate.
Qed.

Lemma tick_ginv n w rs s : ginv s -> ginv (tick n w true rs s).
Proof.
  intros I. pose proof I as (R & L & E). unfold tick. destruct (at_ s) eqn:At.
  - destruct (shutting_down s) eqn:Sd.
    { split; [exact R|]. split; [|discriminate]. intros _. right. now left. }
    destruct (queue s) as [|x q] eqn:Q; [exact I|].
    assert (Hd : last_lost (past s) -> forall y u r, batch s ++ [(x, u)] = y :: r -> new_submap (fst y) = true).
    { intros LL y u r Ey. destruct (L LL) as [X | [X | [X | (z & t & X & N)]]]; try congruence.
      unfold in_flight in X. rewrite Q in X. destruct (batch s) as [|b0 bs].
      - cbn in X, Ey. injection X as <- _. injection Ey as <- _. exact N.
      - cbn in X, Ey. injection X as <- _. injection Ey as <- _. exact N. }
    assert (Ra : forall u, resumes (past s ++ arrived (batch s ++ [(x, u)]))).
    { intros u. apply resumes_app; [exact R | apply resumes_arrived |].
      intros LL y r Ey. unfold arrived in Ey. destruct (batch s ++ [(x, u)]) as [|z t] eqn:Ez; [discriminate|].
      cbn in Ey. injection Ey as <- _. now apply (Hd LL z u t). }
    destruct (translate (ids s) (traj x)) as [u|].
    + destruct (Z.of_nat (length (batch s ++ [(x, u)])) =? n).
      * assert (NE : batch s ++ [(x, u)] <> []) by (destruct (batch s); discriminate).
        destruct w as [|[]]; (split; [|split]); cbn [past at_ batch]; auto.
        -- intros LL. now elim (last_lost_arrived _ _ NE LL).
        -- apply resumes_app; [exact R | apply resumes_lost |].
           intros _ y r Ey. unfold lost in Ey. destruct (batch s ++ [(x, u)]); discriminate.
      * split; [exact R|]. split; [|discriminate]. intros LL. cbn [at_ shutting_down]. right. right. right.
        destruct (L LL) as [X | [X | [X | (z & t & X & N)]]]; try congruence.
        exists z, t. split; [|exact N]. rewrite <- X. unfold in_flight. cbn [batch queue].
        rewrite Q, items_app, <- app_assoc. reflexivity.
    + split; [|split]; cbn [past at_ batch]; auto.
      rewrite app_assoc. apply resumes_app.
      * apply resumes_app; [exact R | apply resumes_lost |].
        intros _ y r Ey. unfold lost in Ey. destruct (batch s); discriminate.
      * intros l1 l2 y z Ez. destruct l1 as [|? [|? ?]]; discriminate.
      * intros _ y r Ey. discriminate.
  - specialize (E eq_refl). destruct (shutting_down s) eqn:Sd.
    { split; [exact R|]. split; [|discriminate]. intros _. right. now left. }
    destruct (queue s) as [|x q] eqn:Q; [exact I|].
    destruct (new_submap x) eqn:N.
    + split; [exact R|]. split; [|discriminate]. intros _. right. right. right.
      exists x, q. unfold in_flight. cbn [batch queue]. rewrite E. auto.
    + split; [|split; auto]. cbn [past]. apply resumes_app; [exact R| |].
      * intros l1 l2 y z Ez. destruct l1 as [|? [|? ?]]; discriminate.
      * intros _ y r Ey. discriminate.
  - exact I.
Qed.

Theorem C50_resumes_at_submap n es s : steps n start es = Some s ->
  (forall e, In e es -> connected_ev e) -> resumes (past s) /\
  map fst (past s) ++ in_flight s = enqueued es /\ uplink s = fate true (past s).
Proof.
  intros H O. destruct (reach_inv _ _ _ H) as (A & B & _).
  enough (G : ginv s) by (split; [apply G|]; auto).
  apply (steps_ind n (fun _ => ginv) connected_ev) with (es := es); auto.
  - split; [|split]; try discriminate.
    + intros l1 l2 x y E. destruct l1; discriminate.
    + intros (l1 & x & E). destruct l1; discriminate.
  - clear. intros _ e s s' (R & L & E) O H. destruct e as [x | t u | | w c rs]; cbn in H.
    + injection H as <-. split; [exact R|]. split; [|exact E]. intros LL.
      destruct (L LL) as [X | [X | [X | (z & t & X & N)]]]; auto. do 3 right.
      exists z, (t ++ [x]). split; [|exact N]. unfold in_flight in *. cbn [batch queue].
      now rewrite app_assoc, X.
    + destruct (existsb _ _); [discriminate|]. injection H as <-. split; [exact R|]. split; auto.
    + destruct (shutting_down s); [discriminate|]. injection H as <-.
      split; [exact R|]. split; auto.
    + cbn in O. subst c. injection H as <-. apply tick_ginv. repeat split; auto.
Qed.

(* Otherwise it may resume anywhere, in the middle of a submap. *)
Definition ex_item (k : Z) (b : bool) : item := mk_item 0 k b.
Theorem C50_resume_refuted : exists es s,
  steps 1 start es = Some s /\ ~ resumes (past s).
Proof.
  exists [AddTrajectory 0 (Some 7); Enqueue (ex_item 1 true); Enqueue (ex_item 2 false);
          Tick (WriteFailed false) false []; Tick WriteOk true []].
  eexists. split; [reflexivity|]. intros H. cbn in H.
  specialize (H [] [] _ _ eq_refl). discriminate.
Qed.

(* Once Shutdown was called the thread stops within two iterations. *)
Theorem C50_shutdown_ends n w1 c1 r1 w2 c2 r2 s : shutting_down s = true ->
  at_ (tick n w2 c2 r2 (tick n w1 c1 r1 s)) = Stopped.
Proof.
  intros H. destruct s as [q b m sd [| |] rc p]; cbn in H; subst sd; reflexivity.
Qed.

(* Shutdown completes although data enqueued before was never sent, without any failure. *)
Theorem C50_shutdown_refuted : exists es s,
  steps 2 start (es ++ [ShutdownCall; Tick WriteOk true []]) = Some s /\ at_ s = Stopped /\
  (forall e, In e es -> good e) /\ registered_first [] es /\ uplink s <> enqueued es.
Proof.
  exists [AddTrajectory 0 (Some 7); Enqueue (ex_item 1 true); Enqueue (ex_item 2 false);
          Enqueue (ex_item 3 false); Tick WriteOk true []; Tick WriteOk true [];
          Tick WriteOk true []].
  eexists. split; [reflexivity|]. split; [reflexivity|]. split; [|split].
  - cbn. intros e I. repeat (destruct I as [<- | I]; [cbn; try discriminate; auto|]). contradiction.
  - cbn. tauto.
  - discriminate.
Qed.

(* a run that loses data, recovers at the next new submap and uploads again *)
Example C50_example : exists s,
  steps 2 start [AddTrajectory 0 (Some 7); Enqueue (ex_item 1 true); Enqueue (ex_item 2 false);
                 Enqueue (ex_item 3 false); Enqueue (ex_item 4 true); Enqueue (ex_item 5 false);
                 Tick WriteOk true []; Tick (WriteFailed false) true []; Tick WriteOk true [];
                 Tick WriteOk true [Some 8]; Tick WriteOk true []; Tick WriteOk true []] = Some s /\
  received s = [[(ex_item 4 true, 8); (ex_item 5 false, 8)]] /\
  past s = [(ex_item 1 true, false); (ex_item 2 false, false); (ex_item 3 false, false);
            (ex_item 4 true, true); (ex_item 5 false, true)].
Proof. eexists. split; [reflexivity|]. split; reflexivity. Qed.

Print Assumptions C50_accounted.
Print Assumptions C50_batches.
Print Assumptions C50_lossless.
Print Assumptions C50_resumes_at_submap.
Print Assumptions C50_resume_refuted.
Print Assumptions C50_shutdown_ends.
Print Assumptions C50_shutdown_refuted.
