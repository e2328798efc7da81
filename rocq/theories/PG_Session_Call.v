From Coq Require Import List ZArith Bool Lia Sorted.
From Verif Require Import ZMap MapById_Model MapById_Spec MapById_Proofs PG_Model PG_Maps PG_Spec
  PG_Proofs PG_Trim PG_Delete PG_Client PG_Session.
Import ListNotations.
Open Scope Z_scope.

(* ---- chains ---- *)
Lemma chain_le t p w l c p' : chain t p w l c p' -> p' = p + Z.of_nat (length l) /\ idx w <= idx c.
Proof.
  induction 1 as [|p w objs nw w' r c p' A C [IH1 IH2]]; [cbn; lia|]. cbn [length].
  destruct (adv_idx _ _ _ _ A) as (_ & _ & I & _). lia.
Qed.
Lemma chain_snoc t p w l c p' : chain t p w l c p' -> forall objs nw c', adv c objs nw = Some c' ->
  chain t p w (l ++ [((t, p'), objs, nw)]) c' (p' + 1).
Proof.
  induction 1 as [|p w objs nw w' r c p' A C IH]; intros o n c' A'; cbn.
  - econstructor; [exact A' | constructor].
  - econstructor; [exact A | now apply IH].
Qed.
Lemma fresh_snoc g t p w l c p' : chain t p w l c p' -> forall objs nw c', adv c objs nw = Some c' ->
  (idx c' <> idx c -> get (t, idx c') (subs g) = Some (mk_sub (tobj c') false [])) ->
  fresh g t w l -> fresh g t w (l ++ [((t, p'), objs, nw)]).
Proof.
  induction 1 as [|p w objs nw w' r c p' A C IH]; intros o n c' A' N F; cbn in *.
  - rewrite A'. auto.
  - rewrite A in *. destruct F as [F1 F2]. split; [exact F1 | eauto].
Qed.
Lemma fresh_grow g g' t l : (forall j v, get (t, j) (subs g) = Some v -> get (t, j) (subs g') = Some v) ->
  forall w, fresh g t w l -> fresh g' t w l.
Proof.
  intros E. induction l as [|[[n objs] nw] l IH]; intros w; cbn; [auto|].
  destruct (adv w objs nw); [|auto]. intros [A B]. auto.
Qed.
Lemma unfin_grow g g' t j o : (forall j v, get (t, j) (subs g) = Some v -> get (t, j) (subs g') = Some v) ->
  unfin g (t, j) o -> unfin g' (t, j) o.
Proof. intros E (d & A & B). exists d. auto. Qed.
Lemma phase_grow g g' t w : (forall j v, get (t, j) (subs g) = Some v -> get (t, j) (subs g') = Some v) ->
  at_phase g t w -> at_phase g' t w.
Proof.
  intros E. destruct w; cbn; [auto | | |].
  - now apply unfin_grow.
  - intros (A & B & C & D). repeat split; auto; eapply unfin_grow; eauto.
  - intros (A & B). split; auto; eapply unfin_grow; eauto.
Qed.
Definition top (g : graph) (t : Z) (w : phase) : Prop :=
  w = P0 \/ exists d, get (t, idx w) (subs g) = Some d /\ obj d = tobj w.
Lemma phase_top g t w : at_phase g t w -> top g t w.
Proof.
  destruct w; cbn; [now left | | |]; intros H; right; unfold unfin in H.
  - destruct H as (d & A & B & _); eauto.
  - destruct H as (_ & _ & (d & A & B & _) & _); eauto.
  - destruct H as (_ & (d & A & B & _)); eauto.
Qed.
Lemma chain_top g t p w l c p' : chain t p w l c p' -> top g t w -> fresh g t w l -> top g t c.
Proof.
  induction 1 as [|p w objs nw w' r c p' A C IH]; intros T F; [exact T|]. cbn in F. rewrite A in F.
  destruct F as [F1 F2]. apply IH; [|exact F2]. destruct (adv_idx _ _ _ _ A) as (_ & _ & I & J).
  destruct (Z.eq_dec (idx w') (idx w)) as [E|E].
  - destruct T as [-> | (d & G & O)].
    + destruct objs as [|a [|]]; try discriminate. cbn in A. destruct nw; [discriminate|]. injection A as <-. cbn in E. lia.
    + right. exists d. rewrite E, J; auto.
  - right. exists (mk_sub (tobj w') false []). auto.
Qed.
Lemma chain_P0 t p w l p' : chain t p w l P0 p' -> w = P0 /\ l = [] /\ p' = p.
Proof.
  intros H. remember P0 as c. induction H as [|p w objs nw w' r c p' A C IH]; [auto|].
  destruct (IH Heqc) as (-> & _ & _). destruct (adv_idx _ _ _ _ A) as (N & _). congruence.
Qed.
Lemma adv_new c objs nw c' : adv c objs nw = Some c' ->
  exists l, rev objs = tobj c' :: l /\
  (c = P0 -> idx c' = 0) /\
  (c <> P0 -> tobj c' <> tobj c -> idx c' = idx c + 1) /\ (c <> P0 -> tobj c' = tobj c -> idx c' = idx c).
Proof.
  unfold adv, two. destruct c, objs as [|x [|y [|z r]]]; try discriminate;
    repeat match goal with |- context [if ?b then _ else _] => destruct b eqn:? end;
    intros [= <-];
    repeat match goal with H : (_ && _) = true |- _ => apply andb_true_iff in H as [? ?]
           | H : negb _ = true |- _ => apply negb_true_iff in H
           | H : (_ =? _) = true |- _ => apply Z.eqb_eq in H; subst
           | H : (_ =? _) = false |- _ => apply Z.eqb_neq in H end;
    cbn; eexists; (split; [reflexivity|]); repeat split; intros; try congruence; try lia.
Qed.

Lemma next_nodes g t w c p p' l : wfg g -> live g t w c p p' l -> next_of t (nodes g) p'.
Proof.
  intros W L. destruct (chain_le _ _ _ _ _ _ (l_chain _ _ _ _ _ _ _ L)) as [E _].
  pose proof (l_nodes _ _ _ _ _ _ _ L) as N. pose proof (l_next _ _ _ _ _ _ _ L) as X.
  assert (Up : forall j, p' <= j -> get (t, j) (nodes g) = None).
  { intros j Hj. destruct (get (t, j) (nodes g)) eqn:G; [|reflexivity]. exfalso.
    assert (S : stored (t, j) (nodes g)) by (unfold stored; fold (get (t, j) (nodes g)); congruence).
    apply N in S as [S | S]; [|lia]. apply S. apply (next_of_above t (onodes g) p j X). lia. }
  destruct (Z.eq_dec p' p) as [->|Ne].
  - destruct X as [[-> A] | [A B]].
    + left. split; [reflexivity|]. intros j. destruct (get (t, j) (nodes g)) eqn:G; [|reflexivity]. exfalso.
      assert (S : stored (t, j) (nodes g)) by (unfold stored; fold (get (t, j) (nodes g)); congruence).
      apply N in S as [S | S]; [|lia]. now apply S, A.
    + right. split; [|exact Up]. apply N. now left.
  - right. split; [|exact Up]. apply N. right. lia.
Qed.
Lemma next_subs g t w c p p' l : wfg g -> live g t w c p p' l -> next_of t (subs g) (idx c + 1).
Proof.
  intros W L. pose proof (l_end _ _ _ _ _ _ _ L) as Up.
  pose proof (chain_top g t _ _ _ _ _ (l_chain _ _ _ _ _ _ _ L) (phase_top _ _ _ (l_phase _ _ _ _ _ _ _ L))
    (l_fresh _ _ _ _ _ _ _ L)) as T. destruct T as [-> | (d & T & _)].
  - left. split; [reflexivity|]. intros j. destruct (get (t, j) (subs g)) eqn:G; [|reflexivity]. exfalso.
    assert (S : stored (t, j) (subs g)) by (unfold stored; fold (get (t, j) (subs g)); congruence).
    apply stored_nonneg in S; [|apply W]. cbn in Up. rewrite Up in G by lia. discriminate.
  - right. split; [|intros j Hj; apply Up; lia]. replace (idx c + 1 - 1) with (idx c) by lia. congruence.
Qed.

Lemma active_ok g t its a b c : poses_ok g -> glob g -> status g t its a b c -> a = false ->
  traj_state t g = (Active, Normal) /\ local_to_global_ok (gposes g) t g = true.
Proof.
  intros P G S E. inversion S; subst; try discriminate. split; [assumption|].
  unfold local_to_global_ok. rewrite (g_init _ G). cbn. destruct (last_id t (gposes g)) as [x|] eqn:L; [|reflexivity].
  destruct (P t x L) as [St | [_ N]]; [now apply has_stored|]. rewrite H in N. now elim N.
Qed.

Lemma pend_app l l' : pend (l ++ l') = pend l ++ pend l'.
Proof. unfold pend. apply flat_map_app. Qed.
Lemma count_app l l' : count_nodes (l ++ l') = count_nodes l + count_nodes l'.
Proof. unfold count_nodes. rewrite pend_app, app_length. lia. Qed.

(* a stored node or submap of another trajectory is not affected by an addition at t *)
Lemma get_other {D} (m m' : mbi D) t i v a j : (forall y, get y m' = if id_eqb y (t, i) then Some v else get y m) ->
  a <> t -> get (a, j) m' = get (a, j) m.
Proof. intros H N. rewrite H. destruct (id_eqb_spec (a, j) (t, i)) as [[= -> ->]|]; [congruence | reflexivity]. Qed.
Lemma get_mono {D} (m m' : mbi D) x v : get x m = None ->
  (forall y, get y m' = if id_eqb y x then Some v else get y m) -> forall y w, get y m = Some w -> get y m' = Some w.
Proof. intros N H y w G. rewrite H. destruct (id_eqb_spec y x) as [->|]; [congruence | exact G]. Qed.

(* AddNode *)
Lemma append_ok t objs nw g its c c' : glob g -> status g t its false false c -> 0 <= t ->
  zsorted (trajs g) -> adv c objs nw = Some c' ->
  exists p' g', append_node t objs g = Some ((t, p'), g') /\ glob g' /\
    status g' t (its ++ [INode (t, p') objs nw]) false false c' /\
    (forall a, a <> t -> same_at a g g') /\ (forall a, traj_state a g' = traj_state a g) /\
    zsorted (trajs g') /\ osubs g' = osubs g /\ onodes g' = onodes g /\ gposes g' = gposes g /\
    constraints g' = constraints g /\ searches g' = searches g /\ trimmers g' = trimmers g /\
    num_nodes g' = num_nodes g + 1 /\ num_finished g' = num_finished g /\
    (forall x, stored x (subs g) -> stored x (subs g')).
Proof.
  intros G S Ht Zs A. inversion S as [its' w p p' c0 Ts Fd L | | | | |]; subst; try discriminate.
  pose proof (g_wf _ G) as W. unfold append_node.
  destruct (adv_new _ _ _ _ A) as (r & -> & AN0 & AN1 & AN2).
  unfold add_trajectory. rewrite Ts. cbn [bind].
  set (g1 := set_added (t :: added g) (set_trajs (zput t (Active, Normal) (trajs g)) g)).
  assert (T1 : forall a, traj_state a g1 = traj_state a g).
  { intros a. unfold traj_state at 1. cbn. rewrite zfind_zput by exact Zs. destruct (Z.eqb_spec a t) as [->|]; [now rewrite Ts | reflexivity]. }
  assert (Cm : can_modify t g1 = true).
  { unfold can_modify. cbn. rewrite zfind_zput by exact Zs. now rewrite Z.eqb_refl. }
  rewrite Cm. change (nodes g1) with (nodes g).
  pose proof (append_get (nodes g) t tt (w_nodes _ W)) as Hn. pose proof (l_shut _ _ _ _ _ _ _ L) as (H1 & H2 & H3 & H4).
  destruct (mbi_append t tt (nodes g)) as [[x m]|] eqn:En; [|destruct Hn as [Hn | Hn]; [lia | congruence]].
  destruct Hn as (Wm & Fx & Nx & _ & Gm & Sm & _). destruct x as [x1 x2]. cbn [fst snd] in *. subst x1.
  pose proof (next_nodes _ _ _ _ _ _ _ W L) as NN. pose proof (next_of_unique _ _ _ _ (w_nodes _ W) Nx NN) as ->. clear NN.
  cbn [bind fst snd]. cbv zeta.
  set (g2 := set_num_nodes (num_nodes g1 + 1) (set_nodes m g1)).
  change (subs g2) with (subs g).
  assert (Gn : get (t, p') (nodes g) = None) by (eapply next_of_above; [exact Nx | lia]).
  pose proof (next_subs _ _ _ _ _ _ _ W L) as NS.
  pose proof (chain_top g t _ _ _ _ _ (l_chain _ _ _ _ _ _ _ L) (phase_top _ _ _ (l_phase _ _ _ _ _ _ _ L)) (l_fresh _ _ _ _ _ _ _ L)) as T.
  assert (Stn : forall y, stored y m <-> y = (t, p') \/ stored y (nodes g)).
  { intros y. rewrite !stored_get, Gm. destruct (id_eqb_spec y (t, p')) as [->|N]; split; auto; try discriminate. intuition. }
  (* the node part *)
  assert (Kn : forall x, knows x g = true -> knows x g1 = true).
  { intros x K. unfold knows. cbn. unfold knows in K. rewrite K. apply orb_true_r. }
  assert (Kt : knows t g1 = true) by (unfold knows; cbn; now rewrite Z.eqb_refl).
  pose proof G as [Gw Gf Gr Gd Gc Gs Gq Gos Gon Gk Gi].
  set (new := match last_id t (subs g) with
        | None => true
        | Some x => match get x (subs g) with Some s => negb (obj s =? tobj c') | None => true end
        end).
  assert (Hnew : (new = true /\ idx c' = idx c + 1) \/ (new = false /\ idx c' = idx c /\ c <> P0)).
  { unfold new. destruct T as [-> | (d & Gt & Od)].
    - cbn in NS. destruct NS as [[_ NS] | [NS _]].
      + apply last_id_None in NS; [|apply W]. rewrite NS. left. split; [reflexivity|]. rewrite AN0; reflexivity.
      + exfalso. apply (stored_nonneg t (-1) (subs g) (w_subs _ W)) in NS. lia.
    - assert (Lt : last_id t (subs g) = Some (t, idx c)).
      { apply last_id_max; [apply W | congruence|]. intros j Hj. apply (l_end _ _ _ _ _ _ _ L). exact Hj. }
      rewrite Lt, Gt, Od. destruct (phase_top g t w (l_phase _ _ _ _ _ _ _ L)) as [|]; 
      (assert (Nc : c <> P0) by
        (intros ->; cbn in Gt; assert (Sx : stored (t, -1) (subs g)) by (unfold stored; fold (get (t, -1) (subs g)); congruence);
         apply stored_nonneg in Sx; [lia | apply W]));
      (destruct (Z.eqb_spec (tobj c) (tobj c')) as [E|E]; cbn;
       [right; split; [reflexivity|]; split; [apply AN2; auto | exact Nc] | left; split; [reflexivity | apply AN1; auto]]). }
  (* both outcomes give a graph set_subs ms g2 *)
  assert (Out : exists ms, (if new then q <- mbi_append t (mk_sub (tobj c') false []) (subs g);; Some (t, p', set_subs (snd q) g2)
                           else Some (t, p', g2)) = Some (t, p', set_subs ms g2) /\
     wf ms /\ (forall a, shut a ms = shut a (subs g)) /\ (forall a j, a <> t -> get (a, j) ms = get (a, j) (subs g)) /\
     (forall y v, get y (subs g) = Some v -> get y ms = Some v) /\
     (forall y v, get y ms = Some v -> get y (subs g) = Some v \/ (y = (t, idx c') /\ v = mk_sub (tobj c') false [])) /\
     (forall j, idx c' < j -> get (t, j) ms = None) /\
     (idx c' <> idx c -> get (t, idx c') ms = Some (mk_sub (tobj c') false [])) /\
     (idx c' <> idx c -> idx c < idx c') /\
     (forall j, j <= idx c -> get (t, j) ms = get (t, j) (subs g))).
  { destruct Hnew as [[-> Ei] | (-> & Ei & Nc)].
    - pose proof (append_get (subs g) t (mk_sub (tobj c') false []) (w_subs _ W)) as Hs.
      destruct (mbi_append t (mk_sub (tobj c') false []) (subs g)) as [[y ms]|] eqn:Es; [|destruct Hs as [Hs | Hs]; [lia | congruence]].
      destruct Hs as (Ws & Fy & Ny & _ & Gs' & Ss & _). destruct y as [y1 y2]. cbn [fst snd] in *. subst y1.
      pose proof (next_of_unique _ _ _ _ (w_subs _ W) Ny NS) as ->. rewrite <- Ei in *.
      assert (N0 : get (t, idx c') (subs g) = None) by (eapply next_of_above; [exact Ny | lia]).
      exists ms. split; [reflexivity|]. split; [exact Ws|]. split; [exact Ss|]. split; [intros a j Na; eapply get_other; eassumption|].
      split; [eapply get_mono; eassumption|].
      split; [intros y v; rewrite Gs'; destruct (id_eqb_spec y (t, idx c')) as [->|]; [intros [= <-]; auto | auto]|].
      split; [intros j Hj; rewrite Gs'; destruct (id_eqb_spec (t, j) (t, idx c')) as [[= ->]|]; [lia | eapply next_of_above; [exact Ny | lia]]|].
      split; [intros _; rewrite Gs', id_eqb_refl; reflexivity|]. split; [lia|].
      intros j Hj. rewrite Gs'. destruct (id_eqb_spec (t, j) (t, idx c')) as [[= ->]|]; [lia | reflexivity].
    - exists (subs g). split; [reflexivity|]. split; [apply W|]. rewrite Ei. repeat split; auto; try congruence.
      intros j Hj. apply (l_end _ _ _ _ _ _ _ L). exact Hj. }
  clear Hnew. fold new. destruct Out as (ms & -> & Wms & Sms & Oms & Mms & Bms & Ems & Nms & Lms & Dms).
  exists p', (set_subs ms g2). split; [reflexivity|].
  assert (Stm : forall y, stored y (subs g) -> stored y ms).
  { intros y Sy. unfold stored in *. fold (get y (subs g)) in Sy. fold (get y ms). destruct (get y (subs g)) eqn:E; [|congruence]. now rewrite (Mms _ _ E). }
  assert (Rec : forall s n, recorded (set_subs ms g2) s n <-> recorded g s n).
  { intros s n. unfold recorded. cbn. fold (get s ms). fold (get s (subs g)). split.
    - intros (d & Gd' & Id). destruct (Bms _ _ Gd') as [Go | [-> ->]]; [eauto | contradiction].
    - intros (d & Gd' & Id). eauto. }
  split.
  { constructor; cbn.
    - constructor; cbn; auto; apply W.
    - intros s d Gd' Fd'. destruct (Bms _ _ Gd') as [Go | [-> ->]]; [eauto | discriminate].
    - intros s n R. apply Rec in R. auto.
    - intros n Sn. destruct (Gd n Sn) as (s & R). exists s. now apply Rec.
    - exact Gc.
    - exact Gs.
    - intros s d Gd'. destruct (Bms _ _ Gd') as [Go | [-> ->]]; [eauto | constructor].
    - intros s Ss. auto.
    - intros n Sn. apply Stn. right. auto.
    - intros x Hx. assert (D : fst x = t \/ stored x (subs g) \/ stored x (nodes g)).
      { destruct Hx as [Hx | Hx].
        - unfold stored in Hx. fold (get x ms) in Hx. destruct (get x ms) as [v|] eqn:E; [|congruence].
          destruct (Bms _ _ E) as [Go | [-> _]]; [right; left; eapply get_stored; exact Go | now left].
        - apply Stn in Hx as [-> | Hx]; auto. }
      change (knows (fst x) (set_subs ms g2)) with (knows (fst x) g1).
      destruct D as [-> | D]; [exact Kt | apply Kn, Gk, D].
    - exact Gi. }
  split.
  { eapply st_open with (w := w) (p := p) (p' := p' + 1).
    - change (traj_state t (set_subs ms g2)) with (traj_state t g1). rewrite T1. exact Ts.
    - apply Forall_app. split; [exact Fd | repeat constructor].
    - rewrite pend_app. cbn. destruct L as [L1 L2 L11 L3 L4 L5 L6 L7 L8 L9 L10]. destruct (chain_le _ _ _ _ _ _ L1) as [LE1 LE2].
      constructor; cbn.
      + apply (chain_snoc _ _ _ _ _ _ L1 _ _ _ A).
      + eapply phase_grow; [|exact L2]. intros j v. apply Mms.
      + intros j d Gj. destruct (Bms _ _ Gj) as [Go | [[= ->] ->]]; [eapply L11; exact Go|].
        intros Lo. exfalso. destruct (get (t, idx c') (subs g)) as [v|] eqn:E.
        * assert (Hd : v = mk_sub (tobj c') false []) by (rewrite (Mms _ _ E) in Gj; now injection Gj).
          specialize (L11 _ _ E Lo). subst v. discriminate.
        * destruct (Z.eq_dec (idx c') (idx c)) as [Ei|Ei].
          -- rewrite Ei, Dms, <- Ei in Gj by lia. congruence.
          -- specialize (Lms Ei). destruct w; cbn in *; lia.
      + intros j. rewrite L3. split; intros [A1 A2]; (split; [|exact A2]); [now apply Stm|].
        unfold stored in *. fold (get (t, j) ms) in A1. fold (get (t, j) (subs g)). rewrite Dms in A1 by lia. exact A1.
      + eapply fresh_snoc; [exact L1 | exact A | exact Nms|]. eapply fresh_grow; [|exact L4]. intros j v. apply Mms.
      + exact Ems.
      + exact L6.
      + intros j. rewrite Stn, L7. split.
        * intros [[= ->] | [A1 | A1]]; [right; lia | now left | right; lia].
        * intros [A1 | A1]; [right; now left|]. destruct (Z.eq_dec j p') as [->|]; [now left | right; right; lia].
      + intros Nw. apply Rec. now apply L8.
      + exact L9.
      + rewrite Sms, Sm. auto. }
  split.
  { intros a Na. unfold same_at. cbn. repeat split; auto. intros j. eapply get_other; eassumption. }
  split; [exact T1|]. split; [cbn; now apply zput_sorted|]. repeat split; auto.
Qed.

Lemma filter_other t l : (forall i, In i l -> concerns t i = false) -> filter (concerns t) l = [].
Proof.
  induction l as [|i l IH]; intros H; cbn; [reflexivity|]. rewrite (H i (or_introl eq_refl)). apply IH. intros; apply H; now right.
Qed.
Lemma put_same {A} t (v : A) f : put t v f t = v.
Proof. unfold put. now rewrite Z.eqb_refl. Qed.
Lemma put_other {A} t (v : A) f a : a <> t -> put t v f a = f a.
Proof. unfold put. intros N. destruct (Z.eqb_spec a t); congruence. Qed.

Definition next_mode (m : mode) (l : list item) : mode := match m, l with Idle, _ :: _ => Draining | _, _ => m end.
(* a call that changes no map and adds items *)
Lemma good_items s k g' l k' : good s k ->
  glob g' -> subs g' = subs (gr s) -> osubs g' = osubs (gr s) -> gposes g' = gposes (gr s) ->
  constraints g' = constraints (gr s) -> searches g' = searches (gr s) -> trimmers g' = trimmers (gr s) ->
  num_nodes g' = num_nodes (gr s) -> num_finished g' = num_finished (gr s) ->
  (forall t, fst (traj_state t g') = fst (traj_state t (gr s))) -> zsorted (trajs g') ->
  (forall t, status g' t (filter (concerns t) (queue s) ++ filter (concerns t) l) (closed k' t) (del k' t) (ph k' t)) ->
  Forall plain l -> count_nodes l = 0 ->
  (forall t, pure k t = true -> pure k' t = true) ->
  (forall t kp f, In (ITrimmer (Pure t kp f)) l -> pure k' t = true) ->
  (forall t, del k' t = true -> pure k' t = false) ->
  good (mk_sys g' (queue s ++ l) (next_mode (md s) l)) k'.
Proof.
  intros [G1 G2 G3 G4 G5 G6 G7 G8 G9 G10 G11] Hg E1 E2 E3 E4 E5 E6 E7 E8 Et Zs St Pl Cn Pu Pi De.
  constructor; cbn [gr queue md]; auto.
  - intros t x Lx. rewrite E3 in Lx. rewrite E1. destruct (G2 t x Lx) as [|[A B]]; [now left|].
    right. split; [now rewrite E2 | now rewrite Et].
  - intros t. rewrite filter_app. apply St.
  - apply Forall_app. auto.
  - rewrite E6. revert G5. apply Forall_impl. intros [t kp f|]; cbn; [|auto]. intros [? ?]; auto.
  - intros t kp f I. apply in_app_or in I as [I | I]; eauto.
  - rewrite E7, E8, count_app, Cn, G8. lia.
  - unfold next_mode. destruct (md s) eqn:M, l; try discriminate; intros _; rewrite G10; auto.
  - assert (H : match md s with
           | Optimizing res => searches g' = [] /\ forall c, In c res -> In c (constraints g') /\ c_inter c = true
           | Handling res => searches g' = [] /\ (forall c, In c res -> In c (constraints g') /\ c_inter c = true) /\
               (forall x, stored x (osubs g') -> stored x (gposes g'))
           | _ => True end) by (destruct (md s); rewrite ?E2, ?E3, ?E4, ?E5; auto).
    unfold next_mode. destruct (md s), l; auto.
Qed.

Lemma good_same_items s k l k' : good s k ->
  (forall t, status (gr s) t (filter (concerns t) (queue s) ++ filter (concerns t) l) (closed k' t) (del k' t) (ph k' t)) ->
  Forall plain l -> count_nodes l = 0 ->
  (forall t, pure k t = true -> pure k' t = true) ->
  (forall t kp f, In (ITrimmer (Pure t kp f)) l -> pure k' t = true) ->
  (forall t, del k' t = true -> pure k' t = false) ->
  good (mk_sys (gr s) (queue s ++ l) (next_mode (md s) l)) k'.
Proof. intros G. apply good_items; auto; apply G. Qed.

Lemma status_other g t q b d w : status g t q b d w -> status g t (q ++ []) b d w.
Proof. now rewrite app_nil_r. Qed.

Lemma good_call every_n c s k k' : good s k -> allowed c k (gr s) = Some k' ->
  exists s', step every_n (Call c) s = Some s' /\ good s' k'.
Proof.
  intros G A. pose proof (s_status _ _ G) as St. pose proof (s_del _ _ G) as Dl.
  assert (Free : forall l, Forall plain l -> count_nodes l = 0 -> (forall t i, In i l -> concerns t i = false) ->
      (forall t kp f, In (ITrimmer (Pure t kp f)) l -> pure k t = true) ->
      good (mk_sys (gr s) (queue s ++ l) (next_mode (md s) l)) k).
  { intros l Pl Cn Nc Pi. apply good_same_items with (k := k); auto. intros t. rewrite (filter_other t l) by (intros; eauto).
    apply status_other, St. }
  unfold step. destruct c; cbn [do_call allowed] in *; try discriminate.
  - (* AddNode *)
    destruct (Z.leb_spec 0 t) as [Ht|]; [|discriminate]. destruct (closed k t) eqn:C; [discriminate|]. cbn [andb negb] in A.
    destruct (adv (ph k t) objs newly) as [w|] eqn:Ad; [|discriminate]. injection A as <-.
    destruct (active_ok _ _ _ _ _ _ (s_poses _ _ G) (s_glob _ _ G) (St t) C) as [Ts ->].
    pose proof (St t) as St'. rewrite C in St'.
    assert (Dt : del k t = false) by (inversion St'; auto; congruence). rewrite Dt in St'.
    destruct (append_ok t objs newly _ _ _ _ (s_glob _ _ G) St' Ht (s_trajs _ _ G) Ad) as
      (p & g' & -> & Gg & Sg & Sa & Ta & Zs & Q1 & Q2 & Q3 & Q4 & Q5 & Q6 & Q7 & Q8 & Mo).
    cbn [bind fst snd]. eexists. split; [reflexivity|]. fold (next_mode (md s) [INode (t, p) objs newly]).
    constructor; cbn [gr queue md].
    + exact Gg.
    + intros a x Lx. rewrite Q3 in Lx. destruct (s_poses _ _ G a x Lx) as [|[A B]]; [left; auto|].
      right. split; [now rewrite Q1 | now rewrite Ta].
    + intros a. rewrite filter_app. cbn [closed del ph filter concerns fst]. destruct (Z.eqb_spec t a) as [<-|Na].
      * rewrite put_same, C, Dt. exact Sg.
      * rewrite app_nil_r, put_other by auto. eapply status_same; [apply Sa; auto | apply Ta | apply St].
    + apply Forall_app. split; [apply G|]. repeat constructor. cbn. intros ->.
      destruct (ph k t); cbn in Ad; discriminate.
    + rewrite Q6. apply (s_trimmers _ _ G).
    + intros a kp f I. apply in_app_or in I as [I | [I | []]]; [|discriminate]. eapply (s_pure _ _ G); eassumption.
    + exact Dl.
    + rewrite Q7, Q8, (s_count _ _ G), count_app. change (count_nodes [INode (t, p) objs newly]) with 1. lia.
    + exact Zs.
    + unfold next_mode. destruct (md s); discriminate.
    + pose proof (s_mode _ _ G) as M. unfold next_mode. destruct (md s); cbn; auto; rewrite ?Q1, ?Q3, ?Q4, ?Q5; exact M.
  - (* AddData *)
    destruct (closed k t) eqn:C; [discriminate|]. injection A as <-. cbn [bind fst snd]. eexists. split; [reflexivity|].
    apply (good_same_items s k [IData t]); auto; [|repeat constructor | intros a kp f [|[]]; discriminate].
    intros a. cbn [filter concerns]. destruct (Z.eqb_spec t a) as [<-|]; [|apply status_other, St].
    pose proof (St t) as S'. rewrite C in *. inversion S' as [its w p p' c Ts Fd L | | | | |]; subst; try congruence.
    eapply st_open; [exact Ts | apply Forall_app; split; [exact Fd | repeat constructor]|].
    rewrite pend_app. cbn. rewrite app_nil_r. exact L.
  - (* DeleteTrajectory *)
    destruct (is_finished t (gr s)) eqn:Fi; [|discriminate]. destruct (pure k t) eqn:Pu; [discriminate|].
    destruct (del k t) eqn:De; [discriminate|]. cbn in A. injection A as <-.
    pose proof (St t) as S'. rewrite De in S'. unfold is_finished in Fi.
    assert (Hs : traj_state t (gr s) = (Finished, Normal) /\ filter (concerns t) (queue s) = [] /\ closed k t = true /\ done (gr s) t).
    { inversion S' as [? ? ? ? ? Ts|? ? ? ? ? Ts|? Ts D|? Ts|? Ts|? ? Ts]; subst; rewrite Ts in *; try discriminate. auto. }
    destruct Hs as (Ts & Qt & Cl & Dn).
    assert (Zf : zfind t (trajs (gr s)) = Some (Finished, Normal)).
    { unfold traj_state in Ts. destruct (zfind t (trajs (gr s))); congruence. }
    rewrite Zf. cbn [bind fst snd]. eexists. split; [reflexivity|].
    destruct (state_put (gr s) t (Finished, Scheduled) (s_trajs _ _ G) (set_trajs (zput t (Finished, Scheduled) (trajs (gr s))) (gr s)) eq_refl) as [Z1 T1].
    apply (good_items s k _ [IDelete t]); auto; cbn [closed del ph pure].
    + apply (glob_maps (gr s)); auto using incl_refl; try apply (s_glob _ _ G).
    + intros a. rewrite T1. destruct (Z.eqb_spec a t) as [->|]; [now rewrite Ts | reflexivity].
    + intros a. cbn [filter concerns]. destruct (Z.eqb_spec t a) as [<-|Na].
      * rewrite put_same, Qt, Cl. cbn. apply st_deleting; [rewrite T1, Z.eqb_refl; reflexivity|].
        apply (done_same (gr s)); [now apply same_maps | exact Dn].
      * rewrite put_other by auto. apply status_other. apply (status_same (gr s)); [now apply same_maps | | apply St].
        rewrite T1. destruct (Z.eqb_spec a t); congruence.
    + repeat constructor.
    + intros a kp f [|[]]; discriminate.
    + intros a. unfold put. destruct (Z.eqb_spec a t) as [->|]; auto.
  - (* FinishTrajectory *)
    destruct (closed k t) eqn:C; [discriminate|]. injection A as <-. cbn [bind fst snd]. eexists. split; [reflexivity|].
    apply (good_same_items s k [IFinish t]); cbn [closed del ph pure]; auto;
      [|repeat constructor | intros a kp f [|[]]; discriminate].
    intros a. cbn [filter concerns]. destruct (Z.eqb_spec t a) as [<-|]; [|rewrite put_other by auto; apply status_other, St].
    rewrite put_same. pose proof (St t) as S'. rewrite C in *. inversion S' as [its w p p' c Ts Fd L | | | | |]; subst; try congruence.
    eapply st_closing; eauto.
  - (* AddTrimmer *)
    destruct tr as [t keep f|].
    + destruct (Z.leb_spec 2 keep) as [Hk|]; [|discriminate]. destruct f; [discriminate|]. destruct (del k t) eqn:De; [discriminate|].
      cbn in A. injection A as <-. cbn [bind fst snd]. eexists. split; [reflexivity|].
      apply (good_same_items s k [ITrimmer (Pure t keep false)]); cbn [closed del ph pure]; auto.
      * intros a. cbn. apply status_other, St.
      * repeat constructor. exact Hk.
      * intros a Pa. unfold put. destruct (a =? t); auto.
      * intros a kp f [[= -> -> <-]|[]]. now rewrite put_same.
      * intros a Da. rewrite put_other; [auto | congruence].
    + injection A as <-. cbn [bind fst snd]. eexists. split; [reflexivity|].
      apply (Free [ITrimmer Overlapping]); auto; [repeat constructor | intros a i [<-|[]]; reflexivity | intros a kp f [|[]]; discriminate].
  - injection A as <-. cbn [bind fst snd]. eexists. split; [reflexivity|].
    apply (Free [IOptimize; IOther]); auto; [repeat constructor | intros a i [<-|[<-|[]]]; reflexivity | intros a kp f [|[|[]]]; discriminate].
  - injection A as <-. cbn [bind fst snd]. eexists. split; [reflexivity|].
    apply (Free [IOther]); auto; [repeat constructor | intros a i [<-|[]]; reflexivity | intros a kp f [|[]]; discriminate].
  - destruct (closed k t) eqn:C; [discriminate|]. injection A as <-.
    destruct (active_ok _ _ _ _ _ _ (s_poses _ _ G) (s_glob _ _ G) (St t) C) as [_ ->]. cbn [bind fst snd]. eexists. split; [reflexivity|].
    apply (Free []); auto; try constructor; intros; contradiction.
  - injection A as <-.
    assert (F : forallb (fun c => has (c_node c) (nodes (gr s))) (constraints (gr s)) = true).
    { apply forallb_forall. intros c Ic. apply has_stored. apply (g_onode _ (s_glob _ _ G)). now apply (g_con _ (s_glob _ _ G)). }
    rewrite F. cbn [bind fst snd]. eexists. split; [reflexivity|].
    apply (Free []); auto; try constructor; intros; contradiction.
Qed.
