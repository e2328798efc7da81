From Coq Require Import List ZArith Bool Lia Sorted.
From Verif Require Import ZMap MapById_Model MapById_Spec MapById_Proofs PG_Model PG_Maps PG_Spec
  PG_Proofs PG_Trim PG_Delete PG_Client PG_Session PG_Session_Call.
Import ListNotations.
Open Scope Z_scope.

Lemma set_osubs_same g : set_osubs (osubs g) g = g.
Proof. destruct g; reflexivity. Qed.

(* ---- InitializeGlobalSubmapPoses ---- *)
Definition pre (w : phase) : phase := match w with P3 k a b => P2 k a b | _ => w end.
Definition slots (t : Z) (w : phase) : list id :=
  match w with P0 => [] | P1 _ => [(t, 0)] | P2 k _ _ | P3 k _ _ => [(t, k - 1); (t, k)] end.

Lemma same_obj_unfin g x o o' : unfin g x o -> same_obj x o' g = Some (o =? o').
Proof. intros (d & G & <- & _). unfold same_obj. now rewrite G. Qed.
Lemma unfin_stored g x o : unfin g x o -> stored x (subs g).
Proof. intros (d & G & _). eapply get_stored; exact G. Qed.

Lemma init_ok g t w c p p' l objs nw w' : glob g -> live g t w c p p' l -> 0 <= t ->
  local_to_global_ok (gposes g) t g = true -> adv w objs nw = Some w' ->
  (idx w' <> idx w -> get (t, idx w') (subs g) = Some (mk_sub (tobj w') false [])) ->
  exists m, initialize_poses t objs g = Some (slots t w', set_osubs m g) /\ wf m /\
    (forall a, shut a m = shut a (osubs g)) /\
    (forall y, get y m = if id_eqb y (t, idx w') then Some tt else get y (osubs g)) /\
    at_phase g t (pre w') /\
    (forall j d, get (t, j) (subs g) = Some d -> j < low (pre w') -> fin d = true).
Proof.
  intros G L Ht Lg A Fr. pose proof (g_wf _ G) as W. pose proof (l_dom _ _ _ _ _ _ _ L) as Dm.
  pose proof (l_phase _ _ _ _ _ _ _ L) as Ph. pose proof (l_fin _ _ _ _ _ _ _ L) as Fi.
  pose proof (l_shut _ _ _ _ _ _ _ L) as (_ & Sh & _).
  assert (Last : w <> P0 -> stored (t, idx w) (osubs g) /\ last_id t (osubs g) = Some (t, idx w)).
  { intros Nw. assert (S : stored (t, idx w) (osubs g)).
    { apply Dm. split; [|lia]. destruct (phase_top _ _ _ Ph) as [|(d & T & _)]; [contradiction | eapply get_stored; exact T]. }
    split; [exact S|]. apply last_id_max; [apply W | exact S|]. intros j Hj.
    destruct (get (t, j) (osubs g)) eqn:E; [|reflexivity]. exfalso.
    assert (Sj : stored (t, j) (osubs g)) by (eapply get_stored; exact E). apply Dm in Sj. lia. }
  assert (Same : forall x, stored x (osubs g) -> forall y, get y (osubs g) = if id_eqb y x then Some tt else get y (osubs g)).
  { intros x S y. destruct (id_eqb_spec y x) as [->|]; [|reflexivity]. unfold stored in S. fold (get x (osubs g)) in S.
    destruct (get x (osubs g)) as [[]|]; [reflexivity | congruence]. }
  pose proof (append_get (osubs g) t tt (w_osubs _ W)) as Ap.
  assert (App : forall i, next_of t (osubs g) i -> exists m, mbi_append t tt (osubs g) = Some ((t, i), m) /\ wf m /\
     (forall a, shut a m = shut a (osubs g)) /\ (forall y, get y m = if id_eqb y (t, i) then Some tt else get y (osubs g))).
  { intros i Ni. destruct (mbi_append t tt (osubs g)) as [[x m]|]; [|destruct Ap as [|]; [lia | congruence]].
    destruct Ap as (Wm & Fx & Nx & _ & Gm & Sm & _). destruct x as [x1 x2]. cbn in *. subst x1.
    pose proof (next_of_unique _ _ _ _ (w_osubs _ W) Nx Ni) as ->. exists m. auto. }
  assert (Next : w <> P0 -> next_of t (osubs g) (idx w + 1)).
  { intros Nw. destruct (Last Nw) as [S La]. right. replace (idx w + 1 - 1) with (idx w) by lia. split; [exact S|].
    intros j Hj. destruct (last_id_Some _ _ _ (w_osubs _ W) La) as (_ & _ & K). apply K. cbn. lia. }
  assert (Un : idx w' <> idx w -> unfin g (t, idx w') (tobj w')).
  { intros N. exists (mk_sub (tobj w') false []). rewrite Fr by exact N. auto. }
  clear Ap.
  destruct w as [|a|k a b|k a b]; cbn [adv] in A.
  - (* the first node *)
    destruct objs as [|o [|]]; try discriminate. destruct nw; [discriminate|]. injection A as <-. cbn [idx tobj pre low slots initialize_poses] in *.
    assert (Em : forall j, get (t, j) (osubs g) = None).
    { intros j. destruct (get (t, j) (osubs g)) eqn:E; [|reflexivity]. exfalso.
      assert (S : stored (t, j) (osubs g)) by (eapply get_stored; exact E).
      pose proof (stored_nonneg _ _ _ (w_osubs _ W) S). apply Dm in S. lia. }
    assert (Sz : (mbi_traj_size t (osubs g) =? 0)%nat = true) by (apply traj_size_0; [apply W | exact Em]).
    rewrite Sz, (g_init _ G). cbn [zfind]. rewrite Lg. destruct (App 0 (or_introl (conj eq_refl Em))) as (m & -> & Wm & Sm & Gm).
    cbn [bind snd]. exists m. cbn [osubs set_osubs].
    rewrite (size_one t m Wm).
    2:{ unfold stored. fold (get (t, 0) m). rewrite Gm, id_eqb_refl. discriminate. }
    2:{ intros j S. unfold stored in S. fold (get (t, j) m) in S. rewrite Gm in S.
        destruct (id_eqb_spec (t, j) (t, 0)) as [E|]; [injection E; auto|]. rewrite Em in S. congruence. }
    assert (U : unfin g (t, 0) o) by (apply Un; lia).
    assert (U' : unfin (set_osubs m g) (t, 0) o) by exact U.
    cbn [Nat.eqb]. rewrite (same_obj_unfin _ _ _ o U'), Z.eqb_refl. cbn [bind].
    split; [reflexivity|]. split; [exact Wm|]. split; [exact Sm|]. split; [exact Gm|]. split; [exact U|].
    intros j d Gj Lj. exfalso. assert (S : stored (t, j) (subs g)) by (eapply get_stored; exact Gj).
    apply stored_nonneg in S; [lia | apply W].
  - destruct (Last ltac:(discriminate)) as [S0 La]. cbn [idx] in *. cbn [at_phase] in Ph.
    assert (One : mbi_traj_size t (osubs g) = 1%nat).
    { apply size_one; [apply W | exact S0|]. intros j S. pose proof (stored_nonneg _ _ _ (w_osubs _ W) S). apply Dm in S. lia. }
    destruct objs as [|o [|o2 [|]]]; try discriminate.
    + destruct (Z.eqb_spec a o) as [<-|]; [|discriminate]. destruct nw; [discriminate|]. injection A as <-.
      cbn [idx tobj pre low slots initialize_poses] in *. rewrite One. cbn [Nat.eqb bind]. rewrite One. cbn [Nat.eqb].
      rewrite (same_obj_unfin _ _ _ a Ph), Z.eqb_refl. cbn [bind]. exists (osubs g). rewrite set_osubs_same.
      split; [reflexivity|]. split; [apply W|]. split; [reflexivity|]. split; [now apply Same|]. split; [exact Ph|].
      intros j d Gj Lj. exfalso. assert (S : stored (t, j) (subs g)) by (eapply get_stored; exact Gj).
      apply stored_nonneg in S; [lia | apply W].
    + destruct (Z.eqb_spec a o) as [<-|]; [|discriminate]. destruct (Z.eqb_spec o2 a) as [|Nb]; [discriminate|]. cbn in A.
      injection A as <-. cbn [initialize_poses]. rewrite La, (same_obj_unfin _ _ _ a Ph), Z.eqb_refl. cbn [bind snd].
      destruct (App _ (Next ltac:(discriminate))) as (m & -> & Wm & Sm & Gm). cbn [bind snd]. exists m.
      assert (E : idx (two 1 a o2 nw) = 1 /\ tobj (two 1 a o2 nw) = o2 /\ pre (two 1 a o2 nw) = P2 1 a o2 /\
                  slots t (two 1 a o2 nw) = [(t, 1 - 1); (t, 1)]) by (unfold two; destruct nw; auto).
      destruct E as (E1 & E2 & E3 & E4). rewrite E1, E2 in *. rewrite E3, E4. cbn [at_phase low].
      split; [reflexivity|]. split; [exact Wm|]. split; [exact Sm|]. split; [exact Gm|].
      split; [repeat split; [lia | auto | apply Un; lia | exact Ph]|].
      intros j d Gj Lj. exfalso. assert (S : stored (t, j) (subs g)) by (eapply get_stored; exact Gj).
      apply stored_nonneg in S; [lia | apply W].
  - destruct (Last ltac:(discriminate)) as [S0 La]. cbn [idx] in *. cbn [at_phase] in Ph. destruct Ph as (K1 & Nab & U1 & U0).
    destruct objs as [|o [|o2 [|]]]; try discriminate.
    destruct (Z.eqb_spec a o) as [<-|]; [|discriminate]. destruct (Z.eqb_spec b o2) as [<-|]; [|discriminate]. cbn in A.
    injection A as <-. cbn [initialize_poses]. rewrite La, (same_obj_unfin _ _ _ a U1). cbn [bind snd].
    destruct (Z.eqb_spec b a) as [|_]; [congruence|]. rewrite (same_obj_unfin _ _ _ b U1), Z.eqb_refl. cbn [bind].
    rewrite (same_obj_unfin _ _ _ a U0), Z.eqb_refl. cbn [bind]. exists (osubs g). rewrite set_osubs_same.
    assert (E : idx (two k a b nw) = k /\ pre (two k a b nw) = P2 k a b /\ slots t (two k a b nw) = [(t, k - 1); (t, k)])
      by (unfold two; destruct nw; auto).
    destruct E as (E1 & E3 & E4). rewrite E1, E3, E4. cbn [at_phase low].
    split; [reflexivity|]. split; [apply W|]. split; [reflexivity|]. split; [now apply Same|].
    split; [repeat split; auto|]. exact Fi.
  - destruct (Last ltac:(discriminate)) as [S0 La]. cbn [idx] in *. cbn [at_phase] in Ph. destruct Ph as (K1 & U1).
    destruct objs as [|o [|o2 [|]]]; try discriminate.
    destruct (Z.eqb_spec b o) as [<-|]; [|discriminate]. destruct (Z.eqb_spec o2 b) as [|Nb]; [discriminate|]. cbn in A.
    injection A as <-. cbn [initialize_poses]. rewrite La, (same_obj_unfin _ _ _ b U1), Z.eqb_refl. cbn [bind snd].
    destruct (App _ (Next ltac:(discriminate))) as (m & -> & Wm & Sm & Gm). cbn [bind snd]. exists m.
    assert (E : idx (two (k + 1) b o2 nw) = k + 1 /\ tobj (two (k + 1) b o2 nw) = o2 /\ pre (two (k + 1) b o2 nw) = P2 (k + 1) b o2 /\
                slots t (two (k + 1) b o2 nw) = [(t, k + 1 - 1); (t, k + 1)]) by (unfold two; destruct nw; auto).
    destruct E as (E1 & E2 & E3 & E4). rewrite E1, E2 in *. rewrite E3, E4. cbn [at_phase low].
    replace (k + 1 - 1) with k by lia.
    split; [reflexivity|]. split; [exact Wm|]. split; [exact Sm|]. split; [exact Gm|].
    split; [repeat split; [lia | auto | apply Un; lia | exact U1]|]. exact Fi.
Qed.

(* ---- the loop over the submaps ---- *)
Lemma insert_node_ok n ss : forall g, wf (subs g) -> NoDup ss ->
  (forall s, In s ss -> exists o, unfin g s o) ->
  exists ms, insert_node n ss g =
      Some (set_constraints (constraints g ++ map (fun s => mk_cons s n false) ss) (set_subs ms g)) /\
    wf ms /\ (forall a, shut a ms = shut a (subs g)) /\
    (forall y, get y ms = if mem y ss then option_map (fun d => mk_sub (obj d) (fin d) (set_add n (nids d))) (get y (subs g))
                          else get y (subs g)).
Proof.
  induction ss as [|s ss IH]; intros g W ND U; cbn [insert_node].
  - exists (subs g). cbn. rewrite app_nil_r. split; [destruct g; reflexivity|]. auto.
  - inversion ND as [|? ? Ns ND']; subst. destruct (U s (or_introl eq_refl)) as (o & d & G & _ & F).
    rewrite G. cbn [bind]. rewrite F. cbn [negb].
    pose proof (upd_get (subs g) s (fun d => mk_sub (obj d) (fin d) (set_add n (nids d))) W) as Ug.
    destruct (upd s _ (subs g)) as [m|]; [|congruence]. destruct Ug as (Wm & (v & Gv & Gm) & Sm).
    assert (v = d) by congruence. subst v. cbn [bind].
    destruct (IH (set_constraints (constraints g ++ [mk_cons s n false]) (set_subs m g))) as (ms & E & Wms & Sms & Gms); cbn; auto.
    { intros x Ix. destruct (U x (or_intror Ix)) as (ox & dx & Gx & Ox & Fx). exists ox, dx. cbn. rewrite Gm.
      destruct (id_eqb_spec x s) as [->|]; [contradiction | auto]. }
    exists ms. rewrite E. cbn. rewrite <- app_assoc. split; [reflexivity|]. split; [exact Wms|].
    split; [intros a; now rewrite Sms|]. intros y. cbn in Gms. rewrite Gms, Gm. cbn.
    destruct (id_eqb_spec y s) as [->|].
    + cbn. assert (M : mem s ss = false) by now apply mem_false. rewrite M, G. reflexivity.
    + reflexivity.
Qed.

(* ---- ComputeConstraint ---- *)
Lemma latest_ok_glob g n s : glob g -> stored n (nodes g) -> stored s (subs g) -> latest_ok n s g = true.
Proof.
  intros G Sn Ss. unfold latest_ok. assert (Hn : has n (nodes g) = true) by now apply has_stored. rewrite Hn. cbn.
  unfold stored in Ss. fold (get s (subs g)) in Ss. destruct (get s (subs g)) as [d|] eqn:E; [|congruence].
  destruct (rev (nids d)) as [|x r] eqn:R; [reflexivity|]. apply has_stored. apply (g_onode _ G).
  apply (g_rec _ G s x). exists d. split; [exact E|]. apply in_rev. rewrite R. now left.
Qed.
Lemma set_searches_glob g ex : glob g -> (forall s n, In (s, n) ex -> stored s (osubs g) /\ stored n (onodes g)) ->
  glob (set_searches (searches g ++ ex) g).
Proof.
  intros [[] G2 G3 G4 G5 G6 G7 G8 G9 G10 G11] H. constructor; cbn; auto.
  - constructor; assumption.
  - intros s n I. apply in_app_or in I as [I | I]; auto.
Qed.
Lemma compute_all_ok o l : forall g, glob g ->
  (forall n s, In (n, s) l -> stored n (onodes g) /\ exists d, get s (subs g) = Some d /\ fin d = true) ->
  exists ex, compute_all o l g = Some (set_searches (searches g ++ ex) g) /\ glob (set_searches (searches g ++ ex) g).
Proof.
  induction l as [|[n s] l IH]; intros g G H; cbn [compute_all].
  - exists []. rewrite app_nil_r. assert (E : set_searches (searches g) g = g) by (destruct g; reflexivity). rewrite E. auto.
  - destruct (H n s (or_introl eq_refl)) as (Sn & d & Gs & F).
    assert (Ss : stored s (osubs g)) by (eapply g_fin; eassumption).
    assert (One : exists ex, compute_constraint (o n s) n s g = Some (set_searches (searches g ++ ex) g) /\
              (forall s' n', In (s', n') ex -> stored s' (osubs g) /\ stored n' (onodes g))).
    { unfold compute_constraint. rewrite Gs, F. assert (E : set_searches (searches g ++ []) g = g) by (rewrite app_nil_r; destruct g; reflexivity).
      destruct (v_skip (o n s)); [exists []; rewrite E; split; [reflexivity | contradiction]|].
      rewrite latest_ok_glob by (solve [exact G | now apply (g_onode _ G) | eapply get_stored; exact Gs]).
      assert (Ho : has s (osubs g) && has n (onodes g) = true) by (apply andb_true_iff; split; now apply has_stored).
      rewrite Ho. assert (Hc : (if (fst n =? fst s) || v_recent (o n s) then true else true) = true) by (destruct (_ || _); reflexivity).
      rewrite Hc. destruct (v_search (o n s)).
      - exists [(s, n)]. split; [reflexivity|]. intros s' n' [[= <- <-]|[]]. auto.
      - exists []. rewrite E. split; [reflexivity | contradiction]. }
    destruct One as (ex & -> & Hex). cbn [bind].
    destruct (IH (set_searches (searches g ++ ex) g)) as (ex' & E' & G'); [now apply set_searches_glob|..].
    { intros n' s' I. apply H. now right. }
    exists (ex ++ ex'). rewrite E'. cbn in *. rewrite app_assoc. split; [reflexivity | exact G'].
Qed.

Lemma adv_newly w objs nw w' : adv w objs nw = Some w' ->
  match w' with P3 _ _ _ => nw = true | _ => nw = false end.
Proof.
  unfold adv, two. destruct w, objs as [|x [|y [|z r]]]; try discriminate;
    repeat match goal with |- context [if ?b then _ else _] => destruct b eqn:? end; intros [= <-]; auto;
    match goal with H : _ && negb nw = true |- _ => apply andb_true_iff in H as [_ H]; now apply negb_true_iff in H end.
Qed.
Lemma fresh_above g g' t l : forall w, (forall j, idx w < j -> get (t, j) (subs g') = get (t, j) (subs g)) ->
  fresh g t w l -> fresh g' t w l.
Proof.
  induction l as [|[[n objs] nw] l IH]; intros w E; cbn; [auto|].
  destruct (adv w objs nw) as [w'|] eqn:A; [|auto]. destruct (adv_idx _ _ _ _ A) as (_ & _ & I & _).
  intros [F1 F2]. split.
  - intros N. rewrite E by lia. auto.
  - apply IH; [|exact F2]. intros j Hj. apply E. lia.
Qed.

Lemma option_map_stored {A B} (f : A -> B) x : option_map f x <> None <-> x <> None.
Proof. destruct x; cbn; split; congruence. Qed.

(* the graph after the node is recorded *)
Lemma record_ok g t w c p p' n objs nw w' r m mo ms front :
  glob g -> live g t w c p p' ((n, objs, nw) :: r) -> adv w objs nw = Some w' -> n = (t, p) ->
  wf m -> (forall a, shut a m = shut a (osubs g)) ->
  (forall y, get y m = if id_eqb y (t, idx w') then Some tt else get y (osubs g)) ->
  at_phase g t (pre w') ->
  (forall j d, get (t, j) (subs g) = Some d -> j < low (pre w') -> fin d = true) ->
  wf mo -> (forall a, shut a mo = shut a (onodes g)) ->
  (forall y, get y mo = if id_eqb y n then Some tt else get y (onodes g)) ->
  In front (slots t w') -> (nw = true -> front = (t, idx w' - 1)) ->
  wf ms -> (forall a, shut a ms = shut a (subs g)) ->
  (forall y, get y ms = option_map (fun d => mk_sub (obj d) (fin d || (nw && id_eqb y front))
                          (if mem y (slots t w') then set_add n (nids d) else nids d)) (get y (subs g))) ->
  let g3 := set_constraints (constraints g ++ map (fun s => mk_cons s n false) (slots t w'))
              (set_subs ms (set_onodes mo (set_osubs m g))) in
  glob g3 /\ live g3 t w' c (p + 1) p' r /\ (forall a, a <> t -> same_at a g g3).
Proof.
  intros G L A -> Wm Sm Gm Ph Fi Wo So Go If Hf Ws Ss Gs g3.
  pose proof (g_wf _ G) as W. pose proof L as [L1 L2 L11 L3 L4 L5 L6 L7 L8 L9 L10].
  inversion L1 as [|? ? ? ? w'' ? ? ? A' C1]; subst. assert (w'' = w') by congruence. subst w''.
  destruct (chain_le _ _ _ _ _ _ C1) as [LE1 LE2]. destruct (adv_idx _ _ _ _ A) as (Nw & _ & Ix & _).
  cbn in L4. rewrite A in L4. destruct L4 as [Fr L4].
  assert (Sl : forall s, In s (slots t w') -> fst s = t /\ stored s (subs g) /\ (exists o, unfin g s o) /\
              (s = (t, idx w') \/ s = (t, idx w' - 1))).
  { intros s Is. destruct w' as [|a|k a b|k a b]; cbn in Is, Ph; [contradiction | | |].
    - destruct Is as [<-|[]]. split; [reflexivity|]. split; [eapply unfin_stored; exact Ph|]. split; [eauto | now left].
    - destruct Ph as (_ & _ & U1 & U0). destruct Is as [<-|[<-|[]]]; (split; [reflexivity|]);
        (split; [eapply unfin_stored; eassumption|]); (split; [eauto | auto]).
    - destruct Ph as (_ & _ & U1 & U0). destruct Is as [<-|[<-|[]]]; (split; [reflexivity|]);
        (split; [eapply unfin_stored; eassumption|]); (split; [eauto | auto]). }
  assert (Topin : In (t, idx w') (slots t w')) by (destruct w'; cbn; auto; congruence).
  assert (St : forall y, stored y ms <-> stored y (subs g)) by (intros y; rewrite !stored_get, Gs; apply option_map_stored).
  assert (Sto : forall y, stored y mo <-> y = (t, p) \/ stored y (onodes g)).
  { intros y. rewrite !stored_get, Go. destruct (id_eqb_spec y (t, p)); split; auto; try discriminate; tauto. }
  assert (Stm : forall y, stored y m <-> y = (t, idx w') \/ stored y (osubs g)).
  { intros y. rewrite !stored_get, Gm. destruct (id_eqb_spec y (t, idx w')); split; auto; try discriminate; tauto. }
  assert (Slm : forall s, In s (slots t w') -> stored s m).
  { intros s Is. apply Stm. destruct (Sl s Is) as (_ & Sg & _ & [-> | ->]); [now left|].
    right. apply L3. split; [exact Sg | lia]. }
  assert (Nn : ~ stored (t, p) (onodes g)) by (intros S; apply S; eapply next_of_above; [exact L6 | lia]).
  assert (Rec : forall s x, recorded g3 s x <-> recorded g s x \/ (x = (t, p) /\ In s (slots t w'))).
  { intros s x. unfold recorded. cbn. fold (get s ms). fold (get s (subs g)). rewrite Gs. split.
    - intros (d & E & I). destruct (get s (subs g)) as [d0|] eqn:E0; [|discriminate]. cbn in E. injection E as <-. cbn in I.
      destruct (mem s (slots t w')) eqn:M; [|left; eauto]. apply set_add_In in I as [-> | I]; [right | left; eauto].
      split; [reflexivity | now apply mem_spec].
    - intros [(d & E & I) | [-> Is]].
      + rewrite E. cbn. eexists. split; [reflexivity|]. cbn. destruct (mem s (slots t w')); [apply set_add_In; now right | exact I].
      + destruct (Sl s Is) as (_ & Sg & _). unfold stored in Sg. fold (get s (subs g)) in Sg.
        destruct (get s (subs g)) as [d|]; [|congruence]. cbn. eexists. split; [reflexivity|]. cbn.
        apply mem_spec in Is. rewrite Is. apply set_add_In. now left. }
  assert (Up : forall j, idx w' < j -> get (t, j) ms = get (t, j) (subs g)).
  { intros j Hj. rewrite Gs.
    assert (M : mem (t, j) (slots t w') = false).
    { apply mem_false. intros I. destruct (Sl _ I) as (_ & _ & _ & [E | E]); injection E; lia. }
    assert (E : id_eqb (t, j) front = false).
    { destruct (id_eqb_spec (t, j) front) as [E|]; [|reflexivity]. exfalso. rewrite <- E in If.
      destruct (Sl _ If) as (_ & _ & _ & [E' | E']); injection E'; lia. }
    rewrite M, E, andb_false_r. destruct (get (t, j) (subs g)) as [d|]; [|reflexivity]. cbn. rewrite orb_false_r. now destruct d. }
  pose proof G as [Gw Gf Gr Gd Gc Gse Gq Gos Gon Gk Gi]. destruct Gw as [V1 V2 V3 V4 V5].
  assert (Hn : stored (t, p) (nodes g)) by (apply L7; right; lia).
  split; [|split].
  - constructor; cbn [g3 subs nodes osubs onodes gposes constraints searches initial set_constraints set_subs set_onodes set_osubs].
    + constructor; cbn; auto.
    + intros s d Gd' Fd. rewrite Gs in Gd'. destruct (get s (subs g)) as [d0|] eqn:E0; [|discriminate]. cbn in Gd'.
      injection Gd' as <-. cbn in Fd. apply orb_true_iff in Fd as [Fd | Fd].
      * apply Stm. right. eauto.
      * apply andb_true_iff in Fd as [_ Fd]. destruct (id_eqb_spec s front) as [->|]; [auto | discriminate].
    + intros s x R. apply Rec in R as [R | [-> Is]].
      * destruct (Gr s x R) as [A1 A2]. split; [apply Sto; now right | exact A2].
      * split; [apply Sto; now left|]. now apply Sl.
    + intros x Sx. apply Sto in Sx as [-> | Sx].
      * exists (t, idx w'). apply Rec. right. auto.
      * destruct (Gd x Sx) as (s & R). exists s. apply Rec. now left.
    + intros q I. apply in_app_or in I as [I | I].
      * destruct (Gc q I) as [A1 A2]. split; [apply Stm | apply Sto]; now right.
      * apply in_map_iff in I as (s & <- & Is). cbn. split; [auto | apply Sto; now left].
    + intros s x I. destruct (Gse s x I) as [A1 A2]. split; [apply Stm | apply Sto]; now right.
    + intros s d Gd'. rewrite Gs in Gd'. destruct (get s (subs g)) as [d0|] eqn:E0; [|discriminate]. cbn in Gd'.
      injection Gd' as <-. cbn. pose proof (Gq s d0 E0). destruct (mem s (slots t w')); [now apply set_add_sorted | assumption].
    + intros s S. apply St. apply Stm in S as [-> | S]; [apply Sl; exact Topin | auto].
    + intros x S. apply Sto in S as [-> | S]; auto.
    + intros x Hx. change (knows (fst x) g3) with (knows (fst x) g). apply Gk. destruct Hx as [Hx | Hx]; [left; now apply St | now right].
    + exact Gi.
  - constructor; cbn [g3 subs nodes osubs onodes set_constraints set_subs set_onodes set_osubs].
    + exact C1.
    + (* phase *)
      pose proof (adv_newly _ _ _ _ A) as An.
      assert (Uk : forall j o, unfin g (t, j) o -> (nw = true -> (t, j) <> front) -> unfin g3 (t, j) o).
      { intros j o (d & E & O & F) Nf. eexists. cbn. rewrite Gs, E. cbn. split; [reflexivity|]. cbn. split; [exact O|].
        rewrite F. cbn. destruct nw; [|reflexivity]. destruct (id_eqb_spec (t, j) front) as [E'|]; [|reflexivity].
        exfalso. now apply Nf. }
      destruct w' as [|a|k a b|k a b]; cbn in An, Ph; cbn [at_phase]; [exact I | | |].
      * apply Uk; [exact Ph | congruence].
      * destruct Ph as (K & N & U1 & U0). split; [exact K|]. split; [exact N|]. split; apply Uk; auto; congruence.
      * destruct Ph as (K & N & U1 & U0). split; [exact K|]. apply Uk; [exact U1|]. intros E. rewrite (Hf E). cbn. intros [= E']. lia.
    + intros j d Gj Lj. rewrite Gs in Gj. destruct (get (t, j) (subs g)) as [d0|] eqn:E0; [|discriminate]. cbn in Gj.
      injection Gj as <-. cbn. destruct (Z_lt_dec j (low (pre w'))) as [Hl|Hl]; [now rewrite (Fi _ _ E0 Hl)|].
      pose proof (adv_newly _ _ _ _ A) as An.
      destruct w' as [|a|k a b|k a b]; cbn in Lj, Hl; try lia. rewrite (Hf An). cbn.
      replace j with (k - 1) by lia. rewrite An, id_eqb_refl. apply orb_true_r.
    + intros j. rewrite Stm, St, L3. split.
      * intros [[= ->] | [A1 A2]]; [split; [now apply Sl | lia] | split; [exact A1 | lia]].
      * intros [A1 A2]. destruct (Z.eq_dec j (idx w')) as [->|]; [now left | right; split; [exact A1 | lia]].
    + eapply fresh_above; [|exact L4]. exact Up.
    + intros j Hj. rewrite Up by lia. auto.
    + right. replace (p + 1 - 1) with p by lia. split; [apply Sto; now left|]. intros j Hj. rewrite Go.
      destruct (id_eqb_spec (t, j) (t, p)) as [[= ->]|]; [lia|]. eapply next_of_above; [exact L6 | lia].
    + intros j. rewrite Sto, L7. split.
      * intros [A1 | A1]; [left; now right|]. destruct (Z.eq_dec j p) as [->|]; [left; now left | right; lia].
      * intros [[[= ->] | A1] | A1]; [right; lia | now left | right; lia].
    + intros _. apply Rec. right. split; [f_equal; lia | exact Topin].
    + intros ->. congruence.
    + rewrite Ss, Sm, So. auto.
  - intros a Na. unfold same_at. cbn. repeat split; auto.
    + intros j. rewrite Gs. assert (M : mem (a, j) (slots t w') = false).
      { apply mem_false. intros I. destruct (Sl _ I) as (E & _). cbn in E. congruence. }
      assert (E : id_eqb (a, j) front = false).
      { destruct (id_eqb_spec (a, j) front) as [E|]; [|reflexivity]. rewrite <- E in If. destruct (Sl _ If) as (E' & _). cbn in E'. congruence. }
      rewrite M, E, andb_false_r. destruct (get (a, j) (subs g)) as [d|]; [|reflexivity]. cbn. rewrite orb_false_r. now destruct d.
    + intros j. rewrite Gm. destruct (id_eqb_spec (a, j) (t, idx w')) as [[= -> _]|]; [congruence | reflexivity].
    + intros j. rewrite Go. destruct (id_eqb_spec (a, j) (t, p)) as [[= -> _]|]; [congruence | reflexivity].
Qed.
