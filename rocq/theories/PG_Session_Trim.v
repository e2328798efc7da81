(* Trimming keeps a well-behaved session well-behaved. *)
From Coq Require Import List ZArith Bool Lia Sorted.
From Verif Require Import ZMap MapById_Model MapById_Spec MapById_Proofs PG_Model PG_Maps PG_Spec PG_Proofs PG_Trim PG_Client PG_Delete PG_Session PG_Session_Call PG_Session_Node PG_Session_Work.
Import ListNotations.
Open Scope Z_scope.

Lemma remove_nodes_shut l : forall g g', wfg g -> remove_nodes l g = Some g' -> forall a,
  ((forall n, In n l -> fst n <> a \/ exists j, snd n < j /\ get (a, j) (nodes g) <> None /\ ~ In (a, j) l) ->
   shut a (nodes g') = shut a (nodes g)) /\
  ((forall n, In n l -> fst n <> a \/ exists j, snd n < j /\ get (a, j) (onodes g) <> None /\ ~ In (a, j) l) ->
   shut a (onodes g') = shut a (onodes g)).
Proof.
  induction l as [|n l IH]; intros g g' W H a; cbn [remove_nodes] in H; [injection H as <-; auto|].
  ob H. ob H.
  pose proof (trim_get (nodes g) n (w_nodes _ W)) as A. rewrite E in A. destruct A as (Wm & Nm & Gm & Om & Sm).
  pose proof (trim_get (onodes g) n (w_onodes _ W)) as B. rewrite E0 in B. destruct B as (Wp & Np & Gp & Op & Sp).
  assert (W1 : wfg (set_onodes m0 (set_nodes m g))) by (destruct W; constructor; cbn; auto).
  destruct (IH _ _ W1 H a) as [I1 I2]. cbn [nodes onodes set_onodes set_nodes] in I1, I2.
  split; intros C.
  - rewrite I1.
    + destruct (C n (or_introl eq_refl)) as [Na | (j & Lj & Gj & _)]; [now apply Om; auto|].
      destruct (Z.eq_dec a (fst n)) as [->|]; [eapply Sm; eassumption | now apply Om].
    + intros x Ix. destruct (C x (or_intror Ix)) as [|(j & Lj & Gj & Nj)]; [now left|]. right. exists j. split; [exact Lj|].
      split; [|intros K; apply Nj; now right]. rewrite Gm. destruct (id_eqb_spec (a, j) n) as [Eq|]; [|exact Gj].
      exfalso. apply Nj. now left.
  - rewrite I2.
    + destruct (C n (or_introl eq_refl)) as [Na | (j & Lj & Gj & _)]; [now apply Op; auto|].
      destruct (Z.eq_dec a (fst n)) as [->|]; [eapply Sp; eassumption | now apply Op].
    + intros x Ix. destruct (C x (or_intror Ix)) as [|(j & Lj & Gj & Nj)]; [now left|]. right. exists j. split; [exact Lj|].
      split; [|intros K; apply Nj; now right]. rewrite Gp. destruct (id_eqb_spec (a, j) n) as [Eq|]; [|exact Gj].
      exfalso. apply Nj. now left.
Qed.

Lemma trim_submap_shut s g g' : wfg g -> trim_submap s g = Some g' -> forall a,
  ((a <> fst s \/ exists j, snd s < j /\ get (a, j) (subs g) <> None) -> shut a (subs g') = shut a (subs g)) /\
  ((a <> fst s \/ exists j, snd s < j /\ get (a, j) (osubs g) <> None) -> shut a (osubs g') = shut a (osubs g)) /\
  ((forall n, only_in g s n -> fst n <> a \/ exists j, snd n < j /\ get (a, j) (nodes g) <> None /\ ~ only_in g s (a, j)) ->
   shut a (nodes g') = shut a (nodes g)) /\
  ((forall n, only_in g s n -> fst n <> a \/ exists j, snd n < j /\ get (a, j) (onodes g) <> None /\ ~ only_in g s (a, j)) ->
   shut a (onodes g') = shut a (onodes g)).
Proof.
  intros W H a. unfold trim_submap in H. ob H. ob H. cbv zeta in H. fold (exclusive s g s0) in H. ob H. ob H.
  pose proof (trim_get (subs g) s (w_subs _ W)) as A. rewrite E1 in A. destruct A as (Wm & Nm & Gm & Om & Sm).
  pose proof (trim_get (osubs g) s (w_osubs _ W)) as B. rewrite E2 in B. destruct B as (Wp & Np & Gp & Op & Sp).
  match type of H with remove_nodes _ ?x = _ => set (g1 := x) in * end.
  assert (W1 : wfg g1) by (destruct W; constructor; cbn; auto).
  destruct (remove_nodes_ok _ _ _ W1 H) as (_ & Eq & _).
  destruct (remove_nodes_shut _ _ _ W1 H a) as [R1 R2].
  assert (X : forall n, In n (exclusive s g s0) <-> only_in g s n) by (intros n; apply exclusive_In; [apply W | exact E]).
  assert (F1 : subs g' = m) by (rewrite Eq; reflexivity). assert (F2 : osubs g' = m0) by (rewrite Eq; reflexivity).
  rewrite F1, F2. split; [|split; [|split]].
  - intros [N | (j & Lj & Gj)]; [now apply Om|]. destruct (Z.eq_dec a (fst s)) as [->|]; [eapply Sm; eassumption | now apply Om].
  - intros [N | (j & Lj & Gj)]; [now apply Op|]. destruct (Z.eq_dec a (fst s)) as [->|]; [eapply Sp; eassumption | now apply Op].
  - intros C. apply R1. intros n I. apply X in I. destruct (C n I) as [|(j & ? & ? & N)]; [now left|]. right. exists j.
    split; [assumption|]. split; [assumption|]. now rewrite X.
  - intros C. apply R2. intros n I. apply X in I. destruct (C n I) as [|(j & ? & ? & N)]; [now left|]. right. exists j.
    split; [assumption|]. split; [assumption|]. now rewrite X.
Qed.

Lemma recorded_dec g s n : wfg g -> (forall y, recorded g y n -> y = s) \/ exists y, recorded g y n /\ y <> s.
Proof.
  intros W. pose proof (entries_In (subs g)) as En.
  destruct (existsb (fun e => mem n (nids (snd e)) && negb (id_eqb (fst e) s)) (entries (subs g))) eqn:Ex.
  - right. apply existsb_exists in Ex as ([y d] & Iy & B). apply andb_true_iff in B as [B1 B2]. cbn in B1, B2.
    apply En in Iy; [|apply W]. apply mem_spec in B1. exists y. split; [exists d; auto|].
    intros ->. now rewrite id_eqb_refl in B2.
  - left. intros y (d & Gy & Iy). destruct (id_dec y s) as [|Ny]; [assumption|]. exfalso.
    assert (existsb (fun e => mem n (nids (snd e)) && negb (id_eqb (fst e) s)) (entries (subs g)) = true); [|congruence].
    apply existsb_exists. exists (y, d). split; [apply En; [apply W | exact Gy]|]. cbn.
    apply mem_spec in Iy. rewrite Iy. destruct (id_eqb_spec y s); [contradiction | reflexivity].
Qed.

(* one submap *)
Lemma trim_glob s g g' : glob g -> searches g = [] -> trim_submap s g = Some g' -> glob g'.
Proof.
  intros G S0 H. pose proof G as [H1 H2 H3 H4 H5 H6 H7 H8 H9 H10 H11].
  pose proof (trim_submap_ok s g H1) as K. rewrite H in K. destruct K as (W' & T & _).
  pose proof T as (T1 & T2 & T3 & T4 & T5 & Q1 & Q2 & Q3 & Q4 & Q5 & Q6).
  assert (P1 : forall x d, get x (subs g') = Some d -> x <> s /\ get x (subs g) = Some d).
  { intros x d Gx. destruct (T1 x) as [A B]. unfold get in *. destruct (id_dec x s) as [E|N]; [rewrite A in Gx; [discriminate | exact E]|].
    split; [exact N|]. now rewrite <- B. }
  assert (P2 : forall x, stored x (osubs g') <-> x <> s /\ stored x (osubs g)).
  { intros x. destruct (T2 x) as [A B]. unfold stored. destruct (id_dec x s) as [E|N]; [rewrite A by exact E; tauto|]. rewrite B by exact N. tauto. }
  assert (P3 : forall n, ~ only_in g s n -> stored n (onodes g) -> stored n (onodes g')).
  { intros n N. unfold stored. now rewrite (proj2 (T4 n) N). }
  constructor.
  - exact W'.
  - intros x d Gx Fx. apply P1 in Gx as [N Gx]. apply P2. eauto.
  - intros x n R. apply (trimmed_recorded _ _ _ x n T) in R as [N R]. destruct (H3 x n R) as [A B]. split; [|exact B].
    apply P3; [|exact A]. intros [_ U]. apply N. now apply U.
  - intros n Sn. destruct (recorded_dec g s n H1) as [U | (y & R & Ny)].
    + exfalso. unfold stored in Sn. assert (N : only_in g s n -> False) by (intros N; now rewrite (proj1 (T4 n) N) in Sn).
      assert (N' : ~ only_in g s n) by exact N. rewrite (proj2 (T4 n) N') in Sn. destruct (H4 n Sn) as (x & R). apply N.
      pose proof (U _ R). subst x. split; auto.
    + exists y. apply (trimmed_recorded _ _ _ y n T). auto.
  - intros c I. apply (kept_In _ _ _ T5) in I as [I [Ns Nx]]. destruct (H5 c I) as [A B]. split; [apply P2; auto | auto].
  - rewrite Q4, S0. contradiction.
  - intros x d Gx. apply P1 in Gx as [_ Gx]. eauto.
  - intros x Sx. apply P2 in Sx as [N Sx]. apply H8 in Sx. unfold stored in *. now rewrite (proj2 (T1 x) N).
  - intros n Sn. assert (N : ~ only_in g s n) by (intros N; unfold stored in Sn; now rewrite (proj1 (T4 n) N) in Sn).
    unfold stored in *. rewrite (proj2 (T4 n) N) in Sn. rewrite (proj2 (T3 n) N). now apply H9.
  - intros x Hx. unfold knows. rewrite Q5. apply H10. destruct Hx as [Hx|Hx]; [left|right]; unfold stored in *.
    + intros E. apply Hx. destruct (id_dec x s) as [Es|N]; [now apply T1 | now rewrite (proj2 (T1 x) N)].
    + intros E. apply Hx. destruct (T3 x) as [A B]. destruct (recorded_dec g s x H1) as [U | (y & R & Ny)].
      * destruct (mbi_at (fst x) (snd x) (nodes g')) eqn:Ex; [|reflexivity]. exfalso.
        assert (N : ~ only_in g s x) by (intros N; specialize (A N); discriminate). specialize (B N). congruence.
      * rewrite B; [exact E|]. intros [_ V]. apply Ny. now apply V.
  - now rewrite Q6.
Qed.

Lemma fresh_trim g g' t s l : (forall x, x <> s -> get x (subs g') = get x (subs g)) ->
  (exists d, get s (subs g) = Some d /\ fin d = true) -> forall w, fresh g t w l -> fresh g' t w l.
Proof.
  intros E (d & Gd & Fd). induction l as [|[[n objs] nw] l IH]; intros w; cbn; [auto|].
  destruct (adv w objs nw) as [w'|]; [|auto]. intros [A B]. split; [|auto]. intros N. specialize (A N). rewrite E; [exact A|].
  intros Es. rewrite <- Es in Gd. rewrite A in Gd. injection Gd as <-. discriminate.
Qed.

Lemma trim_status s g g' t l a b c : glob g -> trim_submap s g = Some g' ->
  status g t l a b c -> status g' t l a b c.
Proof.
  intros G H St. pose proof (g_wf _ G) as W.
  pose proof (trim_submap_ok s g W) as K. rewrite H in K. destruct K as (W' & T & So & (d & Gd & Fd) & _).
  pose proof T as (T1 & T2 & T3 & T4 & T5 & Q1 & Q2 & Q3 & Q4 & Q5 & Q6).
  destruct (trim_submap_shut s g g' W H t) as (S1 & S2 & S3 & S4).
  assert (Ts : traj_state t g' = traj_state t g) by (unfold traj_state; now rewrite Q2).
  assert (Ow : forall n, only_in g s n -> fst n = fst s /\ stored n (onodes g)).
  { intros n [R _]. destruct (g_rec _ G _ _ R). auto. }
  destruct (Z.eq_dec t (fst s)) as [Et|Nt].
  2:{ apply (status_same g); [|exact Ts | exact St]. unfold same_at.
      assert (Ns : forall j, (t, j) <> s) by (intros j <-; now apply Nt).
      assert (No : forall j, ~ only_in g s (t, j)) by (intros j O; apply Ow in O as [O _]; now apply Nt).
      split; [intros j; now apply T1|]. split; [intros j; now apply T2|].
      split; [intros j; now apply T3|]. split; [intros j; now apply T4|].
      split; [apply S1; now left|]. split; [apply S2; now left|].
      split; [apply S3 | apply S4]; intros n O; apply Ow in O as [O _]; left; congruence. }
  assert (E1 : forall x, x <> s -> get x (subs g') = get x (subs g)) by (intros x N; now apply T1).
  assert (St1 : forall x, stored x (subs g') <-> x <> s /\ stored x (subs g)).
  { intros x. destruct (T1 x) as [A B]. unfold stored. destruct (id_dec x s) as [E|N]; [rewrite A by exact E; tauto|]. rewrite B by exact N. tauto. }
  assert (St2 : forall x, stored x (osubs g') <-> x <> s /\ stored x (osubs g)).
  { intros x. destruct (T2 x) as [A B]. unfold stored. destruct (id_dec x s) as [E|N]; [rewrite A by exact E; tauto|]. rewrite B by exact N. tauto. }
  assert (Dec : forall n, only_in g s n \/ ~ only_in g s n).
  { intros n. destruct (recorded_dec g s n W) as [U | (y & R & Ny)]; [|right; intros [_ V]; apply Ny; now apply V].
    destruct (in_dec id_dec n (nids d)) as [I|I]; [left; split; [exists d; auto | exact U] | right].
    intros [(d' & Gd' & I') _]. fold (get s (subs g)) in Gd'. congruence. }
  assert (St3 : forall n, stored n (nodes g') <-> ~ only_in g s n /\ stored n (nodes g)).
  { intros x. destruct (T3 x) as [A B]. unfold stored. destruct (Dec x) as [E|N]; [rewrite A by exact E; tauto|]. rewrite B by exact N. tauto. }
  assert (St4 : forall n, stored n (onodes g') <-> ~ only_in g s n /\ stored n (onodes g)).
  { intros x. destruct (T4 x) as [A B]. unfold stored. destruct (Dec x) as [E|N]; [rewrite A by exact E; tauto|]. rewrite B by exact N. tauto. }
  assert (Fin : forall j e, get (t, j) (subs g') = Some e -> get (t, j) (subs g) = Some e).
  { intros j e Gj. destruct (id_dec (t, j) s) as [E|N]; [|now rewrite <- E1].
    unfold get in Gj. rewrite (proj1 (T1 (t, j)) E) in Gj. discriminate. }
  assert (Dn : done g t -> done g' t).
  { intros [D1 D2 D3]. constructor.
    - intros j. rewrite St1, St2, D1. tauto.
    - intros j e Gj. eauto.
    - intros j. rewrite St3, St4, D3. tauto. }
  assert (Lv : forall w c p p' l, live g t w c p p' l -> live g' t w c p p' l).
  { clear St l c. intros w c p p' l [L1 L2 L11 L3 L4 L5 L6 L7 L8 L9 L10].
    destruct s as [t' j0]. cbn [fst snd] in *. subst t'.
    assert (Le : j0 <= idx w) by (apply L3; exact So).
    assert (J0 : 0 <= j0) by (apply stored_nonneg in So; [lia | apply W]).
    assert (Nw : w <> P0) by (intros ->; cbn in Le; lia).
    assert (Un : exists o, unfin g (t, idx w) o) by (destruct w; cbn in *; [congruence | eauto | | ]; destruct L2 as [? L2]; [destruct L2 as (_ & L2 & _)|]; eauto).
    destruct Un as (o & du & Gu & _ & Fu).
    assert (Nu : idx w <> j0) by (intros E; rewrite E in Gu; congruence).
    assert (Lt : j0 < idx w) by lia.
    assert (Nr : ~ only_in g (t, j0) (t, p - 1)) by (intros [_ U]; pose proof (U _ (L8 Nw)) as E; injection E; lia).
    destruct (g_rec _ G _ _ (L8 Nw)) as [So1 _]. pose proof (g_onode _ G _ So1) as Sn1.
    assert (Pl : forall j, stored (t, j) (onodes g) -> j < p).
    { intros j Sj. destruct (Z_lt_dec j p); [assumption|]. exfalso. apply Sj. apply (next_of_above _ _ _ _ L6). lia. }
    assert (Sw : stored (t, idx w) (osubs g)) by (apply L3; split; [eapply get_stored; exact Gu | lia]).
    assert (U1 : forall j e, unfin g (t, j) e -> unfin g' (t, j) e).
    { intros j e (e' & Ge & Oe & Fe). exists e'. split; [|auto]. rewrite E1; [exact Ge|]. intros Eq. rewrite Eq in Ge. congruence. }
    constructor; auto.
    - destruct w; cbn in *; auto; intuition auto.
    - intros j e Gj Lj. eauto.
    - intros j. rewrite St1, St2, L3. tauto.
    - apply (fresh_trim g g' t (t, j0)); eauto.
    - intros j Lj. destruct (get (t, j) (subs g')) eqn:Ej; [|reflexivity]. apply Fin in Ej. rewrite L5 in Ej by exact Lj. discriminate.
    - right. split; [apply St4; auto|]. intros j Lj. destruct (get (t, j) (onodes g')) eqn:Ej; [|reflexivity]. exfalso.
      apply get_stored, St4 in Ej as [_ Ej]. apply Pl in Ej. lia.
    - intros j. rewrite St3, St4, L7. split; [tauto|]. intros [|Lj]; [tauto|]. split; [|now right].
      intros O. apply Ow in O as [_ O]. apply Pl in O. lia.
    - intros _. apply (trimmed_recorded _ _ _ _ _ T). split; [intros [= E]; lia | auto].
    - destruct L10 as (A1 & A2 & A3 & A4). rewrite S1, S2, S3, S4; auto.
      + intros n O. right. exists (p - 1). destruct n as [n1 n2]. pose proof (Ow _ O) as [E O1]. cbn [fst] in E. subst n1.
        split; [|auto]. cbn. apply Pl in O1. assert (n2 <> p - 1) by (intros ->; contradiction). lia.
      + intros n O. right. exists (p - 1). destruct n as [n1 n2]. pose proof (Ow _ O) as [E O1]. cbn [fst] in E. subst n1.
        split; [|auto]. cbn. apply Pl in O1. assert (n2 <> p - 1) by (intros ->; contradiction). lia.
      + right. exists (idx w). split; [exact Lt | exact Sw].
      + right. exists (idx w). split; [exact Lt | congruence]. }
  inversion St; subst; [eapply st_open | eapply st_closing | eapply st_closed | eapply st_deleting | eapply st_waiting | eapply st_deleted];
    try (rewrite Ts; eassumption); try eassumption; try (eapply Lv; eassumption); auto.
  intros j. destruct (get (fst s, j) (subs g')) eqn:Ej; [|reflexivity]. apply Fin in Ej. congruence.
Qed.

Lemma trim_total s g d : glob g -> get s (subs g) = Some d -> fin d = true -> exists g', trim_submap s g = Some g'.
Proof.
  intros G Gd Fd. eapply trim_submap_total; eauto; [apply G | eapply SS_NoDup, G; exact Gd | eapply G; eauto|].
  intros n [R _]. destruct (g_rec _ G _ _ R) as [A _]. split; [now apply (g_onode _ G) | exact A].
Qed.

(* several *)
Lemma trim_all_keeps l : forall g, glob g -> searches g = [] -> NoDup l ->
  (forall s, In s l -> exists d, get s (subs g) = Some d /\ fin d = true) ->
  exists g', trim_all l g = Some g' /\ glob g' /\ searches g' = [] /\
    (forall t its a b c, status g t its a b c -> status g' t its a b c).
Proof.
  induction l as [|s l IH]; intros g G S0 ND Hl; cbn [trim_all]; [exists g; auto|].
  inversion ND as [|? ? Ns ND']; subst. destruct (Hl s (or_introl eq_refl)) as (d & Gd & Fd).
  destruct (trim_total s g d G Gd Fd) as (g1 & H). rewrite H. cbn [bind].
  pose proof (trim_submap_ok s g (g_wf _ G)) as K. rewrite H in K. destruct K as (_ & T & _).
  destruct T as (T1 & _ & _ & _ & _ & _ & _ & _ & Q4 & _).
  destruct (IH g1) as (g' & H' & G' & S' & St).
  - eapply trim_glob; eassumption.
  - congruence.
  - exact ND'.
  - intros x Ix. destruct (Hl x (or_intror Ix)) as (e & Ge & Fe). exists e. split; [|exact Fe]. unfold get in *.
    rewrite (proj2 (T1 x)); [exact Ge|]. intros ->. contradiction.
  - exists g'. split; [exact H'|]. split; [exact G'|]. split; [exact S'|]. intros. apply St. now apply (trim_status s g).
Qed.
