(* The map operations of PG_Model in terms of look-ups. *)
From Coq Require Import List ZArith Bool Lia Sorted.
From Verif Require Import ZMap MapById_Model MapById_Spec MapById_Proofs PG_Model.
Import ListNotations.
Open Scope Z_scope.

Lemma id_eqb_spec a b : reflect (a = b) (id_eqb a b).
Proof.
  destruct a as [a1 a2], b as [b1 b2]. unfold id_eqb. cbn.
  destruct (Z.eqb_spec a1 b1), (Z.eqb_spec a2 b2); constructor; congruence.
Qed.
Lemma id_eqb_refl a : id_eqb a a = true.
Proof. destruct (id_eqb_spec a a); congruence. Qed.
Lemma id_dec (a b : id) : {a = b} + {a <> b}.
Proof. destruct (id_eqb_spec a b); auto. Qed.
Lemma id_ltb_spec a b : id_ltb a b = true <-> fst a < fst b \/ (fst a = fst b /\ snd a < snd b).
Proof. unfold id_ltb. rewrite orb_true_iff, andb_true_iff, !Z.ltb_lt, Z.eqb_eq. reflexivity. Qed.

Lemma mem_spec x l : mem x l = true <-> In x l.
Proof.
  unfold mem. rewrite existsb_exists. split.
  - intros (y & I & E). destruct (id_eqb_spec x y); [now subst | discriminate].
  - intros I. exists x. split; [exact I | apply id_eqb_refl].
Qed.
Lemma mem_false x l : mem x l = false <-> ~ In x l.
Proof. rewrite <- mem_spec. destruct (mem x l); split; congruence. Qed.
Lemma set_add_In x y l : In x (set_add y l) <-> x = y \/ In x l.
Proof.
  induction l as [|z r IH]; cbn; [intuition|]. destruct (id_ltb y z); cbn; [intuition|].
  destruct (id_eqb_spec y z) as [->|]; cbn; [intuition|]. rewrite IH. intuition.
Qed.

(* sets are sorted *)
Definition idlt (a b : id) : Prop := id_ltb a b = true.
Lemma idlt_trans : forall a b c, idlt a b -> idlt b c -> idlt a c.
Proof. unfold idlt. intros a b c. rewrite !id_ltb_spec. lia. Qed.
Lemma set_add_sorted y l : StronglySorted idlt l -> StronglySorted idlt (set_add y l).
Proof.
  induction l as [|z r IH]; intros S; cbn; [repeat constructor|].
  inversion S as [|? ? S' F]; subst. destruct (id_ltb y z) eqn:E.
  - constructor; [exact S|]. constructor; [exact E|]. revert F. apply Forall_impl. intros a.
    apply idlt_trans. exact E.
  - destruct (id_eqb_spec y z) as [->|N]; [exact S|]. constructor; [now apply IH|].
    apply Forall_forall. intros a I. apply set_add_In in I as [-> | I].
    + destruct y as [y1 y2], z as [z1 z2]. unfold idlt. rewrite id_ltb_spec. cbn.
      assert (id_ltb (y1, y2) (z1, z2) <> true) by congruence. rewrite id_ltb_spec in H. cbn in H.
      assert (y1 <> z1 \/ y2 <> z2) by (destruct (Z.eq_dec y1 z1), (Z.eq_dec y2 z2); subst; auto).
      lia.
    + rewrite Forall_forall in F. auto.
Qed.

Section M.
Context {D : Type}.
Implicit Type m : mbi D.

Lemma has_get x m : has x m = true <-> exists v, get x m = Some v.
Proof.
  unfold has, get, mbi_contains. destruct (mbi_at (fst x) (snd x) m); split; eauto; try discriminate.
  intros [? ?]; discriminate.
Qed.
Lemma has_get_ne x m : has x m = true <-> get x m <> None.
Proof. unfold has, get, mbi_contains. destruct (mbi_at (fst x) (snd x) m); split; congruence. Qed.
Lemma has_false x m : has x m = false <-> get x m = None.
Proof. unfold has, get, mbi_contains. destruct (mbi_at (fst x) (snd x) m); split; congruence. Qed.

(* appending is forbidden *)
Definition shut (t : Z) m : bool := match zfind t m with Some (c, _) => negb c | None => false end.
Definition abs m : sstate D :=
  {| sf := fun t i => mbi_at t i m; sealed := fun t => shut t m |}.
Lemma abs_rel m : rel m (abs m).
Proof. split; reflexivity. Qed.

Lemma updated_get m m' t i v f' : (forall a b, f' a b = mbi_at a b m') ->
  updated (sf (abs m)) f' t i v ->
  forall y, get y m' = if id_eqb y (t, i) then v else get y m.
Proof.
  intros E [A B] [a b]. unfold get. cbn. rewrite <- E.
  destruct (id_eqb_spec (a, b) (t, i)) as [[= -> ->] | N]; [exact A|]. now apply B.
Qed.

(* the index an append gives *)
Definition next_of (t : Z) m (i : Z) : Prop :=
  (i = 0 /\ forall j, get (t, j) m = None) \/
  (get (t, i - 1) m <> None /\ forall j, i <= j -> get (t, j) m = None).

Lemma append_get m t d : wf m ->
  match mbi_append t d m with
  | Some (x, m') => wf m' /\ fst x = t /\ next_of t m (snd x) /\ 0 <= t /\
      (forall y, get y m' = if id_eqb y x then Some d else get y m) /\
      (forall a, shut a m' = shut a m) /\ shut t m = false
  | None => t < 0 \/ shut t m = true
  end.
Proof.
  intros W. pose proof (step_sim m (abs m) (OpAppend t d) W (abs_rel m)) as H. cbn [mstep] in H.
  destruct (mbi_append t d m) as [[x m']|] eqn:E.
  - destruct H as (W' & s' & (Ht & Hs & (i & Hn & [= ->] & U) & Ha) & [R1 R2]).
    split; [exact W'|]. split; [reflexivity|]. split; [exact Hn|]. split; [exact Ht|].
    split; [eapply updated_get; eassumption|]. split; [|exact Hs].
    intros a. specialize (Ha a). rewrite R2 in Ha. exact Ha.
  - unfold mbi_append in E. destruct (Z.ltb_spec t 0); [now left|]. right.
    unfold shut. destruct (slot t m) as [c data] eqn:S. destruct c; [discriminate|].
    unfold slot in S. destruct (zfind t m) as [[c' d']|]; [injection S as -> ->; reflexivity | discriminate].
Qed.

Lemma insert_get m t i d : wf m ->
  match mbi_insert t i d m with
  | Some m' => wf m' /\ get (t, i) m = None /\ 0 <= t /\ 0 <= i /\
      (forall y, get y m' = if id_eqb y (t, i) then Some d else get y m) /\
      (forall a, shut a m' = if a =? t then true else shut a m)
  | None => t < 0 \/ i < 0 \/ get (t, i) m <> None
  end.
Proof.
  intros W. pose proof (step_sim m (abs m) (OpInsert t i d) W (abs_rel m)) as H. cbn [mstep] in H.
  destruct (mbi_insert t i d m) as [m'|] eqn:E.
  - destruct H as (W' & s' & (Ht & Hi & Hn & _ & U & Hs & Ha) & [R1 R2]).
    split; [exact W'|]. split; [exact Hn|]. split; [exact Ht|]. split; [exact Hi|].
    split; [eapply updated_get; eassumption|].
    intros a. unfold shut at 1. rewrite <- R2. destruct (Z.eqb_spec a t) as [->|N]; [exact Hs | now apply Ha].
  - unfold mbi_insert in E. destruct (Z.ltb_spec t 0); [now left|].
    destruct (Z.ltb_spec i 0); [right; now left|]. right. right.
    destruct (slot t m) as [c data] eqn:S. unfold get. cbn. rewrite (slot_at _ _ _ _ i S).
    destruct (zfind i data); [discriminate | discriminate].
Qed.

Lemma trim_get m x : wf m ->
  match mbi_trim (fst x) (snd x) m with
  | Some m' => wf m' /\ get x m <> None /\
      (forall y, get y m' = if id_eqb y x then None else get y m) /\
      (forall a, a <> fst x -> shut a m' = shut a m) /\
      (forall j, snd x < j -> get (fst x, j) m <> None -> shut (fst x) m' = shut (fst x) m)
  | None => get x m = None
  end.
Proof.
  destruct x as [t i]. cbn [fst snd]. intros W.
  pose proof (step_sim m (abs m) (OpTrim t i) W (abs_rel m)) as H. cbn [mstep] in H.
  destruct (mbi_trim t i m) as [m'|] eqn:E.
  - destruct H as (W' & s' & (Hn & _ & U & Ha & _ & Hg) & [R1 R2]).
    split; [exact W'|]. split; [exact Hn|]. split; [eapply updated_get; eassumption|]. split.
    + intros a N. unfold shut at 1. rewrite <- R2. now apply Ha.
    + intros j L G. unfold shut at 1. rewrite <- R2. destruct (Hg j) as [_ Hg'].
      * destruct U as [_ U]. rewrite U; [exact G|]. intros [= ->]. lia.
      * apply Hg'. intros K. apply G. apply K. exact L.
  - unfold mbi_trim in E. unfold get, mbi_at. cbn. destruct (zfind t m) as [[c d]|]; [|reflexivity].
    destruct (zfind i d); [discriminate | reflexivity].
Qed.

Lemma upd_get m x f : wf m ->
  match upd x f m with
  | Some m' => wf m' /\ (exists v, get x m = Some v /\
      forall y, get y m' = if id_eqb y x then Some (f v) else get y m) /\
      (forall a, shut a m' = shut a m)
  | None => get x m = None
  end.
Proof.
  destruct x as [t i]. intros W. unfold upd. cbn [fst snd].
  destruct (zfind t m) as [[c d]|] eqn:F.
  2:{ unfold get, mbi_at. cbn. now rewrite F. }
  destruct (wf_find _ _ _ _ W F) as (Sd & Nd & Ht).
  destruct (zfind i d) as [v|] eqn:G.
  2:{ unfold get, mbi_at. cbn. now rewrite F. }
  assert (Hi : forall j w, In (j, w) d -> 0 <= j).
  { intros j w I. eapply wf_idx; [exact W | apply zfind_In; exact F | exact I]. }
  split; [|split].
  - apply wf_put; auto; [now apply zput_sorted | apply zput_nonnil|].
    intros j w I. apply In_zput in I as [[= -> _] | I]; [|eauto]. apply zfind_In in G. eauto.
  - exists v. split; [unfold get, mbi_at; cbn; now rewrite F|].
    intros [a b]. unfold get, id_eqb. cbn. rewrite at_put by exact W.
    destruct (Z.eqb_spec a t) as [->|]; cbn; [|reflexivity].
    rewrite zfind_zput by exact Sd. destruct (b =? i); [reflexivity|].
    unfold mbi_at. now rewrite F.
  - intros a. unfold shut. rewrite zfind_zput by apply W. destruct (Z.eqb_spec a t) as [->|]; [|reflexivity].
    now rewrite F.
Qed.

Lemma entries_In m x v : wf m -> In (x, v) (entries m) <-> get x m = Some v.
Proof.
  intros W. destruct x as [t i]. unfold entries. rewrite in_flat_map. split.
  - intros ([a [c d]] & I & J). cbn in J. apply in_map_iff in J as ([b w] & [= -> -> ->] & J).
    unfold get, mbi_at. cbn. rewrite (In_zfind _ _ _ (wf_sorted _ W) I).
    apply In_zfind; [|exact J]. now apply (wf_data _ W _ _ _ I).
  - unfold get, mbi_at. cbn. destruct (zfind t m) as [[c d]|] eqn:F; [|discriminate]. intros G.
    exists (t, (c, d)). split; [now apply zfind_In|]. cbn. apply in_map_iff. exists (i, v).
    split; [reflexivity | now apply zfind_In].
Qed.
Lemma traj_entries_In m t x v : wf m ->
  In (x, v) (traj_entries t m) <-> fst x = t /\ get x m = Some v.
Proof.
  intros W. destruct x as [a i]. unfold traj_entries, get, mbi_at. cbn [fst snd]. split.
  - destruct (zfind t m) as [[c d]|] eqn:F; [|contradiction]. intros J.
    apply in_map_iff in J as ([b w] & [= -> -> ->] & J). rewrite F. split; [reflexivity|].
    apply In_zfind; [|exact J]. now apply (wf_find _ _ _ _ W F).
  - intros [-> G]. destruct (zfind t m) as [[c d]|] eqn:F; [|discriminate].
    apply in_map_iff. exists (i, v). split; [reflexivity | now apply zfind_In].
Qed.

Lemma last_id_Some m t x : wf m -> last_id t m = Some x ->
  fst x = t /\ get x m <> None /\ forall j, snd x < j -> get (t, j) m = None.
Proof.
  intros W. unfold last_id. destruct (zfind t m) as [[c d]|] eqn:F; [|discriminate].
  destruct (wf_find _ _ _ _ W F) as (Sd & _ & _).
  destruct (zlast d) as [[i v]|] eqn:L; [|discriminate]. intros [= <-]. cbn.
  split; [reflexivity|]. unfold get, mbi_at. cbn. rewrite F. split.
  - rewrite (In_zfind _ v _ Sd); [discriminate | now apply zlast_In].
  - intros j Hj. apply zfind_None. intros w I. apply (zlast_max _ _ Sd L) in I. cbn in I. lia.
Qed.
Lemma last_id_None m t : wf m -> last_id t m = None <-> forall j, get (t, j) m = None.
Proof.
  intros W. unfold last_id, get, mbi_at. cbn. destruct (zfind t m) as [[c d]|] eqn:F.
  - destruct (wf_find _ _ _ _ W F) as (Sd & Nd & _).
    destruct (zlast d) as [[i v]|] eqn:L.
    + split; [discriminate|]. intros H. specialize (H i). apply zlast_In in L.
      rewrite (In_zfind _ _ _ Sd L) in H. discriminate.
    + now apply zlast_None in L.
  - split; reflexivity.
Qed.
Lemma last_id_max m t i : wf m -> get (t, i) m <> None ->
  (forall j, i < j -> get (t, j) m = None) -> last_id t m = Some (t, i).
Proof.
  intros W G H. destruct (last_id t m) as [[a b]|] eqn:L.
  - destruct (last_id_Some _ _ _ W L) as (E & N & K). cbn in E, K. subst a.
    destruct (Z.lt_trichotomy b i) as [Q | [-> | Q]]; [|reflexivity|].
    + elim G. now apply K.
    + elim N. now apply H.
  - elim G. now apply (proj1 (last_id_None m t W) L).
Qed.

Lemma traj_size_0 m t : wf m ->
  ((mbi_traj_size t m =? 0)%nat = true <-> forall j, get (t, j) m = None).
Proof.
  intros W. rewrite Nat.eqb_eq. unfold mbi_traj_size, get, mbi_at. cbn.
  destruct (zfind t m) as [[c d]|] eqn:F.
  - destruct (wf_find _ _ _ _ W F) as (Sd & Nd & _). destruct d as [|[i v] r]; [congruence|].
    split; [discriminate|]. intros H. specialize (H i). cbn in H. rewrite Z.eqb_refl in H. discriminate.
  - split; reflexivity.
Qed.

(* the first components of a map *)
Lemma traj_In m t c d : wf m -> In (t, (c, d)) m -> exists i v, get (t, i) m = Some v.
Proof.
  intros W I. destruct (wf_data _ W _ _ _ I) as [Sd Nd]. destruct d as [|[i v] r]; [congruence|].
  exists i, v. unfold get, mbi_at. cbn. rewrite (In_zfind _ _ _ (wf_sorted _ W) I).
  apply In_zfind; [exact Sd | now left].
Qed.
End M.

Lemma finish_submaps_get m t : wf m ->
  wf (finish_submaps t m) /\
  (forall y, get y (finish_submaps t m) =
     if fst y =? t then option_map (fun d => mk_sub (obj d) true (nids d)) (get y m) else get y m) /\
  (forall a, shut a (finish_submaps t m) = shut a m).
Proof.
  intros W. unfold finish_submaps. destruct (zfind t m) as [[c d]|] eqn:F.
  - destruct (wf_find _ _ _ _ W F) as (Sd & Nd & Ht).
    set (fn := fun e : Z * sub => (fst e, mk_sub (obj (snd e)) true (nids (snd e)))).
    assert (Fi : forall i, zfind i (map fn d) = option_map (fun d => mk_sub (obj d) true (nids d)) (zfind i d)).
    { intros i. clear. induction d as [|[k v] r IH]; [reflexivity|]. cbn.
      destruct (i =? k); [reflexivity|]. exact IH. }
    assert (S' : zsorted (map fn d)).
    { clear - Sd. unfold zsorted in *. induction Sd as [|[k v] r S' IH F]; [constructor|]. cbn. constructor; [exact IH|].
      apply Forall_forall. intros [k' v'] I. apply in_map_iff in I as ([k2 v2] & [= <- <-] & I).
      rewrite Forall_forall in F. specialize (F _ I). exact F. }
    split; [|split].
    + apply wf_put; auto; [destruct d; [congruence | discriminate]|].
      intros i v I. apply in_map_iff in I as ([k2 v2] & [= <- <-] & I).
      eapply wf_idx; [exact W | apply zfind_In; exact F | exact I].
    + intros [a b]. unfold get. cbn. rewrite at_put by exact W.
      destruct (Z.eqb_spec a t) as [->|]; [|reflexivity]. rewrite Fi. unfold mbi_at. now rewrite F.
    + intros a. unfold shut. rewrite zfind_zput by apply W. destruct (Z.eqb_spec a t) as [->|]; [|reflexivity].
      now rewrite F.
  - split; [exact W|]. split; [|reflexivity]. intros [a b]. cbn. destruct (Z.eqb_spec a t) as [->|]; [|reflexivity].
    unfold get, mbi_at. cbn. now rewrite F.
Qed.
