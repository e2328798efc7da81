(* Theorems about the reference counts of configuration dictionaries (C49). *)
From Coq Require Import List ZArith Bool String Lia.
From Verif Require Import LPD_Model.
Import ListNotations.
Open Scope Z_scope.

(* how often a path occurs in a list of paths *)
Definition times (q : list string) (l : list (list string)) : Z :=
  Z.of_nat (count_occ (list_eq_dec string_dec) l q).

Section C49.
Variable numeral : string -> bool.
Variable numeral_value : string -> Z.

(* a path of keys that are strings not looking like numbers, from a table to a value in it or
   in a table nested in it *)
Inductive visible : table -> list string -> Prop :=
| visible_here t k v : rawget t (KStr k) = Some v -> numeral k = false -> visible t [k]
| visible_below t k t' q : rawget t (KStr k) = Some (VTable t') -> numeral k = false ->
    visible t' q -> visible t (k :: q).

Notation run_read := (run_read numeral numeral_value).
Notation run_prog := (run_prog numeral numeral_value).
Notation run_dict := (run_dict numeral numeral_value).
Notation destroy := (destroy numeral).

Lemma times_app q l m : times q (l ++ m) = times q l + times q m.
Proof. unfold times. rewrite count_occ_app. lia. Qed.
Lemma times_nonneg q l : 0 <= times q l.
Proof. unfold times. lia. Qed.
Lemma times_one q q' : times q [q'] = if list_eq_dec string_dec q' q then 1 else 0.
Proof. unfold times. cbn. destruct (list_eq_dec string_dec q' q); reflexivity. Qed.

Lemma times_cons_map k q l : times (k :: q) (map (cons k) l) = times q l.
Proof.
  unfold times. f_equal. induction l as [|x l IH]; [reflexivity|]. cbn [map count_occ].
  destruct (list_eq_dec string_dec (k :: x) (k :: q)), (list_eq_dec string_dec x q);
    try congruence; now rewrite IH.
Qed.
Lemma times_other_map k k' q l : k <> k' -> times (k :: q) (map (cons k') l) = 0.
Proof.
  intros N. unfold times. induction l as [|x l IH]; [reflexivity|]. cbn [map count_occ].
  destruct (list_eq_dec string_dec (k' :: x) (k :: q)); [congruence | exact IH].
Qed.

(* the paths a single read contributes *)
Lemma read_paths r d d' l : run_read r d = Some (d', l) ->
  (r = Look /\ d' = d /\ l = []) \/
  exists name v, reference d name = Some d' /\ rawget (tab d) (KStr name) = Some v /\
    ((l = [[name]] /\ forall t, v <> VTable t) \/
     exists t prog l', v = VTable t /\ run_dict t (counted d) prog = Some l' /\
                       l = [name] :: map (cons name) l').
Proof.
  destruct r as [k name | name prog |]; intros H.
  - right. cbn in H. destruct (reference d name) as [d1|] eqn:E; [|discriminate].
    destruct (rawget (tab d) (KStr name)) as [v|] eqn:G; [|discriminate].
    destruct (pop_ok numeral numeral_value k v) eqn:P; [|discriminate]. injection H as <- <-.
    exists name, v. repeat split; auto. left. split; [reflexivity|]. intros t ->.
    destruct k; discriminate.
  - right. cbn [LPD_Model.run_read] in H. destruct (reference d name) as [d1|] eqn:E; [|discriminate].
    destruct (rawget (tab d) (KStr name)) as [[| | |t]|] eqn:G; try discriminate.
    match type of H with context [?f prog (new_dict t (counted d))] =>
      assert (R : forall p s, f p s = run_prog p s) end.
    { induction p as [|x p IH]; intros s; [reflexivity|]. cbn.
      destruct (run_read x s) as [[s1 l1]|]; [|reflexivity]. now rewrite IH. }
    rewrite R in H. clear R.
    destruct (run_prog prog (new_dict t (counted d))) as [[s l1]|] eqn:Q; [|discriminate].
    destruct (destroy s) eqn:D; [|discriminate]. injection H as <- <-.
    exists name, (VTable t). repeat split; auto. right. exists t, prog, l1.
    repeat split; auto. unfold LPD_Model.run_dict. now rewrite Q, D.
  - left. cbn in H. now injection H as <- <-.
Qed.

Lemma reference_eq d name d' : reference d name = Some d' ->
  tab d' = tab d /\ counted d' = counted d /\
  forall k, refs d' k = refs d k + (if String.eqb name k then 1 else 0).
Proof.
  unfold reference. destruct (has_key d name); [|discriminate]. intros [= <-]. cbn.
  repeat split. intros k. destruct (String.eqb name k); lia.
Qed.

Lemma read_counts r d d' l : run_read r d = Some (d', l) ->
  tab d' = tab d /\ counted d' = counted d /\ forall k, refs d' k = refs d k + times [k] l.
Proof.
  intros H. destruct (read_paths _ _ _ _ H) as [(-> & -> & ->) | (name & v & R & G & K)].
  - repeat split. intros k. unfold times. cbn. lia.
  - destruct (reference_eq _ _ _ R) as (A & B & E). repeat split; auto. intros k. rewrite E.
    f_equal.
    assert (X : times [k] [[name]] = if String.eqb name k then 1 else 0).
    { rewrite times_one. destruct (list_eq_dec string_dec [name] [k]), (String.eqb_spec name k);
        congruence. }
    destruct K as [[-> _] | (t & prog & l' & -> & Q & ->)]; [now rewrite X|].
    change ([name] :: map (cons name) l') with ([[name]] ++ map (cons name) l').
    rewrite times_app, X.
    enough (times [k] (map (cons name) l') = 0) by lia.
    destruct (string_dec k name) as [<- | N]; [|now apply times_other_map].
    rewrite times_cons_map.
    (* no path read is empty *)
    clear - Q. unfold LPD_Model.run_dict in Q.
    destruct (run_prog prog (new_dict t (counted d))) as [[s l]|] eqn:P; [|discriminate].
    destruct (destroy s); [|discriminate]. injection Q as <-.
    revert P. generalize (new_dict t (counted d)). revert s l.
    induction prog as [|x p IH]; intros s l d0 P; cbn in P; [now injection P as <- <-|].
    destruct (run_read x d0) as [[s1 l1]|] eqn:R; [|discriminate].
    destruct (run_prog p s1) as [[s2 l2]|] eqn:R2; [|discriminate]. injection P as <- <-.
    rewrite times_app, (IH _ _ _ R2).
    enough (times [] l1 = 0) by lia.
    destruct (read_paths _ _ _ _ R) as [(_ & _ & ->) | (n & v & _ & _ & K)]; [reflexivity|].
    assert (Y : forall a, times [] (map (cons n) a) = 0).
    { intros a. unfold times. induction a as [|y a IHa]; [reflexivity|]. cbn [map count_occ].
      destruct (list_eq_dec string_dec (n :: y) []); [discriminate | exact IHa]. }
    destruct K as [[-> _] | (t' & q & l' & _ & _ & ->)]; [apply (Y [[]])|].
    exact (Y ([] :: l')).
Qed.

Lemma prog_counts p : forall d d' l, run_prog p d = Some (d', l) ->
  tab d' = tab d /\ counted d' = counted d /\ forall k, refs d' k = refs d k + times [k] l.
Proof.
  induction p as [|x p IH]; intros d d' l H; cbn in H.
  - injection H as <- <-. repeat split. intros k. unfold times. cbn. lia.
  - destruct (run_read x d) as [[s1 l1]|] eqn:R; [|discriminate].
    destruct (run_prog p s1) as [[s2 l2]|] eqn:R2; [|discriminate]. injection H as <- <-.
    destruct (read_counts _ _ _ _ R) as (A1 & B1 & C1). destruct (IH _ _ _ R2) as (A2 & B2 & C2).
    repeat split; try congruence. intros k. rewrite C2, C1, times_app. lia.
Qed.

Lemma prog_below p k t' : forall d d' l, run_prog p d = Some (d', l) ->
  rawget (tab d) (KStr k) = Some (VTable t') ->
  (times [k] l = 0 -> forall q, times (k :: q) l = 0) /\
  (times [k] l = 1 -> exists prog' l', run_dict t' (counted d) prog' = Some l' /\
                      forall q, q <> [] -> times (k :: q) l = times q l').
Proof.
  induction p as [|x p IH]; intros d d' l H G; cbn in H.
  - injection H as <- <-. split; [reflexivity|]. discriminate.
  - destruct (run_read x d) as [[s1 l1]|] eqn:R; [|discriminate].
    destruct (run_prog p s1) as [[s2 l2]|] eqn:R2; [|discriminate]. injection H as <- <-.
    destruct (read_counts _ _ _ _ R) as (A1 & B1 & _).
    rewrite <- A1 in G. destruct (IH _ _ _ R2 G) as [I0 I1]. rewrite A1 in G.
    pose proof (times_nonneg [k] l1). pose proof (times_nonneg [k] l2).
    destruct (read_paths _ _ _ _ R) as [(_ & _ & ->) | (n & v & Rf & Gn & K)].
    { cbn [app]. rewrite <- B1. split; assumption. }
    assert (Hd : times [k] l1 = 0 -> forall q, times (k :: q) l1 = 0).
    { intros T q. destruct (string_dec k n) as [-> | N].
      - exfalso. destruct K as [[-> _] | (t & pr & l' & _ & _ & ->)];
          unfold times in T; cbn [count_occ] in T;
          destruct (list_eq_dec string_dec [n] [n]); try congruence; lia.
      - destruct K as [[-> _] | (t & pr & l' & _ & _ & ->)].
        + apply (times_other_map k n q [[]] N).
        + apply (times_other_map k n q ([] :: l') N). }
    split.
    + rewrite times_app. intros T q. rewrite times_app, Hd, I0 by lia. reflexivity.
    + rewrite times_app. intros T.
      destruct (string_dec k n) as [<- | N].
      * assert (T1 : 1 <= times [k] l1).
        { destruct K as [[-> _] | (t & pr & l' & _ & _ & ->)];
            unfold times; cbn [count_occ];
            destruct (list_eq_dec string_dec [k] [k]); try congruence; lia. }
        rewrite Gn in G. injection G as ->.
        destruct K as [[_ K] | (t & pr & l' & E & Q & ->)]; [now elim (K t')|].
        injection E as <-. exists pr, l'. split; [exact Q|]. intros q Nq.
        rewrite times_app, (I0 ltac:(lia)), Z.add_0_r.
        change ([k] :: map (cons k) l') with (map (cons k) ([] :: l')). rewrite times_cons_map.
        unfold times. cbn [count_occ]. destruct (list_eq_dec string_dec [] q); [congruence|]. reflexivity.
      * assert (T1 : times [k] l1 = 0).
        { destruct K as [[-> _] | (t & pr & l' & _ & _ & ->)].
          - apply (times_other_map k n [] [[]] N).
          - apply (times_other_map k n [] ([] :: l') N). }
        destruct I1 as (pr & l' & Q & E); [lia|]. rewrite B1 in Q. exists pr, l'.
        split; [exact Q|]. intros q Nq. rewrite times_app, (Hd T1). now apply E.
Qed.

Lemma keys_visible t ks : get_keys numeral t = Some ks ->
  forall k v, rawget t (KStr k) = Some v -> numeral k = false -> In k ks.
Proof.
  revert ks. induction t as [|[k' v'] t IH]; intros ks H k v G N; [discriminate|].
  cbn in H, G. destruct k' as [n | s | b]; cbn in G.
  - eauto.
  - destruct (get_keys numeral t) as [ks'|]; [|discriminate]. injection H as <-.
    destruct (String.eqb_spec s k) as [-> | D].
    + rewrite N. now left.
    + specialize (IH _ eq_refl _ _ G N). destruct (numeral s); [exact IH | now right].
  - discriminate.
Qed.

Lemma keys_in t ks : get_keys numeral t = Some ks ->
  forall k, In k ks -> numeral k = false /\ exists v, rawget t (KStr k) = Some v.
Proof.
  revert ks. induction t as [|[k' v'] t IH]; intros ks H k I; cbn in H.
  - injection H as <-. contradiction.
  - cbn [rawget]. destruct k' as [n | s | b]; cbn [key_eqb].
    + eauto.
    + destruct (get_keys numeral t) as [ks'|]; [|discriminate]. injection H as <-.
      destruct (numeral s) eqn:E.
      * destruct (IH _ eq_refl _ I) as (N & v & G). split; [exact N|].
        destruct (String.eqb_spec s k) as [-> | _]; eauto.
      * destruct I as [-> | I].
        -- split; [exact E|]. rewrite String.eqb_refl. eauto.
        -- destruct (IH _ eq_refl _ I) as (N & v & G). split; [exact N|].
           destruct (String.eqb_spec s k) as [-> | _]; eauto.
    + discriminate.
Qed.

(* C49: when a program reads a configuration through reference-counted dictionaries and none
   of them aborts, every key of the configuration, at any depth, was read exactly once. *)
Theorem C49_exactly_once t p l : run_dict t true p = Some l ->
  forall q, visible t q -> times q l = 1.
Proof.
  intros H q V. revert p l H. induction V as [t k v G N | t k t' q G N V IH]; intros p l H;
    unfold LPD_Model.run_dict in H;
    (destruct (run_prog p (new_dict t true)) as [[d l']|] eqn:R; [|discriminate]);
    (destruct (destroy d) eqn:D; [|discriminate]); injection H as ->;
    destruct (prog_counts _ _ _ _ R) as (A & B & E); cbn in A, B.
  - unfold LPD_Model.destroy in D. rewrite A, B in D.
    destruct (get_keys numeral t) as [ks|] eqn:K; [|discriminate].
    rewrite forallb_forall in D. specialize (D _ (keys_visible _ _ K _ _ G N)).
    apply Z.eqb_eq in D. rewrite E in D. exact D.
  - assert (T : times [k] l = 1).
    { unfold LPD_Model.destroy in D. rewrite A, B in D.
      destruct (get_keys numeral t) as [ks|] eqn:K; [|discriminate].
      rewrite forallb_forall in D. specialize (D _ (keys_visible _ _ K _ _ G N)).
      apply Z.eqb_eq in D. rewrite E in D. exact D. }
    destruct (prog_below _ _ _ _ _ _ R G) as [_ P]. destruct (P T) as (pr & l' & Q & C).
    cbn in Q. rewrite C; [now apply (IH _ _ Q)|]. intros ->. inversion V.
Qed.

(* ... and the destructor aborts in no other case, for tables without boolean keys *)
Theorem C49_destroy t p d l : run_prog p (new_dict t true) = Some (d, l) ->
  (forall b v, ~ In (KBool b, v) t) ->
  (destroy d = true <->
   forall k v, rawget t (KStr k) = Some v -> numeral k = false -> times [k] l = 1).
Proof.
  intros R NB. destruct (prog_counts _ _ _ _ R) as (A & B & E). cbn in A, B.
  unfold LPD_Model.destroy. rewrite A, B.
  assert (K : exists ks, get_keys numeral t = Some ks).
  { clear - NB. induction t as [|[k v] t IH]; [eexists; reflexivity|]. cbn.
    destruct IH as (ks & ->). { intros b w I. apply (NB b w). now right. }
    destruct k; eauto. exfalso. apply (NB b v). now left. }
  destruct K as (ks & K). rewrite K, forallb_forall. split.
  - intros D k v G N. specialize (D _ (keys_visible _ _ K _ _ G N)).
    apply Z.eqb_eq in D. now rewrite E in D.
  - intros H k I. destruct (keys_in _ _ K _ I) as (N & v & G). apply Z.eqb_eq.
    rewrite E. exact (H _ _ G N).
Qed.

(* a dictionary without reference counts can be destroyed at any time *)
Theorem C49_uncounted t p d l : run_prog p (new_dict t false) = Some (d, l) -> destroy d = true.
Proof.
  intros R. destruct (prog_counts _ _ _ _ R) as (_ & B & _). unfold LPD_Model.destroy. now rewrite B.
Qed.
(* The kind of value a getter is for; the whole number a value stands for is what Lua converts
   it to. *)
Definition fits (k : kind) (v : value) : Prop :=
  match k with
  | GetString => exists s n, v = VStr s \/ v = VNum n
  | GetDouble | GetInt => (exists n, v = VNum n) \/ exists s, v = VStr s /\ numeral s = true
  | GetNonNegativeInt =>
      (exists n, v = VNum n /\ 0 <= n) \/
      exists s, v = VStr s /\ numeral s = true /\ 0 <= numeral_value s
  | GetBool => exists b, v = VBool b
  end.
(* the program reads path q with getter k *)
Inductive asks : list read -> list string -> kind -> Prop :=
| asks_here p k name : In (Read k name) p -> asks p [name] k
| asks_below p name prog q k : In (ReadDict name prog) p -> asks prog q k -> asks p (name :: q) k.
(* the value at a path *)
Inductive value_at : table -> list string -> value -> Prop :=
| value_here t k v : rawget t (KStr k) = Some v -> value_at t [k] v
| value_below t k t' q v : rawget t (KStr k) = Some (VTable t') -> value_at t' q v ->
    value_at t (k :: q) v.

Lemma pop_fits k v : pop_ok numeral numeral_value k v = true <-> fits k v.
Proof.
  destruct k, v; cbn; try rewrite andb_true_iff; try rewrite Z.leb_le; split; intros H;
    try discriminate; try reflexivity;
    try (exists s, 0; now left); try (exists ""%string, n; now right);
    try (left; now eauto); try (right; now eauto); try (now eauto);
    repeat match goal with
           | H : _ \/ _ |- _ => destruct H
           | H : exists _, _ |- _ => destruct H
           | H : _ /\ _ |- _ => destruct H
           end; try discriminate; try congruence; auto.
  all: match goal with E : _ = _ |- _ => injection E as ? end; subst; auto.
Qed.

(* a single read succeeds exactly on a value that fits *)
Theorem C49_read d k name :
  (exists r, run_read (Read k name) d = Some r) <->
  exists v, rawget (tab d) (KStr name) = Some v /\ fits k v.
Proof.
  cbn [LPD_Model.run_read]. unfold reference, has_key.
  destruct (rawget (tab d) (KStr name)) as [v|]; [|split; [now intros [? ?] | intros (v & ? & _); discriminate]].
  destruct (pop_ok numeral numeral_value k v) eqn:P; split.
  - intros _. exists v. split; [reflexivity | now apply pop_fits].
  - eauto.
  - intros [? ?]. discriminate.
  - intros (w & [= <-] & F). apply pop_fits in F. congruence.
Qed.

Lemma prog_step p : forall d d' l x, run_prog p d = Some (d', l) -> In x p ->
  exists s s' m, run_read x s = Some (s', m) /\ tab s = tab d.
Proof.
  induction p as [|y p IH]; intros d d' l x H I; [contradiction|]. cbn in H.
  destruct (run_read y d) as [[s1 l1]|] eqn:R; [|discriminate].
  destruct (run_prog p s1) as [[s2 l2]|] eqn:R2; [|discriminate].
  destruct I as [-> | I]; [eauto 6|].
  destruct (IH _ _ _ _ R2 I) as (s & s' & m & A & B). exists s, s', m. split; [exact A|].
  rewrite B. now destruct (read_counts _ _ _ _ R) as (-> & _).
Qed.

(* when nothing aborts, every value read, at any depth, is there and fits its getter *)
Theorem C49_typed t c p l : run_dict t c p = Some l ->
  forall q k, asks p q k -> exists v, value_at t q v /\ fits k v.
Proof.
  intros H q k A. revert t c l H.
  induction A as [p k name I | p name prog q k I A IH]; intros t c l H; unfold LPD_Model.run_dict in H;
    (destruct (run_prog p (new_dict t c)) as [[d l']|] eqn:R; [|discriminate]);
    destruct (prog_step _ _ _ _ _ R I) as (s & s' & m & E & T); cbn in T.
  - destruct (proj1 (C49_read s k name) (ex_intro _ _ E)) as (v & G & F). rewrite T in G.
    exists v. split; [now constructor | exact F].
  - cbn [LPD_Model.run_read] in E.
    destruct (reference s name) as [d1|]; [|discriminate].
    destruct (rawget (tab s) (KStr name)) as [[| | |t']|] eqn:G; try discriminate.
    match type of E with context [?f prog (new_dict t' (counted s))] =>
      assert (Q : forall p s, f p s = run_prog p s) end.
    { induction p0 as [|x p0 IHp]; intros s0; [reflexivity|]. cbn.
      destruct (run_read x s0) as [[s1 l1]|]; [|reflexivity]. now rewrite IHp. }
    rewrite Q in E. clear Q.
    destruct (run_prog prog (new_dict t' (counted s))) as [[s2 l1]|] eqn:P; [|discriminate].
    destruct (destroy s2) eqn:D; [|discriminate].
    destruct (IH t' (counted s) l1) as (v & V & F).
    { unfold LPD_Model.run_dict. now rewrite P, D. }
    exists v. split; [|exact F]. rewrite T in G. eapply value_below; eassumption.
Qed.
End C49.

(* A string key that looks like a number is not checked: it can go unread. *)
Definition ex_numeral (s : string) : bool := String.eqb s "10".
Theorem C49_numeral_refuted : exists t k v,
  rawget t (KStr k) = Some v /\ run_dict ex_numeral (fun _ => 10) t true [] = Some [].
Proof. exists [(KStr "10", VBool true)], "10"%string, (VBool true). split; reflexivity. Qed.

Definition ex_table : table :=
  [(KStr "a", VNum 3); (KNum 1, VStr "x"); (KStr "b", VTable [(KStr "c", VBool true)])].
Example C49_example :
  run_dict ex_numeral (fun _ => 10) ex_table true
    [ReadDict "b" [Read GetBool "c"]; Look; Read GetInt "a"]
  = Some [["b"]; ["b"; "c"]; ["a"]]%string /\
  run_dict ex_numeral (fun _ => 10) ex_table true
    [ReadDict "b" [Read GetBool "c"; Read GetBool "c"]; Read GetInt "a"] = None /\
  run_dict ex_numeral (fun _ => 10) ex_table true [ReadDict "b" []; Read GetInt "a"] = None /\
  run_dict ex_numeral (fun _ => 10) ex_table true [Read GetInt "a"] = None.
Proof. repeat split; reflexivity. Qed.

(* a negative number is no GetNonNegativeInt, nor is a number a GetBool *)
Example C49_typed_example :
  run_dict ex_numeral (fun _ => 10) [(KStr "a", VNum (-3))] true [Read GetNonNegativeInt "a"]
  = None /\
  run_dict ex_numeral (fun _ => 10) [(KStr "a", VNum (-3))] true [Read GetInt "a"]
  = Some [["a"]]%string /\
  run_dict ex_numeral (fun _ => 10) [(KStr "a", VStr "10")] true [Read GetNonNegativeInt "a"]
  = Some [["a"]]%string /\
  run_dict ex_numeral (fun _ => 10) [(KStr "a", VNum 3)] true [Read GetBool "a"] = None.
Proof. repeat split; reflexivity. Qed.

Print Assumptions C49_exactly_once.
Print Assumptions C49_destroy.
Print Assumptions C49_uncounted.
Print Assumptions C49_numeral_refuted.
Print Assumptions C49_read.
Print Assumptions C49_typed.
