(* Theorems about the overlapping submaps trimmer (C31). *)
From Coq Require Import List ZArith Bool Lia Permutation Sorted.
From Verif Require Import OST_Model OST_Spec.
Import ListNotations.
Open Scope Z_scope.

Lemma id_eqb_ok a b : id_eqb a b = true <-> a = b.
Proof.
  unfold id_eqb. destruct a, b. cbn. rewrite andb_true_iff, !Z.eqb_eq. split; [|now intros [= -> ->]].
  now intros [-> ->].
Qed.
Lemma id_eqb_refl a : id_eqb a a = true.
Proof. now apply id_eqb_ok. Qed.
Lemma id_eqb_neq a b : id_eqb a b = false <-> a <> b.
Proof. rewrite <- not_true_iff_false, id_eqb_ok. reflexivity. Qed.
Lemma id_eqb_sym a b : id_eqb a b = id_eqb b a.
Proof.
  destruct (id_eqb b a) eqn:E; [apply id_eqb_ok in E; subst; apply id_eqb_refl|].
  apply id_eqb_neq in E. apply id_eqb_neq. congruence.
Qed.

(* maps *)
Lemma find_update A k k' f (m : list (id * A)) :
  find k (update k' f m) = if id_eqb k k' then Some (f (find k' m)) else find k m.
Proof.
  induction m as [|[k0 v] m IH]; cbn.
  - destruct (id_eqb k k') eqn:E; reflexivity.
  - destruct (id_eqb k' k0) eqn:E0; cbn.
    + apply id_eqb_ok in E0. subst k0. destruct (id_eqb k k') eqn:E; reflexivity.
    + rewrite IH. destruct (id_eqb k k') eqn:E.
      * apply id_eqb_ok in E. subst k'. now rewrite E0.
      * reflexivity.
Qed.
Lemma update_keys A k f (m : list (id * A)) x :
  In x (map fst (update k f m)) <-> x = k \/ In x (map fst m).
Proof.
  induction m as [|[k0 v] m IH]; cbn; [intuition congruence|].
  destruct (id_eqb k k0) eqn:E; cbn; [|rewrite IH; intuition congruence].
  apply id_eqb_ok in E. subst k0. intuition congruence.
Qed.
Lemma update_nodup A k f (m : list (id * A)) : NoDup (map fst m) -> NoDup (map fst (update k f m)).
Proof.
  induction m as [|[k0 v] m IH]; cbn; intros H; [repeat constructor; auto|].
  inversion_clear H as [|? ? N D]. destruct (id_eqb k k0) eqn:E; cbn; [now constructor|].
  constructor; [|now apply IH]. rewrite update_keys. intros [-> | I]; [|contradiction].
  now rewrite id_eqb_refl in E.
Qed.
Lemma find_in A k (v : A) m : NoDup (map fst m) -> (find k m = Some v <-> In (k, v) m).
Proof.
  induction m as [|[k0 w] m IH]; cbn; intros H; [split; [discriminate | contradiction]|].
  inversion_clear H as [|? ? N D]. destruct (id_eqb k k0) eqn:E.
  - apply id_eqb_ok in E. subst k0. split; [intros [= ->]; now left|].
    intros [[= ->] | I]; [reflexivity|]. elim N. now apply (in_map fst) in I.
  - rewrite (IH D). split; [now right|]. intros [[= -> ->] | I]; [|exact I].
    now rewrite id_eqb_refl in E.
Qed.

(* counting *)
Lemma count_nil A (p : A -> bool) : count p [] = 0.
Proof. reflexivity. Qed.
Lemma count_cons A (p : A -> bool) a l : count p (a :: l) = (if p a then 1 else 0) + count p l.
Proof. unfold count. cbn. destruct (p a); cbn [length]; lia. Qed.
Lemma count_app A (p : A -> bool) l m : count p (l ++ m) = count p l + count p m.
Proof. unfold count. rewrite filter_app, app_length. lia. Qed.
Lemma count_nonneg A (p : A -> bool) l : 0 <= count p l.
Proof. unfold count. lia. Qed.
Lemma count_le A (p q : A -> bool) l : (forall a, In a l -> p a = true -> q a = true) ->
  count p l <= count q l.
Proof.
  induction l as [|a l IH]; intros H; [reflexivity|]. rewrite !count_cons.
  specialize (IH (fun x I => H x (or_intror I))). specialize (H a (or_introl eq_refl)).
  destruct (p a); [rewrite H by reflexivity; lia|]. destruct (q a); lia.
Qed.
Lemma count_ext A (p q : A -> bool) l : (forall a, In a l -> p a = q a) -> count p l = count q l.
Proof.
  intros H. apply Z.le_antisymm; apply count_le; intros a I E.
  - now rewrite <- H.
  - now rewrite H.
Qed.
Lemma count_all A (p : A -> bool) l : (forall a, In a l -> p a = true) -> count p l = Z.of_nat (length l).
Proof.
  induction l as [|a l IH]; intros H; [reflexivity|]. rewrite count_cons, IH, H; cbn [length];
    auto with datatypes. lia.
Qed.
Lemma count_zero A (p : A -> bool) l : (forall a, In a l -> p a = false) -> count p l = 0.
Proof.
  induction l as [|a l IH]; intros H; [reflexivity|]. rewrite count_cons, IH, H; auto with datatypes.
Qed.
Lemma count_perm A (p : A -> bool) l m : Permutation l m -> count p l = count p m.
Proof. induction 1; rewrite ?count_cons in *; lia. Qed.
Lemma count_map A B (f : A -> B) p l : count p (map f l) = count (fun a => p (f a)) l.
Proof. induction l as [|a l IH]; [reflexivity|]. cbn. now rewrite !count_cons, IH. Qed.
Lemma count_filter A (p q : A -> bool) l : count p (filter q l) = count (fun a => q a && p a) l.
Proof.
  induction l as [|a l IH]; [reflexivity|]. cbn. rewrite count_cons.
  destruct (q a); cbn; [rewrite count_cons|]; rewrite IH; lia.
Qed.

(* the coverage grid *)
Definition grid_of (es : list entry) : grid := fold_left add_point es [].
Lemma grid_of_app es e : grid_of (es ++ [e]) = add_point (grid_of es) e.
Proof. unfold grid_of. now rewrite fold_left_app. Qed.
Lemma grid_nodup es : NoDup (map fst (grid_of es)).
Proof.
  induction es as [|e es IH] using rev_ind; [constructor|]. rewrite grid_of_app.
  now apply update_nodup.
Qed.
Definition at_cell (c : cell) (es : list entry) : list (id * Z) :=
  map snd (filter (fun e => id_eqb c (e_cell e)) es).
Lemma at_cell_app c es e :
  at_cell c (es ++ [e]) = at_cell c es ++ (if id_eqb c (e_cell e) then [snd e] else []).
Proof.
  unfold at_cell. rewrite filter_app, map_app. cbn. destruct (id_eqb c (e_cell e)); reflexivity.
Qed.
Lemma grid_find es c :
  find c (grid_of es) = match at_cell c es with [] => None | l => Some l end.
Proof.
  induction es as [|e es IH] using rev_ind; [reflexivity|].
  rewrite grid_of_app, at_cell_app. unfold add_point. rewrite find_update.
  unfold e_cell. destruct (id_eqb c (fst e)) eqn:E.
  - apply id_eqb_ok in E. rewrite <- E, IH. destruct (at_cell c es); reflexivity.
  - rewrite app_nil_r. exact IH.
Qed.
Lemma grid_in es c l : In (c, l) (grid_of es) -> l = at_cell c es.
Proof.
  intros H. apply (find_in _ _ _ _ (grid_nodup es)) in H. rewrite grid_find in H.
  destruct (at_cell c es); [discriminate|]. congruence.
Qed.

Definition zsum {A} (f : A -> Z) (l : list A) : Z := fold_right (fun a s => f a + s) 0 l.
Lemma zsum_update (Q : cell -> id * Z -> bool) (g : grid) c e :
  zsum (fun x => count (Q (fst x)) (snd x)) (add_point g (c, e)) =
  zsum (fun x => count (Q (fst x)) (snd x)) g + (if Q c e then 1 else 0).
Proof.
  unfold add_point. cbn [fst snd]. induction g as [|[k l] g IH]; cbn.
  - rewrite count_cons, count_nil. lia.
  - destruct (id_eqb c k) eqn:E; cbn.
    + apply id_eqb_ok in E. subst k. rewrite count_app, count_cons, count_nil. lia.
    + unfold zsum in IH. rewrite IH. lia.
Qed.
Lemma grid_sum es (Q : cell -> id * Z -> bool) :
  zsum (fun x => count (Q (fst x)) (snd x)) (grid_of es) = count (fun e => Q (fst e) (snd e)) es.
Proof.
  induction es as [|[c e] es IH] using rev_ind; [reflexivity|].
  rewrite grid_of_app, zsum_update, IH, count_app, count_cons, count_nil. cbn [fst snd].
  now rewrite Z.add_0_r.
Qed.

Section Find.
Variable sortf : list (id * Z) -> list (id * Z).
Definition newer_first (a b : id * Z) : Prop := snd b <= snd a.
Hypothesis sort_perm : forall l, Permutation l (sortf l).
Hypothesis sort_sorted : forall l, StronglySorted newer_first (sortf l).

Lemma ss_app a b : StronglySorted newer_first (a ++ b) ->
  forall x y, In x a -> In y b -> snd y <= snd x.
Proof.
  induction a as [|z a IH]; cbn; intros H x y Hx Hy; [contradiction|].
  inversion_clear H as [|? ? S F]. destruct Hx as [<- | Hx]; [|eauto].
  rewrite Forall_forall in F. apply F. apply in_or_app. now right.
Qed.

Lemma ss_right a b : StronglySorted newer_first (a ++ b) -> StronglySorted newer_first b.
Proof. induction a as [|z a IH]; cbn; intros H; [exact H|]. inversion_clear H. auto. Qed.

(* one cell *)
Lemma cell_bounds fresh l s : 0 <= fresh ->
  let surely e := count (fun f => snd e <=? snd f) l <=? fresh in
  let maybe e := count (fun f => snd e <? snd f) l <? fresh in
  count (fun e => id_eqb s (fst e) && surely e) l <=
    count (fun e => id_eqb s (fst e)) (keep_fresh sortf fresh l) <=
    count (fun e => id_eqb s (fst e) && maybe e) l.
Proof.
  intros F0 surely maybe. unfold keep_fresh.
  destruct (Z.ltb_spec fresh (Z.of_nat (length l))) as [L | L].
  - set (l' := sortf l). set (n := Z.to_nat fresh).
    assert (P : Permutation l l') by apply sort_perm.
    assert (S : StronglySorted newer_first (firstn n l' ++ skipn n l'))
      by (rewrite firstn_skipn; apply sort_sorted).
    assert (Len : length (firstn n l') = n).
    { rewrite firstn_length, <- (Permutation_length P). lia. }
    assert (Sk : forall e, In e (skipn n l') -> surely e = false).
    { intros e He. unfold surely. rewrite (count_perm _ _ _ _ P), <- (firstn_skipn n l'), count_app.
      rewrite (count_all _ _ (firstn n l')), Len.
      2:{ intros f Hf. apply Z.leb_le. eapply ss_app; eauto. }
      assert (1 <= count (fun f => snd e <=? snd f) (skipn n l')).
      { clear - He. induction (skipn n l') as [|x r IH]; [contradiction|]. rewrite count_cons.
        pose proof (count_nonneg _ (fun f => snd e <=? snd f) r).
        destruct He as [-> | He]; [rewrite Z.leb_refl; lia|]. specialize (IH He).
        destruct (snd e <=? snd x); lia. }
      apply Z.leb_gt. lia. }
    assert (Fi : forall e, In e (firstn n l') -> maybe e = true).
    { intros e He. unfold maybe. rewrite (count_perm _ _ _ _ P), <- (firstn_skipn n l').
      apply in_split in He as (a & b & E). rewrite E in *. clear E.
      rewrite <- app_assoc in *. cbn in *. rewrite count_app.
      rewrite (count_zero _ _ (e :: b ++ skipn n l')).
      2:{ intros f [<- | Hf]; [apply Z.ltb_irrefl|]. apply Z.ltb_ge.
          apply ss_right in S. inversion_clear S as [|? ? _ Fa]. rewrite Forall_forall in Fa.
          now apply Fa. }
      rewrite app_length in Len. cbn in Len.
      assert (count (fun f => snd e <? snd f) a <= Z.of_nat (length a)).
      { rewrite <- (count_all _ (fun _ => true) a) by auto. now apply count_le. }
      apply Z.ltb_lt. lia. }
    split.
    + rewrite (count_perm _ _ _ _ P), <- (firstn_skipn n l') at 1. rewrite count_app.
      rewrite (count_zero _ _ (skipn n l')).
      2:{ intros e He. rewrite (Sk e He). apply andb_false_r. }
      rewrite Z.add_0_r. apply count_le. intros e _ H. now apply andb_prop in H.
    + rewrite (count_perm _ (fun e => id_eqb s (fst e) && maybe e) _ _ P).
      rewrite <- (firstn_skipn n l') at 2. rewrite count_app.
      pose proof (count_nonneg _ (fun e => id_eqb s (fst e) && maybe e) (skipn n l')).
      enough (count (fun e => id_eqb s (fst e)) (firstn n l') <=
              count (fun e => id_eqb s (fst e) && maybe e) (firstn n l')) by lia.
      apply count_le. intros e He H1. now rewrite H1, Fi.
  - split; apply count_le; intros e He H.
    + now apply andb_prop in H.
    + rewrite H. unfold maybe. cbn. apply Z.ltb_lt.
      apply in_split in He as (a & b & ->). rewrite count_app, count_cons, Z.ltb_irrefl.
      rewrite app_length in L. cbn in L.
      assert (B : forall m : list (id * Z), count (fun f => snd e <? snd f) m <= Z.of_nat (length m)).
      { intros m. rewrite <- (count_all _ (fun _ => true) m) by auto. now apply count_le. }
      pose proof (B a). pose proof (B b). lia.
Qed.

(* the counters *)
Definition bump (m : list (id * Z)) (e : id * Z) : list (id * Z) :=
  update (fst e) (fun o => match o with None => 1 | Some n => (n + 1) mod 2 ^ 16 end) m.
Lemma bump_find l s : find s (fold_left bump l []) =
  let n := count (fun e => id_eqb s (fst e)) l in
  if n =? 0 then None else Some (n mod 2 ^ 16).
Proof.
  induction l as [|e l IH] using rev_ind; [reflexivity|].
  rewrite fold_left_app. cbn [fold_left]. unfold bump at 1. rewrite find_update, count_app, count_cons, count_nil.
  pose proof (count_nonneg _ (fun e => id_eqb s (fst e)) l) as N.
  destruct (id_eqb s (fst e)) eqn:E.
  - apply id_eqb_ok in E. rewrite <- E, IH. cbn zeta.
    destruct (Z.eqb_spec (count (fun e => id_eqb s (fst e)) l) 0) as [-> | D]; [reflexivity|].
    destruct (Z.eqb_spec (count (fun e => id_eqb s (fst e)) l + (1 + 0)) 0); [lia|].
    f_equal. rewrite Z.add_mod_idemp_l by lia. reflexivity.
  - rewrite IH. cbn zeta. now rewrite !Z.add_0_r.
Qed.
Lemma bump_nodup l : NoDup (map fst (fold_left bump l [])).
Proof.
  induction l as [|e l IH] using rev_ind; [constructor|]. rewrite fold_left_app. cbn.
  now apply update_nodup.
Qed.
Lemma count_cells_flat fresh g :
  count_cells sortf fresh g = fold_left bump (flat_map (fun c => keep_fresh sortf fresh (snd c)) g) [].
Proof.
  unfold count_cells. generalize (@nil (id * Z)). induction g as [|c g IH]; intros m; [reflexivity|].
  cbn [fold_left flat_map]. rewrite fold_left_app, <- IH. reflexivity.
Qed.
Lemma count_flat {A B} (p : B -> bool) (f : A -> list B) l :
  count p (flat_map f l) = zsum (fun a => count p (f a)) l.
Proof. induction l as [|a l IH]; [reflexivity|]. cbn. now rewrite count_app, IH. Qed.
Lemma zsum_le {A} (f g : A -> Z) l : (forall a, In a l -> f a <= g a) -> zsum f l <= zsum g l.
Proof.
  induction l as [|a l IH]; intros H; [reflexivity|]. cbn.
  specialize (IH (fun x I => H x (or_intror I))). specialize (H a (or_introl eq_refl)).
  unfold zsum in IH. lia.
Qed.

Definition kept fresh es s : Z :=
  count (fun e => id_eqb s (fst e)) (flat_map (fun c => keep_fresh sortf fresh (snd c)) (grid_of es)).

Lemma at_cell_count c es (p : id * Z -> bool) :
  count p (at_cell c es) = count (fun f => id_eqb c (e_cell f) && p (snd f)) es.
Proof. unfold at_cell. now rewrite count_map, count_filter. Qed.

Lemma kept_bounds fresh es s : 0 <= fresh ->
  covered_surely fresh es s <= kept fresh es s <= covered_maybe fresh es s.
Proof.
  intros F0. unfold kept. rewrite count_flat.
  assert (E1 : covered_surely fresh es s =
    zsum (fun x => count (fun e => id_eqb s (fst e) && surely_fresh fresh es (fst x, e)) (snd x))
         (grid_of es)).
  { rewrite (grid_sum es (fun c e => id_eqb s (fst e) && surely_fresh fresh es (c, e))).
    apply count_ext. intros [c e] _. reflexivity. }
  assert (E2 : covered_maybe fresh es s =
    zsum (fun x => count (fun e => id_eqb s (fst e) && maybe_fresh fresh es (fst x, e)) (snd x))
         (grid_of es)).
  { rewrite (grid_sum es (fun c e => id_eqb s (fst e) && maybe_fresh fresh es (c, e))).
    apply count_ext. intros [c e] _. reflexivity. }
  rewrite E1, E2. clear E1 E2.
  assert (B : forall c l, In (c, l) (grid_of es) ->
    count (fun e => id_eqb s (fst e) && surely_fresh fresh es (c, e)) l <=
    count (fun e => id_eqb s (fst e)) (keep_fresh sortf fresh l) <=
    count (fun e => id_eqb s (fst e) && maybe_fresh fresh es (c, e)) l).
  { intros c l I. apply grid_in in I. destruct (cell_bounds fresh l s F0) as [B1 B2]. split.
    - eapply Z.le_trans; [|exact B1]. apply Z.eq_le_incl, count_ext. intros e _. f_equal.
      unfold surely_fresh. rewrite I, at_cell_count. reflexivity.
    - eapply Z.le_trans; [exact B2|]. apply Z.eq_le_incl, count_ext. intros e _. f_equal.
      unfold maybe_fresh. rewrite I, at_cell_count. reflexivity. }
  split; apply zsum_le; intros [c l] I; apply B; exact I.
Qed.

Lemma maybe_total fresh es s : covered_maybe fresh es s <= covered_total es s.
Proof. apply count_le. intros e _ H. now apply andb_prop in H. Qed.

Lemma trim_iff fresh min_cells all es s :
  In s (ids_to_trim sortf fresh min_cells all (grid_of es)) <->
  In s all /\ (kept fresh es s = 0 \/ kept fresh es s mod 2 ^ 16 < min_cells).
Proof.
  unfold ids_to_trim. rewrite filter_In, negb_true_iff, count_cells_flat.
  set (L := flat_map _ _). pose proof (bump_find L s) as Fb. cbn zeta in Fb.
  change (count (fun e => id_eqb s (fst e)) L) with (kept fresh es s) in Fb.
  apply and_iff_compat_l. rewrite <- not_true_iff_false, existsb_exists.
  split.
  - intros N. destruct (Z.eqb_spec (kept fresh es s) 0) as [E|E]; [now left|]. right.
    destruct (Z.ltb_spec (kept fresh es s mod 2 ^ 16) min_cells) as [Lt|Ge]; [exact Lt|].
    exfalso. apply N. exists s. split; [|apply id_eqb_refl]. apply in_map_iff.
    exists (s, kept fresh es s mod 2 ^ 16). split; [reflexivity|]. apply filter_In.
    split; [now apply (find_in _ _ _ _ (bump_nodup L))|]. cbn. apply negb_true_iff, Z.ltb_ge. exact Ge.
  - intros H (x & Hx & E). apply id_eqb_ok in E. subst x.
    apply in_map_iff in Hx as ([s' n] & Es & Hx). cbn in Es. subst s'.
    apply filter_In in Hx as [Hx Hn]. apply (find_in _ _ _ _ (bump_nodup L)) in Hx.
    cbn in Hn. apply negb_true_iff, Z.ltb_ge in Hn.
    destruct (Z.eqb_spec (kept fresh es s) 0) as [E|E]; [congruence|].
    assert (n = kept fresh es s mod 2 ^ 16) by congruence. destruct H; [contradiction|lia].
Qed.

(* AddSubmapsToSubmapCoverageGrid2D *)
Lemma add_submaps_ok fr subs :
  add_submaps fr subs = (candidates fr subs, grid_of (coverage fr subs)).
Proof.
  unfold add_submaps.
  enough (G : forall subs a es, fold_left (add_submap fr) subs (a, grid_of es) =
              (a ++ candidates fr subs, grid_of (es ++ coverage fr subs))) by apply (G subs [] []).
  clear. induction subs as [|s subs IH]; intros a es; cbn.
  - now rewrite !app_nil_r.
  - unfold add_submap at 2. destruct (find (sid s) fr) as [t|]; [|apply IH].
    destruct (finished s); [|apply IH]. cbn [fst snd].
    replace (fold_left add_point (map (fun c => (c, (sid s, t))) (cover s)) (grid_of es))
      with (grid_of (es ++ map (fun c => (c, (sid s, t))) (cover s)))
      by (unfold grid_of; now rewrite fold_left_app).
    rewrite IH, <- !app_assoc. reflexivity.
Qed.

(* C31, as long as no submap has 2^16 entries in the coverage grid: a submap that is among the
   freshest on enough cells whatever the order of ties is not removed, one that is on too few
   in any order is removed, and only finished submaps whose last insertion is known are. *)
Theorem C31_trim fresh min_added min_cells current subs nodes cs n rem :
  0 <= fresh -> 1 <= min_cells ->
  let fr := freshness subs nodes cs in
  let es := coverage fr subs in
  (forall s, covered_total es s < 2 ^ 16) ->
  trim sortf fresh min_added min_cells current subs nodes cs = Some (n, rem) ->
  rem = [] \/
  forall s, (In s rem -> In s (candidates fr subs)) /\
            (min_cells <= covered_surely fresh es s -> ~ In s rem) /\
            (In s (candidates fr subs) -> covered_maybe fresh es s < min_cells -> In s rem).
Proof.
  intros F0 M1 fr es T H. unfold trim in H.
  destruct (_ <=? min_added); [injection H as _ <-; now left|]. right.
  destruct subs as [|s0 subs']; [discriminate|]. remember (s0 :: subs') as subs.
  rewrite add_submaps_ok in H. injection H as _ <-. fold fr. fold es.
  intros s. rewrite trim_iff. pose proof (kept_bounds fresh es s F0) as [B1 B2].
  pose proof (maybe_total fresh es s). specialize (T s).
  assert (0 <= kept fresh es s) by apply count_nonneg.
  rewrite Z.mod_small by lia. split; [|split].
  - tauto.
  - lia.
  - intros I L. split; [exact I | lia].
Qed.
End Find.

(* ComputeSubmapFreshness: the time of the largest node with an intra-submap constraint to the
   submap, for the submaps that are stored and whose largest node is stored *)
Lemma id_ltb_irrefl a : id_ltb a a = false.
Proof. unfold id_ltb. rewrite !Z.ltb_irrefl, andb_false_r. reflexivity. Qed.
Lemma id_max_r a b : id_ltb (id_max a b) b = false.
Proof. unfold id_max. destruct (id_ltb a b) eqn:E; [apply id_ltb_irrefl | exact E]. Qed.

Lemma latest_app cs c s n : latest cs s n ->
  latest (cs ++ [c]) s (if intra c && id_eqb s (c_submap c) then id_max n (c_node c) else n).
Proof.
  intros [(c0 & I0 & T0 & S0 & N0) M].
  destruct (intra c && id_eqb s (c_submap c)) eqn:E.
  - apply andb_prop in E as [Ei Es]. apply id_eqb_ok in Es. split.
    + unfold id_max. destruct (id_ltb n (c_node c)).
      * exists c. repeat split; auto. apply in_or_app. right. now left.
      * exists c0. repeat split; auto. apply in_or_app. now left.
    + intros d Id Td Sd. apply in_app_iff in Id as [Id | [<- | []]].
      * specialize (M d Id Td Sd). unfold id_max. destruct (id_ltb n (c_node c)) eqn:L; [|exact M].
        clear - M L. unfold id_ltb in *. destruct n, (c_node c), (c_node d). cbn in *.
        apply orb_false_iff in M as [M1 M2]. apply Z.ltb_ge in M1.
        apply orb_true_iff in L. rewrite Z.ltb_lt, andb_true_iff, Z.eqb_eq, Z.ltb_lt in L.
        apply orb_false_iff. rewrite Z.ltb_ge, andb_false_iff, Z.eqb_neq, Z.ltb_ge.
        rewrite andb_false_iff, Z.eqb_neq, Z.ltb_ge in M2. lia.
      * apply id_max_r.
  - split.
    + exists c0. repeat split; auto. apply in_or_app. now left.
    + intros d Id Td Sd. apply in_app_iff in Id as [Id | [<- | []]]; [eauto|].
      rewrite Td, <- Sd, id_eqb_refl in E. discriminate.
Qed.

Lemma latest_nodes_ok cs s :
  match find s (latest_nodes cs) with
  | Some n => latest cs s n
  | None => forall c, In c cs -> intra c = true -> c_submap c <> s
  end.
Proof.
  induction cs as [|c cs IH] using rev_ind; [intros c []|].
  unfold latest_nodes in *. rewrite fold_left_app. cbn [fold_left].
  destruct (intra c) eqn:T.
  - rewrite find_update. destruct (id_eqb s (c_submap c)) eqn:E.
    + pose proof E as E'. apply id_eqb_ok in E. rewrite <- E.
      destruct (find s (fold_left _ cs [])) as [n|] eqn:Fn.
      * apply (latest_app _ c) in IH. now rewrite T, E' in IH.
      * split.
        -- exists c. repeat split; auto. apply in_or_app. right. now left.
        -- intros d Id Td Sd. apply in_app_iff in Id as [Id | [<- | []]].
           ++ now elim (IH d Id Td).
           ++ apply id_ltb_irrefl.
    + destruct (find s (fold_left _ cs [])) as [n|] eqn:Fn.
      * apply (latest_app _ c) in IH. now rewrite T, E in IH.
      * intros d Id Td. apply in_app_iff in Id as [Id | [<- | []]]; [auto|].
        apply id_eqb_neq in E. congruence.
  - destruct (find s (fold_left _ cs [])) as [n|] eqn:Fn.
    + apply (latest_app _ c) in IH. now rewrite T in IH.
    + intros d Id Td. apply in_app_iff in Id as [Id | [<- | []]]; [auto|]. congruence.
Qed.

Lemma latest_nodes_nodup cs : NoDup (map fst (latest_nodes cs)).
Proof.
  induction cs as [|c cs IH] using rev_ind; [constructor|].
  unfold latest_nodes in *. rewrite fold_left_app. cbn. destruct (intra c); [|exact IH].
  now apply update_nodup.
Qed.

Lemma latest_unique cs s n m : latest cs s n -> latest cs s m -> n = m.
Proof.
  intros [(c & I1 & T1 & S1 & <-) M1] [(d & I2 & T2 & S2 & <-) M2].
  specialize (M1 d I2 T2 S2). specialize (M2 c I1 T1 S1).
  unfold id_ltb in *. destruct (c_node c) as [a b], (c_node d) as [a' b']. cbn in *.
  rewrite orb_false_iff, Z.ltb_ge, andb_false_iff, Z.eqb_neq, Z.ltb_ge in M1, M2.
  f_equal; lia.
Qed.

Lemma find_sub subs s :
  match List.find (fun x => id_eqb s (sid x)) subs with
  | Some x => sid x = s /\ In s (map sid subs)
  | None => ~ In s (map sid subs)
  end.
Proof.
  destruct (List.find _ subs) as [x|] eqn:E.
  - apply find_some in E as [I E]. apply id_eqb_ok in E. subst s. split; [reflexivity|].
    now apply in_map.
  - intros I. apply in_map_iff in I as (x & <- & I). apply (find_none _ _ E) in I.
    now rewrite id_eqb_refl in I.
Qed.

Theorem C31_freshness subs nodes cs s t :
  find s (freshness subs nodes cs) = Some t <-> is_fresh subs nodes cs s t.
Proof.
  unfold freshness.
  assert (G : forall L : list (id * id), NoDup (map fst L) ->
    (find s (fold_left (fun m e =>
               match List.find (fun s => id_eqb (fst e) (sid s)) subs with
               | None => m
               | Some s => match find (snd e) nodes with
                           | None => m
                           | Some t => update (sid s) (fun _ => t) m
                           end
               end) L []) = Some t <->
     In s (map sid subs) /\ exists n, In (s, n) L /\ find n nodes = Some t)).
  { induction L as [|[k n] L IH] using rev_ind; intros ND.
    - cbn. split; [discriminate|]. intros (_ & n & [] & _).
    - rewrite map_app in ND. cbn in ND. apply NoDup_remove in ND as [ND N]. rewrite app_nil_r in ND, N.
      specialize (IH ND). rewrite fold_left_app. cbn [fold_left fst snd].
      pose proof (find_sub subs k) as Fk.
      assert (Old : k <> s -> (exists n0, In (s, n0) (L ++ [(k, n)]) /\ find n0 nodes = Some t) <->
                    (exists n0, In (s, n0) L /\ find n0 nodes = Some t)).
      { intros D. split; intros (n0 & I & Fn); exists n0; (split; [|exact Fn]).
        - apply in_app_iff in I as [I | [[= -> ->] | []]]; [exact I | now elim D].
        - apply in_or_app. now left. }
      assert (New : k = s -> (exists n0, In (s, n0) (L ++ [(k, n)]) /\ find n0 nodes = Some t) <->
                    find n nodes = Some t).
      { intros <-. split.
        - intros (n0 & I & Fn). apply in_app_iff in I as [I | [[= ->] | []]]; [|exact Fn].
          elim N. now apply (in_map fst) in I.
        - intros Fn. exists n. split; [|exact Fn]. apply in_or_app. right. now left. }
      assert (NoL : k = s -> ~ exists n0, In (s, n0) L /\ find n0 nodes = Some t).
      { intros <- (n0 & I & _). elim N. now apply (in_map fst) in I. }
      destruct (List.find (fun s0 => id_eqb k (sid s0)) subs) as [x|].
      + destruct Fk as [Ex Ix]. rewrite Ex.
        destruct (id_eqb s k) eqn:E.
        * apply id_eqb_ok in E. rewrite (New (eq_sym E)).
          destruct (find n nodes) as [t'|].
          -- rewrite find_update, <- E, id_eqb_refl. rewrite <- E in Ix. split.
             ++ intros H. split; [exact Ix | exact H].
             ++ now intros [_ H].
          -- rewrite IH. split; [|now intros [_ ?]]. intros [_ H]. now elim (NoL (eq_sym E)).
        * assert (D : k <> s) by (apply id_eqb_neq in E; congruence).
          rewrite (Old D). destruct (find n nodes) as [t'|]; [|exact IH].
          rewrite find_update, E. exact IH.
      + destruct (id_eqb s k) eqn:E.
        * apply id_eqb_ok in E. rewrite IH. subst k. split; intros [I _]; now elim Fk.
        * apply id_eqb_neq in E. rewrite Old by congruence. exact IH. }
  rewrite (G _ (latest_nodes_nodup cs)). unfold is_fresh.
  apply and_iff_compat_l. pose proof (latest_nodes_ok cs s) as Lo.
  split; intros (n & H & Fn); exists n; (split; [|exact Fn]).
  - apply (find_in _ _ _ _ (latest_nodes_nodup cs)) in H. now rewrite H in Lo.
  - apply (find_in _ _ _ _ (latest_nodes_nodup cs)).
    destruct (find s (latest_nodes cs)) as [m|].
    + f_equal. eapply latest_unique; eauto.
    + destruct H as [(c & I & T & S & _) _]. now elim (Lo c I T).
Qed.

(* an implementation of the sort *)
Fixpoint ins (e : id * Z) (l : list (id * Z)) : list (id * Z) :=
  match l with
  | [] => [e]
  | f :: r => if snd f <=? snd e then e :: l else f :: ins e r
  end.
Definition isort (l : list (id * Z)) : list (id * Z) := fold_right ins [] l.
Lemma ins_perm e l : Permutation (e :: l) (ins e l).
Proof.
  induction l as [|f l IH]; cbn; [reflexivity|]. destruct (snd f <=? snd e); [reflexivity|].
  rewrite perm_swap. now constructor.
Qed.
Lemma isort_perm l : Permutation l (isort l).
Proof. induction l as [|e l IH]; cbn; [constructor|]. rewrite <- ins_perm. now constructor. Qed.
Lemma ins_sorted e l : StronglySorted newer_first l -> StronglySorted newer_first (ins e l).
Proof.
  induction l as [|f l IH]; cbn; intros H; [repeat constructor|].
  inversion_clear H as [|? ? S F]. destruct (Z.leb_spec (snd f) (snd e)) as [L|L].
  - constructor; [now constructor|]. constructor; [exact L|].
    eapply Forall_impl; [|exact F]. unfold newer_first. intros a Ha. lia.
  - constructor; [now apply IH|].
    eapply Permutation_Forall; [apply ins_perm|]. constructor; [unfold newer_first; lia | exact F].
Qed.
Lemma isort_sorted l : StronglySorted newer_first (isort l).
Proof. induction l as [|e l IH]; cbn; [constructor|]. now apply ins_sorted. Qed.

(* The counters wrap: a submap that alone covers 2^16 cells is removed, even if one cell would
   be enough. *)
Definition big (n : nat) : submap := mk_submap (0, 0) true (map (fun i => (Z.of_nat i, 0)) (seq 0 n)).
Definition ex_nodes : list (id * Z) := [((0, 0), 5)].
Definition ex_cs : list constraint := [mk_constraint (0, 0) (0, 0) true].

Lemma big_coverage n : coverage (freshness [big n] ex_nodes ex_cs) [big n] =
  map (fun i => ((Z.of_nat i, 0), ((0, 0), 5))) (seq 0 n).
Proof.
  change (freshness [big n] ex_nodes ex_cs) with [((0, 0), 5)]. unfold coverage. cbn.
  now rewrite app_nil_r, map_map.
Qed.
Lemma big_alone k c n : count (fun f => id_eqb c (e_cell f) && (5 <=? e_time f))
    (map (fun i => ((Z.of_nat i, 0), ((0, 0), 5))) (seq k n)) <= 1.
Proof.
  rewrite count_map. revert k. induction n as [|n IH]; intros k; [cbn; lia|].
  cbn [seq]. rewrite count_cons. unfold e_cell, e_time. cbn [fst snd].
  destruct (id_eqb c (Z.of_nat k, 0)) eqn:E; [|apply IH].
  apply id_eqb_ok in E. rewrite count_zero; [cbn; lia|].
  intros i Hi. apply in_seq in Hi. subst c. unfold id_eqb. cbn.
  replace (Z.of_nat k =? Z.of_nat i) with false; [reflexivity|]. symmetry. apply Z.eqb_neq. lia.
Qed.
Lemma big_kept n : covered_surely 1 (coverage (freshness [big n] ex_nodes ex_cs) [big n]) (0, 0) = Z.of_nat n.
Proof.
  rewrite big_coverage. unfold covered_surely.
  rewrite count_all, map_length, seq_length; [reflexivity|].
  intros e He. apply in_map_iff in He as (i & <- & Hi). unfold e_sub. cbn [fst snd].
  rewrite id_eqb_refl. apply Z.leb_le, big_alone.
Qed.

Theorem C31_wrap_refuted : exists subs nodes cs n rem,
  let es := coverage (freshness subs nodes cs) subs in
  trim isort 1 0 1 0 subs nodes cs = Some (n, rem) /\ In (0, 0) rem /\
  1 <= covered_surely 1 es (0, 0).
Proof.
  set (N := Z.to_nat (2 ^ 16)). assert (EN : Z.of_nat N = 2 ^ 16) by (apply Z2Nat.id; lia).
  clearbody N.
  exists [big N], ex_nodes, ex_cs. unfold trim. cbn [length].
  destruct (_ <=? 0) eqn:E0; [discriminate|]. clear E0.
  rewrite add_submaps_ok. eexists _, _. split; [reflexivity|].
  rewrite big_kept, EN. split; [|lia].
  apply trim_iff. split.
  - change (freshness [big N] ex_nodes ex_cs) with [((0, 0), 5)]. now left.
  - right. pose proof (kept_bounds isort isort_perm isort_sorted 1
      (coverage (freshness [big N] ex_nodes ex_cs) [big N]) (0, 0) ltac:(lia)) as [B1 B2].
    pose proof (maybe_total 1 (coverage (freshness [big N] ex_nodes ex_cs) [big N]) (0, 0)) as B3.
    rewrite big_kept in B1.
    assert (B4 : covered_total (coverage (freshness [big N] ex_nodes ex_cs) [big N]) (0, 0) <= Z.of_nat N).
    { rewrite big_coverage. unfold covered_total.
      rewrite count_all, map_length, seq_length; [lia|].
      intros e He. now apply in_map_iff in He as (i & <- & _). }
    set (k := kept _ _ _ _) in *. clearbody k. assert (k = 2 ^ 16) as -> by lia. reflexivity.
Qed.

(* When other trimmers or deletions took away all submaps since the last time, the difference
   of the sizes wraps and the first submap of an empty map is accessed. *)
Theorem C31_empty_refuted : exists subs nodes cs n rem,
  trim isort 1 0 1 0 subs nodes cs = Some (n, rem) /\
  trim isort 1 0 1 n [] nodes cs = None.
Proof. exists [big 1], ex_nodes, ex_cs, 1, []. split; vm_compute; reflexivity. Qed.

(* three finished submaps, the oldest covered by the newer two except for one cell, and one
   still growing *)
Example C31_example :
  trim isort 2 1 2 0
    [mk_submap (0, 0) true [(0, 0); (0, 1); (0, 2)]; mk_submap (0, 1) true [(0, 0); (0, 1)];
     mk_submap (0, 2) true [(0, 0); (0, 1)]; mk_submap (0, 3) false [(0, 0)]]
    [((0, 0), 10); ((0, 1), 20); ((0, 2), 30); ((0, 3), 40)]
    [mk_constraint (0, 0) (0, 0) true; mk_constraint (0, 1) (0, 1) true;
     mk_constraint (0, 0) (0, 3) false; mk_constraint (0, 2) (0, 2) true;
     mk_constraint (0, 3) (0, 3) true] = Some (3, [(0, 0)]).
Proof. reflexivity. Qed.

Print Assumptions C31_trim.
Print Assumptions C31_freshness.
Print Assumptions C31_wrap_refuted.
Print Assumptions C31_empty_refuted.
