(* Where a landmark observation is put. *)
From Coq Require Import List ZArith Bool Lia Sorted.
From Verif Require Import ZMap MapById_Model MapById_Spec MapById_Proofs MapById_Iter PG_Model OP_Model OP_Spec.
Import ListNotations.
Open Scope Z_scope.

Section Prev.
Context {D : Type}.
Implicit Types (m ts : mbi D).

Lemma back_last : forall P ts t c d e,
  back (rev (P ++ [(t, (c, d ++ [e]))])) ts = Some ((t, (c, d ++ [e])) :: ts, [e]).
Proof. intros P ts t c d e. rewrite rev_app_distr. cbn. rewrite rev_app_distr. reflexivity. Qed.

Lemma back_spec : forall m P ts, nonempty m -> m = P ++ ts -> P <> [] ->
  exists it x, back (rev P) ts = Some it /\ pos m it /\ flat it = x :: flat_all ts /\ exists l, flat_all P = l ++ [x].
Proof.
  intros m P ts NE E NP. destruct (exists_last NP) as (P' & (t & c & d) & ->).
  assert (Nd : d <> []).
  { apply (NE t c). rewrite E. apply in_or_app. left. apply in_or_app. right. now left. }
  destruct (exists_last Nd) as (d' & e & ->). rewrite back_last.
  eexists. exists ((t, fst e), snd e). split; [reflexivity|]. split.
  - split; cbn [fst snd].
    + exists P'. rewrite E, <- app_assoc. reflexivity.
    + split; [discriminate|]. exists d'. reflexivity.
  - split; [reflexivity|]. rewrite flat_all_app. cbn [flat_all flat_map fst snd]. rewrite app_nil_r. unfold tag. rewrite map_app.
    exists (flat_all P' ++ map (fun e => ((t, fst e), snd e)) d'). rewrite app_assoc. reflexivity.
Qed.

Lemma pos_prev : forall m it l x, nonempty m -> pos m it -> flat_all m = l ++ x :: flat it ->
  exists it', it_prev m it = Some it' /\ pos m it' /\ flat it' = x :: flat it.
Proof.
  intros m [ts ds] l x NE [[P E] Q] F. cbn [fst snd] in *. unfold it_prev.
  assert (LEN : firstn (length m - length ts) m = P).
  { rewrite E, app_length. replace (length P + length ts - length ts)%nat with (length P + 0)%nat by lia.
    rewrite firstn_app_2. cbn. apply app_nil_r. }
  rewrite LEN.
  assert (GO : flat_all m = flat_all P ++ flat (ts, ds) -> flat (ts, ds) = flat_all ts ->
    exists it', back (rev P) ts = Some it' /\ pos m it' /\ flat it' = x :: flat (ts, ds)).
  { intros F2 F3.
    assert (F4 : flat_all P = l ++ [x]).
    { rewrite F in F2. replace (l ++ x :: flat (ts, ds)) with ((l ++ [x]) ++ flat (ts, ds)) in F2 by (now rewrite <- app_assoc).
      apply app_inv_tail in F2. congruence. }
    assert (NP : P <> []) by (intros ->; destruct l; discriminate).
    destruct (back_spec m P ts NE E NP) as (it' & y & B1 & B2 & B3 & l' & B4).
    exists it'. split; [exact B1|]. split; [exact B2|]. rewrite B3, F3. f_equal. rewrite F4 in B4. apply app_inj_tail in B4. symmetry. apply B4. }
  destruct ts as [|[t [c d]] r].
  - subst ds. apply GO; [|reflexivity]. rewrite E, flat_all_app. reflexivity.
  - destruct Q as (Nds & q & Eq).
    destruct q as [|e0 q0].
    + cbn [app] in Eq. subst ds. rewrite (proj2 (nth_error_None (rev d) (length d))) by (rewrite rev_length; lia).
      apply GO; [|reflexivity]. rewrite E, flat_all_app. reflexivity.
    + destruct (@exists_last _ (e0 :: q0) ltac:(discriminate)) as (q' & e & Hq). rewrite Hq in Eq. clear e0 q0 Hq.
      assert (N : nth_error (rev d) (length ds) = Some e).
      { rewrite Eq, rev_app_distr, nth_error_app2 by (rewrite rev_length; lia).
        rewrite rev_length, Nat.sub_diag, rev_app_distr. reflexivity. }
      rewrite N. eexists. split; [reflexivity|]. split.
      * split; cbn [fst snd]; [now exists P|]. split; [discriminate|]. exists q'. rewrite Eq, <- app_assoc. reflexivity.
      * unfold flat in F |- *. cbn [fst snd] in F |- *. cbn [tag map]. cbn [app]. f_equal.
        rewrite E, flat_all_app in F. change (flat_all ((t, (c, d)) :: r)) with (tag t d ++ flat_all r) in F. rewrite Eq in F. unfold tag in F. rewrite !map_app in F. cbn [map] in F.
        rewrite <- !app_assoc in F. cbn [app] in F. rewrite app_assoc in F.
        assert (A : forall (a b : list ((Z * Z) * D)) y z w, a ++ y :: w = b ++ z :: w -> y = z).
        { intros a b y z w H. replace (a ++ y :: w) with ((a ++ [y]) ++ w) in H by (now rewrite <- app_assoc).
          replace (b ++ z :: w) with ((b ++ [z]) ++ w) in H by (now rewrite <- app_assoc).
          apply app_inv_tail in H. apply app_inj_tail in H. apply H. }
        eapply A. exact F.
Qed.

Lemma flat_suffix : forall m it, pos m it -> exists l, flat_all m = l ++ flat it.
Proof.
  intros m [ts ds] [[P E] Q]. cbn [fst snd] in *. destruct ts as [|[t [c d]] r].
  - exists (flat_all m). unfold flat. cbn. now rewrite app_nil_r.
  - destruct Q as (_ & q & Eq). exists (flat_all P ++ tag t q). rewrite E, flat_all_app. change (flat_all ((t, (c, d)) :: r)) with (tag t d ++ flat_all r). unfold flat. cbn [fst snd].
    rewrite Eq at 1. unfold tag. rewrite map_app, <- !app_assoc. reflexivity.
Qed.

Lemma end_above : forall m t e, wf m -> In e (flat (it_end m t)) -> t < fst (fst e).
Proof.
  intros m t e W I. unfold it_end in I. destruct (begin_spec m (t + 1) (wf_nonempty _ W)) as [_ F]. rewrite F in I.
  unfold flat_all in I. apply in_flat_map in I as ([a [c d]] & I & J). pose proof (zlower_ge _ _ _ (wf_sorted _ W) I) as L.
  cbn in L. unfold tag in J. apply in_map_iff in J as (x & <- & _). cbn. lia.
Qed.
Lemma end_all : forall m t a i v, wf m -> t < a -> mbi_at a i m = Some v -> In ((a, i), v) (flat (it_end m t)).
Proof.
  intros m t a i v W L H. unfold it_end. destruct (begin_spec m (t + 1) (wf_nonempty _ W)) as [_ ->].
  apply In_flat_all in H; [|exact W]. destruct (zlower_suffix (t + 1) m) as (p & E & B). rewrite E, flat_all_app in H.
  apply in_app_or in H as [H|H]; [|exact H]. exfalso. unfold flat_all in H. apply in_flat_map in H as ([b [c d]] & I & J).
  specialize (B _ I). cbn in B. unfold tag in J. apply in_map_iff in J as (x & [= <- _ _] & _). lia.
Qed.
Lemma zlower_at {V} : forall k (v : V) p r, zsorted (p ++ (k, v) :: r) -> zlower k (p ++ (k, v) :: r) = (k, v) :: r.
Proof.
  intros k v p r S. apply zsorted_app in S as (_ & _ & L). induction p as [|[a w] p IH]; cbn.
  - destruct (Z.ltb_spec k k); [lia | reflexivity].
  - pose proof (L (a, w) (k, v) (or_introl eq_refl) (or_introl eq_refl)) as H. cbn in H.
    destruct (Z.ltb_spec a k); [|lia]. apply IH. intros x y Ix Iy. apply L; [now right | exact Iy].
Qed.
Lemma find_flat : forall m t c p i v r, wf m -> zfind t m = Some (c, p ++ (i, v) :: r) ->
  flat (it_find m t i) = tag t ((i, v) :: r) ++ flat (it_end m t).
Proof.
  intros m t c p i v r W F. destruct (wf_find _ _ _ _ W F) as (S & _).
  pose proof (zlower_split t m (wf_sorted _ W)) as Z1. rewrite F in Z1. cbn in Z1.
  unfold it_find. rewrite Z1, Z.eqb_refl, (zlower_at i v p r S), Z.eqb_refl.
  unfold flat at 1. cbn [fst snd]. f_equal. unfold it_end. destruct (begin_spec m (t + 1) (wf_nonempty _ W)) as [_ ->]. reflexivity.
Qed.
End Prev.

Section Sighted.
Context {G : geometry}.
Implicit Types (m : mbi (node G)) (s : sighting G).

Lemma get_at m t i : get (t, i) m = mbi_at t i m.
Proof. reflexivity. Qed.
Lemma traj_data m t i n : get (t, i) m = Some n -> exists c d, zfind t m = Some (c, d) /\ zfind i d = Some n.
Proof.
  rewrite get_at. unfold mbi_at. destruct (zfind t m) as [[c d]|]; [|discriminate]. intros H. exists c, d. auto.
Qed.

Lemma sighted_spec m s : wf m -> in_order m ->
  match sighted G m s with
  | None => stranded m s
  | Some None => place m s [] /\ ~ stranded m s
  | Some (Some ((x, a), (y, b))) => get x m = Some a /\ get y m = Some b /\ ~ stranded m s /\
      (place m s [(x, y)] \/ (lonely m s /\ fst x = s_traj G s /\ s_traj G s < fst y))
  end.
Proof.
  intros W O. pose proof (wf_nonempty _ W) as NE. destruct s as [t q w]. unfold sighted. cbn [s_traj s_time].
  destruct (begin_spec m t NE) as [PB _]. pose proof (flat_begin_end m t W) as FB.
  assert (PE : pos m (it_end m t)) by (apply begin_spec; exact NE).
  unfold traj_flat in FB. destruct (zfind t m) as [[c d]|] eqn:Ft.
  2:{ (* no nodes in t *)
    assert (NO : forall i, get (t, i) m = None) by (intros i; rewrite get_at; unfold mbi_at; now rewrite Ft).
    cbn [app] in FB. destruct (flat (it_begin m t)) as [|[[t1 i1] n1] l] eqn:FL.
    - assert (it_deref (it_begin m t) = None) as ->.
      { destruct (it_begin m t) as [[|[t1 [c1 d1]] r] ds]; [reflexivity|]. destruct ds as [|[? ?] ?]; [reflexivity | discriminate]. }
      cbn [bind]. left. intros a i L. cbn [s_traj] in L. destruct (get (a, i) m) as [v|] eqn:H; [|reflexivity]. exfalso.
      assert (t <> a) by (intros ->; rewrite NO in H; discriminate).
      pose proof (end_all m t a i v W ltac:(lia) H) as I. rewrite <- FB in I. exact I.
    - assert (NS : ~ stranded m (mk_sighting G t q w)).
      { assert (H1 : In ((t1, i1), n1) (flat (it_end m t))) by (rewrite <- FB; now left).
        pose proof (end_above m t _ W H1) as L1. cbn in L1.
        assert (H2 : get (t1, i1) m = Some n1).
        { apply In_flat_all; [exact W|]. destruct (flat_suffix m _ PE) as [p ->]. apply in_or_app. now right. }
        intros [H|[_ H]]; cbn [s_traj] in H; rewrite H in H2 by lia; discriminate. }
      rewrite (pos_deref m _ _ _ PB FL). cbn [bind snd].
      assert (PL : place m (mk_sighting G t q w) []).
      { apply place_late. cbn [s_traj]. intros i n H. rewrite NO in H. discriminate. }
      destruct (q <? n_time G n1); [split; assumption|].
      unfold mbi_lower_bound. rewrite Ft. cbn [bind].
      assert (it_eqb (it_end m t) (it_end m t) = true) as -> by (eapply pos_eqb; eauto).
      split; assumption. }
  destruct (wf_find _ _ _ _ W Ft) as (Sd & Nd & _).
  assert (GET : forall i n, get (t, i) m = Some n <-> In (i, n) d).
  { intros i n. rewrite get_at. unfold mbi_at. rewrite Ft. apply zfind_iff. exact Sd. }
  destruct d as [|[i0 n0] d0]; [congruence|].
  assert (G0 : get (t, i0) m = Some n0) by (apply GET; now left).
  assert (LOW : forall i n, get (t, i) m = Some n -> i0 <= i).
  { intros i n H. apply GET in H as [[= <- <-]|H]; [lia|]. apply zsorted_inv in Sd as [_ L]. apply L in H. cbn in H. lia. }
  assert (NS1 : ~ forall a i, t <= a -> get (a, i) m = None).
  { intros H. rewrite (H t i0) in G0 by lia. discriminate. }
  rewrite (pos_deref m _ _ _ PB FB). cbn [bind snd].
  destruct (Z.ltb_spec q (n_time G n0)) as [L0|L0].
  { assert (EARLY : forall i n, get (t, i) m = Some n -> q < n_time G n).
    { intros i n H. pose proof (O t i0 i n0 n G0 H (LOW _ _ H)). lia. }
    split; [now apply place_early|]. intros [H|[(i & n & H1 & H2 & _) _]]; [now apply NS1|].
    cbn [s_traj s_time] in H1, H2. apply EARLY in H1. lia. }
  destruct (lower_bound_spec (n_time G) m t q W (fun i j a b Ha Hb => O t i j a b Ha Hb)) as (it & -> & CASES). cbn [bind].
  destruct CASES as [(i & v & (Hi & Hq & Hmin) & ->)|[LATE ->]].
  2:{ assert (it_eqb (it_end m t) (it_end m t) = true) as -> by (eapply pos_eqb; eauto).
      split; [now apply place_late|]. intros [H|[(i & n & H1 & H2 & _) _]]; [now apply NS1|].
      cbn [s_traj s_time] in H1, H2. apply LATE in H1. lia. }
  assert (Ii : In (i, v) ((i0, n0) :: d0)) by (now apply GET).
  apply in_split in Ii as (p & r & ED).
  destruct (it_find_spec m t i W) as (PF & DF & _). rewrite Hi in DF.
  pose proof (find_flat m t c p i v r W ltac:(rewrite <- ED; exact Ft)) as FF.
  assert (NEQ : it_eqb (it_find m t i) (it_end m t) = false).
  { destruct (it_eqb (it_find m t i) (it_end m t)) eqn:Q; [|reflexivity]. exfalso. apply (pos_eqb m) in Q; [|exact PF | exact PE].
    apply (f_equal (fun x => length (flat x))) in Q. rewrite FF, app_length in Q. cbn in Q. lia. }
  rewrite NEQ.
  destruct (flat_suffix m _ PB) as (pre & FA).
  destruct p as [|e0 p0].
  - (* the first node *)
    cbn [app] in ED. injection ED as E1 E2 E3. subst i0 n0 d0.
    assert (EB : it_find m t i = it_begin m t).
    { apply (pos_flat_inj m); auto. rewrite FF, FB. reflexivity. }
    assert (it_eqb (it_find m t i) (it_begin m t) = true) as -> by (eapply pos_eqb; eauto).
    assert (TQ : n_time G v = q) by lia.
    destruct (pos_next m _ _ _ NE PF FF) as (nx & -> & PN & FN). cbn [bind].
    fold (tag t r) in FN.
    assert (FAN : flat_all m = pre ++ ((t, i), v) :: flat nx) by (rewrite FA, FB, FN; reflexivity).
    destruct (pos_prev m nx pre _ NE PN FAN) as (pv & -> & PP & FP). cbn [bind].
    rewrite (pos_deref m _ _ _ PP FP). cbn [bind].
    destruct r as [|[j b] r].
    + cbn [tag map app] in FN.
      assert (ONLY : forall j, j <> i -> get (t, j) m = None).
      { intros j N. destruct (get (t, j) m) as [u|] eqn:H; [|reflexivity]. apply GET in H as [[= <- _]|[]]. congruence. }
      assert (LO : lonely m (mk_sighting G t q w)).
      { exists i, v. cbn [s_traj s_time]. split; [exact G0|]. split; [exact TQ | exact ONLY]. }
      destruct (flat nx) as [|[[a j] b] l] eqn:FX.
      * assert (it_deref nx = None) as ->.
        { destruct nx as [[|[t1 [c1 d1]] rr] ds]; [reflexivity|]. destruct ds as [|[? ?] ?]; [reflexivity | discriminate]. }
        cbn [bind]. right. split; [exact LO|]. cbn [s_traj]. intros a j L. destruct (get (a, j) m) as [u|] eqn:H; [|reflexivity].
        exfalso. pose proof (end_all m t a j u W L H) as I. rewrite <- FN in I. exact I.
      * rewrite (pos_deref m _ _ _ PN FX). cbn [bind].
        assert (IE : In ((a, j), b) (flat (it_end m t))) by (rewrite <- FN; now left).
        pose proof (end_above m t _ W IE) as LA. cbn in LA.
        assert (GB : get (a, j) m = Some b).
        { apply In_flat_all; [exact W|]. rewrite FAN. apply in_or_app. right. right. now left. }
        split; [exact G0|]. split; [exact GB|]. split.
        -- intros [H|[_ H]]; cbn [s_traj] in H; rewrite H in GB by lia; discriminate.
        -- right. split; [exact LO|]. cbn [s_traj fst]. auto.
    + cbn [tag map app fst snd] in FN. rewrite (pos_deref m _ _ _ PN FN). cbn [bind].
      assert (Gj : get (t, j) m = Some b) by (apply GET; right; now left).
      assert (Lij : i < j).
      { apply zsorted_inv in Sd as [_ L]. apply (L (j, b)). now left. }
      split; [exact G0|]. split; [exact Gj|]. split.
      * intros [H|[(k & u & H1 & H2 & H3) _]]; [now apply NS1|]. cbn [s_traj] in H1, H3.
        destruct (Z.eq_dec i k) as [->|N]; [rewrite H3 in Gj by lia | rewrite H3 in G0 by exact N]; discriminate.
      * left. apply (place_first m (mk_sighting G t q w) i j v b); cbn [s_traj s_time]; [|exact TQ | exact LOW].
        split; [exact G0|]. split; [exact Gj|]. split; [exact Lij|]. intros k Hk.
        destruct (get (t, k) m) as [u|] eqn:H; [|reflexivity]. exfalso. apply GET in H as [[= <- _]|[[= <- _]|H]]; try lia.
        apply zsorted_inv in Sd as [Sd _]. apply zsorted_inv in Sd as [_ L]. apply L in H. cbn in H. lia.
  - (* between two nodes *)
    destruct (@exists_last _ (e0 :: p0) ltac:(discriminate)) as (p' & [j a] & Hp). rewrite Hp in ED. clear Hp e0 p0.
    rewrite <- app_assoc in ED. cbn [app] in ED.
    assert (NB : it_eqb (it_find m t i) (it_begin m t) = false).
    { destruct (it_eqb (it_find m t i) (it_begin m t)) eqn:Q; [|reflexivity]. exfalso. apply (pos_eqb m) in Q; [|exact PF | exact PB].
      apply (f_equal (fun x => length (flat x))) in Q. rewrite FF, FB, ED, !app_length, !tag_length, app_length in Q. cbn in Q. lia. }
    rewrite NB. cbn [bind].
    assert (FAN : flat_all m = (pre ++ tag t p') ++ ((t, j), a) :: flat (it_find m t i)).
    { rewrite FA, FB, FF, ED. unfold tag. rewrite map_app. cbn [map fst snd]. rewrite <- !app_assoc. reflexivity. }
    destruct (pos_prev m _ _ _ NE PF FAN) as (pv & -> & PP & FP). cbn [bind].
    rewrite (pos_deref m _ _ _ PP FP). cbn [bind]. rewrite DF. cbn [bind].
    assert (Gj : get (t, j) m = Some a) by (apply GET; rewrite ED; apply in_or_app; right; now left).
    rewrite ED in Sd. apply zsorted_app in Sd as (_ & Sd & LP). apply zsorted_inv in Sd as [Sd L1].
    assert (Lij : j < i) by (apply (L1 (i, v)); now left).
    split; [exact Gj|]. split; [exact Hi|]. split.
    + intros [H|[(k & u & H1 & H2 & H3) _]]; [now apply NS1|]. cbn [s_traj] in H1, H3.
      destruct (Z.eq_dec j k) as [->|N]; [|rewrite H3 in Gj by exact N; discriminate].
      rewrite <- get_at, H3 in Hi by lia. discriminate.
    + left. apply (place_between m (mk_sighting G t q w) j i a v); cbn [s_traj s_time].
      * split; [exact Gj|]. split; [exact Hi|]. split; [exact Lij|]. intros k Hk.
        destruct (get (t, k) m) as [u|] eqn:H; [|reflexivity]. exfalso. apply GET in H. rewrite ED in H.
        apply in_app_or in H as [H|[[= <- _]|[[= <- _]|H]]]; try lia.
        -- specialize (LP (k, u) (j, a) H (or_introl eq_refl)). cbn in LP. lia.
        -- apply zsorted_inv in Sd as [_ L2]. apply L2 in H. cbn in H. lia.
      * split; [|exact Hq]. destruct (Z_lt_le_dec (n_time G a) q) as [?|Q]; [assumption|]. specialize (Hmin j a Gj Q). lia.
Qed.
End Sighted.
