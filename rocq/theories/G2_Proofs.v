(* Invariant and update-once proofs for the 2D probability grid. *)
From Coq Require Import List ZArith QArith Bool Lia.
From Verif Require Import Vec Float32 PV_Model G2_Model G2_Spec.
Import ListNotations.
Open Scope Z_scope.

Lemma contains_iff l x y : contains l x y = true <-> 0 <= x < l_nx l /\ 0 <= y < l_ny l.
Proof. unfold contains. rewrite !andb_true_iff, !Z.leb_le, !Z.ltb_lt. lia. Qed.

Lemma flat_some l x y i : flat_index l x y = Some i <-> contains l x y = true /\ i = l_nx l * y + x.
Proof.
  unfold flat_index. destruct (contains l x y); split.
  - intros H. injection H as <-. auto.
  - intros [_ ->]. reflexivity.
  - discriminate.
  - intros [H _]. discriminate.
Qed.

Lemma flat_inj n x y x' y' : 0 <= x < n -> 0 <= x' < n ->
  n * y + x = n * y' + x' -> x = x' /\ y = y'.
Proof. intros H1 H2 E. assert (y = y') by nia. subst. lia. Qed.

Lemma flat_bound l x y : contains l x y = true -> 0 <= l_nx l * y + x < l_nx l * l_ny l.
Proof. rewrite contains_iff. intros [H1 H2]. nia. Qed.

Lemma cell_value_some g x y : vsize (g_cells g) = l_nx (g_lim g) * l_ny (g_lim g) ->
  contains (g_lim g) x y = true -> exists v, cell_value g x y = Some v.
Proof.
  intros S C. unfold cell_value, flat_index. rewrite C.
  apply vget_some. rewrite S. now apply flat_bound.
Qed.

Lemma cell_value_contains g x y v : cell_value g x y = Some v -> contains (g_lim g) x y = true.
Proof. unfold cell_value, flat_index. destruct (contains (g_lim g) x y); [reflexivity | discriminate]. Qed.

Lemma is_known_iff g x y : is_known g x y = true <->
  exists v, cell_value g x y = Some v /\ v <> 0.
Proof.
  unfold is_known. destruct (contains (g_lim g) x y) eqn:C.
  - destruct (cell_value g x y) as [v|].
    + rewrite negb_true_iff, Z.eqb_neq. split; [intros N; exists v; auto | intros [w [E N]]; injection E as <-; exact N].
    + split; [discriminate | intros [w [E _]]; discriminate].
  - split; [discriminate|]. intros [v [E _]]. apply cell_value_contains in E. congruence.
Qed.

(* writing one cell *)
Lemma cell_value_set g x y w c u b m1 m2 :
  contains (g_lim g) x y = true ->
  vset (g_cells g) (l_nx (g_lim g) * y + x) w = Some c ->
  forall x' y', cell_value (mk_grid (g_lim g) c u b m1 m2) x' y' =
    if (x' =? x) && (y' =? y) then Some w else cell_value g x' y'.
Proof.
  intros C E x' y'. apply vset_inv in E. destruct E as [B [S G]].
  unfold cell_value. cbn [g_lim g_cells]. unfold flat_index.
  destruct (contains (g_lim g) x' y') eqn:C'.
  - rewrite G. apply contains_iff in C. apply contains_iff in C'.
    destruct (Z.eqb_spec (l_nx (g_lim g) * y' + x') (l_nx (g_lim g) * y + x)) as [Q | Q].
    + apply flat_inj in Q; [|lia|lia]. destruct Q as [-> ->]. now rewrite !Z.eqb_refl.
    + destruct (Z.eqb_spec x' x); [|reflexivity]. destruct (Z.eqb_spec y' y); [|reflexivity].
      subst. lia.
  - destruct (Z.eqb_spec x' x); [|reflexivity]. destruct (Z.eqb_spec y' y); [|reflexivity].
    subst. congruence.
Qed.

Lemma box_exact_ext k k' b : (forall x y, k x y = k' x y) -> box_exact k b -> box_exact k' b.
Proof.
  intros E. destruct b as [b|]; cbn [box_exact].
  - intros [H [[a1 H1] [[a2 H2] [[a3 H3] [a4 H4]]]]].
    split; [intros x y K; apply H; now rewrite E|].
    split; [exists a1; now rewrite <- E|]. split; [exists a2; now rewrite <- E|].
    split; [exists a3; now rewrite <- E | exists a4; now rewrite <- E].
  - intros H x y. rewrite <- E. apply H.
Qed.

Lemma box_exact_extend k k' b x y :
  (forall x' y', k' x' y' = if (x' =? x) && (y' =? y) then true else k x' y') ->
  box_exact k b -> box_exact k' (box_extend b x y).
Proof.
  intros E. assert (Kxy : k' x y = true) by (rewrite E, !Z.eqb_refl; reflexivity).
  assert (M : forall x' y', k x' y' = true -> k' x' y' = true).
  { intros x' y' H. rewrite E. destruct (_ && _); [reflexivity | exact H]. }
  assert (I : forall x' y', k' x' y' = true -> (x' = x /\ y' = y) \/ k x' y' = true).
  { intros x' y'. rewrite E. destruct (Z.eqb_spec x' x); destruct (Z.eqb_spec y' y); cbn; auto. }
  destruct b as [b|]; cbn [box_exact box_extend].
  - intros [H [[a1 H1] [[a2 H2] [[a3 H3] [a4 H4]]]]]. cbn [b_x0 b_y0 b_x1 b_y1].
    split.
    { intros x' y' K. destruct (I x' y' K) as [[-> ->] | K']; [lia|]. specialize (H x' y' K'). lia. }
    split; [destruct (Z.min_spec (b_x0 b) x) as [[_ ->] | [_ ->]]; eauto|].
    split; [destruct (Z.max_spec (b_x1 b) x) as [[_ ->] | [_ ->]]; eauto|].
    split; [destruct (Z.min_spec (b_y0 b) y) as [[_ ->] | [_ ->]]; eauto|].
    destruct (Z.max_spec (b_y1 b) y) as [[_ ->] | [_ ->]]; eauto.
  - intros H. cbn [b_x0 b_y0 b_x1 b_y1]. split.
    { intros x' y' K. destruct (I x' y' K) as [[-> ->] | K']; [lia|]. rewrite H in K'. discriminate. }
    repeat split; eauto.
Qed.

Lemma known_set g x y w c u b m1 m2 :
  contains (g_lim g) x y = true -> w <> 0 ->
  vset (g_cells g) (l_nx (g_lim g) * y + x) w = Some c ->
  forall x' y', is_known (mk_grid (g_lim g) c u b m1 m2) x' y' =
    if (x' =? x) && (y' =? y) then true else is_known g x' y'.
Proof.
  intros C W E x' y'. pose proof (cell_value_set g x y w c u b m1 m2 C E x' y') as V.
  unfold is_known. cbn [g_lim]. rewrite V.
  destruct ((x' =? x) && (y' =? y)) eqn:Q.
  - apply andb_true_iff in Q. rewrite !Z.eqb_eq in Q. destruct Q as [-> ->]. rewrite C.
    apply negb_true_iff. now apply Z.eqb_neq.
  - reflexivity.
Qed.

(* apply_table on a well-formed grid *)
Lemma apply_table_ok g x y t : wf g -> good_table t -> contains (g_lim g) x y = true ->
  exists g' b, apply_table g x y t = Some (g', b) /\ wf g' /\ g_lim g' = g_lim g /\
    (b = true <-> ~ In (l_nx (g_lim g) * y + x) (g_upd g)) /\
    (b = false -> g' = g) /\
    (b = true -> g_upd g' = (l_nx (g_lim g) * y + x) :: g_upd g /\
       exists v w, cell_value g x y = Some v /\ vget t v = Some w /\ 0 <= v < 32768 /\
         32768 < w < 65536 /\
         forall x' y', cell_value g' x' y' =
           if (x' =? x) && (y' =? y) then Some w else cell_value g x' y').
Proof.
  intros W T C. destruct W as [WL WS WN WU WM WP WB WC].
  unfold apply_table. unfold flat_index. rewrite C.
  set (i := l_nx (g_lim g) * y + x).
  assert (Bi : 0 <= i < vsize (g_cells g)) by (rewrite WS; now apply flat_bound).
  destruct (vget_some (g_cells g) i Bi) as [v Ev]. rewrite Ev.
  destruct (in_dec Z.eq_dec i (g_upd g)) as [I | I].
  - pose proof (WM i v I Ev). destruct (Z.leb_spec kUpdateMarker v); [|unfold kUpdateMarker in *; lia].
    exists g, false. split; [reflexivity|]. split; [now constructor|]. split; [reflexivity|].
    split; [split; [discriminate | contradiction]|]. split; [reflexivity | discriminate].
  - pose proof (WP i v I Ev). destruct (Z.leb_spec kUpdateMarker v); [unfold kUpdateMarker in *; lia|].
    destruct (T v ltac:(lia)) as [w [Ew Bw]]. rewrite Ew.
    destruct (vset_ok (g_cells g) i w Bi) as [c [Ec [Sc Gc]]]. rewrite Ec.
    eexists. exists true. split; [reflexivity|].
    assert (Cv : cell_value g x y = Some v).
    { unfold cell_value, flat_index. now rewrite C. }
    split.
    + constructor; cbn [g_lim g_cells g_upd g_box g_minc g_maxc]; auto.
      * now rewrite Sc.
      * now constructor.
      * intros j [<- | J]; rewrite Sc; auto.
      * intros j u [<- | J] Ej; rewrite Gc in Ej.
        -- rewrite Z.eqb_refl in Ej. injection Ej as <-. exact Bw.
        -- destruct (Z.eqb_spec j i); [injection Ej as <-; exact Bw | eauto].
      * intros j u J Ej. rewrite Gc in Ej. destruct (Z.eqb_spec j i); [subst; elim J; now left|].
        apply (WP j u); auto. intros Q. apply J. now right.
      * eapply box_exact_extend; [|exact WB]. intros x' y'. apply (known_set g x y w c); auto. lia.
    + split; [reflexivity|]. split; [tauto|]. split; [discriminate|]. intros _.
      split; [reflexivity|]. exists v, w. do 4 (split; [auto|]).
      apply cell_value_set; auto.
Qed.

(* FinishUpdate *)
Lemma finish_loop_ok upd cells : NoDup upd ->
  (forall i, In i upd -> exists v, vget cells i = Some v /\ 32768 < v < 65536) ->
  exists c, finish_loop cells upd = Some c /\ vsize c = vsize cells /\
    forall k, vget c k = if in_dec Z.eq_dec k upd
                         then option_map (fun v => v - 32768) (vget cells k) else vget cells k.
Proof.
  revert cells. induction upd as [|i r IH]; intros cells N H; cbn [finish_loop].
  - exists cells. repeat split.
  - inversion N as [|? ? Ni Nr]; subst.
    destruct (H i (or_introl eq_refl)) as [v [Ev Bv]]. rewrite Ev.
    destruct (vset_ok cells i ((v - kUpdateMarker) mod 65536) (vget_bound _ _ _ Ev)) as [c1 [E1 [S1 G1]]].
    rewrite E1. unfold kUpdateMarker in G1. rewrite Z.mod_small in G1 by lia.
    destruct (IH c1 Nr) as [c [Ec [Sc Gc]]].
    { intros j J. rewrite G1. destruct (Z.eqb_spec j i); [subst; contradiction|]. apply H. now right. }
    exists c. split; [exact Ec|]. split; [lia|]. intros k. rewrite Gc, G1.
    destruct (in_dec Z.eq_dec k r) as [K | K]; destruct (in_dec Z.eq_dec k (i :: r)) as [K' | K'];
      destruct (Z.eqb_spec k i); subst; try reflexivity; try contradiction.
    + elim K'. now right.
    + now rewrite Ev.
    + destruct K' as [-> | K']; contradiction.
    + elim K'. now left.
Qed.

Lemma finish_ok g : wf g -> exists g', finish_update g = Some g' /\ wf g' /\
  g_lim g' = g_lim g /\ g_upd g' = [] /\ g_box g' = g_box g /\
  forall x y, cell_value g' x y = option_map
    (fun v => if v <? 32768 then v else v - 32768) (cell_value g x y).
Proof.
  intros W. destruct W as [WL WS WN WU WM WP WB WC].
  destruct (finish_loop_ok (g_upd g) (g_cells g) WN) as [c [Ec [Sc Gc]]].
  { intros i I. destruct (vget_some _ _ (WU i I)) as [v Ev]. exists v. split; eauto. }
  unfold finish_update. rewrite Ec. eexists. split; [reflexivity|].
  assert (V : forall k, vget c k = option_map (fun v => if v <? 32768 then v else v - 32768) (vget (g_cells g) k)).
  { intros k. rewrite Gc. destruct (vget (g_cells g) k) as [v|] eqn:Ev; cbn [option_map].
    - destruct (in_dec Z.eq_dec k (g_upd g)) as [I | I].
      + pose proof (WM k v I Ev). destruct (Z.ltb_spec v 32768); [lia | reflexivity].
      + pose proof (WP k v I Ev). destruct (Z.ltb_spec v 32768); [reflexivity | lia].
    - now destruct (in_dec Z.eq_dec k (g_upd g)). }
  assert (CV : forall x y, cell_value (mk_grid (g_lim g) c [] (g_box g) (g_minc g) (g_maxc g)) x y =
    option_map (fun v => if v <? 32768 then v else v - 32768) (cell_value g x y)).
  { intros x y. unfold cell_value. cbn [g_lim g_cells]. destruct (flat_index (g_lim g) x y); [apply V | reflexivity]. }
  assert (Bnd : forall k v, vget (g_cells g) k = Some v -> 0 <= v < 65536 /\ v <> 32768).
  { intros k v Ev. destruct (in_dec Z.eq_dec k (g_upd g)) as [I | I];
      [pose proof (WM k v I Ev) | pose proof (WP k v I Ev)]; lia. }
  split; [|auto]. constructor; cbn [g_lim g_cells g_upd g_box g_minc g_maxc]; auto.
  - now rewrite Sc.
  - constructor.
  - intros i [].
  - intros i v [].
  - intros i v _ Ei. rewrite V in Ei. destruct (vget (g_cells g) i) as [u|] eqn:Eu; [|discriminate].
    injection Ei as <-. pose proof (Bnd i u Eu). destruct (Z.ltb_spec u 32768); lia.
  - eapply box_exact_ext; [|exact WB]. intros x y. apply eq_true_iff_eq. rewrite !is_known_iff.
    rewrite CV. split.
    + intros [v [E N]]. rewrite E. cbn [option_map]. eexists. split; [reflexivity|].
      unfold cell_value in E. destruct (flat_index (g_lim g) x y); [|discriminate].
      pose proof (Bnd _ _ E). destruct (Z.ltb_spec v 32768); lia.
    + intros [v [E N]]. destruct (cell_value g x y) as [u|]; [|discriminate]. injection E as <-.
      exists u. split; [reflexivity|]. destruct (Z.ltb_spec u 32768); lia.
Qed.

(* a whole sequence of accesses *)
Lemma find_app_none {A} (f : A -> bool) l a : find f (l ++ [a]) =
  match find f l with Some b => Some b | None => if f a then Some a else None end.
Proof. induction l as [|b l IH]; cbn; [reflexivity|]. destruct (f b); [reflexivity | exact IH]. Qed.

Lemma find_existsb {A} (f : A -> bool) l : existsb f l = match find f l with Some _ => true | None => false end.
Proof. induction l as [|b l IH]; cbn; [reflexivity|]. destruct (f b); [reflexivity | exact IH]. Qed.

(* state after a prefix 'before' of the accesses, started in g0 *)
Record mid (g0 : grid) (before : list access) (g : grid) : Prop := {
  mid_wf : wf g;
  mid_lim : g_lim g = g_lim g0;
  mid_upd : forall x y, contains (g_lim g0) x y = true ->
    (In (l_nx (g_lim g0) * y + x) (g_upd g) <-> existsb (acc_at x y) before = true);
  mid_val : forall x y, contains (g_lim g0) x y = true ->
    cell_value g x y = match first_access x y before with
                       | Some t => match cell_value g0 x y with
                                   | Some v => vget t v | None => None end
                       | None => cell_value g0 x y
                       end
}.

Definition in_grid (g : grid) (a : access) : Prop :=
  let '(x, y, t) := a in contains (g_lim g) x y = true /\ good_table t.

Lemma apply_all_mid g0 acc : forall before g, mid g0 before g ->
  Forall (in_grid g0) acc ->
  exists g', apply_all g acc = Some (g', first_flags before acc) /\ mid g0 (before ++ acc) g'.
Proof.
  induction acc as [|[[x y] t] acc IH]; intros before g M F; cbn [apply_all first_flags].
  - exists g. rewrite app_nil_r. auto.
  - inversion F as [|? ? CT F']; subst. cbn [in_grid] in CT. destruct CT as [C T]. destruct M as [W L U V].
    assert (C' : contains (g_lim g) x y = true) by now rewrite L.
    destruct (apply_table_ok g x y t W T C') as [g1 [b [E [W1 [L1 [B [Bf Bt]]]]]]].
    rewrite E. rewrite L in B, Bt.
    assert (Eb : b = negb (existsb (acc_at x y) before)).
    { apply eq_true_iff_eq. rewrite negb_true_iff. rewrite B. rewrite (U x y C).
      destruct (existsb (acc_at x y) before); split; intros; congruence. }
    assert (M1 : mid g0 (before ++ [(x, y, t)]) g1).
    { constructor; [exact W1 | congruence | |].
      - intros x' y' Cx. rewrite existsb_app. cbn [existsb]. rewrite orb_false_r, orb_true_iff.
        rewrite <- (U x' y' Cx). cbn [acc_at]. rewrite andb_true_iff, !Z.eqb_eq.
        destruct b.
        + destruct (Bt eq_refl) as [Eu _]. rewrite Eu. cbn [In].
          apply contains_iff in Cx. apply contains_iff in C. split.
          * intros [Q | Q]; [|now left]. right. apply flat_inj in Q; lia.
          * intros [Q | [-> ->]]; [now right | now left].
        + rewrite (Bf eq_refl). split; [tauto|]. intros [Q | [<- <-]]; [exact Q|].
          apply U; auto. symmetry in Eb. now apply negb_false_iff in Eb.
      - intros x' y' Cx. unfold first_access. rewrite find_app_none. cbn [acc_at].
        pose proof (V x' y' Cx) as Vx. unfold first_access in Vx.
        destruct b.
        + destruct (Bt eq_refl) as [_ [v [w [E1 [E2 [B1 [B2 G]]]]]]]. rewrite G.
          destruct ((x' =? x) && (y' =? y)) eqn:Q.
          * apply andb_true_iff in Q. rewrite !Z.eqb_eq in Q. destruct Q as [-> ->].
            symmetry in Eb. rewrite negb_true_iff, find_existsb in Eb.
            destruct (find (acc_at x y) before); [discriminate|].
            rewrite !Z.eqb_refl. cbn [andb option_map snd]. cbn [option_map] in Vx.
            rewrite <- Vx, E1. now rewrite E2.
          * rewrite Vx. destruct (find (acc_at x' y') before); [reflexivity|].
            rewrite (Z.eqb_sym x x'), (Z.eqb_sym y y'), Q. reflexivity.
        + rewrite (Bf eq_refl). rewrite Vx.
          destruct (find (acc_at x' y') before) eqn:Fd; [reflexivity|].
          destruct ((x =? x') && (y =? y')) eqn:Q; [|reflexivity].
          apply andb_true_iff in Q. rewrite !Z.eqb_eq in Q. destruct Q as [<- <-].
          symmetry in Eb. rewrite negb_false_iff, find_existsb, Fd in Eb. discriminate. }
    destruct (IH _ g1 M1 F') as [g' [E' M']]. rewrite E'. exists g'. split.
    + now rewrite <- Eb.
    + now rewrite <- app_assoc in M'.
Qed.

Lemma mid_start g : wf g -> g_upd g = [] -> mid g [] g.
Proof.
  intros W E. constructor; auto; intros x y C.
  - rewrite E. cbn. split; [contradiction | discriminate].
Qed.
