(* Properties of the 3D grids (C24, C25, C26 and the 3D part of C15). *)
From Coq Require Import List ZArith Bool Lia SpecFloat.
From Verif Require Import Vec Float32 Float32_Proofs PV_Model PV_Bounded PV_Proofs Properties_PV
  G2_Model G2_Spec HG_Model HG_Spec HG_Wrap HG_Dyn HG_Proofs.
Import ListNotations.
Open Scope Z_scope.

(* Writes through mutable_value to a dynamic grid of any value type. *)
Section Generic.
Variable V : Type.
Variable dflt : V.
Variable is_default : V -> bool.
Hypothesis default_ok : forall v, is_default v = true <-> v = dflt.
Local Notation W := (grid_ops V dflt is_default).
Local Notation gnode := (list (option (list V))).

Fixpoint write_all (d : dynamic gnode) (ws : list (Z3 * V)) : outcome (dynamic gnode) :=
  match ws with
  | [] => Done d
  | (i, v) :: r =>
      match dyn_modify W grow_fuel (fun _ => Some (tt, v)) d i with
      | Done (_, d') => write_all d' r
      | Aborted => Aborted
      | OutOfFuel => OutOfFuel
      end
  end.

Let ok := base_ok V dflt is_default default_ok.
Let sz := base_size V dflt is_default.

Lemma write_all_ok ws : forall d, dwf (base_wf V) d -> (forall i v, In (i, v) ws -> representable i) ->
  exists d', write_all d ws = Done d' /\ dwf (base_wf V) d' /\
    forall i v, int_index i -> dyn_value dflt W d i = Some v ->
      dyn_value dflt W d' i = Some (fold_left (fun x w => if same3 (fst w) i then snd w else x) ws v).
Proof.
  induction ws as [|[k u] r IH]; intros d D H; cbn [write_all fold_left fst snd].
  - exists d. auto.
  - assert (R : representable k) by (apply (H k u); now left).
    destruct (dyn_value_some dflt W _ ok sz d k D (rep_int _ R)) as [x Ex].
    destruct (dyn_modify_ok dflt W _ ok sz unit (fun _ => Some (tt, u)) k x tt u R eq_refl grow_fuel d D Ex)
      as [d1 [E1 [D1 V1]]]; [destruct D as [B _]; unfold grow_fuel; lia|].
    rewrite E1. destruct (IH d1 D1) as [d' [E' [D' V']]]; [intros i v I; apply (H i v); now right|].
    exists d'. split; [exact E'|]. split; [exact D'|]. intros i v I Ev. apply V'; [exact I|].
    rewrite V1 by exact I. destruct (same3_spec i k) as [-> | N]; [now rewrite same3_refl|].
    destruct (same3_spec k i) as [Q | _]; [congruence | exact Ev].
Qed.

(* C24: the grid is the map given by the last writes, at every index *)
Theorem C24_map : forall ws, (forall i v, In (i, v) ws -> representable i) ->
  exists d, write_all dyn_new ws = Done d /\
    forall i, int_index i -> dyn_value dflt W d i = Some (last_write dflt ws i).
Proof.
  intros ws H. destruct (write_all_ok ws dyn_new (dyn_new_wf dflt W _ ok) H) as [d [E [_ V']]].
  exists d. split; [exact E|]. intros i I. apply (V' i dflt I). exact (dyn_new_value dflt W _ ok sz i I).
Qed.

Lemma written_wf ws d : write_all dyn_new ws = Done d -> dwf (base_wf V) d /\ forall i v, In (i, v) ws -> representable i.
Proof.
  enough (G : forall ws d0, dwf (base_wf V) d0 -> write_all d0 ws = Done d ->
              dwf (base_wf V) d /\ forall i v, In (i, v) ws -> representable i).
  { intros E. exact (G ws dyn_new (dyn_new_wf dflt W _ ok) E). }
  clear ws. induction ws as [|[k u] r IH]; intros d0 D E; cbn [write_all] in E.
  - assert (d0 = d) as -> by congruence. split; [exact D | intros i v []].
  - destruct (rep_dec k) as [R | R].
    + destruct (dyn_value_some dflt W _ ok sz d0 k D (rep_int _ R)) as [x Ex].
      destruct (dyn_modify_ok dflt W _ ok sz unit (fun _ => Some (tt, u)) k x tt u R eq_refl grow_fuel d0 D Ex)
        as [d1 [E1 [D1 _]]]; [destruct D as [B _]; unfold grow_fuel; lia|].
      rewrite E1 in E. destruct (IH d1 D1 E) as [A B]. split; [exact A|].
      intros i v [Q | Q]; [injection Q as <- <-; exact R | exact (B i v Q)].
    + rewrite (dyn_modify_out dflt W _ ok sz unit (fun _ => Some (tt, u)) k R grow_fuel d0 D) in E;
        [discriminate | destruct D as [B _]; unfold grow_fuel; lia].
Qed.

(* a write to any index that cannot be held aborts, after any writes *)
Theorem C24_abort : forall ws d i v, write_all dyn_new ws = Done d -> ~ representable i ->
  write_all d [(i, v)] = Aborted.
Proof.
  intros ws d i v E R. destruct (written_wf ws d E) as [D _]. cbn [write_all].
  rewrite (dyn_modify_out dflt W _ ok sz unit (fun _ => Some (tt, v)) i R grow_fuel d D); [reflexivity|].
  destruct D as [B _]. unfold grow_fuel. lia.
Qed.

(* growing changes no value *)
Theorem C24_grow : forall ws d, write_all dyn_new ws = Done d -> d_bits d < 8 ->
  exists d', dyn_grow d = Some d' /\ dyn_size W d' = 2 * dyn_size W d /\
    forall i, int_index i -> dyn_value dflt W d' i = dyn_value dflt W d i.
Proof.
  intros ws d E L. destruct (written_wf ws d E) as [D _].
  destruct (dyn_grow_ok dflt W _ ok sz d D L) as [d' [Eg [Eb [D' V']]]]. exists d'. split; [exact Eg|]. split; [|exact V'].
  rewrite (dyn_size_eq W _ sz d' D'), (dyn_size_eq W _ sz d D), Eb. destruct D as [B _].
  rewrite Z.pow_add_r by lia. ring.
Qed.

(* C25: the iterator visits exactly the voxels whose value is not the default *)
Theorem C25_iterator : forall ws d, write_all dyn_new ws = Done d ->
  exists l, (forall n, (length l <= n)%nat -> dyn_iterate W n d (dyn_begin W d) = Done l) /\
    visits dflt (fun i => Some (last_write dflt ws i)) l.
Proof.
  intros ws d E. destruct (written_wf ws d E) as [D H].
  destruct (dyn_iter_ok dflt W _ ok sz d D) as [l [El [N Il]]]. exists l. split; [exact El|]. split; [exact N|].
  destruct (C24_map ws H) as [d2 [E2 V2]]. rewrite E in E2. assert (d2 = d) as -> by congruence.
  pose proof (half_bound _ _ D) as Hb. intros i v. rewrite Il. split.
  - intros [Wi [Ev Nv]]. assert (R : representable i) by (unfold representable, within in *; lia).
    split; [exact R|]. rewrite <- (V2 i (rep_int _ R)). auto.
  - intros [R [Ev Nv]]. rewrite <- (V2 i (rep_int _ R)) in Ev. split; [|auto].
    destruct (within_dec (- half d) (half d) i) as [Q | Q]; [exact Q|]. exfalso.
    rewrite (dyn_value_out dflt W _ sz d i D (rep_int _ R) Q) in Ev. congruence.
Qed.
End Generic.

(* Hybrid grids reached from construction by any operations; SetProbability only between
   updates, with a probability that is a number. *)
Inductive hreachable : hybrid -> Prop :=
| hr_new r : hreachable (hy_new r)
| hr_set h i p h' : hreachable h -> h_upd h = [] -> is_binary32 p ->
    hy_set_probability h i p = Some h' -> hreachable h'
| hr_apply h i t h' b : hreachable h -> good_table t -> hy_apply h i t = Some (h', b) -> hreachable h'
| hr_finish h h' : hreachable h -> hy_finish h = Some h' -> hreachable h'.

Lemma hreachable_wf h : hreachable h -> hwf h.
Proof.
  induction 1 as [r | h i p h' R W U B E | h i t h' b R W T E | h h' R W E].
  - apply hy_new_wf.
  - destruct (rep_dec i) as [Ri | Ri].
    + destruct (hy_value_some h i (hw_grid _ W) (rep_int _ Ri)) as [v Ev].
      destruct (prob_to_value p) as [w|] eqn:P.
      * assert (N : ~ is_nan p).
        { intros N. unfold is_nan in N. subst p. assert (Q : prob_to_value S754_nan = None) by reflexivity. congruence. }
        destruct (C14_range p B N) as [[w' [P' Bw]] _]. rewrite P in P'. injection P' as <-.
        destruct (set_ok h i p w W U Ri P Bw) as [h1 [E1 [W1 _]]]. rewrite E in E1. injection E1 as <-. exact W1.
      * unfold hy_set_probability in E. rewrite (hy_modify_fail _ _ h i v (hw_grid _ W) Ri Ev) in E; [discriminate | now rewrite P].
    + unfold hy_set_probability in E. rewrite (hy_modify_out _ _ h i (hw_grid _ W) Ri) in E. discriminate.
  - destruct (rep_dec i) as [Ri | Ri].
    + destruct (apply_ok h i t W Ri T) as [h1 [b1 [E1 [W1 _]]]]. rewrite E in E1. injection E1 as <- _. exact W1.
    + unfold hy_apply in E. rewrite (hy_modify_out _ _ h i (hw_grid _ W) Ri) in E. discriminate.
  - destruct (finish_ok3 h W) as [h1 [E1 [W1 _]]]. rewrite E in E1. injection E1 as <-. exact W1.
Qed.

(* the tables of the 3D range data inserter are good *)
Theorem C15_tables_good_3d : forall o, is_binary32 o -> fleb fzero o = true -> fleb o two64 = true ->
  exists t, good_table t /\ forall v, 0 <= v < 32768 -> vget t v = apply_odds o v.
Proof.
  intros o B L1 L2.
  exists (map (fun v => match apply_odds o v with Some w => w | None => 0 end) (zrange 32768)).
  assert (G : forall v, 0 <= v < 32768 -> exists w, apply_odds o v = Some w /\ 32768 < w < 65536).
  { intros v H. destruct (C16_range o v B L1 L2 ltac:(lia)) as [[r [E Br]] _].
    exists (r + kUpdateMarker). split; [exact E|]. unfold kUpdateMarker. lia. }
  assert (M : forall (f : Z -> Z) n v, 0 <= v < n -> vget (map f (zrange n)) v = Some (f v)).
  { intros f n v H. unfold vget. destruct (Z.leb_spec 0 v); [|lia]. rewrite nth_error_map.
    rewrite zrange_seq, nth_error_map. 
    rewrite (nth_error_nth' _ 0%nat) by (rewrite seq_length; lia). rewrite seq_nth by lia. cbn [option_map].
    do 2 f_equal. lia. }
  split; intros v H; rewrite M by exact H; destruct (G v H) as [w [E Bw]]; rewrite E; eauto.
Qed.

(* C15 for hybrid grids *)
Theorem C15_update_once_3d : forall h acc, hreachable h -> h_upd h = [] ->
  (forall i t, In (i, t) acc -> representable i /\ good_table t) ->
  exists h1 h2, vapply_all h acc = Some (h1, vflags [] acc) /\ hy_finish h1 = Some h2 /\
    h_upd h2 = [] /\ h_res h2 = h_res h /\
    forall i, int_index i ->
      exists v, hy_value h i = Some v /\ 0 <= v < 32768 /\
        match vfirst i acc with
        | None => hy_value h2 i = Some v
        | Some t => exists r, vget t v = Some (r + kUpdateMarker) /\ 1 <= r < 32768 /\ hy_value h2 i = Some r
        end.
Proof.
  intros h acc R U H. apply hreachable_wf in R.
  assert (M0 : hmid h [] h).
  { constructor; [exact R | reflexivity | intros i; rewrite U; reflexivity | reflexivity]. }
  destruct (vapply_all_mid h acc [] h M0 H) as [h1 [E1 [W1 R1 U1 V1]]]. cbn [app] in *.
  destruct (finish_ok3 h1 W1) as [h2 [E2 [W2 [R2 [U2 V2]]]]].
  exists h1, h2. do 3 (split; [assumption|]). split; [congruence|]. intros i I.
  destruct (hy_value_some h i (hw_grid _ R) I) as [v Ev].
  assert (B : 0 <= v < 32768) by (apply (hw_plain _ R i v I); [rewrite U; auto | exact Ev]).
  exists v. split; [exact Ev|]. split; [exact B|].
  rewrite V2, V1 by exact I. rewrite Ev.
  destruct (vfirst i acc) as [t|] eqn:F.
  - assert (Ii : In i (map fst acc)).
    { destruct (in_dec (fun a b => Bool.reflect_dec _ _ (same3_spec a b)) i (map fst acc)) as [Q | Q]; [exact Q|].
      apply vfirst_none in Q. congruence. }
    pose proof (proj2 (U1 i) Ii) as Iu. rewrite (proj2 (upd_seen i (h_upd h1)) Iu).
    assert (It : exists a, In (a, t) acc).
    { unfold vfirst in F. destruct (find _ acc) as [[a t']|] eqn:Fd; [|discriminate]. injection F as <-.
      apply find_some in Fd. exists a. apply Fd. }
    destruct It as [a It]. destruct (H a t It) as [_ T]. destruct (T v B) as [w [Ew Bw]].
    exists (w - kUpdateMarker). unfold kUpdateMarker in *. rewrite Ew. split; [f_equal; lia|]. split; [lia | reflexivity].
  - apply vfirst_none in F. destruct (existsb (same3 i) (h_upd h1)) eqn:X; [|reflexivity].
    apply upd_seen in X. apply U1 in X. contradiction.
Qed.

(* C26 *)
Theorem C26_roundtrip : forall h, hreachable h -> h_upd h = [] ->
  exists p h', (exists n, forall m, (n <= m)%nat -> hy_to_proto m h = Done p) /\
    hy_from_proto p = Some h' /\
    h_res h' = h_res h /\ h_upd h' = [] /\
    forall i, int_index i -> hy_value h' i = hy_value h i.
Proof.
  intros h R U. apply hreachable_wf in R. destruct (iter_ok h (hw_grid _ R)) as [l [El [N Il]]].
  exists (proto_of h l).
  destruct (load_ok l (hy_new (h_res h)) (hy_new_wf _) eq_refl N) as [h' [E [W [Rs [U' [Vi Vo]]]]]].
  { intros i v I. apply Il in I. destruct I as [Ri [Ev Nv]]. split; [exact Ri|].
    assert (0 <= v < 32768); [|lia]. apply (hw_plain _ R i v (rep_int _ Ri)); [rewrite U; auto | exact Ev]. }
  exists h'. split; [|split; [|split; [exact Rs | split; [exact U'|]]]].
  - exists (length l). intros m Hm. unfold hy_to_proto. rewrite U, El by exact Hm. reflexivity.
  - unfold hy_from_proto, proto_of. cbn [hp_values hp_x hp_y hp_z hp_res]. unfold vsize.
    rewrite !map_length, Z.eqb_refl. exact E.
  - intros i I. destruct (hy_value_some h i (hw_grid _ R) I) as [v Ev]. rewrite Ev.
    destruct (Z.eq_dec v 0) as [Zv | Zv].
    + assert (Ni : ~ In i (map fst l)).
      { intros Q. apply in_map_iff in Q. destruct Q as [[k u] [Q Iu]]. cbn [fst] in Q. subst k.
        apply Il in Iu. destruct Iu as [_ [Eu Nu]]. congruence. }
      rewrite Vo by assumption. rewrite Zv. exact (dyn_new_value 0 node_ops _ nok nsz i I).
    + apply Vi, Il. split; [|auto]. destruct (rep_dec i) as [Q | Q]; [exact Q|].
      rewrite (hy_value_out h i (hw_grid _ R) I Q) in Ev. congruence.
Qed.

(* The serialized grid lists exactly the known voxels, each once. *)
Theorem C26_proto : forall h n p, hreachable h -> hy_to_proto n h = Done p ->
  h_upd h = [] /\ hp_res p = h_res h /\
  exists l, visits 0 (hy_value h) l /\ hp_values p = map snd l /\
    hp_x p = map (fun q => vx (fst q)) l /\ hp_y p = map (fun q => vy (fst q)) l /\
    hp_z p = map (fun q => vz (fst q)) l /\
    forall v, In v (hp_values p) -> 1 <= v < 32768.
Proof.
  intros h n p R E. apply hreachable_wf in R. unfold hy_to_proto in E.
  destruct (h_upd h) as [|u r] eqn:U; [|discriminate].
  destruct (dyn_iterate node_ops n (h_grid h) (dyn_begin node_ops (h_grid h))) as [l' | | ] eqn:El; try discriminate.
  injection E as <-. cbn [hp_res hp_x hp_y hp_z hp_values]. split; [reflexivity|]. split; [reflexivity|].
  exists l'. destruct (iter_ok h (hw_grid _ R)) as [l [Ei Vl]].
  assert (l' = l) as ->.
  { assert (M : forall m it d (r' : list (Z3 * Z)), dyn_iterate node_ops m d it = Done r' ->
                forall k, (m <= k)%nat -> dyn_iterate node_ops k d it = Done r').
    { clear. induction m as [|m IH]; intros it d r' E k K.
      - cbn [dyn_iterate] in E. destruct k; cbn [dyn_iterate]; destruct (cells_done it); congruence.
      - destruct k as [|k]; [lia|]. cbn [dyn_iterate] in E |- *. destruct (cells_done it); [exact E|].
        destruct (cells_get node_ops it) as [v|]; [|discriminate].
        destruct (dyn_iterate node_ops m d (cells_next node_ops it)) as [q | | ] eqn:Q; try discriminate.
        now rewrite (IH _ _ _ Q k ltac:(lia)). }
    pose proof (M _ _ _ _ El (Nat.max n (length l)) ltac:(lia)) as A.
    rewrite Ei in A by lia. congruence. }
  do 5 (split; [auto|]). intros v I. apply in_map_iff in I. destruct I as [[i w] [Q I]]. cbn [snd] in Q. subst w.
  apply Vl in I. destruct I as [Ri [Ev Nv]].
  assert (0 <= v < 32768); [|lia]. apply (hw_plain _ R i v (rep_int _ Ri)); [rewrite U; auto | exact Ev].
Qed.

(* SetProbability on a voxel marked by the current update is not caught (the CHECK in
   FinishUpdate is a DCHECK): the subtraction of the marker wraps, and the voxel stays
   marked after FinishUpdate. *)
Theorem C15_set_during_update_refuted : exists h i t p h1 h2 h3 v,
  hreachable h /\ representable i /\ good_table t /\ is_binary32 p /\
  hy_apply h i t = Some (h1, true) /\ hy_set_probability h1 i p = Some h2 /\ hy_finish h2 = Some h3 /\
  h_upd h3 = [] /\ hy_value h3 i = Some v /\ kUpdateMarker <= v.
Proof.
  set (i := (0, 0, 0)). set (h := hy_new f_one). set (t := repeat 40000 (Z.to_nat 32768)).
  assert (R : representable i) by (unfold representable, within, i; cbn; lia).
  assert (T : good_table t).
  { intros v H. exists 40000. split; [|lia]. apply vget_repeat. lia. }
  destruct (apply_ok h i t (hy_new_wf _) R T) as [h1 [b [E1 [W1 [_ C]]]]].
  change (existsb (same3 i) (h_upd h)) with false in C. destruct C as [-> [U1 _]].
  destruct (hy_value_some h1 i (hw_grid _ W1) (rep_int _ R)) as [u Eu].
  destruct (hy_modify_ok unit (fun _ => match prob_to_value (value_to_prob 1) with Some w => Some (tt, w) | None => None end)
              h1 i u tt 1 (hw_grid _ W1) R Eu) as [h2 [E2 [D2 [R2 [U2 V2]]]]].
  { now rewrite prob_round by lia. }
  destruct (finish_loop_ok (h_upd h2) h2 D2) as [h3 [E3 [D3 [R3 V3]]]].
  { rewrite U2. apply W1. } { rewrite U2. apply W1. }
  exists h, i, t, (value_to_prob 1), h1, h2, (mk_hybrid (h_res h3) (h_grid h3) []), 32769.
  split; [apply hr_new|]. split; [exact R|]. split; [exact T|]. split; [reflexivity|]. split; [exact E1|].
  split; [unfold hy_set_probability; now rewrite E2|]. split; [unfold hy_finish; now rewrite E3|].
  split; [reflexivity|]. split; [|unfold kUpdateMarker; lia].
  change (hy_value (mk_hybrid (h_res h3) (h_grid h3) []) i) with (hy_value h3 i).
  rewrite V3, !V2 by now apply rep_int. rewrite U2, U1. rewrite same3_refl. reflexivity.
Qed.

(* a grid that grows once for the second write *)
Definition ex3 := write_all Z 0 (fun v => v =? 0) dyn_new [((1, 2, -3), 7); ((-100, 5, 9), 8); ((1, 2, -3), 9)].
Example C24_example :
  match ex3 with
  | Done d => (d_bits d, dyn_value 0 node_ops d (1, 2, -3), dyn_value 0 node_ops d (-100, 5, 9),
               dyn_value 0 node_ops d (1, 2, 3)) = (2, Some 9, Some 8, Some 0)
  | _ => False
  end.
Proof. vm_compute. reflexivity. Qed.
Example C24_abort_example : forall d, ex3 = Done d ->
  write_all Z 0 (fun v => v =? 0) d [((0, 8192, 0), 1)] = Aborted.
Proof.
  intros d E. apply (C24_abort Z 0 _ z_default _ d (0, 8192, 0) 1 E).
  unfold representable, within, vx, vy, vz. cbn [fst snd]. lia.
Qed.
Example C25_example :
  match ex3 with
  | Done d => dyn_iterate node_ops 9 d (dyn_begin node_ops d) = Done [((1, 2, -3), 9); ((-100, 5, 9), 8)]
  | _ => False
  end.
Proof. vm_compute. reflexivity. Qed.

Definition ex3h : option hybrid :=
  match hy_apply (hy_new f_one) (1, 2, -3) [40000] with
  | Some (h, _) => match hy_apply h (1, 2, -3) [40000] with
                   | Some (h', false) => hy_finish h'
                   | _ => None
                   end
  | None => None
  end.
Example C26_example :
  match ex3h with
  | Some h => hy_value h (1, 2, -3) = Some 7232 /\
              hy_to_proto 5 h = Done (mk_hybrid_proto f_one [1] [2] [-3] [7232]) /\
              match hy_from_proto (mk_hybrid_proto f_one [1] [2] [-3] [7232]) with
              | Some h' => hy_value h' (1, 2, -3) = Some 7232
              | None => False
              end
  | None => False
  end.
Proof. vm_compute. repeat split. Qed.

Print Assumptions C24_map.
Print Assumptions C24_abort.
Print Assumptions C24_grow.
Print Assumptions C25_iterator.
Print Assumptions C15_tables_good_3d.
Print Assumptions C15_update_once_3d.
Print Assumptions C15_set_during_update_refuted.
Print Assumptions C26_roundtrip.
Print Assumptions C26_proto.
