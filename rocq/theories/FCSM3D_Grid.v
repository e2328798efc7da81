(* The precomputed 3D grids bound the values of all voxels they stand for. *)
From Coq Require Import List ZArith Bool Lia.
From Verif Require Import Vec Float32 PV_Model G2_Model G2_Spec G2_Grow HG_Model HG_Spec HG_Wrap HG_Dyn HG_Proofs
  FCSM2D_Model FCSM3D_Model FCSM3D_Spec.
Import ListNotations.
Open Scope Z_scope.

Definition pv (g : pgrid3) (i : Z3) : Z := match p_value g i with Some v => v | None => 0 end.
Lemma pv_eq g i : hdwf g -> int_index i -> p_value g i = Some (pv g i).
Proof. intros D I. unfold pv. destruct (dyn_value_some 0 node_ops _ nok nsz g i D I) as [v E]. unfold p_value. now rewrite E. Qed.
Lemma pv_out g i : hdwf g -> int_index i -> ~ representable i -> pv g i = 0.
Proof.
  intros D I N. unfold pv, p_value. rewrite (dyn_value_out 0 node_ops _ nsz g i D I); [reflexivity|].
  intros Q. apply N. pose proof (half_bound _ _ D). unfold representable, within in *. lia.
Qed.
Lemma put_ok f g i : hdwf g -> representable i -> exists g', p_put f g i = Some g' /\ hdwf g' /\
  forall j, int_index j -> pv g' j = if same3 j i then f (pv g i) else pv g j.
Proof.
  intros D R. destruct (dyn_modify_ok 0 node_ops _ nok nsz unit (fun v => Some (tt, f v)) i (pv g i) tt (f (pv g i)) R eq_refl grow_fuel g D) as (g' & E & D' & V).
  { apply pv_eq; [exact D | now apply rep_int]. }
  { destruct D as [B _]. unfold grow_fuel. lia. }
  exists g'. unfold p_put. rewrite E. split; [reflexivity|]. split; [exact D'|]. intros j I. unfold pv at 1, p_value. rewrite V by exact I.
  destruct (same3 j i); [reflexivity|]. reflexivity.
Qed.
Lemma cells_ok g : hdwf g -> exists l, (forall n, (length l <= n)%nat -> p_cells n g = Some l) /\ NoDup (map fst l) /\
  forall i v, In (i, v) l <-> representable i /\ pv g i = v /\ v <> 0.
Proof.
  intros D. destruct (dyn_iter_ok 0 node_ops _ nok nsz g D) as [l [E [N V]]]. exists l. split.
  { intros n H. unfold p_cells. now rewrite (E n H). }
  split; [exact N|]. intros i v. rewrite V. pose proof (half_bound _ _ D) as Hb. split.
  - intros (Wi & E1 & N1). unfold pv, p_value. rewrite E1. split; [|auto]. unfold representable, within in *. lia.
  - intros (R & E1 & N1). assert (Ev : dyn_value 0 node_ops g i = Some v).
    { rewrite <- E1. apply (pv_eq g i D). now apply rep_int. }
    split; [|auto]. destruct (within_dec (- half g) (half g) i) as [Q | Q]; [exact Q|].
    exfalso. rewrite (dyn_value_out 0 node_ops _ nsz g i D (rep_int _ R) Q) in Ev. congruence.
Qed.
Lemma pv_new i : int_index i -> pv dyn_new i = 0.
Proof. intros I. exact (f_equal (fun o => match o with Some v => v | None => 0 end) (dyn_new_value 0 node_ops _ nok nsz i I)). Qed.
Lemma new_wf : hdwf dyn_new.
Proof. apply (dyn_new_wf 0 node_ops _ nok). Qed.

(* ---- a list of writes ---- *)
Fixpoint max_all (ws : list (Z3 * Z)) (g : pgrid3) : option pgrid3 :=
  match ws with
  | [] => Some g
  | (j, v) :: r => match p_put (fun old => Z.max v old) g j with None => None | Some g' => max_all r g' end
  end.
Lemma max_all_ok ws : forall g, hdwf g -> (forall j v, In (j, v) ws -> representable j) ->
  exists g', max_all ws g = Some g' /\ hdwf g' /\
    (forall j v, In (j, v) ws -> v <= pv g' j) /\
    (forall j, int_index j -> pv g j <= pv g' j) /\
    (forall j, int_index j -> pv g' j = pv g j \/ exists v, In (j, v) ws /\ pv g' j = v).
Proof.
  induction ws as [|[j v] ws IH]; intros g D R; cbn [max_all].
  - exists g. split; [reflexivity|]. split; [exact D|]. split; [intros j v []|]. split; [intros; lia | auto].
  - assert (Rj : representable j) by (eapply R; now left).
    destruct (put_ok (fun old => Z.max v old) g j D Rj) as (g1 & -> & D1 & V1).
    destruct (IH g1 D1) as (g' & -> & D' & A & B & C). { intros k u I. eapply R. right. exact I. }
    exists g'. split; [reflexivity|]. split; [exact D'|]. split; [|split].
    + intros k u [E | I]; [|now apply A]. injection E as <- <-. specialize (B j (rep_int _ Rj)). rewrite V1 in B by now apply rep_int.
      destruct (same3_spec j j); [lia | congruence].
    + intros k K. specialize (B k K). rewrite V1 in B by exact K. destruct (same3_spec k j) as [E|E]; [rewrite <- E in B|]; lia.
    + intros k K. destruct (C k K) as [E | (u & I & E)]; [|right; exists u; split; [now right | exact E]].
      rewrite V1 in E by exact K. destruct (same3_spec k j) as [->|]; [|now left].
      destruct (Z.max_spec v (pv g j)) as [[? M] | [? M]]; rewrite M in E; [now left | right; exists v; split; [now left | exact E]].
Qed.
Lemma max_all_app a : forall b g, max_all (a ++ b) g = match max_all a g with None => None | Some g' => max_all b g' end.
Proof. induction a as [|[j v] a IH]; intros b g; [reflexivity|]. cbn. destruct (p_put _ g j); [apply IH | reflexivity]. Qed.

Definition target (half : bool) (shift : Z) (i : Z3) (o : Z) : Z3 :=
  let j := zip3 (fun c b => c - shift * b) i (octant o) in if half then half_index j else j.
Definition octants : list Z := [0; 1; 2; 3; 4; 5; 6; 7].
Definition writes (half : bool) (shift : Z) (l : list (Z3 * Z)) : list (Z3 * Z) :=
  flat_map (fun iv => map (fun o => (target half shift (fst iv) o, snd iv)) octants) l.
Lemma put_octants_max half shift i v os : forall g,
  put_octants half shift i v os g = max_all (map (fun o => (target half shift i o, v)) os) g.
Proof. induction os as [|o os IH]; intros g; [reflexivity|]. cbn [put_octants map max_all]. unfold target at 1. destruct (p_put _ g _); [apply IH | reflexivity]. Qed.
Lemma put_all_max half shift l : forall g, put_all half shift l g = max_all (writes half shift l) g.
Proof.
  induction l as [|[i v] l IH]; intros g; [reflexivity|]. cbn [put_all]. unfold writes. cbn [flat_map]. rewrite max_all_app, put_octants_max.
  fold octants. cbn [fst snd]. destruct (max_all _ g); [apply IH | reflexivity].
Qed.
Lemma octant_bits o : In o octants <-> exists a b c : bool, octant o = (Z.b2z a, Z.b2z b, Z.b2z c) /\ 0 <= o < 8.
Proof.
  split.
  - intros I. exists (Z.testbit o 0), (Z.testbit o 1), (Z.testbit o 2). split; [reflexivity|]. unfold octants in I. cbn in I. lia.
  - intros (_ & _ & _ & _ & H). unfold octants. assert (o = 0 \/ o = 1 \/ o = 2 \/ o = 3 \/ o = 4 \/ o = 5 \/ o = 6 \/ o = 7) by lia. cbn. lia.
Qed.
Lemma octant_all (a b c : bool) : exists o, In o octants /\ octant o = (Z.b2z a, Z.b2z b, Z.b2z c).
Proof. exists (Z.b2z a + 2 * Z.b2z b + 4 * Z.b2z c). destruct a, b, c; vm_compute; intuition. Qed.

(* PrecomputeGrid: for every source, octant and target *)
Lemma precompute3_ok half shift g : hdwf g ->
  (forall i o, representable i -> pv g i <> 0 -> In o octants -> representable (target half shift i o)) ->
  (forall i, int_index i -> 0 <= pv g i) ->
  exists N g', (forall n, (N <= n)%nat -> precompute3 n half shift g = Some g') /\ hdwf g' /\
    (forall i o, representable i -> In o octants -> int_index (target half shift i o) -> pv g i <= pv g' (target half shift i o)) /\
    (forall j, int_index j -> pv g' j = 0 \/
       exists i o, representable i /\ pv g i <> 0 /\ In o octants /\ target half shift i o = j /\ pv g' j = pv g i).
Proof.
  intros D R P. destruct (cells_ok g D) as (l & E & _ & V).
  destruct (max_all_ok (writes half shift l) dyn_new new_wf) as (g' & Eg & D' & A & B & C).
  { intros j v I. apply in_flat_map in I as ([i u] & I & J). apply in_map_iff in J as (o & Eo & I2). injection Eo as <- <-. cbn.
    apply V in I as (Ri & <- & N). now apply R. }
  exists (length l), g'. split.
  { intros n H. unfold precompute3. rewrite (E n H), put_all_max. exact Eg. }
  split; [exact D'|]. split.
  - intros i o Ri Io K. destruct (Z.eq_dec (pv g i) 0) as [E0 | N0].
    + rewrite E0. specialize (B _ K). now rewrite pv_new in B.
    + apply A. apply in_flat_map. exists (i, pv g i). split; [apply V; auto|]. apply in_map_iff. exists o. auto.
  - intros j K. destruct (C j K) as [E0 | (v & I & Ev)]; [left; now rewrite E0, pv_new|]. right.
    apply in_flat_map in I as ([i u] & I & J). apply in_map_iff in J as (o & Eo & I2). injection Eo as <- <-. cbn.
    apply V in I as (Ri & Eu & N). exists i, o. cbn in Ev. subst u. auto 6.
Qed.
