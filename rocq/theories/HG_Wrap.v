(* FlatGrid and NestedGrid are total maps on their cube, and their iterators visit exactly
   the non-default voxels. *)
From Coq Require Import List ZArith Bool Lia.
From Verif Require Import Vec G2_Model G2_Grow HG_Model HG_Spec.
Import ListNotations.
Open Scope Z_scope.

Lemma ext3 (i j : Z3) : vx i = vx j -> vy i = vy j -> vz i = vz j -> i = j.
Proof. destruct i as [[a b] c], j as [[d e] f]. unfold vx, vy, vz. cbn. congruence. Qed.
Lemma same3_iff i j : same3 i j = true <-> i = j.
Proof.
  unfold same3. rewrite !andb_true_iff, !Z.eqb_eq. split.
  - intros [[A B] C]. now apply ext3.
  - intros ->. auto.
Qed.
Lemma same3_spec i j : reflect (i = j) (same3 i j).
Proof. apply iff_reflect. symmetry. apply same3_iff. Qed.
Lemma same3_refl i : same3 i i = true.
Proof. now apply same3_iff. Qed.

(* flat indices *)
Lemma to_flat_eq i b : 0 <= b -> to_flat i b = vx i + 2 ^ b * (vy i + 2 ^ b * vz i).
Proof. intros H. unfold to_flat. rewrite !Z.shiftl_mul_pow2 by exact H. ring. Qed.
Lemma pow3 b : 0 <= b -> 2 ^ (3 * b) = 2 ^ b * (2 ^ b * 2 ^ b).
Proof. intros H. replace (3 * b) with (b + (b + b)) by ring. now rewrite !Z.pow_add_r by lia. Qed.
Lemma pow_pos b : 0 <= b -> 0 < 2 ^ b.
Proof. intros H. apply Z.pow_pos_nonneg; lia. Qed.
Lemma shiftl1 b : 0 <= b -> Z.shiftl 1 b = 2 ^ b.
Proof. intros H. now rewrite Z.shiftl_1_l. Qed.

Lemma to_flat_range i b : 0 <= b -> within 0 (2 ^ b) i -> 0 <= to_flat i b < 2 ^ (3 * b).
Proof.
  intros H [A [B C]]. rewrite to_flat_eq, pow3 by exact H. pose proof (pow_pos b H).
  set (n := 2 ^ b) in *.
  assert (0 <= vy i + n * vz i <= n * n - 1) by nia. nia.
Qed.
Lemma digit a b n q r : 0 <= a < n -> 0 <= b < n -> a + n * q = b + n * r -> a = b /\ q = r.
Proof.
  intros A B E. assert (F : a = b).
  { rewrite <- (Z.mod_small a n A), <- (Z.mod_small b n B).
    rewrite <- (Z_mod_plus_full a q n), <- (Z_mod_plus_full b r n). f_equal. lia. }
  split; [exact F|]. apply (Z.mul_reg_l _ _ n); lia.
Qed.
Lemma to_flat_inj i j b : 0 <= b -> within 0 (2 ^ b) i -> within 0 (2 ^ b) j ->
  to_flat i b = to_flat j b -> i = j.
Proof.
  intros H [A1 [A2 A3]] [B1 [B2 B3]]. rewrite !to_flat_eq by exact H. pose proof (pow_pos b H) as P.
  set (n := 2 ^ b) in *. intros E.
  destruct (digit _ _ _ _ _ A1 B1 E) as [E1 E2]. destruct (digit _ _ _ _ _ A2 B2 E2) as [E3 E4].
  now apply ext3.
Qed.
Lemma to_3d_ok k b : 0 <= b -> 0 <= k < 2 ^ (3 * b) ->
  within 0 (2 ^ b) (to_3d k b) /\ to_flat (to_3d k b) b = k.
Proof.
  intros H K. rewrite to_flat_eq by exact H. unfold to_3d. rewrite shiftl1 by exact H.
  assert (M : forall z, Z.land z (2 ^ b - 1) = z mod 2 ^ b).
  { intros z. rewrite <- Z.land_ones by exact H. f_equal. rewrite Z.ones_equiv. lia. }
  rewrite !M, !Z.shiftr_div_pow2 by exact H. unfold within, vx, vy, vz. cbn [fst snd].
  pose proof (pow_pos b H) as P. rewrite pow3 in K by exact H.
  pose proof (Z.mod_pos_bound k (2 ^ b) P). pose proof (Z.mod_pos_bound (k / 2 ^ b) (2 ^ b) P).
  pose proof (Z.div_mod k (2 ^ b) ltac:(lia)). pose proof (Z.div_mod (k / 2 ^ b) (2 ^ b) ltac:(lia)).
  set (n := 2 ^ b) in *. set (q := k / n) in *. set (p := q / n) in *.
  assert (0 <= q) by nia. assert (q < n * n) by nia. assert (0 <= p) by nia. assert (p < n) by nia.
  repeat split; try assumption; try lia.
Qed.
Lemma to_3d_inj k l b : 0 <= b -> 0 <= k < 2 ^ (3 * b) -> 0 <= l < 2 ^ (3 * b) ->
  to_3d k b = to_3d l b -> k = l.
Proof.
  intros H K L E. destruct (to_3d_ok k b H K) as [_ <-]. destruct (to_3d_ok l b H L) as [_ <-]. now rewrite E.
Qed.
Lemma to_3d_flat i b : 0 <= b -> within 0 (2 ^ b) i -> to_3d (to_flat i b) b = i.
Proof.
  intros H I. destruct (to_3d_ok _ b H (to_flat_range i b H I)) as [A B].
  now apply (to_flat_inj _ _ b).
Qed.

(* iterators *)
Section Walk.
Context {It V : Type}.
Variables (done : It -> bool) (next : It -> It) (index : It -> Z3) (get : It -> option V).
Inductive walk : It -> list (Z3 * V) -> Prop :=
  | walk_done it : done it = true -> walk it []
  | walk_step it v l : done it = false -> get it = Some v -> walk (next it) l ->
      walk it ((index it, v) :: l).
Lemma walk_nil it l : walk it l -> (done it = true <-> l = []).
Proof. intros H. destruct H as [it D | it v l D]; rewrite D; split; congruence. Qed.
End Walk.
Lemma walk_map {It V} done next index get (f : Z3 -> Z3) (it : It) (l : list (Z3 * V)) :
  walk done next index get it l ->
  walk done next (fun i => f (index i)) get it (map (fun p => (f (fst p), snd p)) l).
Proof. induction 1; cbn [map fst snd]; constructor; auto. Qed.

Section Ok.
Context {V G It : Type}.
Variable dflt : V.
Variable W : gops V G It.
Variable wf : G -> Prop.
(* a grid is a total map on the cube of its size *)
Record ops_ok : Prop := {
  ok_size : 0 < o_size W;
  ok_new : wf (o_new W);
  ok_new_value : forall i, within 0 (o_size W) i -> o_value W (o_new W) i = Some dflt;
  ok_value : forall g i, wf g -> within 0 (o_size W) i -> exists v, o_value W g i = Some v;
  ok_modify : forall A (f : V -> option (A * V)) g i v a w, wf g -> within 0 (o_size W) i ->
    o_value W g i = Some v -> f v = Some (a, w) ->
    exists g', o_modify W f g i = Some (a, g') /\ wf g' /\
      forall j, within 0 (o_size W) j ->
        o_value W g' j = if same3 j i then Some w else o_value W g j;
  ok_fail : forall A (f : V -> option (A * V)) g i v, wf g -> within 0 (o_size W) i ->
    o_value W g i = Some v -> f v = None -> o_modify W f g i = None;
  ok_iter : forall g, wf g -> exists l,
    walk (o_done W) (o_next W) (o_index W) (o_get W) (o_begin W g) l /\ NoDup (map fst l) /\
    forall i v, In (i, v) l <-> within 0 (o_size W) i /\ o_value W g i = Some v /\ v <> dflt
}.
End Ok.

Section FlatOk.
Variable V : Type.
Variable dflt : V.
Variable is_default : V -> bool.
Hypothesis is_default_ok : forall v, is_default v = true <-> v = dflt.
Variable bits : Z.
Hypothesis bits_ok : 0 <= bits.
Local Notation N := (2 ^ (3 * bits)).

Fixpoint flat_list (k : Z) (l : list V) : list (Z3 * V) :=
  match l with
  | [] => []
  | v :: r => if is_default v then flat_list (k + 1) r else (to_3d k bits, v) :: flat_list (k + 1) r
  end.
Lemma vsize_cons {A} (v : A) r : vsize (v :: r) = vsize r + 1.
Proof. unfold vsize. cbn [length]. lia. Qed.
Lemma vsize_nonneg {A} (r : list A) : 0 <= vsize r.
Proof. unfold vsize. lia. Qed.
Lemma vget_cons {A} (a : A) r n : vget (a :: r) n = if n =? 0 then Some a else vget r (n - 1).
Proof.
  unfold vget. destruct (Z.eqb_spec n 0) as [-> | Hn]; [reflexivity|].
  destruct (Z.leb_spec 0 n).
  - destruct (Z.leb_spec 0 (n - 1)); [|lia]. replace (Z.to_nat n) with (S (Z.to_nat (n - 1))) by lia. reflexivity.
  - destruct (Z.leb_spec 0 (n - 1)); [lia | reflexivity].
Qed.

Lemma flat_walk l : forall k, vsize l = N - k ->
  walk (flat_done V) (flat_next V is_default) (flat_index V bits) (@hd_error V)
    (flat_skip V is_default l) (flat_list k l).
Proof.
  induction l as [|v r IH]; intros k L; cbn [flat_skip flat_list].
  - now constructor.
  - rewrite vsize_cons in L. destruct (is_default v).
    + apply IH. lia.
    + assert (E : to_3d k bits = flat_index V bits (v :: r)).
      { unfold flat_index. rewrite shiftl1, vsize_cons by lia. f_equal. lia. }
      rewrite E. constructor; [reflexivity | reflexivity |]. apply IH. lia.
Qed.
Lemma flat_list_In l : forall k i v, In (i, v) (flat_list k l) <->
  exists n, vget l n = Some v /\ v <> dflt /\ i = to_3d (k + n) bits.
Proof.
  induction l as [|u r IH]; intros k i v; cbn [flat_list].
  - split; [contradiction|]. intros [n [E _]]. apply vget_bound in E. cbn in E. lia.
  - assert (Step : (exists n, vget (u :: r) n = Some v /\ v <> dflt /\ i = to_3d (k + n) bits) <->
                   (u = v /\ v <> dflt /\ i = to_3d k bits) \/ In (i, v) (flat_list (k + 1) r)).
    { rewrite IH. split.
      - intros [n [E [D I]]]. rewrite vget_cons in E. destruct (Z.eqb_spec n 0) as [Hn | Hn].
        + rewrite Hn in I. left. rewrite Z.add_0_r in I. split; [congruence | auto].
        + right. exists (n - 1). do 2 (split; [assumption|]). now replace (k + 1 + (n - 1)) with (k + n) by ring.
      - intros [[E [D I]] | [n [E [D I]]]].
        + exists 0. rewrite vget_cons, Z.eqb_refl, Z.add_0_r. subst u. auto.
        + exists (n + 1). pose proof (vget_bound _ _ _ E). rewrite vget_cons.
          destruct (Z.eqb_spec (n + 1) 0); [lia|]. rewrite Z.add_simpl_r.
          do 2 (split; [assumption|]). now replace (k + (n + 1)) with (k + 1 + n) by ring. }
    rewrite Step. destruct (is_default u) eqn:D.
    + apply is_default_ok in D. split; [now right|]. intros [[<- [H _]] | H]; [contradiction | exact H].
    + assert (Du : u <> dflt) by (intros Q; apply is_default_ok in Q; congruence).
      cbn [In]. split; (intros [H | H]; [left | now right]).
      * injection H as <- <-. auto.
      * destruct H as [-> [_ ->]]. reflexivity.
Qed.
Lemma flat_list_NoDup l : forall k, 0 <= k -> vsize l = N - k -> NoDup (map fst (flat_list k l)).
Proof.
  induction l as [|u r IH]; intros k K L; cbn [flat_list map]; [constructor|].
  rewrite vsize_cons in L. pose proof (vsize_nonneg r).
  destruct (is_default u); [apply IH; lia|]. cbn [map fst]. constructor; [|apply IH; lia].
  intros I. apply in_map_iff in I. destruct I as [[i v] [E I]]. cbn [fst] in E. subst i.
  apply flat_list_In in I. destruct I as [n [E [_ I]]]. apply vget_bound in E.
  apply to_3d_inj in I; lia.
Qed.

Lemma flat_ok : ops_ok dflt (flat_ops V dflt is_default bits) (fun c => vsize c = N).
Proof.
  pose proof (pow_pos (3 * bits) ltac:(lia)) as P.
  constructor; cbn [o_size o_new o_value o_modify o_done o_next o_index o_get o_begin flat_ops];
    rewrite ?shiftl1 by lia.
  - now apply pow_pos.
  - rewrite vsize_repeat. lia.
  - intros i I. pose proof (to_flat_range i bits bits_ok I). unfold flat_value.
    apply vget_repeat. lia.
  - intros g i S I. apply vget_some. rewrite S. now apply to_flat_range.
  - intros A f g i v a w S I E F. unfold flat_modify, flat_value in *. rewrite E, F.
    destruct (vset_ok g (to_flat i bits) w) as [c [Ec [Sc Gc]]]; [rewrite S; now apply to_flat_range|].
    rewrite Ec. exists c. split; [reflexivity|]. split; [lia|]. intros j J. rewrite Gc.
    destruct (same3_spec j i) as [-> | Nji]; [now rewrite Z.eqb_refl|].
    destruct (Z.eqb_spec (to_flat j bits) (to_flat i bits)) as [Q|Q]; [|reflexivity].
    elim Nji. now apply (to_flat_inj _ _ bits).
  - intros A f g i v S I E F. unfold flat_modify, flat_value in *. now rewrite E, F.
  - intros g S. exists (flat_list 0 g). split; [apply flat_walk; lia|].
    split; [apply flat_list_NoDup; lia|]. intros i v. rewrite flat_list_In. unfold flat_value. split.
    + intros [n [E [D ->]]]. pose proof (vget_bound _ _ _ E) as B. rewrite S in B.
      destruct (to_3d_ok n bits bits_ok B) as [T1 T2]. rewrite Z.add_0_l, T2. auto.
    + intros [I [E D]]. exists (to_flat i bits). rewrite Z.add_0_l, to_3d_flat; auto.
Qed.
End FlatOk.

Section NestedOk.
Context {V G It : Type}.
Variable dflt : V.
Variable W : gops V G It.
Variable wf : G -> Prop.
Hypothesis WO : ops_ok dflt W wf.
Variable bits : Z.
Hypothesis bits_ok : 0 <= bits.
Local Notation N := (2 ^ (3 * bits)).
Local Notation S := (o_size W).

Definition cells_wf (cells : list (option G)) : Prop :=
  vsize cells = N /\ forall n g, vget cells n = Some (Some g) -> wf g.

(* i = m * S + j with m in the outer and j in the inner cube, uniquely *)
Definition compose (m j : Z3) : Z3 := zip3 (fun c d => c * S + d) m j.
Lemma split1 c : 0 <= c < S * 2 ^ bits ->
  0 <= Z.quot c S < 2 ^ bits /\ 0 <= c - Z.quot c S * S < S.
Proof.
  pose proof (ok_size _ _ _ WO) as P. intros H. rewrite Z.quot_div_nonneg by lia.
  pose proof (Z.div_mod c S ltac:(lia)). pose proof (Z.mod_pos_bound c S P).
  split; [|lia]. split; [apply Z.div_pos; lia|]. apply Z.div_lt_upper_bound; lia.
Qed.
Lemma split_ok i : within 0 (S * 2 ^ bits) i ->
  within 0 (2 ^ bits) (meta_index W i) /\ within 0 S (inner_index W i) /\
  compose (meta_index W i) (inner_index W i) = i.
Proof.
  intros [A [B C]]. apply split1 in A, B, C. split; [|split].
  - exact (conj (proj1 A) (conj (proj1 B) (proj1 C))).
  - exact (conj (proj2 A) (conj (proj2 B) (proj2 C))).
  - apply ext3; unfold compose, inner_index, meta_index, zip3, map3, vx, vy, vz; cbn [fst snd]; ring.
Qed.
Lemma compose1 q r : 0 <= r < S -> 0 <= q -> Z.quot (q * S + r) S = q.
Proof.
  intros H Q. rewrite Z.quot_div_nonneg by nia. symmetry. apply (Z.div_unique _ _ _ r); lia.
Qed.
Lemma compose_ok m j : within 0 (2 ^ bits) m -> within 0 S j ->
  within 0 (S * 2 ^ bits) (compose m j) /\
  meta_index W (compose m j) = m /\ inner_index W (compose m j) = j.
Proof.
  pose proof (ok_size _ _ _ WO) as P. pose proof (pow_pos bits bits_ok) as P2.
  intros [A1 [A2 A3]] [B1 [B2 B3]].
  assert (M : meta_index W (compose m j) = m).
  { apply ext3; unfold compose, meta_index, zip3, map3; apply compose1; lia || assumption. }
  split; [|split; [exact M|]].
  - unfold within, compose, zip3, vx, vy, vz in *. cbn [fst snd] in *. repeat split; nia.
  - unfold inner_index. rewrite M. apply ext3; unfold compose, zip3, vx, vy, vz; cbn [fst snd]; ring.
Qed.

Lemma cells_value_compose cells m j : within 0 (2 ^ bits) m -> within 0 S j ->
  cells_value dflt W bits cells (compose m j) =
  match vget cells (to_flat m bits) with
  | None => None
  | Some None => Some dflt
  | Some (Some g) => o_value W g j
  end.
Proof.
  intros M J. destruct (compose_ok m j M J) as [_ [E1 E2]]. unfold cells_value. now rewrite E1, E2.
Qed.
Lemma split_exists i : within 0 (S * 2 ^ bits) i ->
  exists m j, within 0 (2 ^ bits) m /\ within 0 S j /\ i = compose m j.
Proof. intros H. destruct (split_ok i H) as [A [B C]]. eauto. Qed.
Lemma compose_inj m j m' j' : within 0 (2 ^ bits) m -> within 0 S j -> within 0 (2 ^ bits) m' -> within 0 S j' ->
  compose m j = compose m' j' -> m = m' /\ j = j'.
Proof.
  intros A B A' B' E. destruct (compose_ok m j A B) as [_ [E1 E2]].
  destruct (compose_ok m' j' A' B') as [_ [E1' E2']]. rewrite E in E1, E2. split; congruence.
Qed.

Lemma cells_value_some cells i : cells_wf cells -> within 0 (S * 2 ^ bits) i ->
  exists v, cells_value dflt W bits cells i = Some v.
Proof.
  intros [Sz Wf] I. destruct (split_exists i I) as [m [j [M [J ->]]]]. rewrite cells_value_compose by assumption.
  destruct (vget_some cells (to_flat m bits)) as [[g|] E]; [rewrite Sz; now apply to_flat_range | |]; rewrite E.
  - apply (ok_value _ _ _ WO); eauto.
  - eauto.
Qed.

Lemma cells_modify_ok A (f : V -> option (A * V)) cells i v a w : cells_wf cells -> within 0 (S * 2 ^ bits) i ->
  cells_value dflt W bits cells i = Some v -> f v = Some (a, w) ->
  exists c', cells_modify W bits f cells i = Some (a, c') /\ cells_wf c' /\
    forall j, within 0 (S * 2 ^ bits) j ->
      cells_value dflt W bits c' j = if same3 j i then Some w else cells_value dflt W bits cells j.
Proof.
  intros [Sz Wf] I E F. destruct (split_exists i I) as [m [k [M [K ->]]]].
  rewrite cells_value_compose in E by assumption.
  destruct (compose_ok m k M K) as [_ [E1 E2]]. unfold cells_modify. rewrite E1, E2.
  pose proof (to_flat_range m bits bits_ok M) as R.
  destruct (vget_some cells (to_flat m bits)) as [og Eg]; [lia|]. rewrite Eg in E |- *.
  set (g := match og with Some g => g | None => o_new W end).
  assert (Hg : wf g /\ o_value W g k = Some v).
  { unfold g. destruct og as [g0|].
    - split; [eauto | exact E].
    - split; [apply (ok_new _ _ _ WO)|]. rewrite (ok_new_value _ _ _ WO) by exact K. exact E. }
  destruct Hg as [Wg Eg'].
  destruct (ok_modify _ _ _ WO A f g k v a w Wg K Eg' F) as [g' [Em [Wg' Vg']]]. rewrite Em.
  destruct (vset_ok cells (to_flat m bits) (Some g')) as [c [Ec [Sc Gc]]]; [lia|]. rewrite Ec.
  exists c. split; [reflexivity|]. split.
  - split; [lia|]. intros n h. rewrite Gc. destruct (n =? to_flat m bits); [congruence | apply Wf].
  - intros j J. destruct (split_exists j J) as [m' [k' [M' [K' ->]]]].
    rewrite !cells_value_compose by assumption. rewrite Gc.
    destruct (Z.eqb_spec (to_flat m' bits) (to_flat m bits)) as [Q|Q].
    + apply to_flat_inj in Q; auto. subst m'. rewrite Vg' by exact K'. rewrite Eg.
      destruct (same3_spec k' k) as [-> | Nk].
      * now rewrite same3_refl.
      * destruct (same3_spec (compose m k') (compose m k)) as [Q | _].
        { apply compose_inj in Q; auto. destruct Q. congruence. }
        unfold g. destruct og as [g0|]; [reflexivity|]. apply (ok_new_value _ _ _ WO); exact K'.
    + destruct (same3_spec (compose m' k') (compose m k)) as [Q' | _]; [|reflexivity].
      apply compose_inj in Q'; auto. destruct Q'. congruence.
Qed.

Lemma cells_modify_fail A (f : V -> option (A * V)) cells i v : cells_wf cells -> within 0 (S * 2 ^ bits) i ->
  cells_value dflt W bits cells i = Some v -> f v = None -> cells_modify W bits f cells i = None.
Proof.
  intros [Sz Wf] I E F. destruct (split_exists i I) as [m [k [M [K ->]]]].
  rewrite cells_value_compose in E by assumption.
  destruct (compose_ok m k M K) as [_ [E1 E2]]. unfold cells_modify. rewrite E1, E2.
  destruct (vget cells (to_flat m bits)) as [[g|]|] eqn:Eg; [| |reflexivity].
  - now rewrite (ok_fail _ _ _ WO A f g k v (Wf _ _ Eg) K E F).
  - assert (E' : o_value W (o_new W) k = Some v) by (rewrite (ok_new_value _ _ _ WO) by exact K; exact E).
    now rewrite (ok_fail _ _ _ WO A f _ k v (ok_new _ _ _ WO) K E' F).
Qed.

(* the iterator *)
Local Notation nwalk := (walk cells_done (cells_next W) (cells_index W bits) (cells_get W)).
Lemma nested_walk_inner og r Lr m : nwalk (cells_advance W r) Lr ->
  m = to_3d (N - vsize (og :: r)) bits ->
  forall it l, walk (o_done W) (o_next W) (o_index W) (o_get W) it l -> l <> [] ->
  nwalk (og :: r, Some it) (map (fun p => (compose m (fst p), snd p)) l ++ Lr).
Proof.
  intros HL Hm it l Hw. induction Hw as [it D | it v l D E Hw IH]; intros NE; [congruence|].
  cbn [map app fst snd].
  assert (Ei : compose m (o_index W it) = cells_index W bits (og :: r, Some it)).
  { unfold cells_index. cbn [fst snd]. rewrite shiftl1 by lia. now rewrite <- Hm. }
  rewrite Ei. constructor; [reflexivity | exact E |].
  unfold cells_next. cbn [fst snd tl]. pose proof (walk_nil _ _ _ _ _ _ Hw) as WN.
  destruct (o_done W (o_next W it)).
  - rewrite (proj1 WN eq_refl). exact HL.
  - apply IH. intros ->. now discriminate (proj2 WN eq_refl).
Qed.

Lemma NoDup_app_intro {A} (l1 l2 : list A) : NoDup l1 -> NoDup l2 ->
  (forall x, In x l1 -> ~ In x l2) -> NoDup (l1 ++ l2).
Proof.
  induction l1 as [|x l1 IH]; intros N1 N2 D; cbn; [exact N2|]. inversion N1; subst. constructor.
  - rewrite in_app_iff. intros [Q | Q]; [contradiction|]. apply (D x); [now left | exact Q].
  - apply IH; auto. intros z Hz. apply D. now right.
Qed.

Lemma nested_walk l : (forall n g, vget l n = Some (Some g) -> wf g) -> forall k, 0 <= k -> vsize l = N - k ->
  exists L, nwalk (cells_advance W l) L /\ NoDup (map fst L) /\
    forall i v, In (i, v) L <-> exists n g j, vget l n = Some (Some g) /\ within 0 S j /\
      o_value W g j = Some v /\ v <> dflt /\ i = compose (to_3d (k + n) bits) j.
Proof.
  induction l as [|og r IH]; intros Wf k K L.
  { exists []. split; [now constructor|]. split; [constructor|]. intros i v. split; [contradiction|].
    intros [n [g [j [E _]]]]. apply vget_bound in E. cbn in E. lia. }
  rewrite vsize_cons in L. pose proof (vsize_nonneg r) as Rn.
  destruct (IH) with (k := k + 1) as [Lr [Wr [Nr Ir]]]; [|lia|lia|].
  { intros n g E. apply (Wf (n + 1)). pose proof (vget_bound _ _ _ E). rewrite vget_cons.
    destruct (Z.eqb_spec (n + 1) 0); [lia|]. now rewrite Z.add_simpl_r. }
  assert (Step : forall i v,
    (exists n g j, vget (og :: r) n = Some (Some g) /\ within 0 S j /\
      o_value W g j = Some v /\ v <> dflt /\ i = compose (to_3d (k + n) bits) j) <->
    (exists g j, og = Some g /\ within 0 S j /\ o_value W g j = Some v /\ v <> dflt /\
       i = compose (to_3d k bits) j) \/ In (i, v) Lr).
  { intros i v. rewrite Ir. split.
    - intros [n [g [j [E [J [Ev [D I]]]]]]]. rewrite vget_cons in E. destruct (Z.eqb_spec n 0) as [Hn | Hn].
      + left. exists g, j. rewrite Hn, Z.add_0_r in I. injection E as ->. auto.
      + right. exists (n - 1), g, j. replace (k + 1 + (n - 1)) with (k + n) by ring. auto.
    - intros [[g [j [E [J [Ev [D I]]]]]] | [n [g [j [E [J [Ev [D I]]]]]]]].
      + exists 0, g, j. rewrite vget_cons, Z.eqb_refl, Z.add_0_r, E. auto.
      + exists (n + 1), g, j. pose proof (vget_bound _ _ _ E). rewrite vget_cons.
        destruct (Z.eqb_spec (n + 1) 0); [lia|]. rewrite Z.add_simpl_r.
        replace (k + (n + 1)) with (k + 1 + n) by ring. auto. }
  destruct og as [g|]; cbn [cells_advance].
  - assert (Wg : wf g) by (apply (Wf 0); reflexivity).
    destruct (ok_iter _ _ _ WO g Wg) as [lg [Hw [Ng Ig]]].
    set (F := fun p : Z3 * V => (compose (to_3d k bits) (fst p), snd p)).
    assert (K3 : within 0 (2 ^ bits) (to_3d k bits)) by (apply to_3d_ok; lia).
    exists (map F lg ++ Lr). split.
    + pose proof (walk_nil _ _ _ _ _ _ Hw) as WN. destruct (o_done W (o_begin W g)) eqn:D.
      * rewrite (proj1 WN eq_refl). exact Wr.
      * apply nested_walk_inner; auto.
        { f_equal. rewrite vsize_cons. lia. }
        intros ->. now discriminate (proj2 WN eq_refl).
    + split.
      * rewrite map_app. apply NoDup_app_intro; [|exact Nr|].
        { rewrite map_map. unfold F. cbn [fst]. rewrite <- (map_map fst (compose (to_3d k bits))).
          apply NoDup_map_in; [exact Ng|]. intros a b A B E.
          apply in_map_iff in A, B. destruct A as [[a' va] [<- A]]. destruct B as [[b' vb] [<- B]].
          apply Ig in A, B. cbn [fst] in *. apply compose_inj in E; tauto. }
        { intros x X Y. apply in_map_iff in X, Y. destruct X as [[x1 v1] [<- X]]. destruct Y as [[y1 v2] [E Y]].
          apply in_map_iff in X. destruct X as [[x0 v0] [EF X]]. unfold F in EF. cbn [fst snd] in *.
          injection EF as <- <-. apply Ig in X. apply Ir in Y. destruct Y as [n [g' [j [E' [J [_ [_ ->]]]]]]].
          pose proof (vget_bound _ _ _ E') as B.
          apply compose_inj in E; try tauto; [|apply to_3d_ok; lia].
          destruct E as [E _]. apply to_3d_inj in E; lia. }
      * intros i v. rewrite in_app_iff, Step, in_map_iff. apply or_iff_compat_r. split.
        { intros [[j w] [E I]]. unfold F in E. cbn [fst snd] in E. injection E as <- <-. apply Ig in I.
          exists g, j. tauto. }
        { intros [g' [j [E [J [Ev [D ->]]]]]]. injection E as <-. exists (j, v). split; [reflexivity|].
          apply Ig. auto. }
  - exists Lr. split; [exact Wr|]. split; [exact Nr|]. intros i v. rewrite Step. split; [now right|].
    intros [[g [j [E _]]] | H]; [discriminate | exact H].
Qed.

Lemma cells_iter cells : cells_wf cells -> exists L, nwalk (cells_advance W cells) L /\ NoDup (map fst L) /\
  forall i v, In (i, v) L <-> within 0 (S * 2 ^ bits) i /\ cells_value dflt W bits cells i = Some v /\ v <> dflt.
Proof.
  intros [Sz Wf]. destruct (nested_walk cells Wf 0 ltac:(lia) ltac:(lia)) as [L [Hw [Nd Il]]].
  exists L. split; [exact Hw|]. split; [exact Nd|]. intros i v. rewrite Il. split.
  - intros [n [g [j [E [J [Ev [D ->]]]]]]]. pose proof (vget_bound _ _ _ E) as B. rewrite Sz in B.
    destruct (to_3d_ok n bits bits_ok B) as [T1 T2]. rewrite Z.add_0_l.
    destruct (compose_ok _ _ T1 J) as [Wi _]. rewrite cells_value_compose, T2, E by assumption. auto.
  - intros [I [E D]]. destruct (split_exists i I) as [m [j [M [J ->]]]].
    rewrite cells_value_compose in E by assumption.
    destruct (vget cells (to_flat m bits)) as [[g|]|] eqn:Eg; [|congruence|discriminate].
    exists (to_flat m bits), g, j. rewrite Z.add_0_l, to_3d_flat by assumption. auto.
Qed.

Lemma cells_new : cells_wf (repeat None (Z.to_nat N)) /\
  forall i, within 0 (S * 2 ^ bits) i -> cells_value dflt W bits (repeat None (Z.to_nat N)) i = Some dflt.
Proof.
  pose proof (pow_pos (3 * bits) ltac:(lia)) as P.
  assert (GN : forall n o, vget (repeat (@None G) (Z.to_nat N)) n = Some o -> o = None).
  { intros n o E. pose proof (vget_bound _ _ _ E) as B. rewrite vsize_repeat in B.
    rewrite vget_repeat in E by lia. congruence. }
  split.
  - split; [rewrite vsize_repeat; lia|]. intros n g E. apply GN in E. discriminate.
  - intros i I. destruct (split_exists i I) as [m [j [M [J ->]]]]. rewrite cells_value_compose by assumption.
    pose proof (to_flat_range m bits bits_ok M). rewrite vget_repeat by lia. reflexivity.
Qed.

Lemma nested_ok : ops_ok dflt (nested_ops dflt W bits) cells_wf.
Proof.
  pose proof (ok_size _ _ _ WO) as P. pose proof (pow_pos bits bits_ok) as P2.
  constructor; cbn [o_size o_new o_value o_modify o_done o_next o_index o_get o_begin nested_ops];
    rewrite ?shiftl1, ?Z.shiftl_mul_pow2 by lia.
  - nia.
  - apply cells_new.
  - apply cells_new.
  - apply cells_value_some.
  - apply cells_modify_ok.
  - apply cells_modify_fail.
  - apply cells_iter.
Qed.
End NestedOk.
