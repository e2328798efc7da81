From Coq Require Import ZArith Reals List Bool Lra Lia Permutation.
From Verif Require Import CF_Model RG_Model RG_Proofs RH_Model RH_Spec RH_Turn MG_Model MG_Spec.
Import ListNotations.
Open Scope R_scope.

Lemma same_id_eq a b : same_id a b = true <-> a = b.
Proof. destruct a, b. unfold same_id. cbn [fst snd]. rewrite andb_true_iff, !Z.eqb_eq. split; [intros [-> ->]; reflexivity | intros [= -> ->]; auto]. Qed.
Lemma same_id_refl a : same_id a a = true.
Proof. now apply same_id_eq. Qed.
Lemma find_in {A} i (l : list (ident * A)) : In i (map fst l) -> exists a, find_id i l = Some a /\ In (i, a) l.
Proof.
  induction l as [|[j b] l IH]; cbn [map fst In find_id]; [tauto|]. intros H. destruct (same_id i j) eqn:E.
  - apply same_id_eq in E. subst. exists b. auto.
  - destruct H as [<- | H]; [now rewrite same_id_refl in E|]. destruct (IH H) as [a [F I]]. exists a. auto.
Qed.
Lemma set_fst {A} i (a : A) l : map fst (set_id i a l) = map fst l.
Proof. induction l as [|[j b] l IH]; [reflexivity|]. cbn [set_id]. destruct (same_id i j); [reflexivity|]. cbn [map fst]. now rewrite IH. Qed.

Lemma turned_eq pose n : turned_histogram pose n = rotate_histogram (mn_histogram n) (turn_into pose n).
Proof. unfold turned_histogram, turn_into. do 2 f_equal. unfold qmul. cbn [qw qx qy qz]. f_equal; ring. Qed.

(* sums of histograms of one size *)
Fixpoint plus (h g : list R) : list R := match h, g with a :: h, b :: g => a + b :: plus h g | _, _ => [] end.
Lemma add_bins_plus h : forall g, length h = length g -> add_bins h g = Some (plus h g).
Proof. induction h as [|a h IH]; intros [|b g] L; try discriminate; [reflexivity|]. cbn [add_bins plus]. now rewrite IH by (now injection L). Qed.
Lemma plus_length h : forall g, length h = length g -> length (plus h g) = length h.
Proof. induction h as [|a h IH]; intros [|b g] L; try discriminate; [reflexivity|]. cbn [plus length]. f_equal. apply IH. now injection L. Qed.
Lemma plus_bin h : forall g k, length h = length g -> bin_at (plus h g) k = bin_at h k + bin_at g k.
Proof.
  unfold bin_at. induction h as [|a h IH]; intros [|b g] k L; try discriminate; [destruct k; cbn; lra|]. destruct k; cbn [plus nth]; [reflexivity|]. apply IH. now injection L.
Qed.
Lemma plus_mass h : forall g, length h = length g -> mass (plus h g) = mass h + mass g.
Proof. induction h as [|a h IH]; intros [|b g] L; try discriminate; [cbn; lra|]. cbn [plus mass]. rewrite IH by (now injection L). lra. Qed.
Lemma plus_zero h : plus (repeat 0 (length h)) h = h.
Proof. induction h as [|a h IH]; [reflexivity|]. cbn [length repeat plus]. rewrite IH. f_equal. lra. Qed.

Definition acc (pose : quat) (h : list R) (n : mnode) : list R := match h with [] => turned_histogram pose n | _ => plus h (turned_histogram pose n) end.
Definition after (ns : list mnode) (s : msubmap) : msubmap := match s with m_3d p h => m_3d p (fold_left (acc p) ns h) | s => s end.

Section Size.
Variable size : nat.
Lemma turned_length pose n : length (mn_histogram n) = size -> length (turned_histogram pose n) = size.
Proof. intros L. unfold turned_histogram. now rewrite rotate_length. Qed.
Lemma acc_length pose h n : (h = [] \/ length h = size) -> length (mn_histogram n) = size -> length (acc pose h n) = size.
Proof.
  intros H L. pose proof (turned_length pose n L) as T. unfold acc. destruct h; [exact T|]. destruct H as [H | H]; [discriminate|]. rewrite plus_length; congruence.
Qed.
Lemma acc_add pose h n : (h = [] \/ length h = size) -> length (mn_histogram n) = size -> add_histogram h (turned_histogram pose n) = Some (acc pose h n).
Proof.
  intros H L. pose proof (turned_length pose n L) as T. unfold acc, add_histogram. destruct h; [reflexivity|]. destruct H as [H | H]; [discriminate|]. apply add_bins_plus. congruence.
Qed.

Definition fits (s : msubmap) : Prop := exists p h, s = m_3d p h /\ (h = [] \/ length h = size).
Definition moved (nodes : list (ident * mnode)) cs (s : ident * msubmap) : ident * msubmap := (fst s, after (inserted nodes (fst s) cs) (snd s)).

Lemma set_map i (f : msubmap -> msubmap) l s : NoDup (map fst l) -> find_id i l = Some s ->
  set_id i (f s) l = map (fun e => (fst e, if same_id i (fst e) then f (snd e) else snd e)) l.
Proof.
  induction l as [|[j b] l IH]; [reflexivity|]. cbn [map fst snd find_id set_id]. intros N. inversion N as [|? ? NI N']; subst. destruct (same_id i j) eqn:E.
  - intros [= ->]. apply same_id_eq in E. subst j. f_equal. rewrite <- (map_id l) at 1. apply map_ext_in. intros [k c] K. cbn [fst snd].
    destruct (same_id i k) eqn:Q; [|reflexivity]. apply same_id_eq in Q. subst k. exfalso. apply NI. now apply (in_map fst) in K.
  - intros F. f_equal. now apply IH.
Qed.

Lemma migrate_fold nodes : good_nodes size nodes -> forall cs l, NoDup (map fst l) -> (forall s, In s l -> fits (snd s)) ->
  (forall c, In c cs -> good_constraint l nodes c) -> fold_left (migrate_step nodes) cs (Some l) = Some (map (moved nodes cs) l).
Proof.
  intros G. induction cs as [|c cs IH]; intros l N F C.
  - cbn [fold_left]. f_equal. rewrite <- (map_id l) at 1. apply map_ext. intros [i s]. unfold moved. cbn [fst snd inserted after fold_left]. destruct s; reflexivity.
  - cbn [fold_left]. unfold migrate_step at 2. destruct (mc_intra c) eqn:I.
    + destruct (C c (or_introl eq_refl) I) as [CS CN]. destruct (find_in _ _ CN) as [n [FN IN]]. destruct (find_in _ _ CS) as [s [FS IS]]. rewrite FN, FS.
      destruct (F _ IS) as [p [h [E L]]]. cbn [snd] in E. subst s. specialize (G _ _ IN).
      rewrite (acc_add p h n L G).
      rewrite (set_map (mc_submap c) (after [n]) l (m_3d p h) N FS : set_id (mc_submap c) (m_3d p (acc p h n)) l = _).
      rewrite IH.
      * f_equal. rewrite map_map. apply map_ext_in. intros [i s] IL. unfold moved. cbn [fst snd inserted]. rewrite FN, I. cbn [andb].
        f_equal. destruct (same_id (mc_submap c) i); [|reflexivity]. destruct s; reflexivity.
      * rewrite map_map. exact N.
      * intros s IL. apply in_map_iff in IL. destruct IL as [[i s'] [<- IL]]. cbn [fst snd]. destruct (F _ IL) as [p' [h' [E' L']]]. cbn [snd] in E'. subst s'.
        destruct (same_id _ _); [|now exists p', h']. exists p', (acc p' h' n). split; [reflexivity|]. right. now apply acc_length.
      * intros c' IC. assert (Q : map fst (map (fun e : ident * msubmap => (fst e, if same_id (mc_submap c) (fst e) then after [n] (snd e) else snd e)) l) = map fst l) by (now rewrite map_map).
        intros I'. rewrite Q. now apply (C c' (or_intror IC)).
    + rewrite IH; [|exact N | exact F | intros c' IC; apply C; now right]. f_equal. apply map_ext. intros [i s]. unfold moved. cbn [fst snd inserted]. rewrite I. cbn [andb].
      destruct (find_id (mc_node c) nodes); reflexivity.
Qed.

Lemma acc_fold pose ns : (forall n, In n ns -> length (mn_histogram n) = size) -> forall h, (h = [] \/ length h = size) ->
  (fold_left (acc pose) ns h = [] \/ length (fold_left (acc pose) ns h) = size) /\
  (forall k, bin_at (fold_left (acc pose) ns h) k = bin_at h k + total (fun n => bin_at (turned_histogram pose n) k) ns) /\
  mass (fold_left (acc pose) ns h) = mass h + total (fun n => mass (mn_histogram n)) ns.
Proof.
  induction ns as [|n ns IH]; intros G h H; cbn [fold_left total]; [repeat split; [exact H | intros k; lra | lra]|].
  assert (L : length (mn_histogram n) = size) by (apply G; now left).
  destruct (IH (fun m I => G m (or_intror I)) (acc pose h n) (or_intror (acc_length pose h n H L))) as [A [B D]]. split; [exact A|].
  assert (T := turned_length pose n L). split.
  - intros k. rewrite B. unfold acc. destruct h as [|a h]; [replace (bin_at [] k) with 0 by (unfold bin_at; destruct k; reflexivity); lra|]. destruct H as [H | H]; [discriminate|]. rewrite plus_bin by congruence. lra.
  - rewrite D. unfold acc. assert (M : mass (turned_histogram pose n) = mass (mn_histogram n)) by apply rotate_mass. destruct h as [|a h]; [cbn [mass]; lra|].
    destruct H as [H | H]; [discriminate|]. rewrite plus_mass by congruence. lra.
Qed.
Lemma acc_nonempty pose ns : (forall n, In n ns -> length (mn_histogram n) = size) -> forall h, length h = size -> length (fold_left (acc pose) ns h) = size.
Proof.
  induction ns as [|n ns IH]; intros G h H; cbn [fold_left]; [exact H|]. apply IH; [intros m I; apply G; now right|]. apply acc_length; [now right | apply G; now left].
Qed.
Lemma live_fold pose ns : (forall n, In n ns -> length (mn_histogram n) = size) -> forall h, length h = size ->
  fold_left (live_step pose) ns (Some h) = Some (fold_left (acc pose) ns h).
Proof.
  induction ns as [|n ns IH]; intros G h H; cbn [fold_left]; [reflexivity|]. assert (L : length (mn_histogram n) = size) by (apply G; now left).
  assert (T := turned_length pose n L). unfold live_step at 2. fold (turn_into pose n). rewrite <- turned_eq, H, T, Nat.eqb_refl, add_bins_plus by congruence.
  replace (plus h (turned_histogram pose n)) with (acc pose h n).
  - apply IH; [intros m I; apply G; now right|]. apply acc_length; [now right | exact L].
  - unfold acc. destruct h; [|reflexivity]. cbn [length] in H. subst size. destruct (turned_histogram pose n); [reflexivity | discriminate].
Qed.
Lemma inserted_good nodes i cs : good_nodes size nodes -> forall n, In n (inserted nodes i cs) -> length (mn_histogram n) = size.
Proof.
  intros G. induction cs as [|c cs IH]; cbn [inserted]; intros n I; [destruct I|]. destruct (find_id (mc_node c) nodes) as [m|] eqn:F; [|now apply IH].
  destruct (_ && _); [|now apply IH]. destruct I as [<- | I]; [|now apply IH].
  clear IH. revert F. induction nodes as [|[j b] nodes IHn]; [discriminate|]. cbn [find_id]. destruct (same_id _ j); [intros [= ->]; apply (G j); now left|].
  intros F. apply IHn; [intros i' n' I'; apply (G i'); now right | exact F].
Qed.
End Size.

Lemma total_perm {A} (f : A -> R) l l' : Permutation l l' -> total f l = total f l'.
Proof. induction 1; cbn [total]; lra. Qed.
Lemma inserted_perm nodes i cs cs' : Permutation cs cs' -> Permutation (inserted nodes i cs) (inserted nodes i cs').
Proof.
  induction 1; cbn [inserted]; [constructor| | |eapply perm_trans; eassumption].
  - destruct (find_id _ _); [|assumption]. destruct (_ && _); [now constructor | assumption].
  - destruct (find_id (mc_node x) nodes), (find_id (mc_node y) nodes); repeat (destruct (_ && _)); try reflexivity; apply perm_swap.
Qed.
