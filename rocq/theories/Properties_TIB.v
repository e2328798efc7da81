(* Properties of the transform interpolation buffer: C13. *)
From Coq Require Import List ZArith Bool Lia Sorted.
From Verif Require Import TIB_Model.
Import ListNotations.
Open Scope Z_scope.

Section Spec.
Context {P : Type}.
(* the transforms pushed since the last Clear *)
Fixpoint pushed (acc : list (Z * P)) (ops : list (bop P)) : list (Z * P) :=
  match ops with
  | [] => acc
  | Push t p :: r => pushed (acc ++ [(t, p)]) r
  | SetSizeLimit _ :: r => pushed acc r
  | Clear :: r => pushed [] r
  end.
(* the current limit and how many of them are to be kept *)
Fixpoint kept (lim k : Z) (ops : list (bop P)) : Z * Z :=
  match ops with
  | [] => (lim, k)
  | Push _ _ :: r => kept lim (Z.min lim (k + 1)) r
  | SetSizeLimit n :: r => kept n (Z.min n k) r
  | Clear :: r => kept lim 0 r
  end.
Definition limits_ok (ops : list (bop P)) : Prop := forall n, In (SetSizeLimit n) ops -> 0 <= n.
Definition in_order (l : list (Z * P)) : Prop := StronglySorted (fun a b => fst a <= fst b) l.
End Spec.

Section Proofs.
Context {P : Type}.
Variable blend : Z * P -> Z * P -> Z -> P.

Lemma remove_old_skipn l n : 0 <= n ->
  @remove_old P l n = skipn (length l - Z.to_nat n) l.
Proof.
  intros N. induction l as [|a r IH]; cbn [remove_old length]; [now rewrite skipn_nil|].
  destruct (Z.ltb_spec n (Z.of_nat (S (length r)))) as [L | L].
  - rewrite IH. replace (S (length r) - Z.to_nat n)%nat with (S (length r - Z.to_nat n)) by lia. reflexivity.
  - replace (S (length r) - Z.to_nat n)%nat with 0%nat by lia. reflexivity.
Qed.
Lemma remove_old_suffix l n : 0 <= n -> exists d, l = d ++ @remove_old P l n /\
  Z.of_nat (length (@remove_old P l n)) = Z.min n (Z.of_nat (length l)).
Proof.
  intros N. rewrite remove_old_skipn by exact N. exists (firstn (length l - Z.to_nat n) l). split.
  - symmetry. apply firstn_skipn.
  - rewrite skipn_length. lia.
Qed.
Lemma sorted_suffix (d l : list (Z * P)) : in_order (d ++ l) -> in_order l.
Proof. induction d as [|a d IH]; cbn; [auto|]. intros S. inversion S; auto. Qed.
Lemma last_snoc (l : list (Z * P)) : l = [] \/ exists r a, l = r ++ [a].
Proof. destruct l using rev_ind; eauto. Qed.
Lemma latest_max (b : buffer P) t : in_order (items b) -> latest_time P b = Some t ->
  forall a, In a (items b) -> fst a <= t.
Proof.
  unfold latest_time. intros S E a I. destruct (last_snoc (items b)) as [N | [r [x N]]].
  - rewrite N in I. destruct I.
  - rewrite N in *. rewrite rev_app_distr in E. cbn in E. injection E as <-.
    apply in_app_or in I. destruct I as [I | [<- | []]]; [|lia].
    clear - S I. induction r as [|y r IH]; [destruct I|]. inversion S as [|? ? S1 F]; subst.
    destruct I as [<- | I]; [|now apply IH].
    rewrite Forall_forall in F. apply (F x). apply in_or_app. right. now left.
Qed.
Lemma snoc_sorted (l : list (Z * P)) t p : in_order l -> (forall a, In a l -> fst a <= t) -> in_order (l ++ [(t, p)]).
Proof.
  induction l as [|a l IH]; cbn; intros S H.
  - repeat constructor.
  - inversion S as [|? ? S1 F]; subst. constructor.
    + apply IH; auto.
    + apply Forall_app. split; [exact F|]. repeat constructor. cbn. apply H. now left.
Qed.

(* contents *)
Lemma brun_contents (ops : list (bop P)) : forall b acc, limits_ok ops -> 0 <= limit b ->
  in_order (items b) -> (exists d, acc = d ++ items b) ->
  forall b', brun b ops = Some b' ->
  in_order (items b') /\ (exists d, pushed acc ops = d ++ items b') /\
  kept (limit b) (Z.of_nat (length (items b))) ops = (limit b', Z.of_nat (length (items b'))).
Proof.
  induction ops as [|o r IH]; intros b acc L Lb S D b' E; cbn [brun] in E.
  - assert (b' = b) as -> by congruence. auto.
  - assert (Lr : limits_ok r) by (intros n I; apply L; now right).
    destruct (bstep b o) as [b1|] eqn:E1; [|discriminate]. destruct D as [d D]. destruct o as [t p | n |]; cbn [bstep] in E1.
    + unfold push in E1. destruct (match latest_time P b with None => true | Some u => u <=? t end) eqn:T; [|discriminate].
      assert (b1 = mk_buffer (remove_old (items b ++ [(t, p)]) (limit b)) (limit b)) as -> by congruence.
      destruct (remove_old_suffix (items b ++ [(t, p)]) (limit b) Lb) as [x [X Y]].
      rewrite app_length in Y. cbn [length] in Y. cbn [pushed kept].
      assert (So : in_order (items b ++ [(t, p)])).
      { apply snoc_sorted; [exact S|]. intros a I. destruct (latest_time P b) as [u|] eqn:U.
        - pose proof (latest_max b u S U a I). apply Z.leb_le in T. lia.
        - unfold latest_time in U. destruct (last_snoc (items b)) as [N | [r0 [y N]]]; [rewrite N in I; destruct I|].
          rewrite N, rev_app_distr in U. discriminate U. }
      specialize (IH (mk_buffer (remove_old (items b ++ [(t, p)]) (limit b)) (limit b)) (acc ++ [(t, p)]) Lr Lb).
      cbn [items limit] in IH. replace (Z.min (limit b) (Z.of_nat (length (items b)) + 1))
        with (Z.of_nat (length (remove_old (items b ++ [(t, p)]) (limit b)))) by lia.
      apply IH; auto.
      * rewrite X in So. now apply sorted_suffix in So.
      * exists (d ++ x). rewrite D, <- !app_assoc, <- X. reflexivity.
    + assert (N : 0 <= n) by (apply L; now left).
      assert (b1 = set_size_limit P b n) as -> by congruence. unfold set_size_limit in *.
      destruct (remove_old_suffix (items b) n N) as [x [X Y]]. cbn [pushed kept].
      specialize (IH (mk_buffer (remove_old (items b) n) n) acc Lr N).
      cbn [items limit] in IH. rewrite <- Y. apply IH; auto.
      * rewrite X in S. now apply sorted_suffix in S.
      * exists (d ++ x). rewrite D, <- !app_assoc, <- X. reflexivity.
    + assert (b1 = clear_buffer P b) as -> by congruence. unfold clear_buffer in *. cbn [pushed kept].
      apply (IH (mk_buffer [] (limit b)) []); auto.
      * constructor.
      * now exists [].
Qed.

Lemma has_iff (b : buffer P) t : in_order (items b) ->
  (has b t = true <-> exists x y, In x (items b) /\ In y (items b) /\ fst x <= t <= fst y).
Proof.
  intros S. unfold has. destruct (items b) as [|a l] eqn:D.
  - unfold earliest_time. rewrite D. cbn. split; [discriminate | intros [x [_ [[] _]]]].
  - unfold earliest_time. rewrite D. cbn [hd_error option_map].
    destruct (latest_time P b) as [u|] eqn:U.
    2:{ unfold latest_time in U. rewrite D in U. destruct (last_snoc (a :: l)) as [N | [r [y N]]]; [discriminate|].
        rewrite N, rev_app_distr in U. discriminate U. }
    assert (Iu : exists y, In y (a :: l) /\ fst y = u).
    { unfold latest_time in U. rewrite D in U. destruct (last_snoc (a :: l)) as [N | [r [y N]]]; [discriminate|].
      rewrite N, rev_app_distr in U. cbn in U. injection U as <-. exists y. split; [|reflexivity].
      rewrite N. apply in_or_app. right. now left. }
    rewrite <- D in S. pose proof (latest_max b u S U) as M. rewrite D in M, S.
    inversion S as [|? ? _ F]; subst. rewrite Forall_forall in F.
    rewrite andb_true_iff, !Z.leb_le. split.
    + intros H. destruct Iu as [y [Iy <-]]. exists a, y. split; [now left|]. split; [exact Iy | lia].
    + intros [x [y [Ix [Iy H]]]]. specialize (M y Iy). destruct Ix as [<- | Ix]; [lia|]. specialize (F x Ix). lia.
Qed.

Lemma lookup_from_ok t l : forall prev, in_order l ->
  match prev with Some s => fst s < t | None => match l with a :: _ => fst a <= t | [] => False end end ->
  (exists y, In y l /\ t <= fst y) ->
  (exists l1 p l2, l = l1 ++ (t, p) :: l2 /\ (forall a, In a l1 -> fst a < t) /\ lookup_from blend prev l t = Some p) \/
  (exists s a l2, (exists l1, match prev with Some q => q :: l | None => l end = l1 ++ s :: a :: l2) /\
     fst s < t < fst a /\ lookup_from blend prev l t = Some (blend s a t)).
Proof.
  induction l as [|a l IH]; intros prev S Hp [y [Iy Ty]]; [destruct Iy|]. cbn [lookup_from].
  inversion S as [|? ? S1 F]; subst.
  destruct (Z.ltb_spec (fst a) t) as [L | L].
  - assert (Iy' : exists y, In y l /\ t <= fst y) by (destruct Iy as [<- | Iy]; [lia | eauto]).
    destruct (IH (Some a) S1 L Iy') as [[l1 [p [l2 [E [B R]]]]] | [s [x [l2 [[l1 E] [B R]]]]]].
    + left. exists (a :: l1), p, l2. split; [now rewrite E|]. split; [|exact R]. intros z [<- | Z']; auto.
    + right. exists s, x, l2. split; [|split; [exact B | exact R]].
      destruct prev as [q|]; [exists (q :: l1); now rewrite E | exists l1; exact E].
  - destruct (Z.eqb_spec (fst a) t) as [E | E].
    + left. exists [], (snd a), l. split; [destruct a; cbn in *; now subst|]. split; [intros z []|]. reflexivity.
    + destruct prev as [s|]; [|lia]. right. exists s, a, l. split; [now exists []|]. split; [lia|].
      unfold interpolate. replace ((fst s <=? t) && (t <=? fst a)) with true; [reflexivity|].
      symmetry. apply andb_true_intro. split; apply Z.leb_le; lia.
Qed.
End Proofs.

(* the buffer holds the most recent pushes in time order, as many as the limits allow *)
Theorem C13_contents : forall P (ops : list (bop P)) b, limits_ok ops -> brun buffer_new ops = Some b ->
  in_order (items b) /\ (exists old, pushed [] ops = old ++ items b) /\
  (limit b, Z.of_nat (length (items b))) = kept (2 ^ 64 - 1) 0 ops.
Proof.
  intros P ops b L E.
  destruct (brun_contents ops buffer_new [] L) with (b' := b) as [A [B C]]; auto.
  - cbn. lia.
  - constructor.
  - now exists [].
Qed.

(* Push aborts exactly if the transform is older than the latest stored one *)
Theorem C13_push : forall P (ops : list (bop P)) b t p, limits_ok ops -> brun buffer_new ops = Some b ->
  (bstep b (Push t p) = None <-> exists a, In a (items b) /\ t < fst a).
Proof.
  intros P ops b t p L E. destruct (C13_contents P ops b L E) as [S _]. cbn [bstep]. unfold push.
  destruct (latest_time P b) as [u|] eqn:U.
  - pose proof (latest_max b u S U) as M.
    destruct (Z.leb_spec u t) as [H | H]; split; try discriminate; intros Q.
    + destruct Q as [a [Ia Ta]]. specialize (M a Ia). lia.
    + unfold latest_time in U. destruct (last_snoc (items b)) as [N | [r [y N]]].
      * rewrite N in U. discriminate U.
      * rewrite N in *. rewrite rev_app_distr in U. cbn in U. injection U as <-. exists y. split; [|exact H].
        apply in_or_app. right. now left.
    + reflexivity.
  - split; [discriminate|]. intros [a [Ia _]]. unfold latest_time in U.
    destruct (last_snoc (items b)) as [N | [r [y N]]]; [rewrite N in Ia; destruct Ia|].
    rewrite N, rev_app_distr in U. discriminate U.
Qed.

(* Has: t lies between two stored times; Lookup then returns a stored pose at its own time
   or interpolates between neighbours, and otherwise aborts *)
Theorem C13_lookup : forall P blend (ops : list (bop P)) b t, limits_ok ops -> brun buffer_new ops = Some b ->
  (has b t = true <-> exists x y, In x (items b) /\ In y (items b) /\ fst x <= t <= fst y) /\
  (has b t = false -> lookup blend b t = None) /\
  (has b t = true ->
     (exists l1 p l2, items b = l1 ++ (t, p) :: l2 /\ (forall a, In a l1 -> fst a < t) /\ lookup blend b t = Some p) \/
     (exists l1 s a l2, items b = l1 ++ s :: a :: l2 /\ fst s < t < fst a /\ lookup blend b t = Some (blend s a t))).
Proof.
  intros P blend ops b t L E. destruct (C13_contents P ops b L E) as [S _].
  pose proof (has_iff b t S) as H. split; [exact H|]. unfold lookup. split; [now intros ->|].
  intros T. rewrite T. pose proof (proj1 H T) as [x [y [Ix [Iy Q]]]].
  assert (Hp : match items b with a :: _ => fst a <= t | [] => False end).
  { destruct (items b) as [|a l]; [destruct Ix|]. inversion S as [|? ? _ F]; subst. rewrite Forall_forall in F.
    destruct Ix as [<- | Ix]; [lia|]. specialize (F x Ix). lia. }
  destruct (lookup_from_ok blend t (items b) None S Hp) as [A | [s [a [l2 [[l1 E1] [B R]]]]]].
  - exists y. split; [exact Iy | lia].
  - left. exact A.
  - right. exists l1, s, a, l2. auto.
Qed.

(* a trajectory whose nodes are in time order can always be loaded *)
Theorem C13_trajectory : forall P (nodes : list (Z * P)), in_order nodes -> Z.of_nat (length nodes) < 2 ^ 64 ->
  exists b, from_trajectory nodes = Some b /\ items b = nodes.
Proof.
  intros P nodes S L. unfold from_trajectory.
  assert (G : forall done rest, nodes = done ++ rest ->
    exists b, brun (mk_buffer done (2 ^ 64 - 1)) (map (fun n => Push (fst n) (snd n)) rest) = Some b /\ items b = nodes).
  { intros done rest. revert done. induction rest as [|[t p] r IH]; intros done E; cbn [map brun bstep].
    - eexists. split; [reflexivity|]. cbn. now rewrite E, app_nil_r.
    - cbn [fst snd]. unfold push.
      assert (T : match latest_time P (mk_buffer done (2 ^ 64 - 1)) with None => true | Some u => u <=? t end = true).
      { destruct (latest_time P _) as [u|] eqn:U; [|reflexivity]. apply Z.leb_le.
        unfold latest_time in U. cbn [items] in U. destruct (last_snoc done) as [N | [q [y N]]]; [rewrite N in U; discriminate|].
        rewrite N, rev_app_distr in U. cbn in U. injection U as <-. rewrite E, N, <- app_assoc in S. apply sorted_suffix in S.
        inversion S as [|? ? _ F]; subst. rewrite Forall_forall in F. apply (F (t, p)). cbn. now left. }
      rewrite T. cbn [items limit]. rewrite remove_old_skipn by lia.
      replace (length (done ++ [(t, p)]) - Z.to_nat (2 ^ 64 - 1))%nat with 0%nat.
      + cbn [skipn]. apply IH. now rewrite <- app_assoc.
      + rewrite E, app_length in L. cbn [length] in L. rewrite app_length. cbn [length]. lia. }
  apply (G [] nodes eq_refl).
Qed.

(* limit 2: the first of three transforms is dropped; 25 is interpolated between 20 and 30 *)
Example C13_example :
  match brun buffer_new [SetSizeLimit 2; Push 10 1%nat; Push 20 2%nat; Push 30 3%nat] with
  | Some b => (items b, has b 10, lookup (fun a b _ => (snd a * 10 + snd b)%nat) b 25,
               lookup (fun a b _ => (snd a * 10 + snd b)%nat) b 30)
              = ([(20, 2%nat); (30, 3%nat)], false, Some 23%nat, Some 3%nat)
  | None => False
  end.
Proof. vm_compute. reflexivity. Qed.
Example C13_example_old : brun buffer_new [Push 10 1%nat; Push 9 2%nat] = None.
Proof. reflexivity. Qed.

Print Assumptions C13_contents.
Print Assumptions C13_push.
Print Assumptions C13_lookup.
Print Assumptions C13_trajectory.
