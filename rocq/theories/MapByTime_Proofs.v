From Coq Require Import List ZArith Bool Lia Sorted.
From Verif Require Import ZMap MapById_Model MapById_Spec MapById_Proofs MapById_Iter.
Import ListNotations.
Open Scope Z_scope.

Section T.
Context {D N : Type}.
Variable node_time : N -> Z.
Implicit Types (m : mbt D) (nodes : mbi N).

Record twf (m : mbt D) : Prop := {
  twf_sorted : zsorted m;
  twf_data : forall t tr, In (t, tr) m -> zsorted tr /\ tr <> []
}.

Definition traj (t : Z) (m : mbt D) : list (Z * D) :=
  match zfind t m with Some x => x | None => [] end.

Lemma traj_sorted : forall m t, twf m -> zsorted (traj t m).
Proof.
  intros m t W. unfold traj. destruct (zfind t m) as [tr|] eqn:E; [|constructor].
  apply zfind_In in E. apply (twf_data _ W _ _ E).
Qed.

Lemma twf_put : forall m t tr, twf m -> zsorted tr -> tr <> [] -> twf (zput t tr m).
Proof.
  intros m t tr W S Ne. constructor.
  - apply zput_sorted, W.
  - intros a b H. apply In_zput_inv in H; [|apply W].
    destruct H as [[_ ->]|[_ H]]; auto. eapply twf_data; eauto.
Qed.

Lemma twf_erase : forall m t, twf m -> twf (zerase t m).
Proof.
  intros m t W. constructor.
  - apply zerase_sorted, W.
  - intros a b H. apply In_zerase in H. eapply twf_data; eauto.
Qed.

Lemma append_twf : forall m t q d m', twf m -> mbt_append t q d m = Some m' ->
  twf m' /\ traj t m' = traj t m ++ [(q, d)] /\
  (forall a, a <> t -> zfind a m' = zfind a m).
Proof.
  intros m t q d m' W H. unfold mbt_append in H.
  destruct (t <? 0); [discriminate|].
  pose proof (traj_sorted m t W) as Str. unfold traj in *.
  set (tr := match zfind t m with Some x => x | None => [] end) in *.
  assert (H' : (forall e, In e tr -> fst e < q) /\ m' = zput t (zput q d tr) m).
  { destruct (zlast tr) as [[lt lv]|] eqn:EL.
    - destruct (Z.ltb_spec lt q); inversion H; subst. split; auto.
      intros e He. apply (zlast_max _ _ Str EL) in He. simpl in He. lia.
    - apply zlast_None in EL. inversion H; subst. rewrite EL. split; auto.
      simpl; tauto. }
  destruct H' as [Hlt ->]. split; [|split].
  - apply twf_put; auto. apply zput_sorted; auto. apply zput_nonnil.
  - rewrite zfind_zput, Z.eqb_refl by apply W. clear - Hlt.
    induction tr as [|[k v] r IH]; simpl; auto.
    pose proof (Hlt (k, v) (or_introl eq_refl)). simpl in H.
    destruct (Z.ltb_spec q k); [lia|]. destruct (Z.eqb_spec q k); [lia|].
    f_equal. apply IH. intros; apply Hlt; right; auto.
  - intros a Ha. rewrite zfind_zput by apply W.
    destruct (Z.eqb_spec a t); [congruence|auto].
Qed.

(* erasing a middle stretch of a sorted list *)
Lemma erase_mid : forall (y x z : list (Z * D)), zsorted (x ++ y ++ z) ->
  fold_left (fun a e => zerase (fst e) a) y (x ++ y ++ z) = x ++ z.
Proof.
  induction y as [|[k v] y IH]; intros x z S; simpl; auto.
  assert (E : zerase k (x ++ (k, v) :: y ++ z) = x ++ y ++ z).
  { simpl in S. clear IH. induction x as [|[k' v'] x IHx]; simpl.
    - now rewrite Z.eqb_refl.
    - simpl in S. apply zsorted_inv in S. destruct S as [S L].
      specialize (L (k, v)). simpl in L.
      destruct (Z.eqb_spec k k').
      + exfalso. assert (k' < k) by (apply L; apply in_or_app; simpl; auto). lia.
      + f_equal. auto. }
  rewrite E. apply IH. rewrite <- E. apply zerase_sorted. auto.
Qed.

Lemma fold_erase_sorted : forall (y l : list (Z * D)), zsorted l ->
  zsorted (fold_left (fun a e => zerase (fst e) a) y l).
Proof.
  induction y as [|x y IH]; simpl; auto. intros l S. apply IH.
  now apply zerase_sorted.
Qed.

(* splitting by the gap *)
Lemma gap_split : forall (tr : list (Z * D)) gs ge, zsorted tr -> gs < ge ->
  exists a mid b, tr = a ++ mid ++ b /\
    zlower gs tr = mid ++ b /\ zupper ge tr = b /\
    firstn (length (zlower gs tr) - length (zupper ge tr)) (zlower gs tr) = mid /\
    (forall e, In e a -> fst e < gs) /\
    (forall e, In e mid -> gs <= fst e <= ge) /\
    (forall e, In e b -> ge < fst e).
Proof.
  intros tr gs ge S G.
  destruct (zlower_suffix gs tr) as (a & Ha & La).
  pose proof (fun e => zlower_ge gs tr e S) as GA.
  set (lo := zlower gs tr) in *.
  assert (Slo : zsorted lo) by (rewrite Ha in S; apply zsorted_app in S; tauto).
  assert (EU : zupper ge tr = zupper ge lo).
  { rewrite Ha. clear - La G. induction a as [|[k v] a IH]; simpl; auto.
    pose proof (La (k, v) (or_introl eq_refl)). simpl in H.
    destruct (Z.leb_spec k ge); [|lia]. apply IH. intros; apply La; right; auto. }
  destruct (zupper_suffix ge lo) as (mid & Hm & Lm).
  pose proof (fun e => zupper_gt ge lo e Slo) as GU.
  exists a, mid, (zupper ge lo). rewrite EU. rewrite <- Hm. repeat split; auto.
  - rewrite Hm at 1 3. rewrite app_length.
    replace (length mid + length (zupper ge lo) - length (zupper ge lo))%nat
      with (length mid) by lia.
    rewrite firstn_app, Nat.sub_diag, firstn_all. simpl. apply app_nil_r.
  - apply GA. rewrite Hm. apply in_or_app; auto.
Qed.

(* neighbours of a node *)
Definition last_time (q : list (Z * N)) : Z :=
  match rev q with [] => time_min | (_, nd) :: _ => node_time nd end.
Definition first_time (r : list (Z * N)) : Z :=
  match r with [] => time_max | (_, nd) :: _ => node_time nd end.

Lemma zfind_split : forall {V} k (v : V) l, zfind k l = Some v ->
  exists p r, l = p ++ (k, v) :: r.
Proof. intros V k v l H. apply zfind_In in H. now apply in_split. Qed.

Lemma node_split : forall nodes t i nd, wf nodes -> mbi_at t i nodes = Some nd ->
  (forall a x, zfind a nodes = Some x -> a < int_max) ->
  exists c pre rest q r,
    nodes = pre ++ (t, (c, q ++ (i, nd) :: r)) :: rest /\
    (forall j v, mbi_at t j nodes = Some v <-> In (j, v) (q ++ (i, nd) :: r)) /\
    zsorted (q ++ (i, nd) :: r) /\
    it_find nodes t i = ((t, (c, q ++ (i, nd) :: r)) :: rest, (i, nd) :: r) /\
    it_eqb (it_find nodes t i) (it_begin nodes int_max) = false /\
    (it_eqb (it_find nodes t i) (it_begin nodes t) =
       match q with [] => true | _ => false end) /\
    (match rev q with
     | [] => True
     | e :: _ => it_prev nodes (it_find nodes t i) =
         Some ((t, (c, q ++ (i, nd) :: r)) :: rest, e :: (i, nd) :: r)
     end) /\
    exists nx, it_next (it_find nodes t i) = Some nx /\
      it_eqb nx (it_end nodes t) = match r with [] => true | _ => false end /\
      match r with [] => True | (j, v) :: _ => it_deref nx = Some ((t, j), v) end.
Proof.
  intros nodes t i nd W At Mx. pose proof At as At0.
  unfold mbi_at in At. destruct (zfind t nodes) as [[c d]|] eqn:Et; [|discriminate].
  destruct (zfind_split _ _ _ At) as (q & r & ->).
  destruct (wf_find _ _ _ _ W Et) as (Sd & Nd & _).
  pose proof (zlower_split t nodes (wf_sorted _ W)) as ZL. rewrite Et in ZL. simpl in ZL.
  destruct (zlower_suffix t nodes) as (pre & Hpre & _). rewrite ZL in Hpre.
  set (rest := zlower (t + 1) nodes) in *.
  pose proof (zlower_split i _ Sd) as ZI. rewrite At in ZI. simpl in ZI.
  assert (ZI2 : zlower i (q ++ (i, nd) :: r) = (i, nd) :: r).
  { clear - Sd. apply zsorted_app in Sd. destruct Sd as (_ & _ & L).
    induction q as [|[k v] q IH]; simpl.
    - destruct (Z.ltb_spec i i); [lia|auto].
    - pose proof (L (k, v) (i, nd) (or_introl eq_refl) (or_introl eq_refl)) as H.
      simpl in H. destruct (Z.ltb_spec k i); [|lia]. apply IH. intros; apply L; simpl; auto. }
  assert (EF : it_find nodes t i = ((t, (c, q ++ (i, nd) :: r)) :: rest, (i, nd) :: r)).
  { unfold it_find. rewrite ZL, Z.eqb_refl, ZI2, Z.eqb_refl. auto. }
  pose proof (wf_nonempty _ W) as NE.
  assert (NEr : nonempty rest).
  { rewrite Hpre in NE. apply nonempty_app in NE. intros a b e H. eapply NE; right; eauto. }
  exists c, pre, rest, q, r. split; auto. split.
  { intros j v. unfold mbi_at. rewrite Et. now apply zfind_iff. }
  split; auto. split; auto.
  rewrite EF. split.
  { unfold it_begin. assert (zlower int_max nodes = []) as ->; auto.
    destruct (zlower int_max nodes) as [|[a x] l] eqn:EL; auto. exfalso.
    assert (HI : In (a, x) (zlower int_max nodes)) by (rewrite EL; left; auto).
    pose proof (zlower_ge _ _ _ (wf_sorted _ W) HI) as G. simpl in G.
    destruct (zlower_suffix int_max nodes) as (p & Ep & _).
    assert (HM : In (a, x) nodes) by (rewrite Ep; apply in_or_app; auto).
    apply In_zfind in HM; [|apply W]. pose proof (Mx _ _ HM). lia. }
  split.
  { unfold it_begin. rewrite ZL.
    replace (advance ((t, (c, q ++ (i, nd) :: r)) :: rest) (q ++ (i, nd) :: r))
      with ((t, (c, q ++ (i, nd) :: r)) :: rest, q ++ (i, nd) :: r).
    2:{ destruct q; destruct rest; auto. }
    unfold it_eqb; simpl. rewrite Nat.eqb_refl. simpl.
    rewrite app_length. simpl. destruct q; simpl.
    - apply Nat.eqb_refl.
    - apply Nat.eqb_neq. lia. }
  split.
  { destruct (rev q) as [|e q'] eqn:ER; auto. unfold it_prev.
    assert (NE1 : nth_error (rev (q ++ (i, nd) :: r)) (length ((i, nd) :: r)) = Some e).
    { rewrite rev_app_distr, nth_error_app2; rewrite rev_length; [|lia].
      rewrite Nat.sub_diag, ER. auto. }
    rewrite NE1. auto. }
  exists (advance ((t, (c, q ++ (i, nd) :: r)) :: rest) r). split; auto.
  assert (PA : pos nodes (advance ((t, (c, q ++ (i, nd) :: r)) :: rest) r)).
  { apply advance_pos; eauto. exists (q ++ [(i, nd)]). now rewrite <- app_assoc. }
  assert (FA : flat (advance ((t, (c, q ++ (i, nd) :: r)) :: rest) r) =
               tag t r ++ flat (it_end nodes t)).
  { rewrite advance_cons; auto. f_equal. unfold it_end.
    destruct (begin_spec nodes (t + 1) NE) as [_ ->]. reflexivity. }
  assert (PE : pos nodes (it_end nodes t)) by (apply begin_spec; auto).
  split.
  - destruct (it_eqb (advance ((t, (c, q ++ (i, nd) :: r)) :: rest) r) (it_end nodes t)) eqn:EQ.
    + apply (pos_eqb nodes) in EQ; auto. rewrite EQ in FA.
      apply (f_equal (@length _)) in FA. rewrite app_length, tag_length in FA.
      destruct r; auto. simpl in FA. lia.
    + destruct r; auto. exfalso.
      assert (advance ((t, (c, q ++ [(i, nd)])) :: rest) [] = it_end nodes t).
      { apply (pos_flat_inj nodes); [exact NE|exact PA|exact PE|].
        exact (f_equal (@length _) FA). }
      assert (it_eqb (advance ((t, (c, q ++ [(i, nd)])) :: rest) []) (it_end nodes t) = true).
      { eapply pos_eqb; eauto. }
      congruence.
  - destruct r as [|[j v] r]; [exact I|]. exact (pos_deref nodes _ _ _ PA FA).
Qed.

(* the effect of Trim *)
Definition kept_first (gs : Z) (mid : list (Z * D)) : list (Z * D) :=
  if gs =? time_min then [] else firstn 1 mid.

Lemma removelast_split : forall {A} (l : list A) x, removelast (l ++ [x]) = l.
Proof. intros. apply removelast_last. Qed.

Lemma trim_effect : forall nodes m t i nd m', wf nodes -> twf m -> 0 <= t ->
  mbi_at t i nodes = Some nd ->
  (forall a x, zfind a nodes = Some x -> a < int_max) ->
  mbt_trim node_time nodes t i m = Some m' ->
  exists q r gs ge,
    (forall j v, mbi_at t j nodes = Some v <-> In (j, v) (q ++ (i, nd) :: r)) /\
    zsorted (q ++ (i, nd) :: r) /\
    gs = last_time q /\ ge = first_time r /\
    (zfind t m = None /\ m' = m \/
     gs < ge /\
     exists a f y l b, traj t m = a ++ f ++ y ++ l ++ b /\ traj t m' = a ++ f ++ l ++ b /\
      (forall e, In e a -> fst e < gs) /\
      (forall e, In e (f ++ y ++ l) -> gs <= fst e <= ge) /\
      (forall e, In e b -> ge < fst e) /\
      (y <> [] -> gs <> time_min -> f <> []) /\ (y <> [] -> ge <> time_max -> l <> []) /\
      (gs = time_min -> (ge = time_max -> f ++ l = []) /\ f = []) /\
      (ge = time_max -> l = [] \/ length (f ++ y ++ l) = 0%nat) /\
      (length f <= 1)%nat /\ (length l <= 1)%nat) /\
    (forall x, x <> t -> zfind x m' = zfind x m) /\ twf m'.
Proof.
  intros nodes m t i nd m' W Wt Ht At Mx H.
  destruct (node_split nodes t i nd W At Mx)
    as (c & pre & rest & q & r & Hn & HAt & Sd & EF & E1 & E2 & E3 & nx & E4 & E5 & E6).
  exists q, r, (last_time q), (first_time r).
  split; auto. split; auto. split; auto. split; auto.
  unfold mbt_trim in H. destruct (Z.ltb_spec t 0); [lia|].
  destruct (zfind t m) as [tr|] eqn:Et.
  2:{ inversion H; subst. split; [left; auto|]. split; auto. }
  rewrite E1, E2, E4 in H.
  assert (GS : (if negb (match q with [] => true | _ => false end)
                then match it_prev nodes (it_find nodes t i) with
                     | None => None
                     | Some p => match it_deref p with
                                 | None => None
                                 | Some (_, nd) => Some (node_time nd)
                                 end
                     end else Some time_min) = Some (last_time q)).
  { unfold last_time. destruct q as [|x q]; auto. simpl negb. cbv iota.
    destruct (rev (x :: q)) as [|[k v] q'] eqn:ER.
    - apply (f_equal (@length _)) in ER. rewrite rev_length in ER. discriminate.
    - rewrite E3. reflexivity. }
  rewrite GS in H. clear GS.
  rewrite E5 in H.
  assert (GE : (if negb (match r with [] => true | _ => false end)
                then match it_deref nx with
                     | None => None
                     | Some (_, nd) => Some (node_time nd)
                     end else Some time_max) = Some (first_time r)).
  { unfold first_time. destruct r as [|[j v] r]; auto. simpl. now rewrite E6. }
  rewrite GE in H. clear GE.
  set (gs := last_time q) in *. set (ge := first_time r) in *.
  destruct (Z.ltb_spec gs ge) as [G|G]; simpl in H; [|discriminate].
  assert (Str : zsorted tr).
  { apply zfind_In in Et. apply (twf_data _ Wt _ _ Et). }
  destruct (gap_split tr gs ge Str G) as (a & mid & b & Etr & _ & _ & Emid & La & Lm & Lb).
  rewrite Emid in H.
  assert (TRt : traj t m = tr) by (unfold traj; now rewrite Et).
  assert (TRIV : forall f l, f ++ l = mid -> m' = m ->
      (f = [] \/ gs <> time_min) -> (l = [] \/ ge <> time_max \/ mid = []) ->
      (length f <= 1)%nat -> (length l <= 1)%nat ->
      exists a f y l b, traj t m = a ++ f ++ y ++ l ++ b /\ traj t m' = a ++ f ++ l ++ b /\
      (forall e, In e a -> fst e < gs) /\
      (forall e, In e (f ++ y ++ l) -> gs <= fst e <= ge) /\
      (forall e, In e b -> ge < fst e) /\
      (y <> [] -> gs <> time_min -> f <> []) /\ (y <> [] -> ge <> time_max -> l <> []) /\
      (gs = time_min -> (ge = time_max -> f ++ l = []) /\ f = []) /\
      (ge = time_max -> l = [] \/ length (f ++ y ++ l) = 0%nat) /\
      (length f <= 1)%nat /\ (length l <= 1)%nat).
  { intros f l E -> Hf Hl Lf Ll. exists a, f, [], l, b. simpl. rewrite TRt.
    split; [rewrite Etr, <- E, <- app_assoc; auto|].
    split; [rewrite Etr, <- E, <- app_assoc; auto|].
    split; [auto|]. split; [intros e He; apply Lm; rewrite <- E; auto|].
    split; [auto|]. split; [congruence|]. split; [congruence|]. split.
    { intros C. destruct Hf as [->|]; [|congruence]. split; auto. intros C2. simpl in *.
      destruct Hl as [->|[|]]; auto; congruence. }
    split; [|auto].
    intros C. destruct Hl as [->|[|Z]]; auto; [congruence|]. right. rewrite E, Z. auto. }
  destruct mid as [|e0 mid'] eqn:EM.
  { inversion H; subst m'. split; [right; split; auto|split; auto].
    apply (TRIV [] []); auto. }
  rewrite <- EM in *.
  set (in1 := if negb (ge =? time_max) then removelast mid else mid) in *.
  assert (I1 : exists l, mid = in1 ++ l /\ (length l <= 1)%nat /\
                 (ge <> time_max -> l <> []) /\ (ge = time_max -> l = [])).
  { unfold in1. destruct (Z.eqb_spec ge time_max); simpl.
    - exists []. rewrite app_nil_r. repeat split; auto; lia.
    - exists [last mid e0]. rewrite <- app_removelast_last by (rewrite EM; discriminate).
      repeat split; auto; discriminate || congruence. }
  destruct I1 as (l & Il & Ll & Nl & Zl).
  destruct in1 as [|e1 in1'] eqn:EI.
  { inversion H; subst m'. split; [right; split; auto|split; auto].
    simpl in Il. apply (TRIV [] l); auto.
    destruct (Z.eq_dec ge time_max); [left|right]; auto. }
  rewrite <- EI in *.
  set (in2 := if negb (gs =? time_min) then tl in1 else in1) in *.
  assert (I2 : exists f, in1 = f ++ in2 /\ (length f <= 1)%nat /\
                 (gs <> time_min -> f <> []) /\ (gs = time_min -> f = [])).
  { unfold in2. destruct (Z.eqb_spec gs time_min); simpl.
    - exists []. repeat split; auto.
    - exists [e1]. rewrite EI. repeat split; auto; discriminate || congruence. }
  destruct I2 as (f & If & Lf & Nf & Zf).
  assert (ER : fold_left (fun a e => zerase (fst e) a) in2 tr = (a ++ f) ++ (l ++ b)).
  { assert (X : tr = (a ++ f) ++ in2 ++ (l ++ b)).
    { rewrite Etr, Il, If. now rewrite <- !app_assoc. }
    rewrite X at 1. apply erase_mid. now rewrite <- X. }
  rewrite ER in H.
  assert (S' : zsorted ((a ++ f) ++ (l ++ b))).
  { rewrite <- ER. now apply fold_erase_sorted. }
  assert (TR' : traj t m' = (a ++ f) ++ (l ++ b) /\ (forall x, x <> t -> zfind x m' = zfind x m)
                /\ twf m').
  { destruct ((a ++ f) ++ (l ++ b)) as [|x y] eqn:EN; inversion H; subst m'.
    - unfold traj. rewrite zfind_zerase, Z.eqb_refl by apply Wt. split; auto. split.
      + intros x Hx. rewrite zfind_zerase by apply Wt.
        destruct (Z.eqb_spec x t); [congruence|auto].
      + now apply twf_erase.
    - unfold traj. rewrite zfind_zput, Z.eqb_refl by apply Wt. split; auto. split.
      + intros z Hx. rewrite zfind_zput by apply Wt.
        destruct (Z.eqb_spec z t); [congruence|auto].
      + apply twf_put; auto. discriminate. }
  destruct TR' as (TR' & Oth & Wt'). split; [right; split; auto|auto].
  exists a, f, in2, l, b. rewrite TRt, TR', Etr, Il, If. rewrite <- !app_assoc.
  repeat split; auto.
  - apply Lm. rewrite Il, If, <- app_assoc. auto.
  - apply Lm. rewrite Il, If, <- app_assoc. auto.
  - intros C. rewrite Zf by auto. rewrite Zl by auto. auto.
Qed.

Lemma last_time_max : forall q j v i nd r, zsorted (q ++ (i, nd) :: r) ->
  (forall j1 j2 v1 v2, In (j1, v1) (q ++ (i, nd) :: r) -> In (j2, v2) (q ++ (i, nd) :: r) ->
     j1 <= j2 -> node_time v1 <= node_time v2) ->
  In (j, v) q -> node_time v <= last_time q.
Proof.
  intros q j v i nd r S Mo H. unfold last_time.
  destruct (rev q) as [|[k w] q'] eqn:ER.
  - apply (f_equal (@rev _)) in ER. rewrite rev_involutive in ER. subst. destruct H.
  - apply (f_equal (@rev _)) in ER. rewrite rev_involutive in ER. simpl in ER. subst q.
    rewrite <- app_assoc in *. simpl in *.
    apply (Mo j k).
    + apply in_app_or in H. apply in_or_app. destruct H as [H|H]; auto.
      right. simpl in H. destruct H as [H|[]]. left; auto.
    + apply in_or_app. right. left. auto.
    + apply in_app_or in H. destruct H as [H|[H|[]]].
      * apply zsorted_app in S. destruct S as (_ & _ & L).
        specialize (L (j, v) (k, w) H (or_introl eq_refl)). simpl in L. lia.
      * inversion H; lia.
Qed.

Lemma first_time_min : forall q j v i nd r, zsorted (q ++ (i, nd) :: r) ->
  (forall j1 j2 v1 v2, In (j1, v1) (q ++ (i, nd) :: r) -> In (j2, v2) (q ++ (i, nd) :: r) ->
     j1 <= j2 -> node_time v1 <= node_time v2) ->
  In (j, v) r -> first_time r <= node_time v.
Proof.
  intros q j v i nd r S Mo H. unfold first_time.
  destruct r as [|[k w] r]; [destruct H|].
  apply (Mo k j).
  - apply in_or_app. right. right. left. auto.
  - apply in_or_app. right. right. auto.
  - destruct H as [H|H]; [inversion H; lia|].
    apply zsorted_app in S. destruct S as (_ & S & _).
    apply zsorted_inv in S. destruct S as [S _]. apply zsorted_inv in S.
    destruct S as [_ S]. apply S in H. simpl in H. lia.
Qed.

(* the general bracket lemma on lists *)
Lemma bracket_lists : forall a f y l b gs ge q,
  zsorted (a ++ f ++ y ++ l ++ b) ->
  (forall e, In e a -> fst e < gs) ->
  (forall e, In e (f ++ y ++ l) -> gs <= fst e <= ge) ->
  (forall e, In e b -> ge < fst e) -> gs < ge ->
  ((q <= gs /\ (y <> [] -> f <> [])) \/ (ge <= q /\ (y <> [] -> l <> []))) ->
  forall e : Z * D,
  (latest_not_after q (a ++ f ++ y ++ l ++ b) e <-> latest_not_after q (a ++ f ++ l ++ b) e) /\
  (earliest_not_before q (a ++ f ++ y ++ l ++ b) e <-> earliest_not_before q (a ++ f ++ l ++ b) e).
Proof.
  intros a f y l b gs ge q S La Lm Lb G Q e.
  assert (SUB : forall x, In x (a ++ f ++ l ++ b) -> In x (a ++ f ++ y ++ l ++ b)).
  { intros x. rewrite !in_app_iff. tauto. }
  assert (SUP : forall x, In x (a ++ f ++ y ++ l ++ b) -> In x y \/ In x (a ++ f ++ l ++ b)).
  { intros x. rewrite !in_app_iff. tauto. }
  assert (Fy : forall x x', In x f -> In x' y -> fst x < fst x').
  { apply zsorted_app in S. destruct S as (_ & S & _). apply zsorted_app in S.
    destruct S as (_ & _ & S). intros; apply S; auto. apply in_or_app; auto. }
  assert (Ly : forall x x', In x y -> In x' l -> fst x < fst x').
  { apply zsorted_app in S. destruct S as (_ & S & _). apply zsorted_app in S.
    destruct S as (_ & S & _). apply zsorted_app in S. destruct S as (_ & _ & S).
    intros; apply S; auto. apply in_or_app; auto. }
  assert (DOM : forall x, In x y ->
     (exists x', In x' (f ++ l) /\ (q <= gs /\ fst x' < fst x \/ ge <= q /\ fst x < fst x'))).
  { intros x Hx. destruct Q as [[Q1 Q2]|[Q1 Q2]].
    - destruct f as [|x' f]; [destruct Q2; [intros ->; destruct Hx|auto]|].
      exists x'. split; [left; auto|]. left. split; auto. apply Fy; auto. left; auto.
    - destruct l as [|x' l]; [destruct Q2; [intros ->; destruct Hx|auto]|].
      exists x'. split; [apply in_or_app; right; left; auto|]. right. split; auto.
      apply Ly; auto. left; auto. }
  assert (RY : forall x, In x y -> gs <= fst x <= ge).
  { intros x Hx. apply Lm. rewrite !in_app_iff. auto. }
  assert (RF : forall x, In x (f ++ l) -> gs <= fst x <= ge).
  { intros x Hx. apply Lm. apply in_app_or in Hx. rewrite !in_app_iff. tauto. }
  assert (INF : forall x, In x (f ++ l) -> In x (a ++ f ++ l ++ b)).
  { intros x Hx. apply in_app_or in Hx. rewrite !in_app_iff. tauto. }
  unfold latest_not_after, earliest_not_before. split; split.
  - intros (H1 & H2 & H3). split; [|split; auto].
    apply SUP in H1. destruct H1 as [H1|H1]; auto. exfalso.
    destruct (DOM _ H1) as (x' & Hx' & [[A B]|[A B]]).
    + specialize (RF _ Hx'). lia.
    + pose proof (H3 x' (SUB _ (INF _ Hx'))). specialize (RF _ Hx'). lia.
  - intros (H1 & H2 & H3). split; [auto|split; auto]. intros x Hx Hq.
    apply SUP in Hx. destruct Hx as [Hx|Hx]; auto.
    destruct (DOM _ Hx) as (x' & Hx' & [[A B]|[A B]]).
    + pose proof (RF _ Hx'). pose proof (RY _ Hx). lia.
    + pose proof (RF _ Hx'). pose proof (H3 x' (INF _ Hx')). lia.
  - intros (H1 & H2 & H3). split; [|split; auto].
    apply SUP in H1. destruct H1 as [H1|H1]; auto. exfalso.
    destruct (DOM _ H1) as (x' & Hx' & [[A B]|[A B]]).
    + pose proof (H3 x' (SUB _ (INF _ Hx'))). specialize (RF _ Hx'). lia.
    + pose proof (RF _ Hx'). pose proof (RY _ H1). lia.
  - intros (H1 & H2 & H3). split; [auto|split; auto]. intros x Hx Hq.
    apply SUP in Hx. destruct Hx as [Hx|Hx]; auto.
    destruct (DOM _ Hx) as (x' & Hx' & [[A B]|[A B]]).
    + pose proof (RF _ Hx'). pose proof (H3 x' (INF _ Hx')). lia.
    + pose proof (RF _ Hx'). pose proof (RY _ Hx). lia.
Qed.

Definition times_inside (nodes : mbi N) (t : Z) : Prop :=
  forall j nd, mbi_at t j nodes = Some nd -> time_min < node_time nd < time_max.

Lemma trim_spec : forall nodes m t i nd m', wf nodes -> twf m ->
  mbi_at t i nodes = Some nd ->
  (forall a x, zfind a nodes = Some x -> a < int_max) ->
  times_monotone node_time (fun a b => mbi_at a b nodes) t ->
  times_inside nodes t ->
  mbt_trim node_time nodes t i m = Some m' ->
  twf m' /\
  (forall j nj e, j <> i -> mbi_at t j nodes = Some nj ->
     (latest_not_after (node_time nj) (traj t m) e <->
      latest_not_after (node_time nj) (traj t m') e) /\
     (earliest_not_before (node_time nj) (traj t m) e <->
      earliest_not_before (node_time nj) (traj t m') e)) /\
  (forall e, In e (traj t m') -> In e (traj t m)) /\
  (forall e j nj, In e (traj t m) -> mbi_at t j nodes = Some nj ->
     (j < i /\ fst e < node_time nj \/ i < j /\ node_time nj < fst e) ->
     In e (traj t m')) /\
  (forall x, x <> t -> zfind x m' = zfind x m) /\
  ((forall j, j <> i -> mbi_at t j nodes = None) ->
     (forall e, In e (traj t m) -> time_min <= fst e <= time_max) ->
     traj t m' = []) /\
  (forall e1 e e2, In e1 (traj t m) -> In e (traj t m) -> In e2 (traj t m) ->
     fst e1 < fst e < fst e2 ->
     (forall j nj, j < i -> mbi_at t j nodes = Some nj -> node_time nj <= fst e1) ->
     (forall j nj, i < j -> mbi_at t j nodes = Some nj -> fst e2 <= node_time nj) ->
     time_min <= fst e1 -> fst e2 <= time_max ->
     ~ In e (traj t m')).
Proof.
  intros nodes m t i nd m' W Wt At Mx Mo Ti H.
  assert (Ht : 0 <= t).
  { unfold mbi_at in At. destruct (zfind t nodes) as [[c d]|] eqn:E; [|discriminate].
    eapply wf_find; eauto. }
  destruct (trim_effect nodes m t i nd m' W Wt Ht At Mx H)
    as (q & r & gs & ge & HAt & Sd & Egs & Ege & Eff & Oth & Wt').
  assert (Mo' : forall j1 j2 v1 v2, In (j1, v1) (q ++ (i, nd) :: r) ->
     In (j2, v2) (q ++ (i, nd) :: r) -> j1 <= j2 -> node_time v1 <= node_time v2).
  { intros j1 j2 v1 v2 H1 H2. apply (Mo j1 j2); now apply HAt. }
  assert (Side : forall j nj, mbi_at t j nodes = Some nj -> j <> i ->
     (j < i /\ In (j, nj) q /\ node_time nj <= gs /\ gs <> time_min) \/
     (i < j /\ In (j, nj) r /\ ge <= node_time nj /\ ge <> time_max)).
  { intros j nj Hj Hji. apply HAt in Hj as Hj'. apply in_app_or in Hj'.
    destruct Hj' as [Hj'|[Hj'|Hj']].
    - left. assert (j < i).
      { apply zsorted_app in Sd. destruct Sd as (_ & _ & L).
        specialize (L _ (i, nd) Hj' (or_introl eq_refl)). auto. }
      pose proof (last_time_max q j nj i nd r Sd Mo' Hj'). subst gs.
      split; [auto|]. split; [auto|]. split; [auto|].
      pose proof (Ti _ _ Hj). lia.
    - inversion Hj'; congruence.
    - right. assert (i < j).
      { apply zsorted_app in Sd. destruct Sd as (_ & L & _).
        apply zsorted_inv in L. destruct L as [_ L]. apply L in Hj'. auto. }
      pose proof (first_time_min q j nj i nd r Sd Mo' Hj'). subst ge.
      split; [auto|]. split; [auto|]. split; [auto|].
      pose proof (Ti _ _ Hj). lia. }
  split; auto.
  destruct Eff as [[E0 ->]|(G & a & f & y & l & b & T1 & T2 & La & Lm & Lb & Nf & Nl & Z1 & Z2 & Lf & Ll)].
  { assert (E : traj t m = []) by (unfold traj; now rewrite E0). rewrite E.
    split; [intros; tauto|]. split; [auto|]. split; [auto|]. split; [auto|].
    split; [auto|]. intros; auto. }
  assert (S : zsorted (traj t m)) by now apply traj_sorted.
  rewrite T1 in S.
  rewrite T1, T2. split; [|split; [|split; [|split; [auto|split]]]].
  - intros j nj e Hj Hat.
    apply (bracket_lists a f y l b gs ge); auto.
    destruct (Side _ _ Hat Hj) as [(A & B & C & E)|(A & B & C & E)];
      [left|right]; split; auto.
  - intros e. rewrite !in_app_iff. tauto.
  - intros e j nj He Hat Hc.
    assert (j <> i) by lia.
    rewrite !in_app_iff in He. rewrite !in_app_iff.
    destruct He as [He|[He|[He|[He|He]]]]; auto. exfalso.
    assert (gs <= fst e <= ge) by (apply Lm; rewrite !in_app_iff; auto).
    destruct (Side _ _ Hat ltac:(auto)) as [(A & B & C & E)|(A & B & C & E)]; lia.
  - intros Hall Hr.
    assert (q = []).
    { destruct q as [|[k v] q]; auto. exfalso.
      assert (K : mbi_at t k nodes = Some v) by (apply HAt; left; auto).
      assert (k <> i).
      { simpl in Sd. apply zsorted_inv in Sd. destruct Sd as [_ L].
        specialize (L (i, nd)). simpl in L.
        assert (k < i) by (apply L; apply in_or_app; right; left; auto). lia. }
      rewrite Hall in K by auto. discriminate. }
    assert (r = []).
    { destruct r as [|[k v] r]; auto. exfalso.
      assert (K : mbi_at t k nodes = Some v) by (apply HAt; apply in_or_app; right; right; left; auto).
      assert (k <> i).
      { apply zsorted_app in Sd. destruct Sd as (_ & L & _). apply zsorted_inv in L.
        destruct L as [_ L]. specialize (L (k, v) (or_introl eq_refl)). simpl in L. lia. }
      rewrite Hall in K by auto. discriminate. }
    subst q r. unfold last_time, first_time in *. simpl in Egs. subst gs ge.
    destruct (Z1 eq_refl) as [Z1a _]. specialize (Z1a eq_refl).
    apply app_eq_nil in Z1a. destruct Z1a as [-> ->]. simpl.
    destruct a as [|e a].
    + destruct b as [|e b]; auto. exfalso. specialize (Lb e (or_introl eq_refl)).
      assert (HI : In e ([] ++ [] ++ y ++ [] ++ e :: b))
        by (simpl; apply in_or_app; right; left; auto).
      specialize (Hr e HI). lia.
    + exfalso. specialize (La e (or_introl eq_refl)).
      specialize (Hr e (or_introl eq_refl)). lia.
  - intros e1 e e2 H1 He H2 Ord P1 P2 B1 B2 Hin.
    assert (g1 : gs <= fst e1).
    { subst gs. unfold last_time. destruct (rev q) as [|[k v] q'] eqn:ER; auto.
      apply (P1 k).
      - apply (f_equal (@rev _)) in ER. rewrite rev_involutive in ER. simpl in ER.
        subst q. apply zsorted_app in Sd. destruct Sd as (_ & _ & L).
        specialize (L (k, v) (i, nd)). simpl in L. apply L; auto.
        apply in_or_app; right; left; auto.
      - apply HAt. apply in_or_app. left. apply in_rev. rewrite ER. left; auto. }
    assert (g2 : fst e2 <= ge).
    { subst ge. unfold first_time. destruct r as [|[k v] r']; auto.
      apply (P2 k).
      - apply zsorted_app in Sd. destruct Sd as (_ & L & _). apply zsorted_inv in L.
        destruct L as [_ L]. specialize (L (k, v) (or_introl eq_refl)). auto.
      - apply HAt. apply in_or_app. right. right. left; auto. }
    assert (InM : forall x, In x (a ++ f ++ y ++ l ++ b) -> gs <= fst x <= ge ->
              In x (f ++ y ++ l)).
    { intros x Hx Hr. rewrite !in_app_iff in *.
      destruct Hx as [Hx|[Hx|[Hx|[Hx|Hx]]]]; auto.
      - apply La in Hx. lia.
      - apply Lb in Hx. lia. }
    apply zsorted_app in S. destruct S as (_ & S & _).
    assert (S2 : zsorted (f ++ y ++ l)).
    { replace (f ++ y ++ l ++ b) with ((f ++ y ++ l) ++ b) in S
        by (rewrite <- !app_assoc; auto).
      apply zsorted_app in S. tauto. }
    assert (E1 : In e1 (f ++ y ++ l)) by (apply InM; auto; lia).
    assert (E2 : In e2 (f ++ y ++ l)) by (apply InM; auto; lia).
    assert (EM : In e (f ++ l)).
    { rewrite !in_app_iff in Hin. rewrite in_app_iff.
      destruct Hin as [Hx|[Hx|[Hx|Hx]]]; auto.
      - apply La in Hx. lia.
      - apply Lb in Hx. lia. }
    apply in_app_or in EM. destruct EM as [EM|EM].
    + (* e is the single first element, but e1 is smaller *)
      destruct f as [|x [|x' f]]; simpl in Lf; [destruct EM| |lia].
      destruct EM as [->|[]]. simpl in S2, E1. destruct E1 as [->|E1]; [lia|].
      apply zsorted_inv in S2. destruct S2 as [_ L]. apply L in E1. lia.
    + destruct l as [|x [|x' l]]; simpl in Ll; [destruct EM| |lia].
      destruct EM as [->|[]]. rewrite app_assoc in S2, E2.
      apply in_app_or in E2. destruct E2 as [E2|[->|[]]]; [|lia].
      apply zsorted_app in S2. destruct S2 as (_ & _ & L).
      specialize (L e2 e E2 (or_introl eq_refl)). lia.
Qed.

(* no abort with strictly increasing node times *)
Lemma trim_no_abort : forall nodes m t i nd, wf nodes -> twf m ->
  mbi_at t i nodes = Some nd ->
  (forall a x, zfind a nodes = Some x -> a < int_max) ->
  (forall j k nj nk, mbi_at t j nodes = Some nj -> mbi_at t k nodes = Some nk ->
     j < k -> node_time nj < node_time nk) ->
  times_inside nodes t ->
  mbt_trim node_time nodes t i m <> None.
Proof.
  intros nodes m t i nd W Wt At Mx St Ti.
  assert (Ht : 0 <= t).
  { unfold mbi_at in At. destruct (zfind t nodes) as [[c d]|] eqn:E; [|discriminate].
    eapply wf_find; eauto. }
  destruct (node_split nodes t i nd W At Mx)
    as (c & pre & rest & q & r & Hn & HAt & Sd & EF & E1 & E2 & E3 & nx & E4 & E5 & E6).
  unfold mbt_trim. destruct (Z.ltb_spec t 0); [lia|].
  destruct (zfind t m) as [tr|] eqn:Et; [|discriminate].
  rewrite E1, E2, E4.
  assert (GS : (if negb (match q with [] => true | _ => false end)
                then match it_prev nodes (it_find nodes t i) with
                     | None => None
                     | Some p => match it_deref p with
                                 | None => None
                                 | Some (_, nd) => Some (node_time nd)
                                 end
                     end else Some time_min) = Some (last_time q)).
  { unfold last_time. destruct q as [|x q]; auto. simpl negb. cbv iota.
    destruct (rev (x :: q)) as [|[k v] q'] eqn:ER.
    - apply (f_equal (@length _)) in ER. rewrite rev_length in ER. discriminate.
    - rewrite E3. reflexivity. }
  rewrite GS. rewrite E5.
  assert (GE : (if negb (match r with [] => true | _ => false end)
                then match it_deref nx with
                     | None => None
                     | Some (_, nd) => Some (node_time nd)
                     end else Some time_max) = Some (first_time r)).
  { unfold first_time. destruct r as [|[j v] r]; auto. simpl. now rewrite E6. }
  rewrite GE.
  assert (G : last_time q < first_time r).
  { unfold last_time, first_time. pose proof (Ti _ _ At) as T0.
    destruct (rev q) as [|[k v] q'] eqn:ER; destruct r as [|[k2 v2] r'].
    - unfold time_min, time_max. lia.
    - assert (K : mbi_at t k2 nodes = Some v2)
        by (apply HAt; apply in_or_app; right; right; left; auto).
      pose proof (Ti _ _ K). lia.
    - assert (K : mbi_at t k nodes = Some v).
      { apply HAt. apply in_or_app. left. apply in_rev. rewrite ER. left; auto. }
      pose proof (Ti _ _ K). lia.
    - assert (K : mbi_at t k nodes = Some v).
      { apply HAt. apply in_or_app. left. apply in_rev. rewrite ER. left; auto. }
      assert (K2 : mbi_at t k2 nodes = Some v2)
        by (apply HAt; apply in_or_app; right; right; left; auto).
      apply (St k k2); auto.
      apply zsorted_app in Sd. destruct Sd as (_ & _ & L).
      apply (L (k, v) (k2, v2)); [|right; left; auto].
      apply in_rev. rewrite ER. left; auto. }
  destruct (Z.ltb_spec (last_time q) (first_time r)); [|lia]. simpl.
  destruct (firstn _ _); [discriminate|].
  destruct (if negb (first_time r =? time_max) then _ else _); discriminate.
Qed.

End T.
