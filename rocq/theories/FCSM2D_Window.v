(* Sliding window maximum and the precomputation grids. *)
From Coq Require Import List ZArith Bool Lia Sorted.
From Verif Require Import FCSM2D_Model FCSM2D_Spec.
Import ListNotations.
Open Scope Z_scope.

Fixpoint stair (l : list Z) : list Z :=
  match l with
  | [] => []
  | x :: r => if forallb (fun y => y <=? x) r then x :: stair r else stair r
  end.

Lemma stair_In l x : In x (stair l) -> In x l.
Proof.
  induction l as [|a l IH]; simpl; auto.
  destruct (forallb _ l); simpl; tauto.
Qed.

Lemma stair_sorted l : StronglySorted (fun a b => b <= a) (stair l).
Proof.
  induction l as [|a l IH]; simpl; [constructor|].
  destruct (forallb _ l) eqn:E; auto. constructor; auto.
  apply Forall_forall. intros b Hb. apply stair_In in Hb.
  rewrite forallb_forall in E. specialize (E _ Hb). lia.
Qed.

Lemma filter_true {A} (f : A -> bool) l : (forall x, In x l -> f x = true) -> filter f l = l.
Proof.
  induction l; simpl; intros; auto. rewrite H by auto. f_equal. auto.
Qed.

Lemma SS_app_le (l : list Z) b :
  StronglySorted (fun a b => b <= a) (l ++ [b]) -> StronglySorted (fun a b => b <= a) l /\
  forall x, In x l -> b <= x.
Proof.
  induction l as [|a l IH]; simpl; intros H.
  - split; [constructor|tauto].
  - inversion H as [|? ? Hs Hf]; subst. destruct (IH Hs) as [I1 I2].
    rewrite Forall_forall in Hf. split.
    + constructor; auto. apply Forall_forall. intros y Hy. apply Hf, in_or_app. auto.
    + intros x [<-|Hx]; auto. apply Hf, in_or_app. simpl; auto.
Qed.

Lemma drop_lt_filter v dq :
  StronglySorted (fun a b => b <= a) dq ->
  rev (drop_lt v (rev dq)) = filter (fun b => v <=? b) dq.
Proof.
  induction dq as [|b dq IH] using rev_ind; intros H; [reflexivity|].
  destruct (SS_app_le _ _ H) as [H1 H2].
  rewrite rev_app_distr. simpl. rewrite filter_app. simpl.
  destruct (b <? v) eqn:E.
  - rewrite IH by auto. replace (v <=? b) with false by lia. now rewrite app_nil_r.
  - replace (v <=? b) with true by lia. simpl. rewrite rev_involutive. f_equal.
    symmetry. apply filter_true. intros x Hx. apply H2 in Hx. lia.
Qed.

Lemma stair_snoc l v : stair (l ++ [v]) = filter (fun b => v <=? b) (stair l) ++ [v].
Proof.
  induction l as [|a l IH]; [reflexivity|].
  simpl. rewrite forallb_app. simpl. rewrite andb_true_r.
  destruct (forallb _ l) eqn:E; simpl.
  - destruct (v <=? a) eqn:F; simpl; rewrite IH; auto.
  - exact IH.
Qed.

Lemma sw_add_stair v l : sw_add v (stair l) = stair (l ++ [v]).
Proof. unfold sw_add. rewrite drop_lt_filter by apply stair_sorted. now rewrite stair_snoc. Qed.

Lemma stair_front l : l <> [] ->
  exists f t, stair l = f :: t /\ In f l /\ forall y, In y l -> y <= f.
Proof.
  induction l as [|a l IH]; [congruence|]. intros _. simpl.
  destruct (forallb _ l) eqn:E.
  - exists a, (stair l). rewrite forallb_forall in E. repeat split; auto.
    intros y [<-|Hy]; [lia|]. specialize (E _ Hy). lia.
  - assert (L : l <> []) by (intros ->; discriminate).
    destruct (IH L) as (f & t & F & I & M). exists f, t. repeat split; auto.
    intros y [<-|Hy]; auto.
    destruct (Z.le_gt_cases a f); auto. exfalso.
    assert (forallb (fun y => y <=? a) l = true).
    { apply forallb_forall. intros y Hy. specialize (M _ Hy). lia. }
    congruence.
Qed.

Lemma sw_max_stair l : l <> [] ->
  exists f, sw_max (stair l) = Some f /\ In f l /\ forall y, In y l -> y <= f.
Proof. intros H. destruct (stair_front l H) as (f & t & -> & I & M). exists f; auto. Qed.

Lemma sw_remove_stair x r : sw_remove x (stair (x :: r)) = Some (stair r).
Proof.
  simpl. destruct (forallb _ r) eqn:E; simpl.
  - rewrite Z.leb_refl, Z.eqb_refl. reflexivity.
  - assert (L : r <> []) by (intros ->; discriminate).
    destruct (stair_front r L) as (f & t & F & I & M). rewrite F. simpl.
    assert (x < f).
    { destruct (Z.le_gt_cases f x); [|lia]. exfalso.
      assert (forallb (fun y => y <=? x) r = true).
      { apply forallb_forall. intros y Hy. specialize (M _ Hy). lia. }
      congruence. }
    replace (x <=? f) with true by lia. replace (x =? f) with false by lia. reflexivity.
Qed.

(* ---- segments ---- *)
Definition seg (g : Z -> Z) (a b : Z) : list Z :=
  map (fun i => g (a + Z.of_nat i)) (seq 0 (Z.to_nat (b - a))).

Lemma seg_In g a b v : In v (seg g a b) <-> exists i, a <= i < b /\ g i = v.
Proof.
  unfold seg. rewrite in_map_iff. split.
  - intros (i & <- & Hi). apply in_seq in Hi. exists (a + Z.of_nat i). split; [lia|auto].
  - intros (i & Hi & <-). exists (Z.to_nat (i - a)). split; [f_equal; lia|].
    apply in_seq. lia.
Qed.

Lemma seg_nil g a b : b <= a -> seg g a b = [].
Proof. intros. unfold seg. replace (Z.to_nat (b - a)) with O by lia. reflexivity. Qed.

Lemma seg_cons g a b : a < b -> seg g a b = g a :: seg g (a + 1) b.
Proof.
  intros. unfold seg. replace (Z.to_nat (b - a)) with (S (Z.to_nat (b - (a + 1)))) by lia.
  simpl. f_equal; [f_equal; lia|]. rewrite <- seq_shift, map_map. apply map_ext.
  intros i. f_equal. lia.
Qed.

Lemma seg_snoc g a b : a <= b -> seg g a (b + 1) = seg g a b ++ [g b].
Proof.
  intros. unfold seg. replace (Z.to_nat (b + 1 - a)) with (Z.to_nat (b - a) + 1)%nat by lia.
  rewrite seq_app, map_app. simpl. do 2 f_equal. f_equal. lia.
Qed.

Lemma seg_nonnil g a b : a < b -> seg g a b <> [].
Proof. intros. rewrite seg_cons by auto. discriminate. Qed.

Fixpoint oks (g : Z -> Z) (n w x : Z) (os : list Z) : Prop :=
  match os with [] => True | o :: r => line_max g n w x o /\ oks g n w (x + 1) r end.

Lemma oks_app g n w os1 : forall x os2,
  oks g n w x os1 -> oks g n w (x + Z.of_nat (length os1)) os2 -> oks g n w x (os1 ++ os2).
Proof.
  induction os1 as [|o os1 IH]; simpl; intros x os2 H1 H2.
  - now rewrite Z.add_0_r in H2.
  - destruct H1 as [A B]. split; auto. apply IH; auto.
    replace (x + 1 + Z.of_nat (length os1)) with (x + Z.of_nat (S (length os1))) by lia. auto.
Qed.

Lemma oks_nth g n w os : forall x j, oks g n w x os -> 0 <= j < Z.of_nat (length os) ->
  line_max g n w (x + j) (znth 0 j os).
Proof.
  induction os as [|o os IH]; simpl; intros x j H Hj; [lia|].
  destruct H as [A B]. unfold znth. replace (j <? 0) with false by lia.
  destruct (Z.eq_dec j 0) as [->|N].
  - simpl. now rewrite Z.add_0_r.
  - replace (Z.to_nat j) with (S (Z.to_nat (j - 1))) by lia. simpl.
    specialize (IH (x + 1) (j - 1) B ltac:(lia)).
    replace (x + 1 + (j - 1)) with (x + j) in IH by lia.
    unfold znth in IH. replace (j - 1 <? 0) with false in IH by lia. exact IH.
Qed.

Lemma seg_line_max g n w x a b m :
  a = Z.max 0 x -> b = Z.min n (x + w) -> In m (seg g a b) ->
  (forall y, In y (seg g a b) -> y <= m) -> line_max g n w x m.
Proof.
  intros -> -> I M. split.
  - apply seg_In in I. destruct I as (i & Hi & E). exists i. repeat split; auto; lia.
  - intros i H1 H2. apply M, seg_In. exists i. split; auto. lia.
Qed.

Lemma loop1_ok g n w k : forall x,
  1 <= n -> 1 <= w -> x + Z.of_nat k = 0 -> - w < x ->
  exists os, sw_loop1 g n w k x (stair (seg g 0 (Z.min n (x + w))))
             = Some (os, stair (seg g 0 (Z.min n w)))
    /\ length os = k /\ oks g n w x os.
Proof.
  induction k as [|k IH]; intros x Hn Hw Hx Hlo.
  - exists []. simpl. replace x with 0 by lia. simpl. auto.
  - cbn [sw_loop1].
    destruct (sw_max_stair (seg g 0 (Z.min n (x + w)))) as (f & F & I & M);
      [apply seg_nonnil; lia|].
    rewrite F.
    assert (D : (if x + w <? n then sw_add (g (x + w)) (stair (seg g 0 (Z.min n (x + w))))
                 else stair (seg g 0 (Z.min n (x + w))))
                = stair (seg g 0 (Z.min n (x + 1 + w)))).
    { destruct (x + w <? n) eqn:E.
      - rewrite sw_add_stair. replace (Z.min n (x + w)) with (x + w) by lia.
        rewrite <- seg_snoc by lia. do 2 f_equal. lia.
      - f_equal. f_equal. lia. }
    cbv zeta. rewrite D.
    destruct (IH (x + 1) Hn Hw ltac:(lia) ltac:(lia)) as (os & O & L & K).
    rewrite O. exists (f :: os). split; [reflexivity|]. split; [simpl; lia|].
    split; [|exact K]. apply (seg_line_max g n w x 0 (Z.min n (x + w))); auto; lia.
Qed.

Lemma loop2_ok g n w k : forall x,
  1 <= w -> 0 <= x -> x + Z.of_nat k = n - w ->
  exists os, sw_loop2 g w k x (stair (seg g x (x + w)))
             = Some (os, stair (seg g (n - w) n))
    /\ length os = k /\ oks g n w x os.
Proof.
  induction k as [|k IH]; intros x Hw Hx Hk.
  - exists []. simpl. replace x with (n - w) by lia. replace (n - w + w) with n by lia. auto.
  - cbn [sw_loop2].
    destruct (sw_max_stair (seg g x (x + w))) as (f & F & I & M); [apply seg_nonnil; lia|].
    rewrite F. rewrite (seg_cons g x (x + w)) by lia. rewrite sw_remove_stair, sw_add_stair.
    rewrite <- seg_snoc by lia.
    destruct (IH (x + 1) Hw ltac:(lia) ltac:(lia)) as (os & O & L & K).
    replace (x + w + 1) with (x + 1 + w) by lia.
    rewrite O. exists (f :: os). split; [reflexivity|]. split; [simpl; lia|].
    split; [|exact K]. apply (seg_line_max g n w x x (x + w)); auto; lia.
Qed.

Lemma loop3_ok g n w k : forall x,
  1 <= w -> 0 <= x -> n <= x + w -> x + Z.of_nat k = n ->
  exists os, sw_loop3 g k x (stair (seg g x n)) = Some (os, [])
    /\ length os = k /\ oks g n w x os.
Proof.
  induction k as [|k IH]; intros x Hw Hx Hn Hk.
  - exists []. simpl. rewrite seg_nil by lia. auto.
  - cbn [sw_loop3].
    destruct (sw_max_stair (seg g x n)) as (f & F & I & M); [apply seg_nonnil; lia|].
    rewrite F. rewrite (seg_cons g x n) by lia. rewrite sw_remove_stair.
    destruct (IH (x + 1) Hw ltac:(lia) ltac:(lia) ltac:(lia)) as (os & O & L & K).
    rewrite O. exists (f :: os). split; [reflexivity|]. split; [simpl; lia|].
    split; [|exact K]. apply (seg_line_max g n w x x n); auto; lia.
Qed.

Lemma sw_line_ok g n w : 1 <= n -> 1 <= w ->
  exists os, sw_line g n w = Some os /\ Z.of_nat (length os) = n + w - 1 /\
    forall x, - w < x < n -> line_max g n w x (znth 0 (x + w - 1) os).
Proof.
  intros Hn Hw.
  assert (Hs : forall os, sw_line g n w = Some os -> Z.of_nat (length os) = n + w - 1 ->
     oks g n w (- w + 1) os -> exists os, sw_line g n w = Some os /\
     Z.of_nat (length os) = n + w - 1 /\
     forall x, - w < x < n -> line_max g n w x (znth 0 (x + w - 1) os)).
  { intros os E L K. exists os. repeat split; auto; [| ];
    destruct (oks_nth _ _ _ _ _ (x + w - 1) K ltac:(lia)) as [A B];
    replace (- w + 1 + (x + w - 1)) with x in * by lia; auto. }
  unfold sw_line in *.
  assert (D0 : sw_add (g 0) [] = stair (seg g 0 (Z.min n (- w + 1 + w)))).
  { replace (Z.min n (- w + 1 + w)) with 1 by lia. reflexivity. }
  rewrite D0 in *.
  destruct (loop1_ok g n w (Z.to_nat (w - 1)) (- w + 1) Hn Hw ltac:(lia) ltac:(lia))
    as (o1 & E1 & L1 & K1). rewrite E1 in *.
  destruct (Z.le_gt_cases n w) as [C|C].
  - replace (Z.to_nat (n - w)) with O in * by lia. cbn [sw_loop2] in *.
    replace (Z.max (n - w) 0) with 0 in * by lia.
    replace (Z.min n w) with n in * by lia.
    destruct (loop3_ok g n w (Z.to_nat (n - 0)) 0 Hw ltac:(lia) ltac:(lia) ltac:(lia))
      as (o3 & E3 & L3 & K3). rewrite E3 in *. cbv zeta in *.
    eapply Hs; [reflexivity| |].
    + simpl. rewrite app_length. lia.
    + simpl. apply oks_app; auto. rewrite L1. replace (- w + 1 + Z.of_nat (Z.to_nat (w - 1))) with 0 by lia. auto.
  - replace (Z.min n w) with (0 + w) in * by lia.
    destruct (loop2_ok g n w (Z.to_nat (n - w)) 0 Hw ltac:(lia) ltac:(lia))
      as (o2 & E2 & L2 & K2). rewrite E2 in *.
    replace (Z.max (n - w) 0) with (n - w) in * by lia.
    destruct (loop3_ok g n w (Z.to_nat (n - (n - w))) (n - w) Hw ltac:(lia) ltac:(lia) ltac:(lia))
      as (o3 & E3 & L3 & K3). cbv zeta in *. rewrite E3 in *.
    eapply Hs; [reflexivity| |].
    + rewrite !app_length. lia.
    + apply oks_app; auto. rewrite L1. replace (- w + 1 + Z.of_nat (Z.to_nat (w - 1))) with 0 by lia.
      apply oks_app; auto. rewrite L2.
      replace (0 + Z.of_nat (Z.to_nat (n - w))) with (n - w) by lia. auto.
Qed.

Lemma for_lines_ok (f : Z -> option (list Z)) (P : Z -> list Z -> Prop) k : forall a,
  (forall y, a <= y < a + Z.of_nat k -> exists l, f y = Some l /\ P y l) ->
  exists ls, for_lines f k a = Some ls /\ length ls = k /\
    forall y, a <= y < a + Z.of_nat k -> P y (znth [] (y - a) ls).
Proof.
  induction k as [|k IH]; intros a H.
  - exists []. simpl. repeat split; auto. intros; lia.
  - destruct (H a ltac:(lia)) as (l & F & Pl).
    destruct (IH (a + 1)) as (ls & E & L & K); [intros y Hy; apply H; lia|].
    exists (l :: ls). cbn [for_lines]. rewrite F, E. repeat split; [simpl; lia|].
    intros y Hy. unfold znth. replace (y - a <? 0) with false by lia.
    destruct (Z.eq_dec y a) as [->|N].
    + now rewrite Z.sub_diag.
    + replace (Z.to_nat (y - a)) with (S (Z.to_nat (y - (a + 1)))) by lia. simpl.
      specialize (K y ltac:(lia)). unfold znth in K.
      replace (y - (a + 1) <? 0) with false in K by lia. exact K.
Qed.

Lemma for_lines_inv (f : Z -> option (list Z)) k : forall a ls,
  for_lines f k a = Some ls -> length ls = k.
Proof.
  induction k; simpl; intros a ls H; [injection H as <-; auto|].
  destruct (f a); [|discriminate]. destruct (for_lines f k (a + 1)) eqn:E; [|discriminate].
  injection H as <-. simpl. f_equal. eauto.
Qed.

Lemma map_cells_ok q l : (forall p, In p l -> 0 <= q p <= 255) ->
  map_cells q l = Some (map q l).
Proof.
  induction l as [|a l IH]; simpl; intros H; auto.
  unfold cell_value. specialize (H a (or_introl eq_refl)) as Ha.
  replace ((0 <=? q a) && (q a <=? 255)) with true by lia.
  rewrite IH by auto. reflexivity.
Qed.

Lemma znth_map {A B} (f : A -> B) d d' i l : 0 <= i < Z.of_nat (length l) ->
  znth d (i) (map f l) = f (znth d' i l).
Proof.
  intros H. unfold znth. replace (i <? 0) with false by lia.
  rewrite nth_indep with (d' := f d') by (rewrite map_length; lia). apply map_nth.
Qed.

Lemma precompute_ok q g nx ny w :
  1 <= nx -> 1 <= ny -> 1 <= w ->
  (forall a b, a <= b -> q a <= q b) ->
  (forall x y, 0 <= x < nx -> 0 <= y < ny -> 0 <= q (g x y) <= 255) ->
  exists pg, precompute q g nx ny w = Some pg /\
    (forall x y, - w < x < nx -> - w < y < ny ->
       window_max (fun i j => q (g i j)) nx ny w x y (get_value pg x y)) /\
    (forall x y, ~ (- w < x < nx /\ - w < y < ny) -> get_value pg x y = 0).
Proof.
  intros Hx Hy Hw Mq Rq. unfold precompute.
  replace ((w <? 1) || (nx <? 1) || (ny <? 1)) with false by lia.
  set (R := fun (y : Z) (l : list Z) => Z.of_nat (length l) = nx + w - 1 /\
     forall x, - w < x < nx -> line_max (fun x => g x y) nx w x (znth 0 (x + w - 1) l)).
  destruct (for_lines_ok (fun y => sw_line (fun x => g x y) nx w) R (Z.to_nat ny) 0)
    as (rows & Er & Lr & Kr).
  { intros y _. destruct (sw_line_ok (fun x => g x y) nx w Hx Hw) as (os & E & L & K).
    exists os. unfold R. auto. }
  rewrite Er. cbv zeta.
  set (col := fun x y => znth 0 x (znth [] y rows)).
  set (C := fun (x : Z) (l : list Z) => Z.of_nat (length l) = ny + w - 1 /\
     forall y, - w < y < ny -> exists m, line_max (col x) ny w y m /\
         znth 0 (y + w - 1) l = q m).
  destruct (for_lines_ok (fun x => match sw_line (col x) ny w with
      | None => None | Some l => map_cells q l end) C (Z.to_nat (nx + w - 1)) 0)
    as (cols & Ec & Lc & Kc).
  { intros x Hxr. destruct (sw_line_ok (col x) ny w Hy Hw) as (os & E & L & K).
    rewrite E. rewrite map_cells_ok.
    - exists (map q os). split; auto. unfold C. split; [rewrite map_length; auto|].
      intros y Hyr. exists (znth 0 (y + w - 1) os). split; auto.
      apply znth_map. lia.
    - intros p Hp. destruct (In_nth _ _ 0 Hp) as (j & Hj & <-).
      specialize (K (Z.of_nat j - w + 1) ltac:(lia)).
      replace (Z.of_nat j - w + 1 + w - 1) with (Z.of_nat j) in K by lia.
      unfold znth in K. replace (Z.of_nat j <? 0) with false in K by lia.
      rewrite Nat2Z.id in K. destruct K as [(i & H1 & H2 & H3) _]. rewrite <- H3.
      specialize (Kr i ltac:(lia)). destruct Kr as [_ Kr].
      specialize (Kr (x - w + 1) ltac:(lia)). rewrite Z.sub_0_r in Kr.
      replace (x - w + 1 + w - 1) with x in Kr by lia. fold (col x i) in Kr.
      destruct Kr as [(i' & ? & ? & <-) _]. apply Rq; lia. }
  unfold col in Ec. rewrite Ec. eexists. split; [reflexivity|]. split.
  - intros x y Hxr Hyr. unfold get_value. cbn [pg_nx pg_ny pg_w pg_cells].
    replace (_ || _) with false by lia.
    replace (x - (- w + 1)) with (x + w - 1) by lia.
    replace (y - (- w + 1)) with (y + w - 1) by lia.
    specialize (Kc (x + w - 1) ltac:(lia)). rewrite Z.sub_0_r in Kc.
    destruct Kc as [_ Kc]. destruct (Kc y Hyr) as (m & [(j & J1 & J2 & J3) Mx] & ->).
    assert (Rm : forall j, 0 <= j < ny -> line_max (fun x => g x j) nx w x (col (x + w - 1) j)).
    { intros j' Hj'. specialize (Kr j' ltac:(lia)). rewrite Z.sub_0_r in Kr.
      destruct Kr as [_ Kr]. exact (Kr x Hxr). }
    split.
    + destruct (Rm j J2) as [(i & I1 & I2 & I3) _]. exists i, j. repeat split; try lia.
      rewrite I3, J3. reflexivity.
    + intros i' j' A1 A2 A3 A4. apply Mq. destruct (Rm j' A4) as [_ M1].
      specialize (M1 i' A1 A3). specialize (Mx j' A2 A4). simpl in M1. lia.
  - intros x y Ho. unfold get_value. cbn [pg_nx pg_ny pg_w pg_cells].
    replace (_ || _) with true; [reflexivity|]. lia.
Qed.
