From Coq Require Import List ZArith Bool Lia Relations.
From Verif Require Import ZMap Conn_Model Conn_Spec.
Import ListNotations.
Open Scope Z_scope.

(* ---- pair maps ---- *)
Lemma peq_iff a b : peq a b = true <-> a = b.
Proof.
  unfold peq. destruct a, b. simpl. rewrite andb_true_iff, !Z.eqb_eq. split.
  - intros [-> ->]; auto.
  - intros H; injection H; auto.
Qed.
Lemma peq_refl a : peq a a = true.
Proof. now apply peq_iff. Qed.

Lemma pfind_pput {V} k (v : V) m k' :
  pfind k' (pput k v m) = if peq k' k then Some v else pfind k' m.
Proof.
  induction m as [|[k0 v0] m IH]; cbn [pput pfind].
  - destruct (peq k' k); auto.
  - destruct (peq k k0) eqn:E; cbn [pfind].
    + apply peq_iff in E. subst k0. destruct (peq k' k); auto.
    + rewrite IH. destruct (peq k' k0) eqn:E1; auto.
      destruct (peq k' k) eqn:E2; auto.
      apply peq_iff in E1, E2. subst. rewrite peq_refl in E. discriminate.
Qed.

Lemma minmax_sym a b : minmax a b = minmax b a.
Proof. unfold minmax. destruct (b <? a) eqn:E, (a <? b) eqn:F; f_equal; lia. Qed.

Lemma minmax_eq a b x y :
  minmax a b = minmax x y <-> (a = x /\ b = y) \/ (a = y /\ b = x).
Proof.
  unfold minmax. destruct (b <? a) eqn:E, (y <? x) eqn:F; split; intros H;
    try (injection H; intros; subst; lia);
    destruct H as [[-> ->]|[-> ->]]; f_equal; lia.
Qed.

(* ---- forest ---- *)
Inductive reach (f : forest) : Z -> Z -> nat -> Prop :=
| reach_root : forall n, zfind n f = Some n -> reach f n n 0
| reach_step : forall n p r k, zfind n f = Some p -> n <> p -> reach f p r k ->
    reach f n r (S k).

Lemma reach_det f n r k : reach f n r k -> forall r' k', reach f n r' k' -> r = r' /\ k = k'.
Proof.
  induction 1 as [n H|n p r k H N R IH]; intros r' k' R'; inversion R'; subst.
  - auto.
  - rewrite H in H0. injection H0 as ->. congruence.
  - rewrite H in H0. injection H0 as ->. congruence.
  - rewrite H in H0. injection H0 as <-. destruct (IH _ _ H2) as [-> ->]. auto.
Qed.

Lemma reach_end f n r k : reach f n r k -> zfind r f = Some r.
Proof. induction 1; auto. Qed.

Lemma reach_dom f n r k : reach f n r k -> exists p, zfind n f = Some p.
Proof. destruct 1; eauto. Qed.

(* the nodes on the path, with their distances *)
Lemma reach_path f n r k : reach f n r k ->
  exists l, length l = S k /\ NoDup l /\
    forall x, In x l -> (exists j, (j <= k)%nat /\ reach f x r j).
Proof.
  induction 1 as [n H|n p r k H N R IH].
  - exists [n]. repeat split.
    + constructor; [simpl; tauto|constructor].
    + intros x [<-|[]]. exists O. split; auto. now constructor.
  - destruct IH as (l & L & D & I). exists (n :: l). repeat split.
    + simpl. lia.
    + constructor; auto. intros Hn. destruct (I _ Hn) as (j & J & Rj).
      assert (Rn : reach f n r (S k)) by (econstructor; eauto).
      destruct (reach_det _ _ _ _ Rn _ _ Rj). lia.
    + intros x [<-|Hx].
      * exists (S k). split; auto. econstructor; eauto.
      * destruct (I _ Hx) as (j & J & Rj). eauto.
Qed.

Lemma reach_fuel f n r k : reach f n r k -> (k < length f)%nat.
Proof.
  intros H. destruct (reach_path _ _ _ _ H) as (l & L & D & I).
  assert (length l <= length (map fst f))%nat.
  { apply NoDup_incl_length; auto. intros x Hx. destruct (I x Hx) as (j & _ & Rj).
    destruct (reach_dom _ _ _ _ Rj) as (p & P). apply zfind_In in P.
    apply in_map_iff. exists (x, p). auto. }
  rewrite map_length in H0. lia.
Qed.

Lemma map_fst_zput {V} k (v v' : V) m : zsorted m -> zfind k m = Some v' ->
  map fst (zput k v m) = map fst m.
Proof.
  induction m as [|[k0 v0] m IH]; intros S F; [discriminate|].
  cbn [zfind zput] in *. apply zsorted_inv in S. destruct S as [S M].
  destruct (k =? k0) eqn:E.
  - apply Z.eqb_eq in E. subst. rewrite Z.ltb_irrefl. reflexivity.
  - destruct (k <? k0) eqn:L.
    + apply zfind_In in F. apply M in F. simpl in F. lia.
    + simpl. f_equal. auto.
Qed.

Lemma dom_keys {V} (f f' : list (Z * V)) : map fst f' = map fst f ->
  forall n, (exists p, zfind n f = Some p) -> exists p, zfind n f' = Some p.
Proof.
  intros E n [p P]. destruct (zfind n f') as [q|] eqn:Q; eauto. exfalso.
  apply zfind_In in P. assert (I : In n (map fst f)) by (apply in_map_iff; exists (n, p); auto).
  rewrite <- E in I. apply in_map_iff in I. destruct I as ([n' q] & <- & I).
  eapply zfind_None in Q. apply Q. exact I.
Qed.

(* f' is f after path compressions *)
Definition sim (f f' : forest) : Prop :=
  zsorted f' /\ map fst f' = map fst f /\
  forall n r k, reach f n r k -> exists k', reach f' n r k'.

Lemma sim_refl f : zsorted f -> sim f f.
Proof. repeat split; eauto. Qed.
Lemma sim_trans f g h : sim f g -> sim g h -> sim f h.
Proof.
  intros (A & B & C) (D & E & F). split; auto. split; [congruence|].
  intros n r k R. destruct (C _ _ _ R) as [k' R']. eauto.
Qed.

Lemma find_set_ok f n r k : zsorted f -> reach f n r k -> forall fuel, (k < fuel)%nat ->
  exists f', find_set fuel f n = Some (f', r) /\ sim f f'.
Proof.
  intros S. induction 1 as [n H|n p r k H N R IH]; intros fuel Hf;
    (destruct fuel as [|fuel]; [lia|]); cbn [find_set]; rewrite H.
  - rewrite Z.eqb_refl. exists f. split; auto. now apply sim_refl.
  - replace (n =? p) with false by lia.
    destruct (IH fuel ltac:(lia)) as (f' & E & S' & D & C). rewrite E.
    exists (zput n r f'). split; auto.
    assert (Hd : exists q, zfind n f' = Some q) by (apply (dom_keys f); eauto).
    destruct Hd as [q Hq].
    split; [now apply zput_sorted|]. split; [rewrite (map_fst_zput n r q); auto|].
    assert (Rn : reach f n r (Datatypes.S k)) by (econstructor; eauto).
    destruct (C _ _ _ Rn) as [kn Rn'].
    assert (Hnr : n <> r).
    { intros ->. assert (R0 : reach f r r 0) by (constructor; apply (reach_end _ _ _ _ Rn)).
      destruct (reach_det _ _ _ _ Rn _ _ R0). lia. }
    assert (Er : zfind r (zput n r f') = Some r).
    { rewrite zfind_zput by auto. replace (r =? n) with false by lia.
      apply (reach_end _ _ _ _ Rn'). }
    intros m r' k' Rm. destruct (C _ _ _ Rm) as [km Rm'].
    clear - S' Rm' Rn' Hnr Er Hq. 
    induction Rm' as [m Hm|m p r' km Hm Nm Rm IHm].
    + exists O. constructor. rewrite zfind_zput by auto.
      destruct (m =? n) eqn:E; auto. apply Z.eqb_eq in E. subst m.
      assert (R0 : reach f' n n 0) by (constructor; auto).
      destruct (reach_det _ _ _ _ Rn' _ _ R0). congruence.
    + destruct (Z.eq_dec m n) as [->|Nmn].
      * assert (Rm2 : reach f' n r' (Datatypes.S km)) by (econstructor; eauto).
        destruct (reach_det _ _ _ _ Rn' _ _ Rm2) as [-> _].
        exists 1%nat. apply reach_step with r'; auto.
        -- rewrite zfind_zput by auto. now rewrite Z.eqb_refl.
        -- constructor. auto.
      * destruct IHm as [k2 R2]; auto. exists (Datatypes.S k2).
        apply reach_step with p; auto. rewrite zfind_zput by auto.
        replace (m =? n) with false by lia. auto.
Qed.

Lemma FindSet_ok f n r k : zsorted f -> reach f n r k ->
  exists f', FindSet f n = Some (f', r) /\ sim f f'.
Proof. intros S R. eapply find_set_ok; eauto. pose proof (reach_fuel _ _ _ _ R). lia. Qed.

Lemma FindSet_None f n : zfind n f = None -> FindSet f n = None.
Proof. intros H. unfold FindSet. simpl. now rewrite H. Qed.

(* ---- invariant ---- *)
Definition rep (f : forest) (n r : Z) : Prop := exists k, reach f n r k.

Definition finv (f : forest) (T : Z -> Prop) (L : Z -> Z -> Prop) : Prop :=
  zsorted f /\
  (forall n, T n <-> exists p, zfind n f = Some p) /\
  (forall n, T n -> exists r, rep f n r) /\
  (forall a b ra rb, rep f a ra -> rep f b rb -> (ra = rb <-> L a b)).

Lemma sim_rep f f' n r : sim f f' -> rep f n r -> rep f' n r.
Proof. intros (_ & _ & C) [k R]. destruct (C _ _ _ R) as [k' R']. exists k'; auto. Qed.

Lemma rep_det f n r r' : rep f n r -> rep f n r' -> r = r'.
Proof. intros [k R] [k' R']. now destruct (reach_det _ _ _ _ R _ _ R'). Qed.

Lemma rep_dom f n r : rep f n r -> exists p, zfind n f = Some p.
Proof. intros [k R]. eapply reach_dom; eauto. Qed.

Lemma sim_finv f f' T L : finv f T L -> sim f f' -> finv f' T L.
Proof.
  intros (S & D & R & E) Sm. pose proof Sm as (S' & K & C).
  assert (D' : forall n, T n <-> exists p, zfind n f' = Some p).
  { intros n. rewrite D. split; apply dom_keys; congruence. }
  split; auto. split; auto. split.
  - intros n Hn. destruct (R n Hn) as [r Hr]. exists r. eapply sim_rep; eauto.
  - intros a b ra rb Ha Hb.
    destruct (R a) as [ra' Ra]. { apply D'. eapply rep_dom; eauto. }
    destruct (R b) as [rb' Rb]. { apply D'. eapply rep_dom; eauto. }
    rewrite (rep_det f' a ra ra') by (auto; eapply sim_rep; eauto).
    rewrite (rep_det f' b rb rb') by (auto; eapply sim_rep; eauto).
    apply E; auto.
Qed.

Lemma FindSet_inv f T L n : finv f T L -> T n ->
  exists f' r, FindSet f n = Some (f', r) /\ sim f f' /\ finv f' T L /\ rep f n r /\ rep f' n r.
Proof.
  intros I Hn. pose proof I as (S & D & R & E). destruct (R n Hn) as [r [k Rk]].
  destruct (FindSet_ok f n r k S Rk) as (f' & F & Sm). exists f', r.
  split; auto. split; auto. split; [eapply sim_finv; eauto|].
  split; [exists k; auto|]. eapply sim_rep; eauto. exists k; auto.
Qed.

Lemma finv_ext f T L T' L' : finv f T L -> (forall n, T n <-> T' n) ->
  (forall a b, T a -> T b -> (L a b <-> L' a b)) -> finv f T' L'.
Proof.
  intros (S & D & R & E) HT HL. split; auto. split; [|split].
  - intros n. rewrite <- HT. auto.
  - intros n Hn. apply R, HT, Hn.
  - intros a b ra rb Ha Hb. rewrite (E a b ra rb Ha Hb). apply HL; apply D; eapply rep_dom; eauto.
Qed.

Lemma emplace_finv f T L t : finv f T L -> (forall n, L n n) ->
  (forall a b, L a b -> a <> b -> T a /\ T b) ->
  finv (emplace t f) (fun n => T n \/ n = t) L.
Proof.
  intros (S & D & R & E) Rf Sp. unfold emplace. destruct (zfind t f) as [p|] eqn:F.
  - apply finv_ext with T L; [exact (conj S (conj D (conj R E)))| |tauto].
    intros n. split; auto. intros [H| ->]; auto. apply D. eauto.
  - assert (Old : forall n r, rep f n r -> rep (zput t t f) n r).
    { intros n r [k Rk]. exists k. induction Rk as [n H|n p r k H N Rk IH].
      - constructor. rewrite zfind_zput by auto. destruct (n =? t) eqn:Q; auto.
        apply Z.eqb_eq in Q. congruence.
      - apply reach_step with p; auto. rewrite zfind_zput by auto.
        destruct (n =? t) eqn:Q; auto. apply Z.eqb_eq in Q. congruence. }
    assert (New : rep (zput t t f) t t).
    { exists O. constructor. rewrite zfind_zput by auto. now rewrite Z.eqb_refl. }
    assert (HT : ~ T t). { intros H. apply D in H. destruct H. congruence. }
    split; [now apply zput_sorted|]. split; [|split].
    + intros n. rewrite zfind_zput by auto. destruct (n =? t) eqn:Q.
      * apply Z.eqb_eq in Q. split; eauto.
      * rewrite <- D. split; [intros [H|H]; auto; lia|auto].
    + intros n [H| ->]; [destruct (R n H) as [r Hr]; eauto|eauto].
    + assert (Inv : forall n r, rep (zput t t f) n r -> n = t /\ r = t \/
                      rep f n r /\ n <> t /\ r <> t).
      { intros n r Hr. destruct (Z.eq_dec n t) as [->|N].
        - left. split; auto. eapply rep_det; eauto.
        - right. destruct (R n) as [r' Hr'].
          { apply D. destruct (rep_dom _ _ _ Hr) as [p Hp]. rewrite zfind_zput in Hp by auto.
            destruct (n =? t) eqn:Q; [lia|eauto]. }
          rewrite (rep_det _ _ _ _ Hr (Old _ _ Hr')). repeat split; auto.
          intros ->. destruct Hr' as [k Hk]. apply reach_end in Hk. congruence. }
      intros a b ra rb Ha Hb.
      destruct (Inv _ _ Ha) as [[-> ->]|(Ha' & Na & Nra)],
               (Inv _ _ Hb) as [[-> ->]|(Hb' & Nb & Nrb)].
      * split; auto.
      * split; [congruence|]. intros HL. exfalso. destruct (Sp _ _ HL); auto.
      * split; [congruence|]. intros HL. exfalso. destruct (Sp _ _ HL); auto.
      * auto.
Qed.

(* ---- linked ---- *)
Lemma linked_refl os a : linked os a a.
Proof. apply rst_refl. Qed.
Lemma linked_sym os a b : linked os a b -> linked os b a.
Proof. apply rst_sym. Qed.
Lemma linked_trans os a b c : linked os a b -> linked os b c -> linked os a c.
Proof. apply rst_trans. Qed.

Lemma linked_mono os o a b : linked os a b -> linked (os ++ [o]) a b.
Proof.
  induction 1.
  - apply rst_step. apply in_or_app. auto.
  - apply rst_refl.
  - now apply rst_sym.
  - eapply rst_trans; eauto.
Qed.

Definition noconn (o : ccop) : Prop := match o with CConnect _ _ => False | _ => True end.

Lemma linked_noconn os o a b : noconn o -> linked (os ++ [o]) a b <-> linked os a b.
Proof.
  intros N. split; [|apply linked_mono].
  induction 1.
  - apply in_app_or in H. destruct H as [H|[->|[]]]; [now apply rst_step|destruct N].
  - apply rst_refl.
  - now apply rst_sym.
  - eapply rst_trans; eauto.
Qed.

Lemma linked_connect os x y a b : linked (os ++ [CConnect x y]) a b <->
  linked os a b \/ (linked os a x /\ linked os y b) \/ (linked os a y /\ linked os x b).
Proof.
  split.
  - induction 1 as [a b H|a|a b H IH|a b c H1 IH1 H2 IH2].
    + apply in_app_or in H. destruct H as [H|[H|[]]].
      * left. now apply rst_step.
      * injection H as <- <-. right. left. split; apply linked_refl.
    + left. apply linked_refl.
    + destruct IH as [H0|[[H0 H1]|[H0 H1]]].
      * left. now apply linked_sym.
      * right. right. split; now apply linked_sym.
      * right. left. split; now apply linked_sym.
    + destruct IH1 as [A|[[A B]|[A B]]], IH2 as [C|[[C D]|[C D]]];
        eauto 6 using linked_trans, linked_sym.
  - assert (X : linked (os ++ [CConnect x y]) x y).
    { apply rst_step. apply in_or_app. simpl; auto. }
    intros [H|[[H1 H2]|[H1 H2]]].
    + now apply linked_mono.
    + eapply linked_trans; [apply linked_mono; eauto|].
      eapply linked_trans; [exact X|]. now apply linked_mono.
    + eapply linked_trans; [apply linked_mono; eauto|].
      eapply linked_trans; [apply linked_sym, X|]. now apply linked_mono.
Qed.

Lemma linked_tracked os a b : linked os a b -> a <> b -> tracked os a /\ tracked os b.
Proof.
  induction 1 as [a b H|a|a b H IH|a b c H1 IH1 H2 IH2]; intros N.
  - split; right; eauto.
  - congruence.
  - destruct IH; auto.
  - destruct (Z.eq_dec a b) as [->|N1]; [auto|].
    destruct (Z.eq_dec b c) as [<-|N2]; [auto|].
    split; [apply IH1; auto|apply IH2; auto].
Qed.

Lemma tracked_app os o t : tracked (os ++ [o]) t <-> tracked os t \/ tracked [o] t.
Proof.
  unfold tracked. rewrite in_app_iff. setoid_rewrite in_app_iff. firstorder.
Qed.

Definition counts_ok (c : list (Z * Z * Z)) (os : list ccop) : Prop :=
  forall a b, (match pfind (minmax a b) c with Some n => n | None => 0 end)
              = times_connected os a b.

Definition inv (s : cc) (os : list ccop) : Prop :=
  finv (cc_forest s) (tracked os) (linked os) /\ counts_ok (cc_counts s) os.

Lemma inv_init : inv cc_init [].
Proof.
  split.
  - split; [constructor|]. split; [|split].
    + intros n. split; [intros [[]|[u [[]|[]]]]|intros [p H]; discriminate].
    + intros n [[]|[u [[]|[]]]].
    + intros a b ra rb Ha. destruct (rep_dom _ _ _ Ha). discriminate.
  - intros a b. reflexivity.
Qed.

Lemma times_noconn os o a b : noconn o -> times_connected (os ++ [o]) a b = times_connected os a b.
Proof.
  intros N. unfold times_connected. rewrite filter_app, app_length. simpl.
  destruct o; simpl in *; try tauto; try (simpl; f_equal; lia).
Qed.

Definition query (o : ccop) : Prop :=
  match o with CAdd _ | CConnect _ _ => False | _ => True end.

Lemma inv_query s os o : query o -> inv s os -> inv s (os ++ [o]).
Proof.
  intros Q [F C]. assert (N : noconn o) by (destruct o; simpl in *; tauto). split.
  - apply finv_ext with (tracked os) (linked os); auto.
    + intros n. rewrite tracked_app. split; auto. intros [H|H]; auto. exfalso.
      destruct H as [[->|[]]|[u [[->|[]]|[->|[]]]]]; destruct Q.
    + intros a b _ _. now rewrite linked_noconn.
  - intros a b. rewrite times_noconn; auto.
Qed.

Lemma add_inv s os t : inv s os -> inv (cc_add s t) (os ++ [CAdd t]).
Proof.
  intros [F C]. split.
  - unfold cc_add. simpl.
    apply finv_ext with (fun n => tracked os n \/ n = t) (linked os).
    + apply emplace_finv; auto; [apply linked_refl|apply linked_tracked].
    + intros n. rewrite tracked_app. split; (intros [H|H]; auto).
      * subst. right. left. simpl; auto.
      * right. destruct H as [[H|[]]|[u [[H|[]]|[H|[]]]]]; congruence.
    + intros a b _ _. symmetry. apply linked_noconn. exact I.
  - intros a b. simpl. rewrite times_noconn; [apply C|exact I].
Qed.

Lemma union_finv f os a b : finv f (tracked os) (linked os) ->
  exists f', union f a b = Some f' /\
    finv f' (tracked (os ++ [CConnect a b])) (linked (os ++ [CConnect a b])).
Proof.
  intros F0. unfold union.
  pose proof (emplace_finv f _ _ a F0 (linked_refl os) (linked_tracked os)) as F1.
  assert (F2 := emplace_finv _ _ _ b F1 (linked_refl os)).
  assert (Sp : forall x y, linked os x y -> x <> y ->
     (tracked os x \/ x = a) /\ (tracked os y \/ y = a)).
  { intros x y H N. destruct (linked_tracked _ _ _ H N). auto. }
  specialize (F2 Sp). clear Sp F1. cbv beta in F2.
  set (f2 := emplace b (emplace a f)) in *.
  set (T := fun n : Z => (tracked os n \/ n = a) \/ n = b) in *.
  destruct (FindSet_inv f2 T _ a F2) as (f3 & ra & E3 & S3 & F3 & _ & Ra); [unfold T; auto|].
  rewrite E3.
  destruct (FindSet_inv f3 T _ b F3) as (f4 & rb & E4 & S4 & F4 & _ & Rb); [unfold T; auto|].
  rewrite E4. eexists. split; [reflexivity|].
  apply sim_rep with (f' := f4) in Ra; auto. clear E3 S3 F3 E4 S4.
  pose proof F4 as (S & D & R & E).
  assert (Zra : zfind ra f4 = Some ra) by (destruct Ra as [k Hk]; eapply reach_end; eauto).
  assert (Zrb : zfind rb f4 = Some rb) by (destruct Rb as [k Hk]; eapply reach_end; eauto).
  set (f5 := zput ra rb f4).
  assert (S5 : zsorted f5) by now apply zput_sorted.
  assert (R5 : forall n r, rep f4 n r -> rep f5 n (if r =? ra then rb else r)).
  { intros n r [k Hk]. induction Hk as [n H|n p r k H N Hk IH].
    - destruct (n =? ra) eqn:Q.
      + apply Z.eqb_eq in Q. subst n. destruct (Z.eq_dec ra rb) as [Eq|Nr].
        * exists O. rewrite <- Eq. constructor. unfold f5. rewrite zfind_zput by auto.
          rewrite Z.eqb_refl, <- Eq. reflexivity.
        * exists 1%nat. apply reach_step with rb; auto.
          -- unfold f5. rewrite zfind_zput by auto. now rewrite Z.eqb_refl.
          -- constructor. unfold f5. rewrite zfind_zput by auto.
             replace (rb =? ra) with false by lia. auto.
      + exists O. constructor. unfold f5. rewrite zfind_zput by auto. now rewrite Q.
    - destruct IH as [k' IH]. exists (Datatypes.S k'). apply reach_step with p; auto.
      unfold f5. rewrite zfind_zput by auto. destruct (n =? ra) eqn:Q; auto.
      apply Z.eqb_eq in Q. subst n. congruence. }
  apply finv_ext with T (linked (os ++ [CConnect a b])).
  - split; auto. split; [|split].
    + intros n. unfold f5. rewrite zfind_zput by auto. destruct (n =? ra) eqn:Q; [|apply D].
      apply Z.eqb_eq in Q. subst n. split; eauto. intros _. apply D. eauto.
    + intros n Hn. destruct (R n Hn) as [r Hr]. eauto.
    + intros x y rx ry Hx Hy.
      assert (Tx : T x).
      { destruct (rep_dom _ _ _ Hx) as [p Hp]. unfold f5 in Hp. rewrite zfind_zput in Hp by auto.
        destruct (x =? ra) eqn:Q; apply D; eauto. apply Z.eqb_eq in Q. subst; eauto. }
      assert (Ty : T y).
      { destruct (rep_dom _ _ _ Hy) as [p Hp]. unfold f5 in Hp. rewrite zfind_zput in Hp by auto.
        destruct (y =? ra) eqn:Q; apply D; eauto. apply Z.eqb_eq in Q. subst; eauto. }
      destruct (R x Tx) as [qx Qx], (R y Ty) as [qy Qy].
      rewrite (rep_det _ _ _ _ Hx (R5 _ _ Qx)), (rep_det _ _ _ _ Hy (R5 _ _ Qy)).
      rewrite linked_connect.
      rewrite <- (E x y qx qy Qx Qy), <- (E x a qx ra Qx Ra), <- (E b y rb qy Rb Qy),
        <- (E x b qx rb Qx Rb), <- (E a y ra qy Ra Qy).
      destruct (qx =? ra) eqn:Q1, (qy =? ra) eqn:Q2; lia.
  - intros n. rewrite tracked_app. unfold T. split.
    + intros [[H|H]|H]; auto; subst; right; right; simpl; eauto.
    + intros [H|[[H|[]]|[u [[H|[]]|[H|[]]]]]]; auto; try discriminate; injection H; auto.
  - tauto.
Qed.

Lemma connect_inv s os a b : inv s os ->
  exists s', cc_connect s a b = Some s' /\ inv s' (os ++ [CConnect a b]).
Proof.
  intros [F C]. destruct (union_finv _ _ a b F) as (f & U & F').
  unfold cc_connect. rewrite U. eexists. split; [reflexivity|]. split; auto.
  intros x y. simpl. rewrite pfind_pput.
  unfold times_connected. rewrite filter_app, app_length, Nat2Z.inj_add.
  pose proof (C a b) as Cab. pose proof (C x y) as Cxy. unfold times_connected in *.
  destruct (peq (minmax x y) (minmax a b)) eqn:P.
  - apply peq_iff in P. rewrite <- P in *. rewrite Cxy.
    assert (Q : is_pair x y (CConnect a b) = true).
    { apply minmax_eq in P. simpl. rewrite orb_true_iff, !andb_true_iff, !Z.eqb_eq. lia. }
    cbn [filter]. rewrite Q. simpl. lia.
  - assert (Q : is_pair x y (CConnect a b) = false).
    { destruct (is_pair x y (CConnect a b)) eqn:Q; auto. exfalso.
      simpl in Q. rewrite orb_true_iff, !andb_true_iff, !Z.eqb_eq in Q.
      assert (minmax x y = minmax a b) by (apply minmax_eq; lia).
      apply peq_iff in H. congruence. }
    cbn [filter]. rewrite Q. simpl. lia.
Qed.

Lemma connected_ok s os a b : inv s os ->
  exists s' r, cc_connected s a b = Some (s', r) /\ inv s' os /\ (r = true <-> linked os a b).
Proof.
  intros [F C]. unfold cc_connected. destruct (a =? b) eqn:Q.
  - apply Z.eqb_eq in Q. subst. exists s, true.
    split; auto. split; [split; auto|]. split; auto using linked_refl.
  - pose proof F as (S & D & R & E).
    assert (NT : forall x, zfind x (cc_forest s) = None -> ~ tracked os x).
    { intros x Hx Ht. apply D in Ht. destruct Ht. congruence. }
    assert (LT : linked os a b -> tracked os a /\ tracked os b).
    { intros L. apply linked_tracked in L; auto. lia. }
    destruct (zfind a (cc_forest s)) as [pa|] eqn:Za.
    2:{ exists s, false. split; auto. split; [split; auto|]. split; [discriminate|].
        intros L. apply LT in L. destruct L. exfalso. eapply NT; eauto. }
    destruct (zfind b (cc_forest s)) as [pb|] eqn:Zb.
    2:{ exists s, false. split; auto. split; [split; auto|]. split; [discriminate|].
        intros L. apply LT in L. destruct L. exfalso. eapply (NT b); eauto. }
    destruct (FindSet_inv _ _ _ a F) as (f2 & ra & E2 & S2 & F2 & _ & Ra); [apply D; eauto|].
    rewrite E2.
    destruct (FindSet_inv _ _ _ b F2) as (f3 & rb & E3 & S3 & F3 & _ & Rb); [apply D; eauto|].
    rewrite E3. exists {| cc_forest := f3; cc_counts := cc_counts s |}, (ra =? rb).
    split; auto. split; [split; auto|].
    apply sim_rep with (f' := f3) in Ra; auto.
    destruct F3 as (_ & _ & _ & E'). rewrite <- (E' a b ra rb Ra Rb). apply Z.eqb_eq.
Qed.

(* ---- Components ---- *)
Lemma comp_loop_ok T L keys : forall f m,
  finv f T L -> (forall k, In k keys -> T k) -> zsorted m ->
  exists f' m', comp_loop f keys m = Some (f', m') /\ finv f' T L /\ sim f f' /\ zsorted m' /\
    (forall r l', zfind r m' = Some l' ->
        exists l, l' = (match zfind r m with Some l0 => l0 | None => [] end) ++ l /\
          l = filter (fun k => match FindSet f k with Some (_, x) => x =? r | None => false end) keys) /\
    (forall r, zfind r m' = None ->
        zfind r m = None /\ forall k, In k keys -> ~ rep f k r).
Proof.
  induction keys as [|k keys IH]; intros f m F HT Sm.
  - exists f, m. simpl. split; [reflexivity|]. split; [auto|]. split; [apply sim_refl; apply F|].
    split; [auto|]. split.
    + intros r l' H. exists []. rewrite H, app_nil_r. auto.
    + intros r H. split; auto.
  - cbn [comp_loop].
    destruct (FindSet_inv f T L k F) as (f1 & s & E1 & S1 & F1 & Rk & _);
      [apply HT; simpl; auto|]. rewrite E1.
    set (old := match zfind s m with Some l => l | None => [] end).
    destruct (IH f1 (zput s (old ++ [k]) m)) as (f' & m' & E & F' & S' & Sm' & H1 & H2); auto.
    { intros; apply HT; simpl; auto. } { now apply zput_sorted. }
    exists f', m'. split; auto. split; auto. split; [eapply sim_trans; eauto|]. split; auto.
    assert (FE : forall x, In x keys -> forall r,
      match FindSet f1 x with Some (_, y) => y =? r | None => false end =
      match FindSet f x with Some (_, y) => y =? r | None => false end).
    { intros x Hx r.
      destruct (FindSet_inv f T L x F) as (g1 & y & G1 & _ & _ & Y & _); [apply HT; simpl; auto|].
      destruct (FindSet_inv f1 T L x F1) as (g2 & y2 & G2 & _ & _ & Y2 & _); [apply HT; simpl; auto|].
      rewrite G1, G2. f_equal. eapply rep_det; [exact Y2|]. eapply sim_rep; eauto. }
    split.
    + intros r l' H. destruct (H1 r l' H) as (l & -> & Hl). rewrite zfind_zput by auto.
      rewrite (filter_ext_in _ (fun k => match FindSet f k with Some (_, x) => x =? r | None => false end))
        in Hl by (intros; apply FE; auto).
      cbn [filter]. rewrite E1.
      destruct (r =? s) eqn:Q.
      * apply Z.eqb_eq in Q. subst r. rewrite Z.eqb_refl. exists (k :: l). split.
        -- unfold old. rewrite <- app_assoc. reflexivity.
        -- congruence.
      * replace (s =? r) with false by lia. exists l. auto.
    + intros r H. destruct (H2 r H) as [Z1 Z2]. rewrite zfind_zput in Z1 by auto.
      destruct (r =? s) eqn:Q; [discriminate|]. split; auto.
      intros x [<-|Hx] Rx.
      * assert (r = s) by (eapply rep_det; eauto). lia.
      * apply (Z2 x Hx). eapply sim_rep; eauto.
Qed.

Lemma comp_keys_NoDup (f : forest) : zsorted f -> NoDup (map fst f).
Proof. apply zsorted_NoDup. Qed.

Lemma filter_disjoint_concat {A B} (f : A -> B -> bool) (ls : list A) (ks : list B) :
  NoDup ks -> NoDup ls ->
  (forall a a' k, In a ls -> In a' ls -> f a k = true -> f a' k = true -> a = a') ->
  NoDup (concat (map (fun a => filter (f a) ks) ls)).
Proof.
  intros Nk. induction ls as [|a ls IH]; simpl; intros Nl H; [constructor|].
  inversion Nl; subst.
  assert (NoDup_app : forall (l1 l2 : list B), NoDup l1 -> NoDup l2 ->
            (forall x, In x l1 -> ~ In x l2) -> NoDup (l1 ++ l2)).
  { clear. induction l1 as [|x l1 IH]; simpl; intros l2 N1 N2 D; auto.
    inversion N1; subst. constructor.
    - rewrite in_app_iff. intros [I|I]; [auto|]. apply (D x); auto.
    - apply IH; auto. }
  apply NoDup_app.
  - now apply NoDup_filter.
  - apply IH; auto. intros; eapply H; eauto.
  - intros x Hx Hc. apply filter_In in Hx. destruct Hx as [_ Fx].
    apply in_concat in Hc. destruct Hc as (l & Hl & Hx).
    apply in_map_iff in Hl. destruct Hl as (a' & <- & Ha'). apply filter_In in Hx.
    destruct Hx as [_ Fx']. assert (a = a') by (eapply H; eauto). subst. auto.
Qed.

Lemma components_ok s os : inv s os ->
  exists s' ls, cc_components s = Some (s', ls) /\ inv s' os /\
    NoDup (concat ls) /\ (forall l, In l ls -> l <> []) /\
    (forall t, In t (concat ls) <-> tracked os t) /\
    (forall a b, (exists l, In l ls /\ In a l /\ In b l) <->
                 tracked os a /\ tracked os b /\ linked os a b).
Proof.
  intros [F C]. pose proof F as (S & D & R & E). unfold cc_components.
  set (f := cc_forest s) in *.
  assert (KT : forall k, In k (map fst f) <-> tracked os k).
  { intros k. rewrite D. split.
    - intros H. apply in_map_iff in H. destruct H as ([k' p] & <- & H). exists p.
      simpl. apply In_zfind; auto.
    - intros [p H]. apply in_map_iff. exists (k, p). split; auto. now apply zfind_In. }
  destruct (comp_loop_ok (tracked os) (linked os) (map fst f) f [] F)
    as (f' & m & Em & F' & S' & Sm & H1 & H2); [intros; now apply KT|constructor|].
  rewrite Em. exists {| cc_forest := f'; cc_counts := cc_counts s |}, (map snd m).
  split; auto. split; [split; auto|].
  set (g := fun (r k : Z) => match FindSet f k with Some (_, x) => x =? r | None => false end).
  assert (G : forall r k, tracked os k -> (g r k = true <-> rep f k r)).
  { intros r k Hk. unfold g.
    destruct (FindSet_inv f _ _ k F Hk) as (f1 & x & E1 & _ & _ & Rx & _). rewrite E1.
    rewrite Z.eqb_eq. split; [intros <-; auto|intros; eapply rep_det; eauto]. }
  assert (ME : map snd m = map (fun r => filter (g r) (map fst f)) (map fst m)).
  { rewrite map_map. apply map_ext_in. intros [r l'] Hin. simpl.
    apply In_zfind in Hin; auto. destruct (H1 r l' Hin) as (l & -> & ->). reflexivity. }
  assert (INm : forall r k, tracked os k -> rep f k r -> In r (map fst m)).
  { intros r k Hk Hr. destruct (zfind r m) as [l|] eqn:Z.
    - apply in_map_iff. exists (r, l). split; auto. now apply zfind_In.
    - destruct (H2 r Z) as [_ H]. exfalso. apply (H k); auto. now apply KT. }
  rewrite ME.
  assert (P : forall a b, (exists l, In l (map (fun r => filter (g r) (map fst f)) (map fst m))
       /\ In a l /\ In b l) <-> tracked os a /\ tracked os b /\ linked os a b).
  { intros a b. split.
    - intros (l & Hl & Ha & Hb). apply in_map_iff in Hl. destruct Hl as (r & <- & Hr).
      apply filter_In in Ha, Hb. destruct Ha as [Ka Ga], Hb as [Kb Gb].
      apply KT in Ka, Kb. apply G in Ga; auto. apply G in Gb; auto.
      split; auto. split; auto. apply (E a b r r); auto.
    - intros (Ta & Tb & Lab). destruct (R a Ta) as [ra Ra], (R b Tb) as [rb Rb].
      assert (ra = rb) by (apply (E a b ra rb); auto). subst rb.
      exists (filter (g ra) (map fst f)). split; [|split].
      + apply in_map_iff. exists ra. split; auto. eapply INm; eauto.
      + apply filter_In. split; [now apply KT|]. apply G; auto.
      + apply filter_In. split; [now apply KT|]. apply G; auto. }
  split; [|split; [|split]].
  - apply filter_disjoint_concat; try apply zsorted_NoDup; auto.
    intros a a' k _ _ Ga Ga'. unfold g in *. destruct (FindSet f k) as [[? x]|]; [lia|discriminate].
  - intros l Hl Hn. subst l. rewrite <- ME in Hl. apply in_map_iff in Hl.
    destruct Hl as ([r l] & El & Hl). simpl in El. subst l.
    pose proof (In_zfind _ _ _ Sm Hl) as Hz.
    destruct (H1 _ _ Hz) as (l & El & Fl). simpl in El. subst l.
    (* the cluster of r was created by some key, hence is not empty *)
    assert (X : forall keys f m, finv f (tracked os) (linked os) ->
       (forall k, In k keys -> tracked os k) -> zsorted m ->
       (forall r, zfind r m <> Some []) ->
       forall f' m', comp_loop f keys m = Some (f', m') -> forall r, zfind r m' <> Some []).
    { clear. induction keys as [|k keys IH]; simpl; intros f m F HT Sm Hm f' m' E r.
      - injection E as <- <-. auto.
      - destruct (FindSet_inv f _ _ k F) as (f1 & y & E1 & S1 & F1 & _); [apply HT; auto|].
        rewrite E1 in E. eapply IH; [exact F1| | | |exact E].
        + intros; apply HT; auto.
        + now apply zput_sorted.
        + intros r0. rewrite zfind_zput by auto. destruct (r0 =? y); auto.
          intros H. injection H as H. destruct (zfind y m) as [l|]; [destruct l|]; discriminate. }
    apply (X (map fst f) f [] F) with (f' := f') (m' := m) (r := r); auto.
    + intros; now apply KT.
    + constructor.
    + discriminate.
  - intros t. split.
    + intros H. apply in_concat in H. destruct H as (l & Hl & Ht).
      assert (W : exists l, In l (map (fun r => filter (g r) (map fst f)) (map fst m))
        /\ In t l /\ In t l) by eauto. apply P in W. tauto.
    + intros Ht. destruct (proj2 (P t t)) as (l & Hl & Hi & _); auto using linked_refl.
      apply in_concat. eauto.
  - exact P.
Qed.

Lemma get_loop_ok T L set_id keys : forall f,
  finv f T L -> (forall k, In k keys -> T k) ->
  exists f' l, get_loop f keys set_id = Some (f', l) /\ finv f' T L /\ sim f f' /\
    forall k, In k l <-> In k keys /\ rep f k set_id.
Proof.
  induction keys as [|k keys IH]; intros f F HT; cbn [get_loop].
  - exists f, []. split; [auto|]. split; auto. split; [apply sim_refl; apply F|].
    intros k. simpl. tauto.
  - destruct (FindSet_inv f T L k F) as (f1 & s & E1 & S1 & F1 & Rk & _);
      [apply HT; simpl; auto|]. rewrite E1.
    destruct (IH f1 F1) as (f' & l & E & F' & S' & H); [intros; apply HT; simpl; auto|].
    rewrite E. exists f', (if s =? set_id then k :: l else l).
    split; auto. split; auto. split; [eapply sim_trans; eauto|].
    assert (RR : forall x, T x -> (rep f1 x set_id <-> rep f x set_id)).
    { intros x Hx. split; [|apply sim_rep; auto].
      intros Hr. destruct F as (_ & _ & R & _). destruct (R x Hx) as [r Hr'].
      rewrite <- (rep_det f1 x r set_id); auto. eapply sim_rep; eauto. }
    intros x. destruct (s =? set_id) eqn:Q; simpl; rewrite H.
    + apply Z.eqb_eq in Q. subst s. split.
      * intros [<-|[I J]]; auto. split; auto. apply RR; auto. apply HT; simpl; auto.
      * intros [[<-|I] J]; auto. right. split; auto. apply RR; auto. apply HT; simpl; auto.
    + split.
      * intros [I J]. split; auto. apply RR; auto. apply HT; simpl; auto.
      * intros [[<-|I] J].
        -- assert (s = set_id) by (eapply rep_det; eauto). lia.
        -- split; auto. apply RR; auto. apply HT; simpl; auto.
Qed.

Lemma component_ok s os t : inv s os -> tracked os t ->
  exists s' l, cc_component s t = Some (s', l) /\ inv s' os /\
    forall k, In k l <-> linked os t k.
Proof.
  intros [F C] Ht. unfold cc_component.
  destruct (FindSet_inv _ _ _ t F Ht) as (f1 & r & E1 & S1 & F1 & _ & Rt). rewrite E1.
  pose proof F1 as (S & D & R & E).
  assert (KT : forall k, In k (map fst f1) <-> tracked os k).
  { intros k. rewrite D. split.
    - intros H. apply in_map_iff in H. destruct H as ([k' p] & <- & H). exists p.
      simpl. apply In_zfind; auto.
    - intros [p H]. apply in_map_iff. exists (k, p). split; auto. now apply zfind_In. }
  destruct (get_loop_ok _ _ r (map fst f1) f1 F1) as (f' & l & El & F' & S' & H);
    [intros; now apply KT|].
  rewrite El. eexists. exists l. split; [reflexivity|]. split; [split; auto|].
  intros k. rewrite H, KT. split.
  - intros [Tk Rk]. apply (E t k r r); auto.
  - intros Lk. assert (Tk : tracked os k).
    { destruct (Z.eq_dec t k) as [<-|N]; auto. apply linked_tracked in Lk; tauto. }
    split; auto. destruct (R k Tk) as [rk Rk].
    assert (r = rk) by (apply (E t k r rk); auto). congruence.
Qed.

Lemma component_untracked s os t : inv s os -> ~ tracked os t -> cc_component s t = None.
Proof.
  intros [(S & D & _) C] Ht. unfold cc_component. rewrite FindSet_None; auto.
  destruct (zfind t (cc_forest s)) eqn:Z; auto. exfalso. apply Ht, D. eauto.
Qed.

Lemma step_inv s os o : inv s os ->
  (match o with CComponent t => tracked os t | _ => True end) ->
  exists s', cc_step s o = Some s' /\ inv s' (os ++ [o]).
Proof.
  intros I L. destruct o as [t|a b|a b| |t]; simpl.
  - eexists. split; [reflexivity|]. now apply add_inv.
  - now apply connect_inv.
  - destruct (connected_ok s os a b I) as (s' & r & -> & I' & _).
    exists s'. split; auto. now apply inv_query.
  - destruct (components_ok s os I) as (s' & ls & -> & I' & _).
    exists s'. split; auto. now apply inv_query.
  - destruct (component_ok s os t I L) as (s' & l & -> & I' & _).
    exists s'. split; auto. now apply inv_query.
Qed.

Lemma run_inv os : forall s seen, inv s seen -> legal seen os ->
  exists s', cc_run s os = Some s' /\ inv s' (seen ++ os).
Proof.
  induction os as [|o os IH]; simpl; intros s seen I L.
  - exists s. rewrite app_nil_r. auto.
  - destruct L as [L1 L2]. destruct (step_inv s seen o I L1) as (s1 & E & I1). rewrite E.
    destruct (IH s1 _ I1 L2) as (s' & E' & I'). exists s'. split; auto.
    now rewrite <- app_assoc in I'.
Qed.

Lemma run_legal os : forall s seen s', inv s seen -> cc_run s os = Some s' -> legal seen os.
Proof.
  induction os as [|o os IH]; simpl; intros s seen s' I E; auto.
  destruct (cc_step s o) as [s1|] eqn:E1; [|discriminate].
  assert (L1 : match o with CComponent t => tracked seen t | _ => True end).
  { destruct o; auto. pose proof I as [(_ & D & _) _].
    apply D. simpl in E1. unfold cc_component in E1.
    destruct (zfind t (cc_forest s)) eqn:Z; eauto. rewrite FindSet_None in E1 by auto. discriminate. }
  split; auto. destruct (step_inv s seen o I L1) as (s2 & E2 & I2).
  rewrite E1 in E2. injection E2 as <-. eauto.
Qed.

(* ---- TrajectoryConnectivityState ---- *)
Definition tinv (s : tcs) (os : list tcsop) : Prop := inv (t_cc s) (map cc_of os).

Lemma time_at_touch k m k' : time_at (touch k m) k' = time_at m k'.
Proof.
  unfold touch. destruct (pfind k m) eqn:E; auto. unfold time_at. rewrite pfind_pput.
  destruct (peq k' k) eqn:P; auto. apply peq_iff in P. subst. now rewrite E.
Qed.

Lemma time_at_pput k v m k' : time_at (pput k v m) k' = if peq k' k then v else time_at m k'.
Proof. unfold time_at. rewrite pfind_pput. destruct (peq k' k); auto. Qed.

Lemma set_times_inner a cb t : forall m k,
  time_at (fold_left (fun m b => pput (minmax a b) t m) cb m) k =
  if existsb (fun b => peq k (minmax a b)) cb then t else time_at m k.
Proof.
  induction cb as [|b cb IH]; simpl; intros m k; auto.
  rewrite IH. destruct (existsb _ cb); [now rewrite orb_true_r|].
  rewrite time_at_pput, orb_false_r. reflexivity.
Qed.

Lemma set_times_at ca cb t : forall m k,
  time_at (set_times ca cb t m) k =
  if existsb (fun a => existsb (fun b => peq k (minmax a b)) cb) ca then t else time_at m k.
Proof.
  unfold set_times. induction ca as [|a ca IH]; simpl; intros m k; auto.
  rewrite IH. destruct (existsb _ ca); [now rewrite orb_true_r|].
  rewrite set_times_inner, orb_false_r. reflexivity.
Qed.

Definition last_time (s : tcs) (a b : Z) : Z := snd (tcs_last_time s a b).

Lemma last_time_at s a b : last_time s a b = time_at (t_times s) (minmax a b).
Proof. unfold last_time, tcs_last_time. simpl. apply time_at_touch. Qed.

Lemma tconnect_ok s os a b t : tinv s os ->
  (a = b \/ tracked (map cc_of os) a /\ tracked (map cc_of os) b) ->
  exists s', tcs_connect s a b t = Some s' /\ tinv s' (os ++ [TConnect a b t]) /\
    (linked (map cc_of os) a b ->
       last_time s' a b = Z.max (last_time s a b) t /\
       forall x y, ~ (x = a /\ y = b) -> ~ (x = b /\ y = a) -> last_time s' x y = last_time s x y) /\
    (~ linked (map cc_of os) a b ->
       (forall x y, linked (map cc_of os) a x -> linked (map cc_of os) b y ->
          last_time s' x y = t) /\
       (forall x y, ~ (linked (map cc_of os) a x /\ linked (map cc_of os) b y) ->
                    ~ (linked (map cc_of os) a y /\ linked (map cc_of os) b x) ->
          last_time s' x y = last_time s x y)).
Proof.
  intros I L. unfold tinv in *. rewrite map_app. simpl. unfold tcs_connect.
  destruct (connected_ok _ _ a b I) as (c & r & E & Ic & Hr). rewrite E.
  setoid_rewrite last_time_at.
  destruct r.
  - destruct (connect_inv c _ a b Ic) as (c' & E' & I'). rewrite E'.
    eexists. split; [reflexivity|]. split; [exact I'|]. cbn [t_times].
    split; [|tauto]. intros _. 
    set (m := touch (minmax a b) (t_times s)).
    assert (Tm : forall k, time_at m k = time_at (t_times s) k) by (intros; apply time_at_touch).
    split.
    + destruct (time_at m (minmax a b) <? t) eqn:Q; rewrite ?time_at_pput, ?peq_refl;
        rewrite Tm in *; lia.
    + intros x y N1 N2.
      assert (P : peq (minmax x y) (minmax a b) = false).
      { destruct (peq _ _) eqn:P; auto. apply peq_iff, minmax_eq in P. tauto. }
      destruct (time_at m (minmax a b) <? t); rewrite ?time_at_pput, ?P; apply Tm.
  - assert (NL : ~ linked (map cc_of os) a b) by (rewrite <- Hr; discriminate).
    assert (LT : tracked (map cc_of os) a /\ tracked (map cc_of os) b).
    { destruct L as [->|L]; auto. exfalso. apply NL, linked_refl. }
    destruct LT as [Ta Tb].
    destruct (component_ok c _ a Ic Ta) as (c1 & la & E1 & I1 & H1). rewrite E1.
    destruct (component_ok c1 _ b I1 Tb) as (c2 & lb & E2 & I2 & H2). rewrite E2.
    destruct (connect_inv c2 _ a b I2) as (c' & E' & I'). rewrite E'.
    eexists. split; [reflexivity|]. split; [exact I'|]. cbn [t_times].
    split; [tauto|]. intros _.
    assert (X : forall x y, existsb (fun a => existsb (fun b => peq (minmax x y) (minmax a b)) lb) la = true
      <-> (linked (map cc_of os) a x /\ linked (map cc_of os) b y) \/
          (linked (map cc_of os) a y /\ linked (map cc_of os) b x)).
    { intros x y. rewrite existsb_exists. setoid_rewrite existsb_exists. split.
      - intros (u & U & v & V & P). apply peq_iff, minmax_eq in P. apply H1 in U. apply H2 in V.
        destruct P as [[-> ->]|[-> ->]]; auto.
      - intros [[A B]|[A B]].
        + exists x. split; [now apply H1|]. exists y. split; [now apply H2|]. apply peq_refl.
        + exists y. split; [now apply H1|]. exists x. split; [now apply H2|].
          apply peq_iff, minmax_sym. }
    split.
    + intros x y A B. rewrite set_times_at.
      replace (existsb _ la) with true; auto. symmetry. apply X. auto.
    + intros x y A B. rewrite set_times_at.
      destruct (existsb _ la) eqn:Q; auto. apply X in Q. tauto.
Qed.

Lemma tstep_inv s os o : tinv s os ->
  (match o with TConnect a b _ => a = b \/ tracked (map cc_of os) a /\ tracked (map cc_of os) b
   | _ => True end) ->
  exists s', tcs_step s o = Some s' /\ tinv s' (os ++ [o]).
Proof.
  intros I L. destruct o as [t|a b t|a b| |a b]; simpl.
  - eexists. split; [reflexivity|]. unfold tinv. rewrite map_app. simpl. now apply add_inv.
  - destruct (tconnect_ok s os a b t I L) as (s' & E & I' & _). eauto.
  - unfold tinv in *. destruct (connected_ok _ _ a b I) as (c & r & E & Ic & _).
    unfold tcs_connected. rewrite E. eexists. split; [reflexivity|]. simpl.
    rewrite map_app. now apply inv_query.
  - unfold tinv in *. destruct (components_ok _ _ I) as (c & r & E & Ic & _).
    unfold tcs_components. rewrite E. eexists. split; [reflexivity|]. simpl.
    rewrite map_app. now apply inv_query.
  - eexists. split; [reflexivity|]. unfold tinv in *. simpl. rewrite map_app.
    now apply inv_query.
Qed.

Lemma trun_inv os : forall s seen, tinv s seen -> tlegal seen os ->
  exists s', tcs_run s os = Some s' /\ tinv s' (seen ++ os).
Proof.
  induction os as [|o os IH]; simpl; intros s seen I L.
  - exists s. rewrite app_nil_r. auto.
  - destruct L as [L1 L2]. destruct (tstep_inv s seen o I L1) as (s1 & E & I1). rewrite E.
    destruct (IH s1 _ I1 L2) as (s' & E' & I'). exists s'. split; auto.
    now rewrite <- app_assoc in I'.
Qed.

Lemma tinv_init : tinv tcs_init [].
Proof. apply inv_init. Qed.

Lemma tconnect_untracked s os a b t : tinv s os -> a <> b ->
  ~ (tracked (map cc_of os) a /\ tracked (map cc_of os) b) -> tcs_connect s a b t = None.
Proof.
  intros I N H. unfold tinv in *. unfold tcs_connect.
  destruct (connected_ok _ _ a b I) as (c & r & E & Ic & Hr). rewrite E.
  destruct r.
  - exfalso. assert (L : linked (map cc_of os) a b) by tauto. apply linked_tracked in L; auto.
  - assert (Dec : forall x, tracked (map cc_of os) x \/ ~ tracked (map cc_of os) x).
    { intros x. destruct Ic as [(_ & D & _) _]. rewrite D.
      destruct (zfind x (cc_forest c)); [eauto|]. right. intros [p Hp]. discriminate. }
    destruct (Dec a) as [Ta|Ta].
    + destruct (component_ok c _ a Ic Ta) as (c1 & la & E1 & I1 & H1). rewrite E1.
      rewrite (component_untracked c1 (map cc_of os) b); auto.
    + rewrite (component_untracked c (map cc_of os) a); auto.
Qed.

Lemma trun_legal os : forall s seen s', tinv s seen -> tcs_run s os = Some s' -> tlegal seen os.
Proof.
  induction os as [|o os IH]; simpl; intros s seen s' I E; auto.
  destruct (tcs_step s o) as [s1|] eqn:E1; [|discriminate].
  assert (L1 : match o with TConnect a b _ => a = b \/ tracked (map cc_of seen) a /\ tracked (map cc_of seen) b
   | _ => True end).
  { destruct o; auto. simpl in E1.
    destruct (Z.eq_dec a b) as [->|N]; auto. right.
    assert (Dec : forall x, tracked (map cc_of seen) x \/ ~ tracked (map cc_of seen) x).
    { intros x. destruct I as [(_ & D & _) _]. rewrite D.
      destruct (zfind x (cc_forest (t_cc s))); [eauto|]. right. intros [p Hp]. discriminate. }
    destruct (Dec a), (Dec b); auto; exfalso;
      rewrite (tconnect_untracked s seen a b t) in E1 by tauto; discriminate. }
  split; auto. destruct (tstep_inv s seen o I L1) as (s2 & E2 & I2).
  rewrite E1 in E2. injection E2 as <-. eauto.
Qed.
