(* The candidate the real time correlative scan matcher returns, and how moving a point
   moves its cell. *)
From Coq Require Import List ZArith Bool Reals Lia Lra SpecFloat Sorted.
From Verif Require Import Vec Float32 FloatR Float32_Proofs PV_Model PV_Bounded
  G2_Model TSD_Model TSD_Update RT_Model RT_Spec RT_Proofs.
Import ListNotations.
Open Scope Z_scope.

Lemma range_fin s : fleb f_zero s = true -> fleb s (f_of_Z 1) = true -> ffin s.
Proof. destruct s as [z|[|]| |z m e]; intros A B; try discriminate; reflexivity. Qed.

Lemma vget_some {A} (l : list A) i : 0 <= i < Z.of_nat (length l) -> exists x, vget l i = Some x /\ In x l.
Proof.
  intros H. unfold vget. destruct (Z.leb_spec 0 i); [|lia].
  destruct (nth_error l (Z.to_nat i)) as [x|] eqn:E.
  - exists x. split; [reflexivity|]. now apply nth_error_In in E.
  - apply nth_error_None in E. lia.
Qed.

Lemma sorted_mid {A} (P : A -> A -> Prop) l1 a l2 : StronglySorted P (l1 ++ a :: l2) ->
  Forall (fun b => P b a) l1 /\ Forall (P a) l2.
Proof.
  induction l1 as [|b l1 IH]; cbn [app]; intros H; inversion H as [|? ? H1 H2]; subst.
  - split; [constructor | exact H2].
  - destruct (IH H1) as [I1 I2]. split; [|exact I2]. constructor; [|exact I1].
    rewrite Forall_forall in H2. apply H2. apply in_or_app. right. now left.
Qed.
Lemma before_asym a b : before a b -> before b a -> False.
Proof. unfold before. lia. Qed.
Lemma before_irr a : before a a -> False.
Proof. unfold before. lia. Qed.

Section Match.
Variables (discount : cand -> f32 -> f32) (g : any_grid) (scans : list dscan) (n N : Z).
Hypothesis Hn : 0 <= n.
Hypothesis HN : 0 <= N.
Hypothesis L : (2 * N + 1) * ((2 * n + 1) * (2 * n + 1)) < 2 ^ 31.
Hypothesis D : discounting N discount.
Hypothesis S : Z.of_nat (length scans) = 2 * N + 1.
Hypothesis R : forall scan dx dy, In scan scans -> exists s, raw_score g dx dy scan = Some s /\
  valid32 s /\ fleb f_zero s = true /\ fleb s (f_of_Z 1) = true.

Lemma scores_ok cs : (forall c, In c cs -> in_window n N c) ->
  exists l, score_all discount g scans cs = Some l /\ map fst l = cs /\
    Forall (fun e => exists scan s, vget scans (c_scan (fst e)) = Some scan /\
      raw_score g (c_x (fst e)) (c_y (fst e)) scan = Some s /\ snd e = discount (fst e) s /\
      valid32 (snd e) /\ ffin (snd e) /\ fleb f_zero (snd e) = true /\ fleb (snd e) (f_of_Z 1) = true) l.
Proof.
  induction cs as [|c cs IH]; intros H.
  - exists []. repeat split. constructor.
  - destruct IH as [l [E [M F]]]; [intros c' I; apply H; now right|].
    destruct (vget_some scans (c_scan c)) as [scan [V I]].
    { destruct (H c ltac:(now left)) as [B _]. lia. }
    destruct (R scan (c_x c) (c_y c) I) as [s [Es [Vs [S0 S1]]]].
    exists ((c, discount c s) :: l). cbn [score_all]. rewrite V, Es, E. split; [reflexivity|].
    split; [cbn [map fst]; now rewrite M|]. constructor; [|exact F]. cbn [fst snd].
    exists scan, s. split; [exact V|]. split; [exact Es|]. split; [reflexivity|].
    destruct (proj1 D c s Vs S0 S1) as [Vd [D0 D1]]. fold (valid32 (discount c s)) in Vd.
    assert (Fs : ffin s) by now apply range_fin.
    assert (Fd : ffin (discount c s)).
    { destruct (discount c s) as [z|[|]| |z m e]; try discriminate; try reflexivity.
      exfalso. clear - D1 S1. destruct s as [[|]|[|]| |[|] m e]; discriminate. }
    assert (O1 : valid32 (f_of_Z 1) /\ ffin (f_of_Z 1)) by (split; [apply f_of_Z_valid | vm_compute; reflexivity]).
    destruct O1 as [Vo Fo].
    split; [exact Vd|]. split; [exact Fd|]. split; [exact D0|].
    apply (fleb_ok _ _ Vd Vo Fd Fo). apply (fleb_ok _ _ Vd Vs Fd Fs) in D1. apply (fleb_ok _ _ Vs Vo Fs Fo) in S1. lra.
Qed.

Lemma match_ok : exists c scan raw,
  rt_match discount n N g scans = Some (c, discount c raw) /\ in_window n N c /\
  vget scans (c_scan c) = Some scan /\ raw_score g (c_x c) (c_y c) scan = Some raw /\
  fleb f_zero (discount c raw) = true /\ fleb (discount c raw) (f_of_Z 1) = true /\
  forall c', in_window n N c' -> exists scan' raw',
    vget scans (c_scan c') = Some scan' /\ raw_score g (c_x c') (c_y c') scan' = Some raw' /\
    fleb (discount c' raw') (discount c raw) = true /\
    (before c' c -> fltb (discount c' raw') (discount c raw) = true).
Proof.
  destruct (generate_ok n N Hn HN L) as [sp [cs [E1 [_ [E2 [In' [So _]]]]]]].
  unfold rt_match. rewrite E1, E2.
  destruct (scores_ok cs) as [l [E3 [M F]]]; [intros c I; now apply In'|]. rewrite E3.
  destruct l as [|e l].
  { exfalso. cbn [map] in M. assert (I : In (mk_cand N 0 0) cs) by (apply In'; unfold in_window; cbn [c_scan c_x c_y]; lia).
    rewrite <- M in I. exact I. }
  cbn [max_element].
  assert (F' : Forall (fun e : cand * f32 => valid32 (snd e) /\ ffin (snd e)) (e :: l)).
  { eapply Forall_impl; [|exact F]. intros a [? [? H]]. tauto. }
  inversion F' as [|? ? [Ve Fe] Fl]; subst.
  destruct (max_loop_spec l e Ve Fe Fl) as [l1 [l2 [Q [H1 H2]]]].
  set (m := max_loop e l) in *.
  assert (Im : In m (e :: l)) by (rewrite Q; apply in_or_app; right; now left).
  rewrite Forall_forall in F.
  destruct (F m Im) as [scan [raw [G1 [G2 [G3 [G4 [G5 [G6 G7]]]]]]]].
  exists (fst m), scan, raw. rewrite <- G3. split; [destruct m; reflexivity|].
  split; [apply In'; now apply in_map|]. split; [exact G1|]. split; [exact G2|]. split; [exact G6|]. split; [exact G7|].
  intros c' W. apply In' in W. apply in_map_iff in W as [e' [<- I']].
  destruct (F e' I') as [scan' [raw' [K1 [K2 [K3 [K4 [K5 _]]]]]]].
  exists scan', raw'. split; [exact K1|]. split; [exact K2|]. rewrite <- K3.
  assert (So' : StronglySorted before (map fst l1 ++ fst m :: map fst l2)).
  { replace (map fst l1 ++ fst m :: map fst l2) with (map fst (e :: l)); [exact So|].
    rewrite Q, map_app. reflexivity. }
  destruct (sorted_mid _ _ _ _ So') as [B1 B2]. rewrite Forall_forall in H1, H2, B1, B2.
  rewrite Q in I'. apply in_app_or in I' as [I' | [<- | I']].
  - specialize (H1 _ I'). split; [|intros _; exact H1]. apply (fleb_ok _ _ K4 G4 K5 G5).
    apply (fltb_ok _ _ K4 G4 K5 G5) in H1. lra.
  - split; [apply (fleb_ok _ _ G4 G4 G5 G5); lra|]. intros B. destruct (before_irr _ B).
  - split; [now apply H2|]. intros B. exfalso. apply (before_asym _ _ B). apply B2. now apply in_map.
Qed.

Lemma match_center : exists c s scan raw,
  rt_match discount n N g scans = Some (c, s) /\ vget scans N = Some scan /\
  raw_score g 0 0 scan = Some raw /\ fleb raw s = true.
Proof.
  destruct match_ok as [c [_ [raw [E [_ [_ [_ [_ [_ H]]]]]]]]].
  destruct (H (mk_cand N 0 0)) as [scan [raw' [V [Q [C _]]]]]; [unfold in_window; cbn [c_scan c_x c_y]; lia|].
  assert (I : In scan scans).
  { unfold vget in V. destruct (0 <=? c_scan (mk_cand N 0 0)); [|discriminate]. now apply nth_error_In in V. }
  destruct (R scan 0 0 I) as [s [Es [Vs [S0 S1]]]]. cbn [c_x c_y] in Q. rewrite Es in Q. injection Q as <-.
  rewrite (proj2 D s Vs S0 S1) in C. exists c, (discount c raw), scan, s. auto.
Qed.
End Match.
