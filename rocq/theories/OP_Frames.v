(* The terms of the fixed frames. *)
From Coq Require Import List ZArith Bool Lia Sorted.
From Verif Require Import ZMap MapById_Model MapById_Spec MapById_Proofs MapById_Iter MapById_More MapByTime_Proofs
  PG_Model PG_Maps PG_Session_Handle OP_Model OP_Spec OP_Iter OP_Proofs OP_Build.
Import ListNotations.
Open Scope Z_scope.

Section Frames.
Context {G : geometry}.
Implicit Types (o : data G) (q : problem G).

(* only terms and frames differ *)
Definition frames_only q q' (rs : list (residual G)) : Prop :=
  q_subs G q' = q_subs G q /\ q_nodes G q' = q_nodes G q /\ q_landmarks G q' = q_landmarks G q /\ q_const G q' = q_const G q /\
  q_res G q' = q_res G q ++ rs.
Lemma frames_only_refl q : frames_only q q [].
Proof. unfold frames_only. rewrite app_nil_r. auto. Qed.
Lemma frames_only_trans a b c r r' : frames_only a b r -> frames_only b c r' -> frames_only a c (r ++ r').
Proof.
  intros (A1 & A2 & A3 & A4 & A5) (B1 & B2 & B3 & B4 & B5). unfold frames_only. rewrite B1, B2, B3, B4, B5, A5, <- app_assoc. auto.
Qed.
Lemma frames_only_covers o a b r : frames_only a b r -> covers o a -> covers o b.
Proof. intros (A1 & A2 & _) [C1 C2]. unfold covers. rewrite A1, A2. split; assumption. Qed.

Definition frame_term (t : Z) (tr : list (Z * option (P3 G))) (n : Z * node G) : list (residual G) :=
  match frame_at G tr (n_time G (snd n)) with Some (Some p) => [RFrame G p t (t, fst n)] | _ => [] end.
Fixpoint first_in (tr : list (Z * option (P3 G))) (ns : list (Z * node G)) : option (Z * node G * P3 G) :=
  match ns with
  | [] => None
  | n :: r => match frame_at G tr (n_time G (snd n)) with Some (Some p) => Some (n, p) | _ => first_in tr r end
  end.
Definition with_first t origin tr ns (fs : list (Z * Arr G)) : list (Z * Arr G) :=
  match zfind t fs, first_in tr ns with
  | None, Some (n, p) => zput t (from_pose G (frame_start origin (snd n) p)) fs
  | _, _ => fs
  end.

Lemma frames_of_trajectory o t c d origin tr ns q : wf (o_nodes G o) -> zsorted tr -> covers o q -> In (t, (c, d)) (o_nodes G o) ->
  incl ns d -> zsorted (q_frames G q) ->
  exists q', fold_opt (add_frame G t origin tr) ns q = Some q' /\ frames_only q q' (flat_map (frame_term t tr) ns) /\
    q_frames G q' = with_first t origin tr ns (q_frames G q).
Proof.
  intros W S C I. revert q C. induction ns as [|[i n] ns IH]; intros q C J SF; cbn [fold_opt flat_map].
  { exists q. split; [reflexivity|]. split; [apply frames_only_refl|]. unfold with_first. cbn. destruct (zfind t (q_frames G q)); reflexivity. }
  assert (Gn : get (t, i) (o_nodes G o) = Some n) by (apply (traj_get o t c d i n W I), J; now left).
  assert (J' : incl ns d) by (intros x Ix; apply J; now right).
  unfold add_frame at 1, frame_term at 1, with_first. cbn [snd fst first_in].
  pose proof (frame_at_total tr (n_time G n) S) as T. destruct (frame_at G tr (n_time G n)) as [[p|]|]; [| |congruence]; cbn [bind].
  2:{ cbn [app]. destruct (IH q C J' SF) as (q' & E & F & R). exists q'. auto. }
  fold (frame_start origin n p).
  set (q1 := match zfind t (q_frames G q) with Some _ => q | None => _ end).
  assert (N1 : q_nodes G q1 = q_nodes G q) by (unfold q1; destruct (zfind t (q_frames G q)); reflexivity).
  assert (F1 : frames_only q (push G [RFrame G p t (t, i)] q1) [RFrame G p t (t, i)]) by (unfold q1; destruct (zfind t (q_frames G q)); unfold frames_only; auto).
  rewrite N1, (covers_node o q _ n C Gn). cbn [bind].
  assert (S1 : zsorted (q_frames G (push G [RFrame G p t (t, i)] q1))).
  { unfold q1. destruct (zfind t (q_frames G q)); cbn; [exact SF | now apply zput_sorted]. }
  destruct (IH _ (frames_only_covers o _ _ _ F1 C) J' S1) as (q' & E & F & R). exists q'. split; [exact E|].
  split; [exact (frames_only_trans _ _ _ _ _ F1 F)|]. rewrite R. unfold with_first, q1.
  destruct (zfind t (q_frames G q)) as [v|] eqn:Z; cbn [push q_frames].
  - rewrite Z. reflexivity.
  - rewrite zfind_zput, Z.eqb_refl by exact SF. reflexivity.
Qed.

Definition all_frames o (es : mbi (node G)) : list (residual G) :=
  flat_map (fun e => match zfind (fst e) (o_frames G o) with Some tr => flat_map (frame_term (fst e) tr) (snd (snd e)) | None => [] end) es.
Definition frame_of o (es : mbi (node G)) t : option (Arr G) :=
  match zfind t es, zfind t (o_frames G o), zfind t (o_traj G o) with
  | Some x, Some tr, Some origin =>
      match first_in tr (snd x) with Some (n, p) => Some (from_pose G (frame_start origin (snd n) p)) | None => None end
  | _, _, _ => None
  end.
Lemma frames_loop o es q : wf (o_nodes G o) -> twf (o_frames G o) -> covers o q -> incl es (o_nodes G o) -> zsorted es ->
  (forall t x, In (t, x) (o_nodes G o) -> zfind t (o_traj G o) <> None) -> zsorted (q_frames G q) ->
  exists q', fold_opt (fun e q =>
    match snd (snd e), zfind (fst e) (o_frames G o) with
    | [], _ | _, None => Some q
    | _ :: _, Some tr => bind (zfind (fst e) (o_traj G o)) (fun origin => fold_opt (add_frame G (fst e) origin tr) (snd (snd e)) q)
    end) es q = Some q' /\ frames_only q q' (all_frames o es) /\ zsorted (q_frames G q') /\
    forall t, zfind t (q_frames G q') = match zfind t (q_frames G q) with Some v => Some v | None => frame_of o es t end.
Proof.
  intros W WF C J S T. revert q C J S. induction es as [|[t0 [c d]] es IH]; intros q C J S SF; cbn [fold_opt].
  { exists q. split; [reflexivity|]. split; [apply frames_only_refl|]. split; [exact SF|]. intros t. unfold frame_of. cbn. destruct (zfind t (q_frames G q)); reflexivity. }
  assert (I : In (t0, (c, d)) (o_nodes G o)) by (apply J; now left).
  assert (J' : incl es (o_nodes G o)) by (intros x Ix; apply J; now right).
  pose proof (zsorted_inv _ _ S) as [S' L]. cbn [fst] in L.
  assert (N0 : zfind t0 es = None) by (apply zfind_None; intros v Iv; apply L in Iv; cbn in Iv; lia).
  destruct (wf_data _ W _ _ _ I) as [_ Nd]. cbn [fst snd].
  assert (STEP : exists q1, match d, zfind t0 (o_frames G o) with
      | [], _ | _, None => Some q
      | _ :: _, Some tr => bind (zfind t0 (o_traj G o)) (fun origin => fold_opt (add_frame G t0 origin tr) d q)
      end = Some q1 /\ frames_only q q1 (match zfind t0 (o_frames G o) with Some tr => flat_map (frame_term t0 tr) d | None => [] end) /\
      zsorted (q_frames G q1) /\
      forall t, zfind t (q_frames G q1) = match zfind t (q_frames G q) with Some v => Some v | None => if t =? t0 then frame_of o [(t0, (c, d))] t0 else None end).
  { unfold frame_of. cbn [zfind]. rewrite Z.eqb_refl. cbn [snd].
    destruct (zfind t0 (o_frames G o)) as [tr|] eqn:EF.
    2:{ exists q. split; [destruct d; reflexivity|]. split; [apply frames_only_refl|]. split; [exact SF|].
        intros t. destruct (zfind t (q_frames G q)); [reflexivity|]. destruct (t =? t0); reflexivity. }
    assert (Str : zsorted tr) by (apply zfind_In in EF; apply (twf_data _ WF _ _ EF)).
    pose proof (T _ _ I) as TT. destruct (zfind t0 (o_traj G o)) as [origin|]; [|congruence]. cbn [bind].
    destruct (frames_of_trajectory o t0 c d origin tr d q W Str C I (incl_refl _) SF) as (q1 & E & F & R).
    exists q1. split; [destruct d; [congruence | exact E]|]. split; [exact F|]. rewrite R. unfold with_first.
    destruct (zfind t0 (q_frames G q)) as [v|] eqn:Z0.
    - split; [exact SF|]. intros t. destruct (zfind t (q_frames G q)) as [w|] eqn:Zt; [reflexivity|]. destruct (Z.eqb_spec t t0); congruence.
    - destruct (first_in tr d) as [[n p]|].
      + split; [now apply zput_sorted|]. intros t. rewrite zfind_zput by exact SF. destruct (Z.eqb_spec t t0) as [->|]; [now rewrite Z0|].
        destruct (zfind t (q_frames G q)); reflexivity.
      + split; [exact SF|]. intros t. destruct (zfind t (q_frames G q)); [reflexivity|]. destruct (t =? t0); reflexivity. }
  destruct STEP as (q1 & E1 & F1 & S1 & R1). rewrite E1. cbn [bind].
  destruct (IH q1 (frames_only_covers o _ _ _ F1 C) J' S' S1) as (q' & E & F & Sq & R). exists q'. split; [exact E|].
  split; [exact (frames_only_trans _ _ _ _ _ F1 F)|]. split; [exact Sq|]. intros t. rewrite R, R1.
  destruct (zfind t (q_frames G q)) as [v|]; [reflexivity|]. unfold frame_of. cbn [zfind].
  destruct (Z.eqb_spec t t0) as [->|N].
  - rewrite N0. rewrite Z.eqb_refl. cbn [snd]. destruct (zfind t0 (o_frames G o)) as [tr|]; [|reflexivity].
    destruct (zfind t0 (o_traj G o)) as [origin|]; [|reflexivity]. destruct (first_in tr d) as [[n p]|]; reflexivity.
  - reflexivity.
Qed.

Lemma all_frames_wanted o frozen r : wf (o_nodes G o) -> twf (o_frames G o) ->
  In r (all_frames o (o_nodes G o)) <-> wanted o frozen r /\ is_frame r = true.
Proof.
  intros W WF. unfold all_frames. rewrite in_flat_map. split.
  - intros ([t [c d]] & I & J). cbn [fst snd] in J. destruct (zfind t (o_frames G o)) as [tr|] eqn:E; [|contradiction].
    assert (Str : zsorted tr) by (apply zfind_In in E; apply (twf_data _ WF _ _ E)).
    apply in_flat_map in J as ([i n] & In' & J). unfold frame_term in J. cbn [fst snd] in J.
    destruct (frame_at G tr (n_time G n)) as [[p|]|] eqn:A; try contradiction. destruct J as [<-|[]]. split; [|reflexivity].
    apply (wanted_frame o frozen t i n p); [now apply (traj_get o t c d i n W I)|]. unfold series. rewrite E. now apply frame_at_iff.
  - intros [H F]. destruct H as [| |t i n p Gn P]; [discriminate | discriminate|]. unfold series in P.
    destruct (zfind t (o_frames G o)) as [tr|] eqn:E; [|now apply no_frame in P].
    assert (Str : zsorted tr) by (apply zfind_In in E; apply (twf_data _ WF _ _ E)).
    destruct (get_traj o t i n Gn) as (c & d & I & Ii). exists (t, (c, d)). split; [exact I|]. cbn [fst snd]. rewrite E.
    apply in_flat_map. exists (i, n). split; [exact Ii|]. unfold frame_term. cbn [fst snd].
    apply frame_at_iff in P; [|exact Str]. rewrite P. now left.
Qed.
Lemma all_frames_NoDup o : wf (o_nodes G o) -> NoDup (all_frames o (o_nodes G o)).
Proof.
  intros W.
  assert (K : forall t tr n r, In r (frame_term t tr n) -> exists p, r = RFrame G p t (t, fst n)).
  { intros t tr n r H. unfold frame_term in H. destruct (frame_at G tr _) as [[p|]|]; try contradiction. destruct H as [<-|[]]. eauto. }
  apply NoDup_flat_map.
  - apply zsorted_NoDup', W.
  - intros [t [c d]] I. cbn [fst snd]. destruct (zfind t (o_frames G o)) as [tr|]; [|constructor].
    pose proof (wf_data _ W _ _ _ I) as [Sd _]. apply NoDup_flat_map.
    + apply zsorted_NoDup', Sd.
    + intros n _. unfold frame_term. destruct (frame_at G tr _) as [[p|]|]; repeat constructor. intros [].
    + intros x y r Ix Iy Rx Ry. apply K in Rx as (p & ->). apply K in Ry as (p' & E). injection E as _ E. now apply (same_key d).
  - intros [t e] [t' e'] r I I' J J'. cbn [fst snd] in *.
    destruct (zfind t (o_frames G o)) as [tr|]; [|contradiction]. destruct (zfind t' (o_frames G o)) as [tr'|]; [|contradiction].
    apply in_flat_map in J as (x & _ & J). apply in_flat_map in J' as (x' & _ & J'). apply K in J as (p & ->). apply K in J' as (p' & E).
    apply (same_key (o_nodes G o)); [apply W | exact I | exact I'|]. cbn. congruence.
Qed.
(* where a frame starts *)
Lemma first_in_spec tr d : zsorted tr -> zsorted d ->
  match first_in tr d with
  | Some (n, p) => In n d /\ frame_estimate tr (n_time G (snd n)) p /\
      forall e p', In e d -> fst e < fst n -> ~ frame_estimate tr (n_time G (snd e)) p'
  | None => forall e p', In e d -> ~ frame_estimate tr (n_time G (snd e)) p'
  end.
Proof.
  intros S. induction d as [|n d IH]; intros Sd; cbn [first_in]; [contradiction|]. pose proof (zsorted_inv _ _ Sd) as [Sd' L]. specialize (IH Sd').
  assert (NO : forall r, frame_at G tr (n_time G (snd n)) = r -> r <> None -> (forall p, r <> Some (Some p)) -> forall p', ~ frame_estimate tr (n_time G (snd n)) p').
  { intros r E _ N p' H. apply frame_at_iff in H; [|exact S]. apply (N p'). congruence. }
  pose proof (frame_at_total tr (n_time G (snd n)) S) as T. destruct (frame_at G tr (n_time G (snd n))) as [[p|]|] eqn:A; [| |congruence].
  - split; [now left|]. split; [now apply frame_at_iff|]. intros e p' [<-|I] Q; [lia|]. apply L in I. lia.
  - assert (NN : forall p', ~ frame_estimate tr (n_time G (snd n)) p') by (apply (NO (Some None)); [reflexivity | discriminate | discriminate]).
    destruct (first_in tr d) as [[x p]|].
    + destruct IH as (I & P & M). split; [now right|]. split; [exact P|]. intros e p' [<-|Ie] Q; [apply NN | now apply M].
    + intros e p' [<-|Ie]; [apply NN | now apply IH].
Qed.
Lemma frame_of_spec o t : wf (o_nodes G o) -> twf (o_frames G o) ->
  (forall i n p origin, first_frame o t i n p -> zfind t (o_traj G o) = Some origin ->
     frame_of o (o_nodes G o) t = Some (from_pose G (frame_start origin n p))) /\
  ((forall i n p, ~ first_frame o t i n p) -> frame_of o (o_nodes G o) t = None).
Proof.
  intros W WF. unfold frame_of, first_frame, series. split.
  - intros i n p origin (Gn & P & M) ->. destruct (zfind t (o_frames G o)) as [tr|] eqn:E; [|now apply no_frame in P].
    assert (Str : zsorted tr) by (apply zfind_In in E; apply (twf_data _ WF _ _ E)).
    destruct (get_traj o t i n Gn) as (c & d & I & Ii). rewrite (In_zfind _ _ _ (wf_sorted _ W) I). cbn [snd].
    pose proof (wf_data _ W _ _ _ I) as [Sd _]. pose proof (first_in_spec tr d Str Sd) as F. destruct (first_in tr d) as [[[j x] p2]|].
    + destruct F as (Ix & Px & Mx). cbn [fst snd] in *. assert (j = i).
      { destruct (Z.lt_trichotomy j i) as [L|[L|L]]; [|exact L|].
        - exfalso. apply (M j x p2 L); [now apply (traj_get o t c d j x W I) | exact Px].
        - exfalso. apply (Mx (i, n) p Ii L). exact P. }
      subst j. apply (same_key d _ (i, n) Sd) in Ix; [|exact Ii | reflexivity]. injection Ix as ->. now rewrite (frame_unique tr (n_time G n) p2 p Str Px P).
    + exfalso. apply (F (i, n) p Ii). exact P.
  - intros N. destruct (zfind t (o_nodes G o)) as [[c d]|] eqn:Z; [|reflexivity]. apply zfind_In in Z.
    destruct (zfind t (o_frames G o)) as [tr|] eqn:E; [|reflexivity]. destruct (zfind t (o_traj G o)) as [origin|]; [|reflexivity].
    assert (Str : zsorted tr) by (apply zfind_In in E; apply (twf_data _ WF _ _ E)).
    pose proof (wf_data _ W _ _ _ Z) as [Sd _]. pose proof (first_in_spec tr d Str Sd) as F. cbn [snd]. destruct (first_in tr d) as [[[j x] p2]|]; [|reflexivity].
    exfalso. destruct F as (Ix & Px & Mx). cbn [fst snd] in *. apply (N j x p2). split; [now apply (traj_get o t c d j x W Z)|]. split; [exact Px|].
    intros k n' p' L Gk. apply (Mx (k, n') p'); [now apply (traj_get o t c d k n' W Z) | exact L].
Qed.
End Frames.
