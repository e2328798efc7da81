(* The whole problem, its result, and the data between optimizations. *)
From Coq Require Import List ZArith Bool Lia Sorted.
From Verif Require Import ZMap MapById_Model MapById_Spec MapById_Proofs MapById_Iter MapById_More MapByTime_Proofs
  PG_Model PG_Maps PG_Session_Handle OP_Model OP_Spec OP_Iter OP_Proofs OP_Build OP_Frames OP_Marks.
Import ListNotations.
Open Scope Z_scope.

Section Whole.
Context {G : geometry}.
Implicit Types (o : data G) (q : problem G).

Record inv o : Prop := {
  iv_subs : wf (o_subs G o);
  iv_nodes : wf (o_nodes G o);
  iv_odo : twf (o_odo G o);
  iv_frames : twf (o_frames G o);
  iv_traj : zsorted (o_traj G o);
  iv_landmarks : zsorted (o_landmarks G o);
  iv_has : forall t i n, get (t, i) (o_nodes G o) = Some n -> zfind t (o_traj G o) <> None }.

Lemma start_covers o frozen : inv o -> covers o (start_problem G o frozen).
Proof.
  intros V. split; intros x; cbn [start_problem q_nodes q_subs].
  - exact (find_id_entries (fun n => from_pose G (n_global G n)) _ x (iv_nodes o V)).
  - exact (find_id_entries (from_pose G) _ x (iv_subs o V)).
Qed.
Lemma entries_sorted {D} (m : mbi D) : wf m -> StronglySorted (fun x y => id_lt (fst x) (fst y)) (entries m).
Proof. exact (flat_all_sorted m). Qed.
Lemma stored_In {D} (m : mbi D) x : wf m -> In x (map fst (entries m)) <-> get x m <> None.
Proof.
  intros W. rewrite in_map_iff. split.
  - intros ([y v] & <- & I). apply entries_In in I; [|exact W]. cbn. congruence.
  - intros H. destruct (get x m) as [v|] eqn:E; [|congruence]. exists (x, v). split; [reflexivity | now apply entries_In].
Qed.
Lemma start_const_sub o frozen x : inv o ->
  In (PSub x) (q_const G (start_problem G o frozen)) <-> first_submap o x \/ (get x (o_subs G o) <> None /\ In (fst x) frozen).
Proof.
  intros V. pose proof (iv_subs o V) as W. cbn [start_problem q_const]. rewrite in_app_iff.
  assert (NN : ~ In (PSub x) (map PNode (filter (fun x => existsb (Z.eqb (fst x)) frozen) (map fst (entries (o_nodes G o)))))).
  { rewrite in_map_iff. intros (? & ? & _). discriminate. }
  assert (MI : forall l, In (PSub x) (map PSub l) <-> In x l).
  { intros l. rewrite in_map_iff. split; [intros (? & [= ->] & ?); assumption | eauto]. }
  rewrite MI. unfold first_submap.
  assert (ST : forall y, get y (o_subs G o) <> None <-> In y (map fst (entries (o_subs G o)))) by (intros y; symmetry; now apply stored_In).
  pose proof (entries_sorted _ W) as S. destruct (entries (o_subs G o)) as [|[z v] r]; cbn [map fst] in *.
  { split; [intros [[]|?]; contradiction|]. intros [[H _]|[H _]]; apply ST in H; contradiction. }
  apply StronglySorted_inv in S as [_ F]. rewrite Forall_forall in F.
  assert (MIN : forall y, In y (z :: map fst r) -> fst z < fst y \/ (fst z = fst y /\ snd z <= snd y)).
  { intros y [<-|I]; [right; lia|]. apply in_map_iff in I as (e & <- & I). apply F in I. destruct I as [I|[I J]]; cbn [fst] in I; [left; exact I | right; cbn [fst] in J; split; [exact I | apply Z.lt_le_incl; exact J]]. }
  cbn [In]. rewrite filter_In, frozen_spec. split.
  - intros [[<-|[I Q]]|?]; [| |contradiction].
    + left. split; [apply ST; now left|]. intros y H. apply MIN. now apply ST.
    + right. split; [apply ST; now right | exact Q].
  - intros [[H M]|[H Q]].
    + left. apply ST in H. left. assert (Z1 : In z (z :: map fst r)) by now left. apply ST in Z1. apply M in Z1. apply MIN in H.
      destruct x as [a b], z as [c d]. cbn in *. f_equal; lia.
    + apply ST in H as [<-|H]; left; [now left | right; auto].
Qed.
Lemma start_const_node o frozen x : inv o ->
  In (PNode x) (q_const G (start_problem G o frozen)) <-> get x (o_nodes G o) <> None /\ In (fst x) frozen.
Proof.
  intros V. cbn [start_problem q_const]. rewrite in_app_iff, !in_map_iff. split.
  - intros [(? & ? & _)|(y & [= ->] & I)]; [discriminate|]. apply filter_In in I as [I F]. apply stored_In in I; [|apply V].
    split; [exact I | now apply frozen_spec].
  - intros [H F]. right. exists x. split; [reflexivity|]. apply filter_In. split; [now apply stored_In; [apply V|] | now apply frozen_spec].
Qed.
Lemma start_const_other o frozen p : In p (q_const G (start_problem G o frozen)) -> match p with PSub _ | PNode _ => True | _ => False end.
Proof. cbn [start_problem q_const]. rewrite in_app_iff, !in_map_iff. intros [(? & <- & _)|(? & <- & _)]; exact I. Qed.

(* landmarks do not touch the rest, in any order of times *)
Lemma sighting_same m l k s q q' : add_sighting G m l k s q = Some q' ->
  q_subs G q' = q_subs G q /\ q_nodes G q' = q_nodes G q /\ q_frames G q' = q_frames G q.
Proof.
  unfold add_sighting. destruct (sighted G m s) as [[[[x a] [y b]]|]|]; cbn [bind]; [| |discriminate].
  - destruct (find_id x (q_nodes G q)); cbn [bind]; [|discriminate]. destruct (find_id y (q_nodes G q)); cbn [bind]; [|discriminate].
    intros [= <-]. destruct (zfind l (q_landmarks G q)); auto.
  - intros [= <-]. auto.
Qed.
Lemma fold_same {B} (f : B -> problem G -> option (problem G)) :
  (forall b q q', f b q = Some q' -> q_subs G q' = q_subs G q /\ q_nodes G q' = q_nodes G q /\ q_frames G q' = q_frames G q) ->
  forall bs q q', fold_opt f bs q = Some q' -> q_subs G q' = q_subs G q /\ q_nodes G q' = q_nodes G q /\ q_frames G q' = q_frames G q.
Proof.
  intros H. induction bs as [|b bs IH]; intros q q' E; cbn [fold_opt] in E; [injection E as <-; auto|].
  destruct (f b q) as [q1|] eqn:E1; cbn [bind] in E; [|discriminate]. apply IH in E as (A1 & A2 & A3). apply H in E1 as (B1 & B2 & B3).
  rewrite A1, A2, A3. auto.
Qed.
Lemma landmarks_same m ls q q' : add_landmarks G m ls q = Some q' ->
  q_subs G q' = q_subs G q /\ q_nodes G q' = q_nodes G q /\ q_frames G q' = q_frames G q.
Proof.
  apply fold_same. intros [l k] q0 q1. cbn [fst snd]. apply fold_same. intros s q2 q3. apply sighting_same.
Qed.

Lemma has_traj o : inv o -> forall t x, In (t, x) (o_nodes G o) -> zfind t (o_traj G o) <> None.
Proof.
  intros V t [c d] I. destruct (wf_data _ (iv_nodes o V) _ _ _ I) as [_ N]. destruct d as [|[i n] d]; [congruence|].
  apply (iv_has o V t i n). apply (traj_get o t c _ i n (iv_nodes o V) I). now left.
Qed.
(* everything about build except where it aborts *)
Lemma build_cases o frozen cs ls : inv o ->
  let start := start_problem G o frozen in
  match fold_opt (add_constraint G) cs start with
  | None => build G o frozen cs ls = None
  | Some q1 =>
      match add_landmarks G (o_nodes G o) ls q1 with
      | None => build G o frozen cs ls = None
      | Some q2 => exists q, build G o frozen cs ls = Some q /\
          q_subs G q = q_subs G start /\ q_nodes G q = q_nodes G start /\ q_landmarks G q = q_landmarks G q2 /\ q_const G q = q_const G q2 /\
          q_res G q = q_res G q2 ++ all_steps o frozen ++ all_frames o (o_nodes G o) /\ zsorted (q_frames G q) /\
          forall t, zfind t (q_frames G q) = frame_of o (o_nodes G o) t
      end
  end.
Proof.
  intros V start. unfold build. pose proof (constraints_ok o cs start (start_covers o frozen V)) as K.
  fold start. destruct (fold_opt (add_constraint G) cs start) as [q1|]; cbn [bind]; [|reflexivity]. destruct K as [-> _].
  set (q1 := push G (map (RConstraint G) cs) start).
  destruct (add_landmarks G (o_nodes G o) ls q1) as [q2|] eqn:E2; cbn [bind]; [|reflexivity].
  destruct (landmarks_same _ _ _ _ E2) as (A1 & A2 & A3).
  assert (C2 : covers o q2).
  { destruct (start_covers o frozen V) as [X Y]. split; intros x; [rewrite A2; apply X | rewrite A1; apply Y]. }
  rewrite (steps_ok o frozen q2 (iv_nodes o V) (iv_odo o V) C2). cbn [bind].
  destruct (frames_loop o (o_nodes G o) (push G (all_steps o frozen) q2) (iv_nodes o V) (iv_frames o V) C2 (incl_refl _)
    (wf_sorted _ (iv_nodes o V)) (has_traj o V)) as (q & E & (F1 & F2 & F3 & F4 & F5) & S & R).
  { cbn [push q_frames]. rewrite A3. constructor. }
  exists q. split; [exact E|]. split; [rewrite F1; exact A1|]. split; [rewrite F2; exact A2|]. split; [exact F3|]. split; [exact F4|].
  split; [rewrite F5; cbn [push q_res]; now rewrite <- app_assoc|]. split; [exact S|].
  intros t. rewrite R. cbn [push q_frames]. rewrite A3. reflexivity.
Qed.
Lemma build_aborts o frozen cs ls : inv o -> in_order (o_nodes G o) ->
  build G o frozen cs ls = None <->
  (exists c, In c cs /\ (get (k_sub G c) (o_subs G o) = None \/ get (k_node G c) (o_nodes G o) = None)) \/
  (exists l k s, In (l, k) ls /\ In s (l_seen G k) /\ stranded (o_nodes G o) s).
Proof.
  intros V O. pose proof (build_cases o frozen cs ls V) as B. cbv zeta in B.
  pose proof (constraints_ok o cs _ (start_covers o frozen V)) as K.
  destruct (fold_opt (add_constraint G) cs (start_problem G o frozen)) as [q1|].
  2:{ split; [intros _; now left | intros _; exact B]. }
  destruct K as [-> K]. pose proof (landmarks_abort o ls _ (iv_nodes o V) O (covers_push o _ (map (RConstraint G) cs) (start_covers o frozen V))) as L.
  destruct (add_landmarks G (o_nodes G o) ls _) as [q2|].
  - destruct B as (q & -> & _). split; [discriminate|]. intros [(c & I & H)|(l & k & s & I & J & H)].
    + destruct (K c I). destruct H; contradiction.
    + exfalso. exact (proj2 L l k s I J H).
  - split; [intros _; now right | intros _; exact B].
Qed.

(* storing *)
Lemma find_id_none {A} (l : list (id * A)) x : ~ In x (map fst l) -> find_id x l = None.
Proof.
  intros N. unfold find_id. destruct (find _ l) as [[y a]|] eqn:F; [|reflexivity]. apply find_some in F as [I E]. cbn in E.
  destruct (id_eqb_spec x y) as [<-|]; [|discriminate]. exfalso. apply N. apply in_map_iff. exists (x, a). auto.
Qed.
Lemma store_ok {D A} (set : A -> D -> D) vs : forall m : mbi D, wf m -> NoDup (map fst vs) -> (forall x, In x (map fst vs) -> get x m <> None) ->
  exists m', store set vs m = Some m' /\ wf m' /\
    forall x, get x m' = match find_id x vs with Some v => option_map (set v) (get x m) | None => get x m end.
Proof.
  unfold store. induction vs as [|[y v] vs IH]; intros m W N H; cbn [fold_opt].
  { exists m. auto. }
  cbn [map fst snd] in *. inversion N as [|? ? N1 N2]; subst. pose proof (upd_get m y (set v) W) as U.
  destruct (upd y (set v) m) as [m1|]; [|exfalso; exact (H y (or_introl eq_refl) U)]. cbn [bind].
  destruct U as (W1 & (d & Ed & U) & _).
  destruct (IH m1 W1 N2) as (m' & E & W' & R).
  { intros x I. rewrite U. destruct (id_eqb_spec x y); [congruence|]. apply H. now right. }
  exists m'. split; [exact E|]. split; [exact W'|]. intros x. rewrite R, U. unfold find_id at 2. cbn [find fst].
  destruct (id_eqb_spec x y) as [->|NE].
  - rewrite (find_id_none vs y N1). cbn [option_map snd]. now rewrite Ed.
  - reflexivity.
Qed.
Lemma traj_ok (f : Z * Arr G -> option (P3 G)) vs : forall m : list (Z * option (P3 G)), zsorted m -> NoDup (map fst vs) ->
  (forall t, In t (map fst vs) -> zfind t m <> None) ->
  exists m', fold_opt (fun e m => bind (zfind (fst e) m) (fun _ => Some (zput (fst e) (f e) m))) vs m = Some m' /\ zsorted m' /\
    forall t, zfind t m' = match zfind t vs with Some v => Some (f (t, v)) | None => zfind t m end.
Proof.
  induction vs as [|[y v] vs IH]; intros m S N H; cbn [fold_opt].
  { exists m. auto. }
  cbn [map fst snd] in *. inversion N as [|? ? N1 N2]; subst. pose proof (H y (or_introl eq_refl)) as Hy.
  destruct (zfind y m) as [w|]; [|congruence]. cbn [bind].
  destruct (IH (zput y (f (y, v)) m) (zput_sorted _ _ _ S) N2) as (m' & E & S' & R).
  { intros t I. rewrite zfind_zput by exact S. destruct (t =? y); [discriminate|]. apply H. now right. }
  exists m'. split; [exact E|]. split; [exact S'|]. intros t. rewrite R, zfind_zput by exact S. cbn [zfind].
  destruct (Z.eqb_spec t y) as [->|NE].
  - assert (zfind y vs = None) as ->; [|reflexivity]. apply zfind_None. intros u I. apply N1. apply in_map_iff. exists (y, u). auto.
  - reflexivity.
Qed.
Lemma marks_stored (f : Z * Larr G -> P3 G) vs : forall m : list (Z * P3 G), zsorted m -> NoDup (map fst vs) ->
  zsorted (fold_left (fun m e => zput (fst e) (f e) m) vs m) /\
  forall l, zfind l (fold_left (fun m e => zput (fst e) (f e) m) vs m) = match zfind l vs with Some v => Some (f (l, v)) | None => zfind l m end.
Proof.
  induction vs as [|[y v] vs IH]; intros m S N; cbn [fold_left].
  { auto. }
  cbn [map fst snd] in *. inversion N as [|? ? N1 N2]; subst.
  destruct (IH (zput y (f (y, v)) m) (zput_sorted _ _ _ S) N2) as (S' & R). split; [exact S'|].
  intros l. rewrite R, zfind_zput by exact S. cbn [zfind]. destruct (Z.eqb_spec l y) as [->|NE].
  - assert (zfind y vs = None) as ->; [|reflexivity]. apply zfind_None. intros u I. apply N1. apply in_map_iff. exists (y, u). auto.
  - reflexivity.
Qed.
Lemma fold_marks_sorted (f : Z * Larr G -> P3 G) vs : forall m : list (Z * P3 G), zsorted m ->
  zsorted (fold_left (fun m e => zput (fst e) (f e) m) vs m).
Proof. induction vs as [|e vs IH]; intros m S; cbn; [exact S|]. apply IH. now apply zput_sorted. Qed.

Variable C : solver G.
Lemma find_id_map {A B} (g : id -> A -> B) (l : list (id * A)) x :
  find_id x (map (fun e => (fst e, g (fst e) (snd e))) l) = option_map (g x) (find_id x l).
Proof.
  unfold find_id. induction l as [|[y a] l IH]; cbn; [reflexivity|]. destruct (id_eqb_spec x y) as [->|]; [reflexivity | exact IH].
Qed.
Lemma map_fst_map {A B} (g : id -> A -> B) (l : list (id * A)) : map fst (map (fun e => (fst e, g (fst e) (snd e))) l) = map fst l.
Proof. rewrite map_map. reflexivity. Qed.

(* what a successful optimization does *)
Lemma solve_ok o frozen cs ls q : inv o -> entries (o_nodes G o) <> [] -> build G o frozen cs ls = Some q ->
  exists o', solve G C frozen cs ls o = Some o' /\ inv o' /\ o_odo G o' = o_odo G o /\ o_frames G o' = o_frames G o /\
    (forall x, get x (o_subs G o') = option_map (fun p => to_pose G (solved G C q (PSub x) (from_pose G p))) (get x (o_subs G o))) /\
    (forall x, get x (o_nodes G o') = option_map (fun n => with_global G (to_pose G (solved G C q (PNode x) (from_pose G (n_global G n)))) n) (get x (o_nodes G o))) /\
    (forall t, zfind t (o_traj G o') = match zfind t (q_frames G q) with
       | Some v => Some (Some (embed G (to_pose G (solved G C q (PFrame t) v)))) | None => zfind t (o_traj G o) end) /\
    (NoDup (map fst (q_landmarks G q)) -> forall l, zfind l (o_landmarks G o') = match zfind l (q_landmarks G q) with
       | Some v => Some (to_rigid G (solved_l G C q l v)) | None => zfind l (o_landmarks G o) end).
Proof.
  intros V NE B. unfold solve. destruct (entries (o_nodes G o)) as [|e0 es0] eqn:EN; [congruence|]. clear NE. rewrite B. cbn [bind].
  pose proof (build_cases o frozen cs ls V) as BC. cbv zeta in BC.
  destruct (fold_opt (add_constraint G) cs (start_problem G o frozen)) as [q1|]; [|congruence].
  destruct (add_landmarks G (o_nodes G o) ls q1) as [q2|]; [|congruence].
  destruct BC as (q' & B' & Q1 & Q2 & _ & _ & _ & SF & QF). assert (q' = q) by congruence. subst q'. clear B'.
  cbn [start_problem q_subs q_nodes] in Q1, Q2.
  destruct (store_ok (fun v _ => to_pose G v) (map (fun e => (fst e, solved G C q (PSub (fst e)) (snd e))) (q_subs G q)) (o_subs G o) (iv_subs o V)) as (subs & -> & Ws & Rs).
  { rewrite (map_fst_map (fun x a => solved G C q (PSub x) a)), Q1, map_map. apply entries_NoDup, V. }
  { intros x I. rewrite (map_fst_map (fun x a => solved G C q (PSub x) a)), Q1, map_map in I. now apply stored_In in I; [|apply V]. }
  cbn [bind].
  destruct (store_ok (fun v n => with_global G (to_pose G v) n) (map (fun e => (fst e, solved G C q (PNode (fst e)) (snd e))) (q_nodes G q)) (o_nodes G o) (iv_nodes o V)) as (nodes & -> & Wn & Rn).
  { rewrite (map_fst_map (fun x a => solved G C q (PNode x) a)), Q2, map_map. apply entries_NoDup, V. }
  { intros x I. rewrite (map_fst_map (fun x a => solved G C q (PNode x) a)), Q2, map_map in I. now apply stored_In in I; [|apply V]. }
  cbn [bind].
  destruct (traj_ok (fun e => Some (embed G (to_pose G (solved G C q (PFrame (fst e)) (snd e))))) (q_frames G q) (o_traj G o) (iv_traj o V)) as (traj & -> & St & Rt).
  { now apply zsorted_NoDup. }
  { intros t I. apply in_map_iff in I as ([t' v] & <- & I). apply In_zfind in I; [|exact SF]. rewrite QF in I. unfold frame_of in I. cbn [fst].
    destruct (zfind t' (o_nodes G o)); [|discriminate]. destruct (zfind t' (o_frames G o)); [|discriminate]. intros E. rewrite E in I. discriminate. }
  cbn [bind]. eexists. split; [reflexivity|].
  assert (RS : forall x, get x subs = option_map (fun p => to_pose G (solved G C q (PSub x) (from_pose G p))) (get x (o_subs G o))).
  { intros x. rewrite Rs, (find_id_map (fun x a => solved G C q (PSub x) a)), Q1.
    rewrite (find_id_entries (from_pose G) _ x (iv_subs o V)). destruct (get x (o_subs G o)); reflexivity. }
  assert (RN : forall x, get x nodes = option_map (fun n => with_global G (to_pose G (solved G C q (PNode x) (from_pose G (n_global G n)))) n) (get x (o_nodes G o))).
  { intros x. rewrite Rn, (find_id_map (fun x a => solved G C q (PNode x) a)), Q2.
    rewrite (find_id_entries (fun n => from_pose G (n_global G n)) _ x (iv_nodes o V)). destruct (get x (o_nodes G o)); reflexivity. }
  split; [|split; [reflexivity | split; [reflexivity | split; [exact RS | split; [exact RN | split; [exact Rt|]]]]]].
  - constructor; cbn; try assumption; try apply V.
    + apply fold_marks_sorted, V.
    + intros t i n Gn. rewrite Rt. destruct (zfind t (q_frames G q)); [discriminate|]. rewrite RN in Gn.
      destruct (get (t, i) (o_nodes G o)) as [n0|] eqn:E; [|discriminate]. exact (iv_has o V t i n0 E).
  - intros ND l. cbn [o_landmarks]. apply (marks_stored (fun e => to_rigid G (solved_l G C q (fst e) (snd e))) (q_landmarks G q) (o_landmarks G o) (iv_landmarks o V) ND).
Qed.
Lemma solve_inv o frozen cs ls o' : inv o -> solve G C frozen cs ls o = Some o' -> inv o'.
Proof.
  intros V H. destruct (entries (o_nodes G o)) as [|e es] eqn:E; [unfold solve in H; rewrite E in H; congruence|].
  destruct (build G o frozen cs ls) as [q|] eqn:B.
  - destruct (solve_ok o frozen cs ls q V ltac:(congruence) B) as (o2 & E2 & V2 & _). congruence.
  - unfold solve in H. rewrite E, B in H. discriminate.
Qed.

(* the other changes *)
Lemma touch_find t a m : zsorted m -> zfind a (touch G t m) = match zfind a m with Some v => Some v | None => if a =? t then Some None else None end.
Proof.
  intros S. unfold touch. destruct (zfind t m) as [v|] eqn:E.
  - destruct (zfind a m) eqn:Ea; [reflexivity|]. destruct (Z.eqb_spec a t); congruence.
  - rewrite zfind_zput by exact S. destruct (Z.eqb_spec a t) as [->|]; [now rewrite E|]. destruct (zfind a m); reflexivity.
Qed.
Lemma touch_sorted t m : zsorted m -> zsorted (touch G t m).
Proof. intros S. unfold touch. destruct (zfind t m); [exact S | now apply zput_sorted]. Qed.
Lemma erase_all_sorted {V} (l tr : list (Z * V)) : zsorted tr -> zsorted (fold_left (fun a e => zerase (fst e) a) l tr).
Proof. revert tr. induction l as [|e l IH]; intros tr S; cbn; [exact S|]. apply IH. now apply zerase_sorted. Qed.
Lemma trim_twf {V N} (time : N -> Z) nodes t i (m m' : mbt V) : twf m -> mbt_trim time nodes t i m = Some m' -> twf m'.
Proof.
  intros W. unfold mbt_trim. destruct (t <? 0); [discriminate|]. destruct (zfind t m) as [tr|] eqn:F; [|intros [= <-]; exact W].
  assert (S : zsorted tr) by (apply zfind_In in F; apply (twf_data _ W _ _ F)).
  destruct (it_eqb _ _); [discriminate|].
  match goal with |- match ?a with _ => _ end = _ -> _ => destruct a as [gs|] end; [|discriminate].
  destruct (it_next _) as [nx|]; [|discriminate].
  match goal with |- match ?a with _ => _ end = _ -> _ => destruct a as [ge|] end; [|discriminate].
  destruct (negb (gs <? ge)); [discriminate|].
  match goal with |- match ?a with _ => _ end = _ -> _ => destruct a as [|e1 l1] end; [intros [= <-]; exact W|].
  match goal with |- match ?a with _ => _ end = _ -> _ => destruct a as [|e2 l2] end; [intros [= <-]; exact W|].
  intros [= <-].
  match goal with |- twf (match fold_left _ ?l _ with _ => _ end) => pose proof (erase_all_sorted l tr S) as S2; set (w := l) in * end.
  destruct (fold_left _ w tr) as [|e3 l3]; [now apply twf_erase|]. apply twf_put; [exact W | exact S2 | discriminate].
Qed.
Lemma apply_inv c o o' : inv o -> apply G c o = Some o' -> inv o'.
Proof.
  intros V. destruct V as [V1 V2 V3 V4 V5 V6 V7]. destruct c as [t q p|t q p|t n|x n|x|t w|t p|x p|x]; cbn [apply].
  - destruct (mbt_append t q p (o_odo G o)) as [m|] eqn:E; cbn [bind]; [|discriminate]. intros [= <-]. constructor; cbn; try assumption. now apply (append_twf _ _ _ _ _ V3 E).
  - destruct (mbt_append t q p (o_frames G o)) as [m|] eqn:E; cbn [bind]; [|discriminate]. intros [= <-]. constructor; cbn; try assumption. now apply (append_twf _ _ _ _ _ V4 E).
  - pose proof (append_get (o_nodes G o) t n V2) as A. destruct (mbi_append t n (o_nodes G o)) as [[x m]|]; cbn [bind snd]; [|discriminate].
    intros [= <-]. destruct A as (W & Ex & _ & _ & R & _). constructor; cbn; try assumption; [now apply touch_sorted|].
    intros a i v H. rewrite touch_find by exact V5. rewrite R in H. destruct (id_eqb_spec (a, i) x) as [<-|].
    + cbn in Ex. subst a. rewrite Z.eqb_refl. destruct (zfind t (o_traj G o)); discriminate.
    + apply V7 in H. destruct (zfind a (o_traj G o)); [discriminate | congruence].
  - pose proof (insert_get (o_nodes G o) (fst x) (snd x) n V2) as A. destruct (mbi_insert (fst x) (snd x) n (o_nodes G o)) as [m|]; cbn [bind]; [|discriminate].
    intros [= <-]. destruct A as (W & _ & _ & _ & R & _). constructor; cbn; try assumption; [now apply touch_sorted|].
    intros a i v H. rewrite touch_find by exact V5. rewrite R in H. destruct (id_eqb_spec (a, i) (fst x, snd x)) as [[= -> ->]|].
    + rewrite Z.eqb_refl. destruct (zfind (fst x) (o_traj G o)); discriminate.
    + apply V7 in H. destruct (zfind a (o_traj G o)); [discriminate | congruence].
  - destruct (mbt_trim (n_time G) (o_nodes G o) (fst x) (snd x) []) as [u0|]; cbn [bind]; [|discriminate].
    destruct (mbt_trim (n_time G) (o_nodes G o) (fst x) (snd x) (o_odo G o)) as [od|] eqn:E1; cbn [bind]; [|discriminate].
    destruct (mbt_trim (n_time G) (o_nodes G o) (fst x) (snd x) (o_frames G o)) as [fr|] eqn:E2; cbn [bind]; [|discriminate].
    pose proof (trim_get (o_nodes G o) x V2) as A. destruct (mbi_trim (fst x) (snd x) (o_nodes G o)) as [m|]; cbn [bind]; [|discriminate].
    destruct A as (W & _ & R & _). intros [= <-]. constructor; cbn; try assumption.
    + exact (trim_twf _ _ _ _ _ _ V3 E1).
    + exact (trim_twf _ _ _ _ _ _ V4 E2).
    + destruct (Nat.eqb _ 0); [now apply zerase_sorted | exact V5].
    + intros a i v H. assert (H0 : zfind a (o_traj G o) <> None).
      { rewrite R in H. destruct (id_eqb (a, i) x); [discriminate | exact (V7 a i v H)]. }
      destruct (Nat.eqb (mbi_traj_size (fst x) m) 0) eqn:EZ; [|exact H0]. rewrite zfind_zerase by exact V5.
      destruct (Z.eqb_spec a (fst x)) as [->|]; [|exact H0]. exfalso. unfold mbi_traj_size in EZ. unfold get, mbi_at in H. cbn [fst snd] in H.
      destruct (zfind (fst x) m) as [[c d]|]; [|discriminate]. destruct d; [discriminate | discriminate].
  - intros [= <-]. constructor; cbn; try assumption; [now apply zput_sorted|]. intros a i v H. rewrite zfind_zput by exact V5.
    destruct (a =? t); [discriminate | exact (V7 a i v H)].
  - pose proof (append_get (o_subs G o) t p V1) as A. destruct (mbi_append t p (o_subs G o)) as [[x m]|]; cbn [bind snd]; [|discriminate].
    intros [= <-]. constructor; cbn; try assumption. apply A.
  - pose proof (insert_get (o_subs G o) (fst x) (snd x) p V1) as A. destruct (mbi_insert (fst x) (snd x) p (o_subs G o)) as [m|]; cbn [bind]; [|discriminate].
    intros [= <-]. constructor; cbn; try assumption. apply A.
  - pose proof (trim_get (o_subs G o) x V1) as A. destruct (mbi_trim (fst x) (snd x) (o_subs G o)) as [m|]; cbn [bind]; [|discriminate].
    intros [= <-]. constructor; cbn; try assumption. apply A.
Qed.
Lemma empty_inv : inv (empty_data G).
Proof.
  constructor; cbn; try (apply wf_nil); try (constructor; [constructor | contradiction]); try constructor. discriminate.
Qed.
Lemma history_inv rs : forall o o', inv o -> fold_opt (serve G C) rs o = Some o' -> inv o'.
Proof.
  induction rs as [|r rs IH]; intros o o' V H; cbn [fold_opt] in H; [congruence|].
  destruct (serve G C r o) as [o1|] eqn:E; cbn [bind] in H; [|discriminate]. apply (IH o1 o'); [|exact H].
  destruct r as [c|f cs ls]; cbn [serve] in E; [exact (apply_inv c o o1 V E) | exact (solve_inv o f cs ls o1 V E)].
Qed.
End Whole.
