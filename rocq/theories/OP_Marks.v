(* The terms of the landmarks. *)
From Coq Require Import List ZArith Bool Lia Sorted.
From Verif Require Import ZMap MapById_Model MapById_Spec MapById_Proofs MapById_Iter
  PG_Model PG_Maps OP_Model OP_Spec OP_Iter OP_Proofs OP_Build.
Import ListNotations.
Open Scope Z_scope.

Section Marks.
Context {G : geometry}.
Implicit Types (o : data G) (q : problem G) (m : mbi (node G)).

Lemma neighbours_next m t i j a b k n : neighbours m t i j a b -> get (t, k) m = Some n -> i < k -> j <= k.
Proof. intros (_ & _ & _ & N) H L. destruct (Z_lt_le_dec k j); [|lia]. rewrite N in H by lia. discriminate. Qed.
Lemma place_unique m s xs ys : in_order m -> place m s xs -> place m s ys -> xs = ys.
Proof.
  intros O.
  assert (LB : forall xs, place m s xs -> xs <> [] -> exists i n j n', get (s_traj G s, i) m = Some n /\ n_time G n <= s_time G s /\
    get (s_traj G s, j) m = Some n' /\ s_time G s <= n_time G n').
  { intros zs H N. destruct H as [?|?|i j a b (A & B & _) ?|i j a b (A & B & L & _) ? ?]; try congruence.
    - exists i, a, j, b. repeat (split; [assumption || lia|]). lia.
    - exists i, a, i, a. repeat (split; [assumption || lia|]). lia. }
  assert (NIL : forall xs, place m s xs -> place m s [] -> xs = []).
  { intros zs H N. destruct zs as [|z zs]; [reflexivity|]. exfalso. destruct (LB _ H ltac:(discriminate)) as (i & n & j & n' & A & B & C & D).
    inversion N as [Q|Q| |]; [apply Q in C | apply Q in A]; lia. }
  assert (SYM : forall i j a b i' j' a' b', neighbours m (s_traj G s) i j a b -> neighbours m (s_traj G s) i' j' a' b' ->
    n_time G a < s_time G s <= n_time G b -> n_time G a' < s_time G s <= n_time G b' -> i' <= i).
  { intros i j a b i' j' a' b' N N' B B'. destruct (Z_lt_le_dec i i') as [L|]; [|lia]. exfalso.
    pose proof (neighbours_next _ _ _ _ _ _ i' a' N (proj1 N') L) as L2. destruct N as (_ & Gb & _). destruct N' as (Ga & _).
    pose proof (O _ _ _ _ _ Gb Ga L2). lia. }
  assert (NXT : forall i j a b j' a' b', neighbours m (s_traj G s) i j a b -> neighbours m (s_traj G s) i j' a' b' -> j = j').
  { intros i j a b j' a' b' N N'. pose proof N as (_ & Gj & Lj & _). pose proof N' as (_ & Gj' & Lj' & _).
    pose proof (neighbours_next _ _ _ _ _ _ j' b' N Gj' Lj'). pose proof (neighbours_next _ _ _ _ _ _ j b N' Gj Lj). lia. }
  intros X Y. destruct xs as [|x xs]; [symmetry; now apply NIL|]. destruct ys as [|y ys]; [now apply NIL|].
  inversion X as [| |i j a b N B|i j a b N B F]; subst; inversion Y as [| |i' j' a' b' N' B'|i' j' a' b' N' B' F']; subst.
  - assert (i = i') by (pose proof (SYM _ _ _ _ _ _ _ _ N N' B B'); pose proof (SYM _ _ _ _ _ _ _ _ N' N B' B); lia). subst i'.
    now rewrite (NXT _ _ _ _ _ _ _ N N').
  - exfalso. pose proof (F' _ _ (proj1 N)) as L. pose proof (O _ _ _ _ _ (proj1 N') (proj1 N) L). lia.
  - exfalso. pose proof (F _ _ (proj1 N')) as L. pose proof (O _ _ _ _ _ (proj1 N) (proj1 N') L). lia.
  - assert (i = i') by (pose proof (F _ _ (proj1 N')); pose proof (F' _ _ (proj1 N)); lia). subst i'.
    now rewrite (NXT _ _ _ _ _ _ _ N N').
Qed.
Lemma first_placed_unique m l s x y s' x' y' : in_order m -> first_placed m l s x y -> first_placed m l s' x' y' -> s = s' /\ x = x' /\ y = y'.
Proof.
  intros O (p & r & E & F & P) (p' & r' & E' & F' & P'). subst l. revert p' E' F'. induction p as [|z p IH]; intros p' E' F'; destruct p' as [|z' p']; cbn in E'.
  - injection E' as <- _. pose proof (place_unique _ _ _ _ O P P') as [= <- <-]. auto.
  - injection E' as <- _. inversion F' as [|? ? Q _]; subst. pose proof (place_unique _ _ _ _ O P Q). discriminate.
  - injection E' as -> _. inversion F as [|? ? Q _]; subst. pose proof (place_unique _ _ _ _ O P' Q). discriminate.
  - injection E' as -> E'. inversion F; inversion F'; subst. now apply IH with p'.
Qed.

(* aborts *)
Lemma sighting_aborts o l k s q : wf (o_nodes G o) -> in_order (o_nodes G o) -> covers o q ->
  match add_sighting G (o_nodes G o) l k s q with
  | None => stranded (o_nodes G o) s
  | Some q' => covers o q' /\ ~ stranded (o_nodes G o) s
  end.
Proof.
  intros W O C. unfold add_sighting. pose proof (sighted_spec (o_nodes G o) s W O) as H.
  destruct (sighted G (o_nodes G o) s) as [[[[x a] [y b]]|]|]; cbn [bind]; [| |exact H].
  - destruct H as (Gx & Gy & N & _). rewrite (covers_node o q _ _ C Gx). cbn [bind]. rewrite (covers_node o q _ _ C Gy). cbn [bind].
    split; [|exact N]. destruct (zfind l (q_landmarks G q)); exact C.
  - split; [exact C | apply H].
Qed.
Lemma fold_aborts {B} (P : problem G -> Prop) (bad : B -> Prop) (f : B -> problem G -> option (problem G)) :
  (forall b q, P q -> match f b q with None => bad b | Some q' => P q' /\ ~ bad b end) ->
  forall bs q, P q -> match fold_opt f bs q with
    | None => exists b, In b bs /\ bad b
    | Some q' => P q' /\ forall b, In b bs -> ~ bad b
    end.
Proof.
  intros H. induction bs as [|b bs IH]; intros q C; cbn [fold_opt]; [split; [exact C | contradiction]|].
  pose proof (H b q C) as Hb. destruct (f b q) as [q1|]; cbn [bind]; [|exists b; split; [now left | exact Hb]].
  destruct Hb as [C1 N]. specialize (IH q1 C1). destruct (fold_opt f bs q1) as [q2|].
  - destruct IH as [C2 A]. split; [exact C2|]. intros b' [<-|I]; [exact N | now apply A].
  - destruct IH as (b' & I & A). exists b'. split; [now right | exact A].
Qed.
Lemma landmarks_abort o ls q : wf (o_nodes G o) -> in_order (o_nodes G o) -> covers o q ->
  match add_landmarks G (o_nodes G o) ls q with
  | None => exists l k s, In (l, k) ls /\ In s (l_seen G k) /\ stranded (o_nodes G o) s
  | Some q' => covers o q' /\ forall l k s, In (l, k) ls -> In s (l_seen G k) -> ~ stranded (o_nodes G o) s
  end.
Proof.
  intros W O C. unfold add_landmarks.
  pose proof (fold_aborts (covers o) (fun lk : Z * landmark G => exists s, In s (l_seen G (snd lk)) /\ stranded (o_nodes G o) s)
    (fun lk q => fold_opt (fun s q => add_sighting G (o_nodes G o) (fst lk) (snd lk) s q) (l_seen G (snd lk)) q)) as F.
  assert (H : forall (lk : Z * landmark G) q, covers o q ->
    match fold_opt (fun s q => add_sighting G (o_nodes G o) (fst lk) (snd lk) s q) (l_seen G (snd lk)) q with
    | None => exists s, In s (l_seen G (snd lk)) /\ stranded (o_nodes G o) s
    | Some q' => covers o q' /\ ~ exists s, In s (l_seen G (snd lk)) /\ stranded (o_nodes G o) s
    end).
  { intros lk q0 C0. pose proof (fold_aborts (covers o) (stranded (o_nodes G o)) _
      (fun s q C => sighting_aborts o (fst lk) (snd lk) s q W O C) (l_seen G (snd lk)) q0 C0) as H.
    destruct (fold_opt _ (l_seen G (snd lk)) q0); [|exact H]. destruct H as [C1 A]. split; [exact C1|]. intros (s & I & S). exact (A s I S). }
  specialize (F H ls q C). destruct (fold_opt _ ls q).
  - destruct F as [C1 A]. split; [exact C1|]. intros l k s I J S. apply (A (l, k) I). exists s. auto.
  - destruct F as ([l k] & I & s & J & S). exists l, k, s. auto.
Qed.

(* what is added *)
Definition marks_only q q' (rs : list (residual G)) : Prop :=
  q_subs G q' = q_subs G q /\ q_nodes G q' = q_nodes G q /\ q_frames G q' = q_frames G q /\ q_res G q' = q_res G q ++ rs.
Lemma marks_only_refl q : marks_only q q [].
Proof. unfold marks_only. rewrite app_nil_r. auto. Qed.
Lemma marks_only_trans a b c r r' : marks_only a b r -> marks_only b c r' -> marks_only a c (r ++ r').
Proof. intros (A1 & A2 & A3 & A4) (B1 & B2 & B3 & B4). unfold marks_only. rewrite B1, B2, B3, B4, A4, <- app_assoc. auto. Qed.
Lemma marks_only_covers o a b r : marks_only a b r -> covers o a -> covers o b.
Proof. intros (A1 & A2 & _) [C1 C2]. unfold covers. rewrite A1, A2. split; assumption. Qed.
Definition kept q q' : Prop := q_landmarks G q' = q_landmarks G q /\ q_const G q' = q_const G q.
Definition started l k s a b q q' : Prop :=
  q_landmarks G q' = zput l (to_ceres G (mark_start k s a b)) (q_landmarks G q) /\
  q_const G q' = q_const G q ++ (if l_frozen G k then [PLandmark l] else []).

Lemma sighting_ok o l k s q q' : wf (o_nodes G o) -> in_order (o_nodes G o) -> covers o q -> ~ lonely (o_nodes G o) s ->
  add_sighting G (o_nodes G o) l k s q = Some q' ->
  exists xs, place (o_nodes G o) s xs /\ marks_only q q' (map (fun x => RLandmark G l s (fst x) (snd x)) xs) /\
    ((xs = [] /\ kept q q') \/
     exists x y a b, xs = [(x, y)] /\ get x (o_nodes G o) = Some a /\ get y (o_nodes G o) = Some b /\
       match zfind l (q_landmarks G q) with Some _ => kept q q' | None => started l k s a b q q' end).
Proof.
  intros W O C NL. unfold add_sighting. pose proof (sighted_spec (o_nodes G o) s W O) as H.
  destruct (sighted G (o_nodes G o) s) as [[[[x a] [y b]]|]|]; cbn [bind]; [| |discriminate].
  - destruct H as (Gx & Gy & N & P). rewrite (covers_node o q _ _ C Gx). cbn [bind]. rewrite (covers_node o q _ _ C Gy). cbn [bind].
    intros [= <-]. destruct P as [P|[P _]]; [|contradiction]. exists [(x, y)]. split; [exact P|]. split.
    + destruct (zfind l (q_landmarks G q)); unfold marks_only; cbn; auto.
    + right. exists x, y, a, b. split; [reflexivity|]. split; [exact Gx|]. split; [exact Gy|].
      destruct (zfind l (q_landmarks G q)); [split; reflexivity|]. split; [reflexivity|]. cbn. destruct (l_frozen G k); [reflexivity | now rewrite app_nil_r].
  - intros [= <-]. exists []. split; [apply H|]. split; [apply marks_only_refl|]. left. split; [reflexivity|]. split; reflexivity.
Qed.
Lemma landmark_ok o l k : wf (o_nodes G o) -> in_order (o_nodes G o) -> forall seen q q',
  covers o q -> zsorted (q_landmarks G q) -> (forall s, In s seen -> ~ lonely (o_nodes G o) s) ->
  fold_opt (fun s q => add_sighting G (o_nodes G o) l k s q) seen q = Some q' ->
  exists rs, placed_all (o_nodes G o) (map (pair l) seen) rs /\ marks_only q q' rs /\
    match zfind l (q_landmarks G q) with
    | Some _ => kept q q'
    | None => (Forall (fun s => place (o_nodes G o) s []) seen /\ kept q q') \/
        exists s x y a b, first_placed (o_nodes G o) seen s x y /\ get x (o_nodes G o) = Some a /\ get y (o_nodes G o) = Some b /\
          started l k s a b q q'
    end.
Proof.
  intros W O. induction seen as [|s seen IH]; intros q q' C S NL E; cbn [fold_opt] in E.
  { injection E as <-. exists []. split; [constructor|]. split; [apply marks_only_refl|].
    destruct (zfind l (q_landmarks G q)); [split; reflexivity|]. left. split; [constructor | split; reflexivity]. }
  destruct (add_sighting G (o_nodes G o) l k s q) as [q1|] eqn:E1; cbn [bind] in E; [|discriminate].
  destruct (sighting_ok o l k s q q1 W O C (NL s (or_introl eq_refl)) E1) as (xs & P & M & CASES).
  assert (S1 : zsorted (q_landmarks G q1)).
  { destruct CASES as [[_ [-> _]]|(x & y & a & b & _ & _ & _ & K)]; [exact S|].
    destruct (zfind l (q_landmarks G q)); destruct K as [-> _]; [exact S | now apply zput_sorted]. }
  destruct (IH q1 q' (marks_only_covers o _ _ _ M C) S1 (fun z I => NL z (or_intror I)) E) as (rs & PA & M' & R).
  exists (map (fun x => RLandmark G l s (fst x) (snd x)) xs ++ rs). split; [cbn [map]; now constructor|].
  split; [exact (marks_only_trans _ _ _ _ _ M M')|].
  destruct CASES as [[-> [K1 K2]]|(x & y & a & b & -> & Gx & Gy & K)].
  - rewrite K1 in R. destruct (zfind l (q_landmarks G q)).
    + destruct R as [R1 R2]. split; congruence.
    + destruct R as [[F [R1 R2]]|(s' & x & y & a & b & (p & r & -> & Fp & Ps) & Gx & Gy & [R1 R2])].
      * left. split; [now constructor|]. split; congruence.
      * right. exists s', x, y, a, b. split; [|split; [exact Gx | split; [exact Gy|]]].
        -- exists (s :: p), r. split; [reflexivity|]. split; [now constructor | exact Ps].
        -- split; [rewrite R1, K1; reflexivity | rewrite R2, K2; reflexivity].
  - destruct (zfind l (q_landmarks G q)) as [v|] eqn:Z.
    + destruct K as [K1 K2]. rewrite K1, Z in R. destruct R as [R1 R2]. split; congruence.
    + destruct K as [K1 K2]. rewrite K1, zfind_zput, Z.eqb_refl in R by exact S. destruct R as [R1 R2].
      right. exists s, x, y, a, b. split; [|split; [exact Gx | split; [exact Gy|]]].
      * exists [], seen. split; [reflexivity|]. split; [constructor | exact P].
      * split; [rewrite R1, K1; reflexivity | rewrite R2, K2; reflexivity].
Qed.
Lemma placed_app m a b r r' : placed_all m a r -> placed_all m b r' -> placed_all m (a ++ b) (r ++ r').
Proof. intros A B. induction A as [|l s ls xs rs P A IH]; cbn [app]; [exact B|]. rewrite <- app_assoc. now constructor. Qed.
Lemma landmarks_ok o ls : wf (o_nodes G o) -> in_order (o_nodes G o) -> forall q q',
  covers o q -> zsorted (q_landmarks G q) -> zsorted ls -> (forall l k, In (l, k) ls -> zfind l (q_landmarks G q) = None) ->
  (forall l k s, In (l, k) ls -> In s (l_seen G k) -> ~ lonely (o_nodes G o) s) ->
  add_landmarks G (o_nodes G o) ls q = Some q' ->
  exists rs cs, placed_all (o_nodes G o) (sightings ls) rs /\ marks_only q q' rs /\ zsorted (q_landmarks G q') /\
    (forall l k, In (l, k) ls ->
       (Forall (fun s => place (o_nodes G o) s []) (l_seen G k) /\ zfind l (q_landmarks G q') = None) \/
       exists s x y a b, first_placed (o_nodes G o) (l_seen G k) s x y /\ get x (o_nodes G o) = Some a /\ get y (o_nodes G o) = Some b /\
         zfind l (q_landmarks G q') = Some (to_ceres G (mark_start k s a b))) /\
    (forall l, (forall k, ~ In (l, k) ls) -> zfind l (q_landmarks G q') = zfind l (q_landmarks G q)) /\
    q_const G q' = q_const G q ++ cs /\
    (forall p, In p cs <-> exists l k, In (l, k) ls /\ p = PLandmark l /\ l_frozen G k = true /\ zfind l (q_landmarks G q') <> None).
Proof.
  intros W O. unfold add_landmarks. induction ls as [|[l k] ls IH]; intros q q' C S SL FR NL E; cbn [fold_opt] in E.
  { injection E as <-. exists [], []. split; [constructor|]. split; [apply marks_only_refl|]. split; [exact S|]. split; [contradiction|].
    split; [reflexivity|]. split; [now rewrite app_nil_r|]. intros p. split; [contradiction|]. intros (? & ? & [] & _). }
  cbn [fst snd] in E. destruct (fold_opt _ (l_seen G k) q) as [q1|] eqn:E1; cbn [bind] in E; [|discriminate].
  destruct (landmark_ok o l k W O (l_seen G k) q q1 C S (fun s => NL l k s (or_introl eq_refl)) E1) as (rs1 & P1 & M1 & R1).
  pose proof (zsorted_inv _ _ SL) as [SL' LL]. cbn [fst] in LL.
  rewrite (FR l k (or_introl eq_refl)) in R1.
  assert (Q1 : zsorted (q_landmarks G q1) /\ (forall l', l' <> l -> zfind l' (q_landmarks G q1) = zfind l' (q_landmarks G q))).
  { destruct R1 as [[_ [-> _]]|(s & x & y & a & b & _ & _ & _ & [-> _])]; [split; [exact S | reflexivity]|].
    split; [now apply zput_sorted|]. intros l' N. rewrite zfind_zput by exact S. destruct (Z.eqb_spec l' l); [contradiction | reflexivity]. }
  destruct Q1 as [S1 OTHER].
  assert (FR1 : forall l' k', In (l', k') ls -> zfind l' (q_landmarks G q1) = None).
  { intros l' k' I. pose proof (LL _ I) as L. cbn in L. rewrite OTHER by lia. apply (FR l' k'). now right. }
  destruct (IH q1 q' (marks_only_covers o _ _ _ M1 C) S1 SL' FR1 (fun l' k' s I => NL l' k' s (or_intror I)) E)
    as (rs & cs & P & M & S' & A & B & CC & D).
  assert (NI : forall k', ~ In (l, k') ls) by (intros k' I; apply LL in I; cbn in I; lia).
  pose proof (B l NI) as BL.
  exists (rs1 ++ rs), ((if l_frozen G k then match zfind l (q_landmarks G q') with Some _ => [PLandmark l] | None => [] end else []) ++ cs).
  split; [unfold sightings; cbn [flat_map fst snd]; now apply placed_app|].
  split; [exact (marks_only_trans _ _ _ _ _ M1 M)|]. split; [exact S'|]. split; [|split; [|split]].
  - intros l' k' [[= <- <-]|I]; [|now apply A]. rewrite BL.
    destruct R1 as [[F [K1 _]]|(s & x & y & a & b & F & Gx & Gy & [K1 _])]; rewrite K1.
    + left. split; [exact F | exact (FR l k (or_introl eq_refl))].
    + right. exists s, x, y, a, b. rewrite zfind_zput, Z.eqb_refl by exact S. auto.
  - intros l' N. rewrite (B l'); [|intros k' I; apply (N k'); now right]. apply OTHER. intros ->. apply (N k). now left.
  - rewrite CC, app_assoc. f_equal. rewrite BL.
    destruct R1 as [[F [K1 K2]]|(s & x & y & a & b & F & Gx & Gy & [K1 K2])]; rewrite K1, K2.
    + rewrite (FR l k (or_introl eq_refl)). destruct (l_frozen G k); now rewrite app_nil_r.
    + rewrite zfind_zput, Z.eqb_refl by exact S. reflexivity.
  - intros p. rewrite in_app_iff, D. split.
    + intros [I|(l' & k' & I & H)].
      * destruct (l_frozen G k) eqn:FK; [|contradiction]. destruct (zfind l (q_landmarks G q')) eqn:Z; [|contradiction]. destruct I as [<-|[]].
        exists l, k. split; [now left|]. split; [reflexivity|]. split; [exact FK | congruence].
      * exists l', k'. split; [now right | exact H].
    + intros (l' & k' & [[= <- <-]|I] & -> & FK & NZ).
      * left. rewrite FK. destruct (zfind l (q_landmarks G q')); [now left | congruence].
      * right. exists l', k'. auto.
Qed.
End Marks.
