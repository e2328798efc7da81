(* The terms from IMU data of the 3D optimization problem. *)
From Coq Require Import Reals ZArith Lia Lra Bool.
From Verif Require Import CF_Model CF_Spec CF_Proofs RG_Model RG_Spec RG_Proofs RG_Angle IM_Model IM_Spec IM_Proofs IM_Integrate O3_Model O3_Spec.
From Coq Require Import List.
Import ListNotations.
Open Scope R_scope.

Lemma is_follows_spec b a : is_follows b a = true <-> follows b a.
Proof. unfold is_follows, follows. apply Z.eqb_eq. Qed.

(* pairs and triples *)
Lemma pair_head a b rest : follows b a -> pair_of (a :: b :: rest) a b.
Proof. intros F. split; [exact F|]. exists [], rest. reflexivity. Qed.
Lemma pair_tail x rest a b : pair_of rest a b -> pair_of (x :: rest) a b.
Proof. intros (F & l1 & l2 & ->). split; [exact F|]. exists (x :: l1), l2. reflexivity. Qed.
Lemma pair_cons x rest a b : pair_of (x :: rest) a b -> (x = a /\ exists l, rest = b :: l) \/ pair_of rest a b.
Proof.
  intros (F & l1 & l2 & E). destruct l1 as [|y l1]; cbn [app] in E; injection E as -> ->.
  - left. split; [reflexivity|]. now exists l2.
  - right. split; [exact F|]. now exists l1, l2.
Qed.
Lemma triple_tail x rest a b c : triple_of rest a b c -> triple_of (x :: rest) a b c.
Proof. intros (F & G & l1 & l2 & ->). split; [exact F|]. split; [exact G|]. exists (x :: l1), l2. reflexivity. Qed.
Lemma triple_head a b c rest : follows b a -> follows c b -> triple_of (a :: b :: c :: rest) a b c.
Proof. intros F G. split; [exact F|]. split; [exact G|]. exists [], rest. reflexivity. Qed.
Lemma triple_cons x rest a b c : triple_of (x :: rest) a b c -> (x = a /\ exists l, rest = b :: c :: l) \/ triple_of rest a b c.
Proof.
  intros (F & G & l1 & l2 & E). destruct l1 as [|y l1]; cbn [app] in E; injection E as -> ->.
  - left. split; [reflexivity|]. now exists l2.
  - right. split; [exact F|]. split; [exact G|]. now exists l1, l2.
Qed.
Lemma triple_pair nodes a b c : triple_of nodes a b c -> pair_of nodes a b /\ pair_of nodes b c.
Proof.
  intros (F & G & l1 & l2 & ->). split; (split; [assumption|]).
  - exists l1, (c :: l2). reflexivity.
  - exists (l1 ++ [a]), l2. rewrite <- app_assoc. reflexivity.
Qed.
Lemma pair_time nodes a b : in_time nodes -> pair_of nodes a b -> (n_time a <= n_time b < time_max)%Z.
Proof.
  induction nodes as [|x rest IH]; intros T P.
  - destruct P as (_ & l1 & l2 & E). destruct l1; discriminate.
  - destruct (pair_cons _ _ _ _ P) as [(-> & l & ->)|P']; [|exact (IH (proj2 (proj2 T)) P')].
    destruct T as (_ & L & M & _). lia.
Qed.

(* the middle *)
Lemma half_middle s e : (s <= e)%Z -> (s + half_of (e - s) = (s + e) / 2)%Z.
Proof.
  intros L. unfold half_of. rewrite Z.quot_div_nonneg by lia.
  replace (s + e)%Z with (e - s + s * 2)%Z by lia. rewrite Z.div_add by lia. lia.
Qed.
Lemma middle_range s e : (s <= e)%Z -> (s <= (s + e) / 2 <= e)%Z.
Proof. intros L. split; [apply Z.div_le_lower_bound | apply Z.div_le_upper_bound]; lia. Qed.

(* skipping *)
Lemma skip_holds fuel : forall data it t d, ordered data -> nth_error data it = Some d -> (i_time d <= t)%Z ->
  (length data - it <= fuel)%nat -> exists it', skip_imu fuel data it t = Some it' /\ holds_at data it' t.
Proof.
  induction fuel as [|fuel IH]; intros data it t d O N L F.
  - assert (it < length data)%nat by (apply nth_error_Some; congruence). lia.
  - cbn [skip_imu]. destruct (nth_error data (S it)) as [n|] eqn:N2.
    + destruct (Z.leb_spec (i_time n) t) as [C|C].
      * apply (IH data (S it) t n O N2 C). lia.
      * exists it. split; [reflexivity|]. destruct (nth_error_split _ _ N) as (pre & rest & -> & <-).
        apply holds_mid; [exact O | exact L|]. rewrite nth_mid_S in N2. destruct rest; [exact I|]. cbn in N2. injection N2 as ->. exact C.
    + exists it. split; [reflexivity|]. destruct (nth_error_split _ _ N) as (pre & rest & -> & <-).
      apply holds_mid; [exact O | exact L|]. rewrite nth_mid_S in N2. destruct rest; [exact I | discriminate].
Qed.
Lemma skip_early fuel d rest t : ordered (d :: rest) -> (t < i_time d)%Z -> skip_imu (S fuel) (d :: rest) 0 t = Some 0%nat.
Proof.
  intros O L. cbn [skip_imu]. change (nth_error (d :: rest) 1) with (nth_error rest 0). destruct rest as [|n rest]; [reflexivity|].
  cbn [nth_error]. destruct O as [C _]. destruct (Z.leb_spec (i_time n) t); [lia|reflexivity].
Qed.
Lemma not_holds d rest t : ordered (d :: rest) -> (t < i_time d)%Z -> ~ exists it, holds_at (d :: rest) it t.
Proof. intros O L [it H]. pose proof (first_holds _ _ _ O H) as X. cbn in X. lia. Qed.

(* the terms with the integration as it is done *)
Definition played (data : list imu) (s e : Z) : motion := play same same motion_zero (pieces data s e).
Definition raw_acceleration (w : weights) (data : list imu) (a b c : node3) : imu_term :=
  AccelerationTerm (n_index a) (n_index b) (n_index c)
    (w_acceleration w / to_seconds (n_time b - n_time a + (n_time c - n_time b)))
    (qrot (qmul (qinverse (d_rot (played data (n_time a) (n_time b)))) (d_rot (played data (n_time a) (middle a b))))
          (d_vel (played data (middle a b) (middle b c))))
    (to_seconds (n_time b - n_time a)) (to_seconds (n_time c - n_time b)).
Definition raw_rotation (w : weights) (data : list imu) (a b : node3) : imu_term :=
  RotationTerm (n_index a) (n_index b) (w_rotation w / to_seconds (n_time b - n_time a)) (d_rot (played data (n_time a) (n_time b))).
Definition raw_acc (w : weights) (data : list imu) (a b : node3) (rest : list node3) : list imu_term :=
  match rest with c :: _ => if is_follows c b then [raw_acceleration w data a b c] else [] | [] => [] end.
Fixpoint raw (w : weights) (data : list imu) (nodes : list node3) : list imu_term :=
  match nodes with
  | [] => []
  | a :: rest =>
    match rest with
    | [] => []
    | b :: rest' => if is_follows b a then raw_acc w data a b rest' ++ [raw_rotation w data a b] else []
    end ++ raw w data rest
  end.

Lemma plain_ok data s e it : ordered data -> holds_at data it s -> (s <= e)%Z -> (e < time_max)%Z ->
  exists it', integrate_plain data s e it = Some (played data s e, it') /\ holds_at data it' e.
Proof. intros. now apply integrate_pieces. Qed.

Lemma acceleration_ok3 w data a b rest it : ordered data -> in_time (a :: b :: rest) -> holds_at data it (n_time a) ->
  acceleration_terms w data a b rest (played data (n_time a) (n_time b)) it = Some (raw_acc w data a b rest).
Proof.
  intros O T H. destruct rest as [|c rest]; [reflexivity|]. cbn [acceleration_terms raw_acc]. unfold is_follows.
  destruct (n_index c =? n_index b + 1)%Z; [|reflexivity].
  destruct T as (_ & L1 & _ & L2 & M3 & _).
  pose proof (middle_range _ _ L1) as R1. pose proof (middle_range _ _ L2) as R2.
  rewrite !half_middle by assumption.
  destruct (plain_ok data (n_time a) ((n_time a + n_time b) / 2) it O H) as (it1 & E1 & H1); [lia | lia|]. rewrite E1.
  destruct (plain_ok data ((n_time a + n_time b) / 2) ((n_time b + n_time c) / 2) it1 O H1) as (it2 & E2 & H2); [lia | lia|].
  rewrite E2. reflexivity.
Qed.

(* where the iterator may be *)
Definition placed (data : list imu) (it : nat) (t : Z) : Prop :=
  exists d, nth_error data it = Some d /\ (it = 0%nat \/ (i_time d <= t)%Z).
Lemma placed_mono data it s t : placed data it s -> (s <= t)%Z -> placed data it t.
Proof. intros (d & N & [Z|L]) T; exists d; split; try assumption; [now left | right; lia]. Qed.
Lemma placed_holds data it t : holds_at data it t -> placed data it t.
Proof. intros (d & N & L & _). exists d. split; [exact N | now right]. Qed.

Lemma loop_covered w data : ordered data -> forall rest first it, in_time (first :: rest) -> placed data it (n_time first) ->
  covered data (first :: rest) -> imu_loop w data first rest it = Some (raw w data (first :: rest)).
Proof.
  intros O. induction rest as [|second rest IH]; intros first it T P C; [reflexivity|].
  assert (T2 : in_time (second :: rest)) by exact (proj2 (proj2 T)).
  pose proof (proj1 (proj2 T)) as L1. pose proof (proj1 T2) as M2.
  assert (C2 : covered data (second :: rest)).
  { destruct C as (d & l & E & C). exists d, l. split; [exact E|]. intros a b Q. apply (C a b). now apply pair_tail. }
  cbn [imu_loop]. change (raw w data (first :: second :: rest)) with
    ((if is_follows second first then raw_acc w data first second rest ++ [raw_rotation w data first second] else []) ++ raw w data (second :: rest)).
  unfold is_follows at 1. destruct (Z.eqb_spec (n_index second) (n_index first + 1)) as [F|F].
  - destruct C as (d & l & E & C). specialize (C first second (pair_head _ _ _ F)).
    assert (N : exists x, nth_error data it = Some x /\ (i_time x <= n_time first)%Z).
    { destruct P as (x & N & [Z|L]); [|now exists x]. exists x. split; [exact N|]. subst it data. cbn in N. injection N as <-. exact C. }
    destruct N as (x & N & L). destruct (skip_holds (length data) data it (n_time first) x O N L ltac:(lia)) as (it1 & E1 & H1).
    rewrite E1. destruct (plain_ok data (n_time first) (n_time second) it1 O H1 L1 M2) as (it2 & E2 & H2). rewrite E2.
    rewrite acceleration_ok3 by assumption. rewrite (IH second it2 T2 (placed_holds _ _ _ H2) C2). rewrite <- app_assoc. reflexivity.
  - cbn [app]. apply IH; [exact T2 | exact (placed_mono _ _ _ _ P L1) | exact C2].
Qed.

Lemma loop_uncovered w d l : let data := d :: l in ordered data -> forall rest first it, in_time (first :: rest) -> placed data it (n_time first) ->
  imu_loop w data first rest it <> None -> covered data (first :: rest).
Proof.
  intros data O. induction rest as [|second rest IH]; intros first it T P S.
  - exists d, l. split; [reflexivity|]. intros a b (_ & l1 & l2 & E). destruct l1 as [|? [|]]; discriminate.
  - assert (T2 : in_time (second :: rest)) by exact (proj2 (proj2 T)).
    pose proof (proj1 (proj2 T)) as L1. pose proof (proj1 T2) as M2. cbn [imu_loop] in S.
    destruct (Z.eqb_spec (n_index second) (n_index first + 1)) as [F|F].
    + destruct P as (x & N & P).
      assert (L : (i_time d <= n_time first)%Z).
      { destruct (Z.le_gt_cases (i_time d) (n_time first)) as [L|L]; [exact L|]. exfalso. apply S. clear S.
        assert (Z : it = 0%nat).
        { destruct P as [Z|P]; [exact Z|]. destruct it as [|it]; [reflexivity|]. cbn [nth_error] in N.
          apply nth_error_In in N. pose proof (ordered_all _ _ O) as A. rewrite Forall_forall in A. specialize (A x N). cbn in A. lia. }
        subst it.
        assert (SK : skip_imu (length data) data 0 (n_time first) = Some 0%nat) by (unfold data; cbn [length]; now apply skip_early).
        rewrite SK.
        replace (integrate_plain data (n_time first) (n_time second) 0) with (@None (motion * nat)); [reflexivity|].
        symmetry. apply integrate_none; [exact O | exact M2|]. right. intros H. apply (not_holds d l (n_time first) O L). now exists 0%nat. }
      assert (N' : exists x, nth_error data it = Some x /\ (i_time x <= n_time first)%Z).
      { exists x. split; [exact N|]. destruct P as [Z|P]; [|exact P]. subst it. cbn in N. injection N as <-. exact L. }
      destruct N' as (x' & N' & L').
      destruct (skip_holds (length data) data it (n_time first) x' O N' L' ltac:(lia)) as (it1 & E1 & H1). rewrite E1 in S.
      destruct (plain_ok data (n_time first) (n_time second) it1 O H1 L1 M2) as (it2 & E2 & H2). rewrite E2 in S.
      rewrite acceleration_ok3 in S by assumption.
      destruct (imu_loop w data second rest it2) as [ts|] eqn:E3; [|now destruct S].
      destruct (IH second it2 T2 (placed_holds _ _ _ H2)) as (d' & l' & E & C); [congruence|].
      exists d', l'. split; [exact E|]. unfold data in E. injection E as <- <-. intros a b Q. destruct (pair_cons _ _ _ _ Q) as [(<- & _)|Q'];
        [exact L | exact (C a b Q')].
    + destruct (IH second it T2 (placed_mono _ _ _ _ P L1) S) as (d' & l' & E & C).
      exists d', l'. split; [exact E|]. intros a b Q. destruct (pair_cons _ _ _ _ Q) as [(<- & l2 & E2)|Q']; [|exact (C a b Q')].
      injection E2 as -> ->. destruct Q as [F2 _]. unfold follows in F2. congruence.
Qed.

(* the block of the gravity constant *)
Lemma gravity_app a b : has_gravity_block (a ++ b) = has_gravity_block a || has_gravity_block b.
Proof. apply existsb_app. Qed.
Lemma raw_gravity w data nodes : has_gravity_block (raw w data nodes) = true <-> exists a b c, triple_of nodes a b c.
Proof.
  induction nodes as [|a rest IH].
  - split; [discriminate|]. intros (a & b & c & _ & _ & l1 & l2 & E). destruct l1; discriminate.
  - destruct rest as [|b rest].
    { split; [discriminate|]. intros (x & b & c & _ & _ & l1 & l2 & E). destruct l1 as [|? [|]]; discriminate. }
    change (raw w data (a :: b :: rest)) with
      ((if is_follows b a then raw_acc w data a b rest ++ [raw_rotation w data a b] else []) ++ raw w data (b :: rest)).
    rewrite gravity_app, orb_true_iff, IH. split.
    + intros [H|(x & y & z & Q)]; [|exists x, y, z; now apply triple_tail].
      destruct (is_follows b a) eqn:F; [|discriminate]. rewrite gravity_app, orb_true_iff in H. destruct H as [H|H]; [|discriminate].
      destruct rest as [|c rest]; [discriminate|]. cbn [raw_acc] in H. destruct (is_follows c b) eqn:G; [|discriminate].
      exists a, b, c. apply triple_head; now apply is_follows_spec.
    + intros (x & y & z & Q). destruct (triple_cons _ _ _ _ _ Q) as [(<- & l & E)|Q']; [left | right; now exists x, y, z].
      injection E as -> ->. destruct Q as (F & G & _). rewrite (proj2 (is_follows_spec _ _) F).
      cbn [raw_acc]. rewrite (proj2 (is_follows_spec _ _) G). reflexivity.
Qed.

Lemma trajectory_some w online known data nodes : in_time nodes -> nodes <> [] ->
  match data with Some d => ordered d | None => True end ->
  ((exists x, imu_trajectory w online known data nodes = Some x) <->
   known = true /\ (exists d, data = Some d /\ covered d nodes) /\ exists a b c, triple_of nodes a b c) /\
  (forall x, imu_trajectory w online known data nodes = Some x ->
     exists d, data = Some d /\ x = (negb online, raw w d nodes)).
Proof.
  intros T NE O. destruct nodes as [|first rest]; [congruence|]. unfold imu_trajectory.
  destruct known; [|split; [split; [intros [x E]; discriminate | intros (E & _); discriminate] | intros x E; discriminate]].
  destruct data as [[|d l]|].
  1:{ split; [split; [intros [x E]; discriminate | intros (_ & (d & E & d' & l' & E' & _) & _); congruence] | intros x E; discriminate]. }
  2:{ split; [split; [intros [x E]; discriminate | intros (_ & (d & E & _) & _); discriminate] | intros x E; discriminate]. }
  assert (P : placed (d :: l) 0 (n_time first)) by (exists d; split; [reflexivity | now left]).
  destruct (imu_loop w (d :: l) first rest 0) as [ts|] eqn:E.
  - assert (C : covered (d :: l) (first :: rest)).
    { apply (loop_uncovered w d l O rest first 0 T P). congruence. }
    assert (E' : ts = raw w (d :: l) (first :: rest)) by (rewrite (loop_covered w (d :: l) O rest first 0 T P C) in E; congruence).
    subst ts. pose proof (raw_gravity w (d :: l) (first :: rest)) as G.
    destruct (has_gravity_block (raw w (d :: l) (first :: rest))).
    + split; [split|].
      * intros _. split; [reflexivity|]. split; [now exists (d :: l) | now apply G].
      * intros _. now exists (negb online, raw w (d :: l) (first :: rest)).
      * intros x X. injection X as <-. now exists (d :: l).
    + split; [split|].
      * intros [x X]; discriminate.
      * intros (_ & _ & X). apply G in X. discriminate.
      * intros x X; discriminate.
  - split; [split|].
    + intros [x X]; discriminate.
    + intros (_ & (d' & X & C) & _). injection X as <-. rewrite (loop_covered w (d :: l) O rest first 0 T P C) in E. discriminate.
    + intros x X; discriminate.
Qed.

(* the inverse of a unit quaternion *)
Lemma inverse_unit q : is_unit q -> qinverse q = qconj q.
Proof.
  intros U. unfold qinverse. assert (E : qnorm2 q = 1) by exact U. rewrite E. destruct (Rlt_dec 0 1); [|lra].
  rewrite Rinv_1. apply quat_eq; qcbn; ring.
Qed.

(* the terms are the expected ones *)
Lemma played_moved data s e : all_resolved same (pieces data s e) -> played data s e = moved data s e.
Proof. intros A. apply play_zero. exact A. Qed.
Lemma acceleration_moved w data a b c : ordered data -> (n_time a <= n_time b)%Z ->
  all_resolved same (pieces data (n_time a) (middle a b)) -> all_resolved same (pieces data (middle a b) (n_time b)) ->
  all_resolved same (pieces data (middle a b) (middle b c)) ->
  raw_acceleration w data a b c = acceleration_of w data a b c.
Proof.
  intros O L A1 A2 A3. unfold raw_acceleration, acceleration_of. pose proof (middle_range _ _ L) as R.
  destruct (turn_cut same same data (n_time a) (middle a b) (n_time b) O R A1 A2) as [E A].
  rewrite !played_moved by assumption. unfold moved at 1. rewrite E. fold (moved data (n_time a) (middle a b)). fold (moved data (middle a b) (n_time b)).
  rewrite !secs. replace (n_time b - n_time a + (n_time c - n_time b))%Z with (n_time c - n_time a)%Z by lia.
  pose proof (travel_unit same same _ A1) as U1. pose proof (travel_unit same same _ A2) as U2.
  fold (moved data (n_time a) (middle a b)) in U1. fold (moved data (middle a b) (n_time b)) in U2.
  rewrite inverse_unit by (apply unit_mul; assumption). f_equal. f_equal.
  rewrite qconj_mul, <- qmul_assoc, qmul_conj_l by exact U1. apply qmul_1_r.
Qed.
Lemma raw_expected w data nodes : ordered data -> in_time nodes -> turns_resolved data nodes -> raw w data nodes = expected w data nodes.
Proof.
  intros O. induction nodes as [|a rest IH]; intros T X; [reflexivity|].
  destruct rest as [|b rest]; [reflexivity|].
  change (raw w data (a :: b :: rest)) with
    ((if is_follows b a then raw_acc w data a b rest ++ [raw_rotation w data a b] else []) ++ raw w data (b :: rest)).
  change (expected w data (a :: b :: rest)) with
    ((if is_follows b a then match rest with c :: _ => if is_follows c b then [acceleration_of w data a b c] else [] | [] => [] end ++
      [rotation_of w data a b] else []) ++ expected w data (b :: rest)).
  rewrite IH; [|exact (proj2 (proj2 T))|].
  2:{ intros x y P. destruct (X x y (pair_tail _ _ _ _ P)) as (Y1 & Y2 & Y3). split; [exact Y1|]. split; [exact Y2|].
      intros z Q. apply Y3. now apply triple_tail. }
  f_equal. destruct (is_follows b a) eqn:F; [|reflexivity]. apply is_follows_spec in F.
  destruct (X a b (pair_head _ _ _ F)) as (A1 & A2 & A3). pose proof (proj1 (proj2 T)) as L.
  f_equal.
  - destruct rest as [|c rest]; [reflexivity|]. cbn [raw_acc]. destruct (is_follows c b) eqn:G; [|reflexivity]. apply is_follows_spec in G.
    rewrite acceleration_moved; try assumption; [reflexivity|]. apply A3. now apply triple_head.
  - unfold raw_rotation, rotation_of. rewrite secs. do 2 f_equal.
    destruct (turn_cut same same data (n_time a) (middle a b) (n_time b) O (middle_range _ _ L) A1 A2) as [_ A].
    now rewrite played_moved.
Qed.
Lemma in_expected w data nodes t : In t (expected w data nodes) <->
  (exists a b, pair_of nodes a b /\ t = rotation_of w data a b) \/
  (exists a b c, triple_of nodes a b c /\ t = acceleration_of w data a b c).
Proof.
  induction nodes as [|x rest IH].
  - split; [intros []|]. intros [(a & b & (_ & l1 & l2 & E) & _)|(a & b & c & (_ & _ & l1 & l2 & E) & _)]; destruct l1; discriminate.
  - destruct rest as [|y rest].
    { split; [intros []|]. intros [(a & b & (_ & l1 & l2 & E) & _)|(a & b & c & (_ & _ & l1 & l2 & E) & _)]; destruct l1 as [|? [|]]; discriminate. }
    change (expected w data (x :: y :: rest)) with
      ((if is_follows y x then match rest with c :: _ => if is_follows c y then [acceleration_of w data x y c] else [] | [] => [] end ++
        [rotation_of w data x y] else []) ++ expected w data (y :: rest)).
    rewrite in_app_iff, IH. split.
    + intros [H|[(a & b & P & E)|(a & b & c & P & E)]].
      * destruct (is_follows y x) eqn:F; [|destruct H]. apply is_follows_spec in F. apply in_app_iff in H. destruct H as [H|[<-|[]]].
        -- right. destruct rest as [|z rest]; [destruct H|]. destruct (is_follows z y) eqn:G; [|destruct H]. apply is_follows_spec in G.
           destruct H as [<-|[]]. exists x, y, z. split; [now apply triple_head | reflexivity].
        -- left. exists x, y. split; [now apply pair_head | reflexivity].
      * left. exists a, b. split; [now apply pair_tail | exact E].
      * right. exists a, b, c. split; [now apply triple_tail | exact E].
    + intros [(a & b & P & E)|(a & b & c & P & E)].
      * destruct (pair_cons _ _ _ _ P) as [(<- & l & E2)|P']; [|right; left; now exists a, b].
        injection E2 as <- <-. left. rewrite (proj2 (is_follows_spec _ _) (proj1 P)). apply in_app_iff. right. left. now symmetry.
      * destruct (triple_cons _ _ _ _ _ P) as [(<- & l & E2)|P']; [|right; right; now exists a, b, c].
        injection E2 as <- ->. left. destruct P as (F & G & _). rewrite (proj2 (is_follows_spec _ _) F), (proj2 (is_follows_spec _ _) G).
        left. now symmetry.
Qed.
