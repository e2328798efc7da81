(* The integration of IMU data: pieces, composition, and a robot at rest. *)
From Coq Require Import Reals ZArith Lia Lra Bool.
From Verif Require Import CF_Model CF_Spec CF_Proofs RG_Model RG_Spec RG_Proofs RG_Angle IM_Model IM_Spec IM_Proofs.
From Coq Require Import List.
Import ListNotations.
Open Scope R_scope.

(* ordered data *)
Lemma ordered_all d rest : ordered (d :: rest) -> Forall (fun n => (i_time d < i_time n)%Z) rest.
Proof.
  revert d. induction rest as [|n rest IH]; intros d O; [constructor|].
  cbn [ordered] in O. destruct O as [L O]. constructor; [exact L|].
  specialize (IH n O). eapply Forall_impl; [|exact IH]. cbn. intros x. lia.
Qed.
Lemma ordered_tail d rest : ordered (d :: rest) -> ordered rest.
Proof. intros [_ O]. exact O. Qed.
Lemma ordered_app pre d rest : ordered (pre ++ d :: rest) ->
  ordered (d :: rest) /\ Forall (fun n => (i_time n < i_time d)%Z) pre.
Proof.
  induction pre as [|x pre IH]; intros O; [split; [exact O | constructor]|].
  destruct (IH (ordered_tail _ _ O)) as [A B]. split; [exact A|]. constructor; [|exact B].
  apply ordered_all in O. apply Forall_app in O. destruct O as [_ O]. exact (Forall_inv O).
Qed.
Lemma nth_mid (pre : list imu) d rest : nth_error (pre ++ d :: rest) (length pre) = Some d.
Proof. rewrite nth_error_app2 by lia. now rewrite Nat.sub_diag. Qed.
Lemma nth_mid_S (pre : list imu) d rest : nth_error (pre ++ d :: rest) (S (length pre)) = nth_error rest 0.
Proof. rewrite nth_error_app2 by lia. replace (S (length pre) - length pre)%nat with 1%nat by lia. reflexivity. Qed.

(* pieces *)
Lemma pieces_late data s e : Forall (fun n => (e <= i_time n)%Z) data -> pieces data s e = [].
Proof.
  induction data as [|d rest IH]; intros F; [reflexivity|]. inversion F as [|? ? H F']; subst. cbn [pieces].
  rewrite (IH F'), app_nil_r. destruct (Z.ltb_spec (Z.max s (i_time d)) (match rest with [] => e | n :: _ => Z.min e (i_time n) end)) as [L|L]; [|reflexivity].
  destruct rest; lia.
Qed.
Lemma pieces_empty data s e : (e <= s)%Z -> pieces data s e = [].
Proof.
  intros H. induction data as [|d rest IH]; [reflexivity|]. cbn [pieces]. rewrite IH, app_nil_r.
  destruct (Z.ltb_spec (Z.max s (i_time d)) (match rest with [] => e | n :: _ => Z.min e (i_time n) end)) as [L|L]; [|reflexivity].
  destruct rest; lia.
Qed.
Lemma pieces_from data s s' e : Forall (fun n => (s <= i_time n)%Z /\ (s' <= i_time n)%Z) data -> pieces data s e = pieces data s' e.
Proof.
  induction data as [|d rest IH]; intros F; [reflexivity|]. inversion F as [|? ? H F']; subst. cbn [pieces].
  rewrite (IH F'). rewrite !Z.max_r by lia. reflexivity.
Qed.
Lemma pieces_skip pre d rest s e : ordered (pre ++ d :: rest) -> (i_time d <= s)%Z ->
  pieces (pre ++ d :: rest) s e = pieces (d :: rest) s e.
Proof.
  induction pre as [|x pre IH]; intros O L; [reflexivity|]. rewrite <- (IH (ordered_tail _ _ O) L).
  change ((x :: pre) ++ d :: rest) with (x :: (pre ++ d :: rest)) in *. cbn [pieces].
  assert (N : exists n l, pre ++ d :: rest = n :: l /\ (i_time n <= i_time d)%Z).
  { destruct (ordered_app _ _ _ (ordered_tail _ _ O)) as [_ F]. destruct pre as [|n pre].
    - exists d, rest. split; [reflexivity | lia].
    - inversion F as [|? ? H1 H2]. exists n, (pre ++ d :: rest). split; [reflexivity | lia]. }
  destruct N as (n & l & -> & Ln). destruct (Z.ltb_spec (Z.max s (i_time x)) (Z.min e (i_time n))); [lia|]. reflexivity.
Qed.

Section Calibrated.
Variables ca cw : vec3 R -> vec3 R.

Definition play (r : motion) (ps : list (imu * Z)) : motion :=
  fold_left (fun r p => one_piece ca cw r (fst p) (to_seconds (snd p))) ps r.

Lemma holds_mid pre d rest t : ordered (pre ++ d :: rest) -> (i_time d <= t)%Z ->
  match rest with [] => True | n :: _ => (t < i_time n)%Z end -> holds_at (pre ++ d :: rest) (length pre) t.
Proof.
  intros O L H. exists d. split; [apply nth_mid|]. split; [exact L|]. intros j n J N.
  rewrite nth_error_app2 in N by lia. destruct (j - length pre)%nat as [|i] eqn:E; [lia|]. cbn in N.
  destruct rest as [|n0 rest]; [destruct i; discriminate|]. apply nth_error_In in N.
  destruct (ordered_app _ _ _ O) as [O2 _]. destruct N as [<-|N]; [exact H|].
  apply ordered_tail, ordered_all in O2. rewrite Forall_forall in O2. specialize (O2 n N). cbn in O2. lia.
Qed.
Lemma holds_split data i t : ordered data -> holds_at data i t ->
  exists pre d rest, data = pre ++ d :: rest /\ i = length pre /\ (i_time d <= t)%Z /\
    match rest with [] => True | n :: _ => (t < i_time n)%Z end.
Proof.
  intros O (d & N & L & A). destruct (nth_error_split _ _ N) as (pre & rest & -> & <-).
  exists pre, d, rest. repeat split; [exact L|]. destruct rest as [|n rest]; [exact I|].
  apply (A (S (length pre))); [lia|]. rewrite nth_mid_S. reflexivity.
Qed.

Lemma loop_pieces rest : forall pre d current end_ r fuel,
  ordered (pre ++ d :: rest) -> (i_time d <= current <= end_)%Z -> (end_ < time_max)%Z ->
  match rest with [] => True | n :: _ => (current < i_time n)%Z end -> (length rest < fuel)%nat ->
  exists it', integrate_loop fuel ca cw (pre ++ d :: rest) current end_ (length pre) r =
    Some (play r (pieces (d :: rest) current end_), it') /\ holds_at (pre ++ d :: rest) it' end_.
Proof.
  induction rest as [|n rest IH]; intros pre d current end_ r fuel O T M H F;
    (destruct fuel as [|fuel]; [cbn in F; lia|]); cbn [integrate_loop].
  - destruct (Z.ltb_spec current end_) as [L|L].
    + rewrite nth_mid, nth_mid_S. cbn [nth_error]. rewrite Z.min_r by lia.
      destruct (Z.eqb_spec end_ time_max); [lia|].
      replace (integrate_loop fuel ca cw (pre ++ [d]) end_ end_) with
        (fun (i : nat) r => Some (r, i) : option (motion * nat)).
      2:{ destruct fuel; cbn [integrate_loop]; rewrite Z.ltb_irrefl; reflexivity. }
      exists (length pre). split.
      * cbn [pieces]. rewrite Z.max_l by lia. destruct (Z.ltb_spec current end_); [|lia]. reflexivity.
      * apply holds_mid; [exact O | lia | exact I].
    + rewrite pieces_empty by lia. exists (length pre). split; [reflexivity|]. apply holds_mid; [exact O | lia | exact I].
  - destruct (Z.ltb_spec current end_) as [L|L].
    + rewrite nth_mid, nth_mid_S. cbn [nth_error].
      destruct (ordered_app _ _ _ O) as [O2 _].
      destruct (Z.le_gt_cases (i_time n) end_) as [C|C].
      * rewrite Z.min_l by lia. rewrite Z.eqb_refl.
        assert (E : pre ++ d :: n :: rest = (pre ++ [d]) ++ n :: rest) by now rewrite <- app_assoc.
        pose proof (ordered_tail _ _ O2) as O3. pose proof (ordered_all _ _ O3) as A3.
        destruct (IH (pre ++ [d]) n (i_time n) end_ (one_piece ca cw r d (to_seconds (i_time n - current))) fuel) as [it' [E1 H1]].
        -- now rewrite <- E.
        -- lia.
        -- exact M.
        -- destruct rest as [|n2 rest]; [exact I|]. exact (Forall_inv A3).
        -- cbn in F. lia.
        -- rewrite <- E in E1, H1. rewrite app_length in E1. cbn [Datatypes.length] in E1. rewrite Nat.add_1_r in E1.
           exists it'. split; [|exact H1]. rewrite E1. f_equal. f_equal.
           change (pieces (d :: n :: rest) current end_) with
             ((if (Z.max current (i_time d) <? Z.min end_ (i_time n))%Z then [(d, (Z.min end_ (i_time n) - Z.max current (i_time d))%Z)] else [])
              ++ pieces (n :: rest) current end_).
           rewrite Z.max_l, Z.min_r by lia. destruct (Z.ltb_spec current (i_time n)); [|lia].
           rewrite (pieces_from (n :: rest) current (i_time n)); [reflexivity|].
           constructor; [lia|]. eapply Forall_impl; [|exact A3]. cbn. intros x. lia.
      * rewrite Z.min_r by lia. destruct (Z.eqb_spec end_ (i_time n)); [lia|].
        replace (integrate_loop fuel ca cw (pre ++ d :: n :: rest) end_ end_) with
          (fun (i : nat) r => Some (r, i) : option (motion * nat)).
        2:{ destruct fuel; cbn [integrate_loop]; rewrite Z.ltb_irrefl; reflexivity. }
        exists (length pre). split.
        -- change (pieces (d :: n :: rest) current end_) with
             ((if (Z.max current (i_time d) <? Z.min end_ (i_time n))%Z then [(d, (Z.min end_ (i_time n) - Z.max current (i_time d))%Z)] else [])
              ++ pieces (n :: rest) current end_).
           rewrite pieces_late.
           ++ rewrite Z.max_l, Z.min_l by lia. destruct (Z.ltb_spec current end_); [|lia]. reflexivity.
           ++ pose proof (ordered_all _ _ (ordered_tail _ _ O2)) as A3. constructor; [lia|].
              eapply Forall_impl; [|exact A3]. cbn. intros x. lia.
        -- apply holds_mid; [exact O | lia | lia].
    + rewrite pieces_empty by lia. exists (length pre). split; [reflexivity|]. apply holds_mid; [exact O | lia | lia].
Qed.

Lemma integrate_pieces data s e it : ordered data -> holds_at data it s -> (s <= e)%Z -> (e < time_max)%Z ->
  exists it', integrate ca cw data s e it = Some (play motion_zero (pieces data s e), it') /\ holds_at data it' e.
Proof.
  intros O H SE M. destruct (holds_split data it s O H) as (pre & d & rest & -> & -> & L & N).
  unfold integrate. destruct (Z.ltb_spec e s); [lia|]. rewrite nth_mid, nth_mid_S.
  destruct (Z.ltb_spec s (i_time d)); [lia|].
  replace (match nth_error rest 0 with Some n => (i_time n <=? s)%Z | None => false end) with false.
  2:{ destruct rest as [|n rest]; [reflexivity|]. cbn. destruct (Z.leb_spec (i_time n) s); [lia|reflexivity]. }
  rewrite pieces_skip by assumption.
  apply loop_pieces; try assumption; [lia|]. rewrite app_length. cbn. lia.
Qed.
Lemma integrate_none data s e it : ordered data -> (e < time_max)%Z ->
  integrate ca cw data s e it = None <-> (e < s)%Z \/ ~ holds_at data it s.
Proof.
  intros O M. split.
  - intros E. destruct (Z.lt_ge_cases e s) as [C|C]; [now left|]. right. intros H.
    destruct (integrate_pieces data s e it O H C M) as [it' [E' _]]. congruence.
  - intros [C|C].
    + unfold integrate. destruct (Z.ltb_spec e s); [reflexivity | lia].
    + unfold integrate. destruct (Z.ltb_spec e s); [reflexivity|].
      destruct (nth_error data it) as [d|] eqn:N; [|reflexivity].
      destruct (Z.ltb_spec s (i_time d)); [reflexivity|].
      destruct (match nth_error data (S it) with Some n => (i_time n <=? s)%Z | None => false end) eqn:B; [reflexivity|].
      exfalso. apply C. destruct (nth_error_split _ _ N) as (pre & rest & -> & <-).
      apply holds_mid; [exact O | lia |]. rewrite nth_mid_S in B. destruct rest as [|n rest]; [exact I|].
      cbn in B. apply Z.leb_gt in B. exact B.
Qed.

(* from folding to composing motions *)
Lemma move_eq a b : d_vel a = d_vel b -> d_trans a = d_trans b -> d_rot a = d_rot b -> a = b.
Proof. destruct a, b. cbn. intros -> -> ->. reflexivity. Qed.
Lemma plus_vadd a b : plus a b = vadd a b.
Proof. reflexivity. Qed.
Lemma scaled_vscale k a : scaled k a = vscale k a.
Proof. reflexivity. Qed.
Lemma vscale_add k a b : vscale k (vadd a b) = vadd (vscale k a) (vscale k b).
Proof. apply vec_eq; qcbn; ring. Qed.
Lemma then_assoc a tb b tc c : is_unit (d_rot a) -> is_unit (d_rot b) ->
  then_move (then_move a tb b) tc c = then_move a (tb + tc) (then_move b tc c).
Proof.
  intros A B. unfold then_move. change plus with vadd; change scaled with vscale. cbn [d_vel d_trans d_rot].
  rewrite !qrot_mul by assumption. rewrite !qrot_add, !qrot_scale. apply move_eq; cbn [d_vel d_trans d_rot].
  - rewrite vadd_assoc. reflexivity.
  - generalize (qrot (d_rot a) (d_vel b)) (qrot (d_rot a) (qrot (d_rot b) (d_trans c))) (qrot (d_rot a) (d_trans b)) (d_vel a) (d_trans a).
    clear. intros x y z u v. apply vec_eq; qcbn; ring.
  - symmetry. apply qmul_assoc.
Qed.
Lemma piece_move r p : is_unit (d_rot r) -> resolved (scaled (seconds (snd p)) (cw (i_omega (fst p)))) ->
  one_piece ca cw r (fst p) (to_seconds (snd p)) = then_move r (seconds (snd p)) (held ca cw p).
Proof.
  intros U R. unfold one_piece, then_move, held. rewrite secs. change plus with vadd; change scaled with vscale. cbn [d_vel d_trans d_rot].
  change scaled with vscale in R. pose proof (resolved_unit _ R) as UQ.
  set (q := of_angle_axis (vscale (seconds (snd p)) (cw (i_omega (fst p))))) in *.
  rewrite qrot_mul by assumption. rewrite !qrot_scale.
  apply move_eq; cbn [d_vel d_trans d_rot]; [reflexivity | | reflexivity].
  rewrite vscale_add, vadd_assoc. reflexivity.
Qed.
Lemma held_unit p : resolved (scaled (seconds (snd p)) (cw (i_omega (fst p)))) -> is_unit (d_rot (held ca cw p)).
Proof. intros R. unfold held. cbn [d_rot]. now apply resolved_unit. Qed.
Lemma travel_unit ps : all_resolved cw ps -> is_unit (d_rot (travel ca cw ps)).
Proof.
  induction ps as [|p ps IH]; intros A; cbn [travel]; [apply unit_one|].
  inversion A; subst. unfold then_move. cbn [d_rot]. apply unit_mul; [now apply held_unit | now apply IH].
Qed.
Lemma seconds_add a b : seconds (a + b) = seconds a + seconds b.
Proof. rewrite <- !secs. apply secs_add. Qed.
Lemma then_none a : then_move a 0 no_move = a.
Proof.
  unfold then_move, no_move. cbn [d_vel d_trans d_rot]. apply move_eq; cbn [d_vel d_trans d_rot].
  - replace (qrot (d_rot a) (mk_vec3 0 0 0)) with v_zero by (apply vec_eq; qcbn; ring).
    rewrite plus_vadd. apply vec_eq; qcbn; ring.
  - replace (qrot (d_rot a) (mk_vec3 0 0 0)) with v_zero by (apply vec_eq; qcbn; ring).
    change plus with vadd; change scaled with vscale. apply vec_eq; qcbn; ring.
  - apply qmul_1_r.
Qed.
Lemma none_then t a : then_move no_move t a = a.
Proof.
  unfold then_move, no_move. cbn [d_vel d_trans d_rot]. change (mk_quat 1 0 0 0) with q_one. rewrite !qrot_one, qmul_1_l.
  apply move_eq; cbn [d_vel d_trans d_rot]; change plus with vadd; change scaled with vscale; try reflexivity; apply vec_eq; qcbn; ring.
Qed.
Lemma seconds_0 : seconds 0 = 0.
Proof. rewrite <- secs. apply secs_0. Qed.
Lemma play_travel ps : forall r, is_unit (d_rot r) -> all_resolved cw ps ->
  play r ps = then_move r (seconds (duration ps)) (travel ca cw ps).
Proof.
  induction ps as [|p ps IH]; intros r U A.
  - cbn [play fold_left duration fold_right travel]. rewrite seconds_0, then_none. reflexivity.
  - inversion A as [|? ? A1 A2]; subst. cbn [play fold_left]. fold (play (one_piece ca cw r (fst p) (to_seconds (snd p))) ps).
    rewrite piece_move by assumption. pose proof (held_unit p A1) as UH. rewrite IH.
    + rewrite then_assoc by assumption. cbn [travel]. f_equal. symmetry. apply seconds_add.
    + unfold then_move. cbn [d_rot]. now apply unit_mul.
    + exact A2.
Qed.
Lemma play_zero ps : all_resolved cw ps -> play motion_zero ps = travel ca cw ps.
Proof. intros A. rewrite play_travel; [apply none_then | apply unit_one | exact A]. Qed.

Lemma duration_app a b : duration (a ++ b) = (duration a + duration b)%Z.
Proof. induction a as [|p a IH]; [reflexivity|]. cbn. unfold duration in *. rewrite IH. lia. Qed.
Lemma travel_app a b : all_resolved cw a -> all_resolved cw b ->
  travel ca cw (a ++ b) = then_move (travel ca cw a) (seconds (duration b)) (travel ca cw b).
Proof.
  intros A B. induction a as [|p a IH].
  - cbn [app travel]. rewrite none_then. reflexivity.
  - inversion A as [|? ? A1 A2]; subst. cbn [app travel]. rewrite (IH A2).
    rewrite then_assoc; [|now apply held_unit | now apply travel_unit]. f_equal. rewrite duration_app. apply seconds_add.
Qed.

(* cutting an interval at a reading *)
Lemma pieces_cut data s m e : ordered data -> (s <= m <= e)%Z -> (exists d, In d data /\ i_time d = m) ->
  pieces data s e = pieces data s m ++ pieces data m e.
Proof.
  intros O T. revert O. induction data as [|d rest IH]; intros O (x & I & E); [destruct I|].
  destruct (Z.le_gt_cases m (i_time d)) as [C|C].
  - pose proof (ordered_all _ _ O) as A.
    assert (F : Forall (fun n => (m <= i_time n)%Z) (d :: rest)).
    { constructor; [exact C|]. eapply Forall_impl; [|exact A]. cbn. intros y. lia. }
    rewrite (pieces_late _ s m F). cbn [app]. apply pieces_from. eapply Forall_impl; [|exact F]. cbn. intros y. lia.
  - destruct I as [->|I]; [lia|]. destruct rest as [|n rest]; [destruct I|].
    assert (N : (i_time n <= m)%Z).
    { pose proof (ordered_all _ _ (ordered_tail _ _ O)) as A. destruct I as [->|I]; [lia|].
      rewrite Forall_forall in A. specialize (A x I). cbn in A. lia. }
    change (pieces (d :: n :: rest) s e) with
      ((if (Z.max s (i_time d) <? Z.min e (i_time n))%Z then [(d, (Z.min e (i_time n) - Z.max s (i_time d))%Z)] else []) ++ pieces (n :: rest) s e).
    change (pieces (d :: n :: rest) s m) with
      ((if (Z.max s (i_time d) <? Z.min m (i_time n))%Z then [(d, (Z.min m (i_time n) - Z.max s (i_time d))%Z)] else []) ++ pieces (n :: rest) s m).
    change (pieces (d :: n :: rest) m e) with
      ((if (Z.max m (i_time d) <? Z.min e (i_time n))%Z then [(d, (Z.min e (i_time n) - Z.max m (i_time d))%Z)] else []) ++ pieces (n :: rest) m e).
    rewrite (IH (ordered_tail _ _ O) (ex_intro _ x (conj I E))).
    destruct (Z.ltb_spec (Z.max m (i_time d)) (Z.min e (i_time n))); [lia|]. cbn [app].
    replace (Z.min e (i_time n)) with (i_time n) by lia. replace (Z.min m (i_time n)) with (i_time n) by lia.
    rewrite app_assoc. reflexivity.
Qed.
Lemma pieces_duration data s e : ordered data -> (s <= e)%Z ->
  match data with [] => False | d :: _ => (i_time d <= s)%Z end -> duration (pieces data s e) = (e - s)%Z.
Proof.
  intros O. revert s. induction data as [|d rest IH]; intros s T H; [destruct H|].
  destruct rest as [|n rest].
  - cbn [pieces]. rewrite Z.max_l by lia. destruct (Z.ltb_spec s e); cbn; lia.
  - change (pieces (d :: n :: rest) s e) with
      ((if (Z.max s (i_time d) <? Z.min e (i_time n))%Z then [(d, (Z.min e (i_time n) - Z.max s (i_time d))%Z)] else []) ++ pieces (n :: rest) s e).
    rewrite duration_app. rewrite Z.max_l by lia.
    destruct (Z.le_gt_cases (i_time n) s) as [C|C].
    + rewrite (IH (ordered_tail _ _ O) s T C). destruct (Z.ltb_spec s (Z.min e (i_time n))); [lia|]. reflexivity.
    + pose proof (ordered_all _ _ (ordered_tail _ _ O)) as A.
      destruct (Z.le_gt_cases (i_time n) e) as [C2|C2].
      * rewrite (pieces_from (n :: rest) s (i_time n)).
        2:{ constructor; [lia|]. eapply Forall_impl; [|exact A]. cbn. intros y. lia. }
        rewrite (IH (ordered_tail _ _ O) (i_time n) C2 ltac:(lia)).
        destruct (Z.ltb_spec s (Z.min e (i_time n))); cbn; lia.
      * rewrite pieces_late.
        2:{ constructor; [lia|]. eapply Forall_impl; [|exact A]. cbn. intros y. lia. }
        destruct (Z.ltb_spec s (Z.min e (i_time n))); cbn; lia.
Qed.
Lemma first_holds data it s : ordered data -> holds_at data it s -> match data with [] => False | d :: _ => (i_time d <= s)%Z end.
Proof.
  intros O H. destruct (holds_split data it s O H) as (pre & d & rest & -> & _ & L & _).
  destruct (ordered_app _ _ _ O) as [_ F]. destruct pre as [|x pre]; [exact L|]. inversion F. cbn. lia.
Qed.

(* the rotation can be cut anywhere *)
Definition turn (d : imu) (n : Z) : quat := of_angle_axis (scaled (seconds n) (cw (i_omega d))).
Definition part (d : imu) (lo hi : Z) : list (imu * Z) := if (lo <? hi)%Z then [(d, (hi - lo)%Z)] else [].
Definition end_of (rest : list imu) (e : Z) : Z := match rest with [] => e | n :: _ => Z.min e (i_time n) end.
Lemma pieces_cons d rest s e : pieces (d :: rest) s e = part d (Z.max s (i_time d)) (end_of rest e) ++ pieces rest s e.
Proof. reflexivity. Qed.
Lemma rot_part d lo hi l : all_resolved cw (part d lo hi) ->
  d_rot (travel ca cw (part d lo hi ++ l)) = qmul (turn d (Z.max 0 (hi - lo))) (d_rot (travel ca cw l)) /\
  resolved (scaled (seconds (Z.max 0 (hi - lo))) (cw (i_omega d))).
Proof.
  unfold part. destruct (Z.ltb_spec lo hi) as [L|L]; intros A.
  - rewrite Z.max_r by lia. inversion A as [|? ? A1 A2]; subst. split; [reflexivity | exact A1].
  - rewrite Z.max_l by lia. rewrite seconds_0.
    assert (N : null (scaled 0 (cw (i_omega d)))) by (repeat split; unfold scaled; cbn [v0 v1 v2]; ring).
    split; [|now left]. unfold turn. rewrite seconds_0, of_zero by exact N. rewrite qmul_1_l. reflexivity.
Qed.
Lemma turn_cut data s m e : ordered data -> (s <= m <= e)%Z ->
  all_resolved cw (pieces data s m) -> all_resolved cw (pieces data m e) ->
  d_rot (travel ca cw (pieces data s e)) = qmul (d_rot (travel ca cw (pieces data s m))) (d_rot (travel ca cw (pieces data m e))) /\
  all_resolved cw (pieces data s e).
Proof.
  intros O T. revert O. induction data as [|d rest IH]; intros O A B.
  { cbn. split; [symmetry; apply qmul_1_l | constructor]. }
  rewrite !pieces_cons in *. apply Forall_app in A. apply Forall_app in B. destruct A as [A1 A2], B as [B1 B2].
  destruct (rot_part _ _ _ (pieces rest s m) A1) as [EA RA]. destruct (rot_part _ _ _ (pieces rest m e) B1) as [EB RB].
  destruct (IH (ordered_tail _ _ O) A2 B2) as [E R].
  destruct (match rest with [] => true | n :: _ => (m <? i_time n)%Z end) eqn:C.
  - (* d holds at m *)
    assert (F : Forall (fun n => (m <= i_time n)%Z) rest).
    { destruct rest as [|n rest]; [constructor|]. apply Z.ltb_lt in C. constructor; [lia|].
      pose proof (ordered_all _ _ (ordered_tail _ _ O)) as X. eapply Forall_impl; [|exact X]. cbn. intros y. lia. }
    assert (EQ : Z.max 0 (end_of rest e - Z.max s (i_time d)) =
      (Z.max 0 (end_of rest m - Z.max s (i_time d)) + Z.max 0 (end_of rest e - Z.max m (i_time d)))%Z).
    { unfold end_of. destruct rest as [|n rest]; [lia|]. apply Z.ltb_lt in C. pose proof (ordered_all _ _ O) as X. inversion X. lia. }
    assert (RC : resolved (scaled (seconds (Z.max 0 (end_of rest e - Z.max s (i_time d)))) (cw (i_omega d)))).
    { rewrite EQ, seconds_add. apply resolved_add; [rewrite <- secs; apply secs_nonneg; lia.. | exact RA | exact RB]. }
    assert (P : all_resolved cw (part d (Z.max s (i_time d)) (end_of rest e))).
    { unfold part in *. destruct (Z.ltb_spec (Z.max s (i_time d)) (end_of rest e)); [|constructor]. constructor; [|constructor].
      cbn [fst snd]. rewrite Z.max_r in RC by lia. exact RC. }
    split; [|apply Forall_app; split; assumption].
    destruct (rot_part _ _ _ (pieces rest s e) P) as [EC _]. rewrite EA, EB, EC, E.
    rewrite (pieces_late rest s m F). cbn [travel]. change (d_rot no_move) with q_one. rewrite qmul_1_l, qmul_1_r, qmul_assoc. f_equal.
    unfold turn. rewrite EQ, seconds_add. apply of_add; [rewrite <- secs; apply secs_nonneg; lia.. | exact RA | exact RB].
  - destruct rest as [|n rest]; [discriminate|]. apply Z.ltb_ge in C. cbn [end_of] in *.
    replace (Z.min m (i_time n)) with (i_time n) in * by lia. replace (Z.min e (i_time n)) with (i_time n) in * by lia.
    split; [|apply Forall_app; split; assumption].
    destruct (rot_part _ _ _ (pieces (n :: rest) s e) A1) as [EC _].
    rewrite EA, EB, EC, E. rewrite <- qmul_assoc. f_equal. f_equal.
    rewrite (Z.max_l 0 (i_time n - Z.max m (i_time d))) by lia. unfold turn. rewrite seconds_0, of_zero; [now rewrite qmul_1_l|].
    repeat split; unfold scaled; cbn [v0 v1 v2]; ring.
Qed.
Lemma cut_resolved data s m e : ordered data -> (s <= m <= e)%Z -> (exists d, In d data /\ i_time d = m) ->
  all_resolved cw (pieces data s e) -> all_resolved cw (pieces data s m) /\ all_resolved cw (pieces data m e).
Proof. intros O T X A. rewrite (pieces_cut data s m e O T X) in A. now apply Forall_app in A. Qed.
End Calibrated.

(* no rotation and a constant acceleration *)
Lemma still_travel a ps : Forall (fun p => null (i_omega (fst p)) /\ i_acc (fst p) = a) ps ->
  travel same same ps = mk_motion (scaled (seconds (duration ps)) a)
    (scaled ((seconds (duration ps) * seconds (duration ps) + squares ps) / 2) a) (mk_quat 1 0 0 0) /\ all_resolved same ps.
Proof.
  induction ps as [|p ps IH]; intros F.
  - split; [|constructor]. cbn [travel duration squares fold_right]. rewrite seconds_0. unfold no_move, scaled.
    apply move_eq; cbn [d_vel d_trans d_rot]; [| |reflexivity]; apply vec_eq; cbn [v0 v1 v2]; field.
  - inversion F as [|? ? [W A] F']; subst. destruct (IH F') as [E R].
    assert (N : null (scaled (seconds (snd p)) (same (i_omega (fst p))))).
    { unfold same. rewrite (null_zero _ W). repeat split; unfold scaled; qcbn; ring. }
    split; [|constructor; [now left | exact R]].
    cbn [travel]. rewrite E. unfold then_move, held. rewrite (of_zero _ N). cbn [d_vel d_trans d_rot].
    change (mk_quat 1 0 0 0) with q_one. rewrite !qrot_one, qmul_1_l. unfold same.
    change (duration (p :: ps)) with (snd p + duration ps)%Z. rewrite !seconds_add.
    change (squares (p :: ps)) with (seconds (snd p) * seconds (snd p) + squares ps).
    generalize (seconds (snd p)) (seconds (duration ps)) (squares ps) (i_acc (fst p)). intros x y z a.
    apply move_eq; cbn [d_vel d_trans d_rot]; [| |reflexivity]; apply vec_eq; unfold plus, scaled; cbn [v0 v1 v2]; field.
Qed.
Lemma pieces_In data s e p : In p (pieces data s e) -> In (fst p) data /\ (0 < snd p)%Z.
Proof.
  induction data as [|d rest IH]; [intros []|]. rewrite pieces_cons. intros H. apply in_app_or in H. destruct H as [H|H].
  - unfold part in H. destruct (Z.ltb_spec (Z.max s (i_time d)) (end_of rest e)); [|destruct H].
    destruct H as [<-|[]]. cbn. split; [now left | lia].
  - destruct (IH H) as [A B]. split; [now right | exact B].
Qed.
Lemma squares_range h ps : Forall (fun p => (0 <= snd p <= h)%Z) ps -> 0 <= squares ps <= seconds h * seconds (duration ps).
Proof.
  induction ps as [|p ps IH]; intros F.
  - cbn. rewrite seconds_0. lra.
  - inversion F as [|? ? H F']; subst. specialize (IH F'). cbn [squares duration fold_right] in *.
    fold (squares ps) in *. fold (duration ps) in *. rewrite seconds_add.
    assert (0 <= seconds (snd p) <= seconds h).
    { rewrite <- !secs. unfold to_seconds. destruct H as [H1 H2]. apply IZR_le in H1, H2. lra. }
    nra.
Qed.

Lemma extrapolate_still prev v s e g data it : is_unit (rot prev) -> ordered data -> holds_at data it s -> (s <= e)%Z -> (e < time_max)%Z ->
  Forall (fun d => null (i_omega d) /\ qrot (rot prev) (i_acc d) = g) data ->
  exists it', extrapolate prev v s g e data it =
    Some (mk_rigid3 (plus (plus (trans prev) (scaled (seconds (e - s)) (qrot (rot prev) v))) (scaled (squares (pieces data s e) / 2) g)) (rot prev),
          qrot (rot prev) v, it') /\ holds_at data it' e.
Proof.
  intros U O H T M F. unfold extrapolate, integrate_plain.
  destruct (integrate_pieces same same data s e it O H T M) as [it' [-> H']]. exists it'. split; [|exact H'].
  assert (P : Forall (fun p => null (i_omega (fst p)) /\ i_acc (fst p) = qrot (qconj (rot prev)) g) (pieces data s e)).
  { apply Forall_forall. intros p I. apply pieces_In in I. rewrite Forall_forall in F. destruct (F _ (proj1 I)) as [W A].
    split; [exact W|]. rewrite <- A. symmetry. now apply qrot_inv_l. }
  destruct (still_travel _ _ P) as [E R]. rewrite play_zero, E by exact R. cbn [d_vel d_trans d_rot].
  rewrite (pieces_duration data s e O T (first_holds data it s O H)). rewrite secs.
  change (mk_quat 1 0 0 0) with q_one. rewrite qmul_1_r. change scaled with vscale. rewrite !qrot_add, !qrot_scale, qrot_inv_r by exact U.
  generalize (seconds (e - s)) (squares (pieces data s e)) (qrot (rot prev) v) (trans prev). intros x y z u.
  f_equal. f_equal. f_equal.
  - f_equal. apply vec_eq; unfold plus; qcbn; field.
  - apply vec_eq; qcbn; ring.
Qed.
