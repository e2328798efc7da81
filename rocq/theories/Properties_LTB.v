(* Properties of the local trajectory builder (C57). *)
From Coq Require Import ZArith List Bool Permutation Sorted Lia.
From Verif Require Import Float32 Float64 RDC_Model RDC_Spec PE_Model LTB_Model LTB_Spec LTB_Proofs LTB_Run LTB_Last.
From Verif Require Import TM_Model TM_Proofs Properties_PE Properties_RDC.
Import ListNotations.
Open Scope Z_scope.

Section Statements.
Context {K : kit} {F : parts K}.
Hypothesis CALM : forall d v a, observe K d v a <> None.
Hypothesis FIT : forall m p c, fit F m p c <> None.
Hypothesis INS : forall m s p, LTB_Model.insert F m s p <> None.
Variable tlt : Tim F -> Tim F -> bool.
Variables sent shifted : Tim F -> Prop.
Hypothesis CL : clock_ok tlt sent shifted.
Hypothesis SO : sorts tlt.
Variable opt : options.

(* Messages in order of time, of all kinds, never make it abort, and the results come in order
   of time. *)
Theorem C57_no_abort : forall ms : list (message F), stream opt sent ms ->
  exists es b, LTB_Model.run F opt ms new_builder = Some (es, b) /\ StronglySorted Z.le (map r_time (results es)).
Proof.
  intros ms (A & S). destruct (run_stream CALM FIT INS tlt sent shifted CL SO opt ms time_min new_builder (J_new sent) A S) as (es & b & R & _ & Q).
  exists es, b. split; [exact R|]. now apply StronglySorted_inv in Q as [Q _].
Qed.

(* The points of merged range data are placed by what the extrapolator answers for their times in
   order, each not before the last prediction. *)
Theorem C57_placed : forall (ms : list (message F)) m es b mg ps s b', stream opt sent (ms ++ [m]) ->
  LTB_Model.run F opt ms new_builder = Some (es, b) -> LTB_Model.step F opt m b = Some (EPlaced mg ps s, b') ->
  exists x x', (b_ext b = Some x \/ b_ext b = None /\ add_pose (queue_duration opt) (m_time mg) (zero K, identity K) new_ext = Some x) /\
    PE_Model.run (queue_duration opt) (map CExtrapolate (point_times mg (last_extrapolated_time x))) x = Some (map APose ps, x').
Proof.
  intros ms m es b mg ps s b' (A & S) R ST. apply Forall_app in A as [A A1]. apply Forall_cons_iff in A1 as [A1 _].
  rewrite map_app in S. change (time_min :: map message_time ms ++ map message_time [m]) with ((time_min :: map message_time ms) ++ [message_time m]) in S.
  apply RDC_Proofs.sorted_app in S as (S & _ & L).
  destruct (run_stream CALM FIT INS tlt sent shifted CL SO opt ms time_min new_builder (J_new sent) A S) as (es' & b0 & R0 & Jb & _).
  rewrite R in R0. injection R0 as <- <-.
  assert (LE : fold_left Z.max (map message_time ms) time_min <= message_time m).
  { clear - L. assert (L' : forall y, In y (time_min :: map message_time ms) -> y <= message_time m) by (intros y Y; apply (L y _ Y); now left).
    clear L. revert L'. generalize time_min. induction (map message_time ms) as [|y l IH]; intros t L; cbn [fold_left]; [apply L; now left|].
    apply IH. intros z [<-|Z0]; [|apply L; right; now right]. pose proof (L t (or_introl eq_refl)). pose proof (L y (or_intror (or_introl eq_refl))). lia. }
  destruct (step_ok CALM FIT INS tlt sent shifted CL SO opt _ b m Jb A1 LE) as (e & b1 & E1 & _ & _ & _ & PL).
  rewrite ST in E1. injection E1 as <- <-. destruct PL as (_ & x & x' & X & Q). exists x, x'. split; [exact X|].
  rewrite <- Q. unfold asked, point_times. rewrite map_map. f_equal. apply map_ext. now intros [[[p t] i] n].
Qed.

(* If every range data message ends with a point at its own time, merged range data ends with a
   point at its time: the pose of the last point is for the time of the scan. *)
Theorem C57_last_point : (forall t, sent t -> tick_of F t = 0 -> tick_of F (shift_by F 0 t) = 0) ->
  forall (ms : list (message F)) es b m ps s, stream opt sent ms -> Forall ends_at_its_time ms ->
  LTB_Model.run F opt ms new_builder = Some (es, b) -> In (EPlaced m ps s) es ->
  exists l p t i n, m_ranges m = l ++ [(p, t, i, n)] /\ tick_of F t = 0.
Proof.
  intros SAME ms es b m ps s (A & S) E R I.
  assert (Q : Forall ends_now es).
  { apply (run_last CALM FIT INS tlt sent shifted CL SO SAME opt ms time_min new_builder b es (J_new sent)); auto. constructor. }
  rewrite Forall_forall in Q. destruct (Q _ I) as (p & t & i & n & B & T). apply PE_Proofs.back_some in B as (l & B). now exists l, p, t, i, n.
Qed.
End Statements.

(* Whatever the messages, as long as it does not abort: every scan consists of the hits of the last
   num_accumulated_range_data merges, and no merge is in two scans. *)
Theorem C57_groups : forall (K : kit) (F : parts K) opt (ms : list (message F)) es b,
  LTB_Model.run F opt ms new_builder = Some (es, b) -> grouped (num_accumulated_range_data opt) [] es.
Proof. intros K F opt ms es b R. refine (run_grouped opt ms new_builder b es [] _ R). split; [reflexivity | now intros []]. Qed.
(* A result is inserted exactly if it is not near the last inserted one. *)
Theorem C57_motion_filter : forall (K : kit) (F : parts K) opt (ms : list (message F)) es b pre r post,
  LTB_Model.run F opt ms new_builder = Some (es, b) -> results es = pre ++ r :: post ->
  r_inserted r = match last_inserted pre with
                 | Some q => negb (near F (r_time r - r_time q) (r_pose r) (r_pose q))
                 | None => true
                 end.
Proof. intros K F opt ms es b pre r post R E. exact (run_filter opt ms new_builder b es [] eq_refl R pre r post E). Qed.

(* What is asked of the clock holds of binary32 point times of up to 2^40 seconds ago and the ticks
   of common::Time. *)
Theorem C57_clock : forall K P O I i so h pl sc al nr cl th em fl pr mb mp m0 nm ft ins ne,
  let F := mk_parts K P O I f32 i point_ticks shift_point so point_past h pl sc al nr cl th em fl pr mb mp m0 nm ft ins ne in
  clock_ok (F:=F) fltb time_sent time_shifted /\
  (forall t, time_sent t -> tick_of F t = 0 -> tick_of F (shift_by F 0 t) = 0).
Proof.
  intros. unfold clock_ok. split; [split; [|split; [|split]]|].
  - intros d t S D L. now apply shift_ok.
  - intros t (V & Fx & L). cbn [past F]. unfold point_past. destruct zero32 as (V0 & F0 & E0). now apply Float32_Proofs.fleb_ok.
  - exact ticks_past.
  - intros a b (V1 & F1 & _) (V2 & F2 & _) L. apply ticks_mono; auto. apply RIneq.Rnot_lt_le. intros C.
    assert (T : fltb b a = true) by now apply Float32_Proofs.fltb_ok. congruence.
  - intros t S Z0. cbn [tick_of shift_by F] in *. now rewrite shift_zero.
Qed.

(* A robot on the line of C56 in a world with a wall: points are distances to the wall, scans are
   lists of positions relative to the pose they are aligned to, and matching puts the first of them
   on the first position in the map. *)
Definition walk : parts line := mk_parts line Z Z Z Z 0 (fun t => t) Z.add isort (fun t => t <=? 0)
  Z (fun p o q => if q <? 1000 then Some (true, fst p + q) else Some (false, fst p + 1000))
  (list Z) (fun _ p rs _ => map (fun h => h - fst p) rs) (fun s => match s with [] => true | _ => false end)
  (list Z) (fun s => s) (fun s => match s with [] => true | _ => false end)
  Z (fun p _ => fst p) (fun f g => (f, g))
  (list Z) [] (fun m => match m with [] => true | _ => false end)
  (fun m p c => match m, c with h :: _, z :: _ => Some (h - z) | _, _ => Some p end)
  (fun m s f => Some (m ++ map (fun z => f + z) s))
  (fun d p q => (d <=? 20) && (Z.abs (fst p - fst q) <=? 5)).
Definition sent_z (t : Z) : Prop := t <= 0.
Lemma walk_ok : (forall d v a, observe line d v a <> None) /\ (forall m p c, fit walk m p c <> None) /\
  (forall m s p, LTB_Model.insert walk m s p <> None) /\ clock_ok (F:=walk) Z.ltb sent_z sent_z /\ sorts (F:=walk) Z.ltb.
Proof.
  split; [discriminate|]. split; [intros [|? ?] p [|? ?]; discriminate|]. split; [discriminate|]. split.
  - unfold clock_ok, sent_z. cbn. repeat split; intros; rewrite ?Z.leb_le, ?Z.ltb_ge in *; lia.
  - split; [exact isort_perm | exact isort_sorted].
Qed.
Definition wall (t : Z) (ps : list (Z * Z)) : message walk :=
  @MRange line walk 1 (Build_data Z Z Z Z t 0 (map (fun q => (snd q, fst q)) ps) []).
Definition one : options := mk_options false 1 10 [1].

(* Two merges make one scan; a far point is a miss; the second result is near the first and not
   inserted. *)
Example C57_example :
  let ms := [wall 0 [(0, 100)]; wall 10 [(0, 100); (0, 2000)]; @MOdometry line walk (15, (0, 0));
             wall 20 [(-5, 100); (0, 100)]; wall 21 [(-5, 100); (0, 99)]] in
  (stream (F:=walk) (mk_options false 2 10 [1]) sent_z ms /\ Forall ends_at_its_time ms) /\
  option_map (fun eb => flat_map (fun e => match e with EPlaced m ps s => [(m_time m, ps, s)] | _ => [] end) (fst eb))
    (LTB_Model.run walk (mk_options false 2 10 [1]) ms new_builder) =
  Some [(0, [(0, 0)], None);
        (10, [(0, 0); (0, 0)], Some ([100; 100], [1000], Some (mk_result walk 10 (0, 0) [100; 100] 0 true)));
        (20, [(0, 0); (0, 0)], None);
        (21, [(0, 0)], Some ([100; 100; 99], [], Some (mk_result walk 21 (0, 0) [100; 100; 99] 0 false)))].
Proof.
  cbv zeta. split; [|reflexivity]. split; [split|].
  - repeat constructor; cbn; unfold sent_z, time_min, time_max; lia.
  - repeat constructor; cbn; unfold time_min; lia.
  - repeat constructor; cbn; [exists [], 100, 0 | exists [(100, 0)], 2000, 0 | exists [(100, -5)], 100, 0 | exists [(100, -5)], 99, 0]; auto.
Qed.

(* A point at the time of the last result is not placed by the pose of that result but by what was
   predicted for it before matching. *)
Definition wall_merged (t : Z) (l : list (Z * Z)) : merged (Pnt walk) (Org walk) (Int walk) (Tim walk) :=
  Build_merged Z Z Z Z t [0] (map (fun q => (snd q, fst q, 0, 0%nat)) l).
Definition walked : list (event walk) :=
  [EPlaced (wall_merged 0 [(0, 100)]) [(0, 0)] (Some ([100], [], Some (mk_result walk 0 (0, 0) [100] 0 true)));
   EPlaced (wall_merged 10 [(0, 80)]) [(0, 0)] (Some ([80], [], Some (mk_result walk 10 (20, 0) [80] 20 true)))].
Theorem C57_matched_pose_refuted : exists (ms : list (message walk)) es r m q ps ps' s,
  stream (F:=walk) one sent_z ms /\
  option_map fst (LTB_Model.run walk one ms new_builder) = Some (es ++ [EPlaced m (ps ++ q :: ps') s]) /\
  last (map Some (results es)) None = Some r /\
  nth (length ps) (point_times m (r_time r)) 0 = r_time r /\ q <> r_pose r.
Proof.
  exists [wall 0 [(0, 100)]; wall 10 [(0, 80)]; wall 20 [(-10, 80); (0, 60)]], walked,
    (mk_result walk 10 (20, 0) [80] 20 true), (wall_merged 20 [(-10, 80); (0, 60)]), (0, 0), [], [(40, 0)],
    (Some ([80; 100], [], Some (mk_result walk 20 (60, 0) [40; 60] 60 true))).
  split; [|split; [reflexivity|split; [reflexivity|split; [reflexivity | discriminate]]]].
  split; repeat constructor; cbn; unfold sent_z, time_min, time_max; lia.
Qed.
(* Without a point at the time of the message the scan is matched as if taken then: every point is
   measured exactly (the wall is at 100) and placed by the true pose of a robot moving 2 per
   tick, and still the pose is that of another time. *)
Theorem C57_last_point_refuted : exists (ms : list (message walk)) es m ps rs r,
  stream (F:=walk) one sent_z ms /\
  option_map fst (LTB_Model.run walk one ms new_builder) = Some (es ++ [EPlaced m ps (Some (rs, [], Some r))]) /\
  Forall (eq 100) rs /\ ps = map (fun t => (2 * t, 0)) (point_times m 0) /\
  Forall (fun q : result walk => fst (r_pose q) = 2 * r_time q) (results es) /\ fst (r_pose r) <> 2 * r_time r.
Proof.
  exists [wall 0 [(0, 100)]; wall 10 [(0, 80)]; wall 20 [(-5, 70)]], walked, (wall_merged 20 [(-5, 70)]), [(30, 0)], [100],
    (mk_result walk 20 (30, 0) [70] 30 true).
  split; [|split; [reflexivity|split; [repeat constructor|split; [reflexivity|split; [repeat constructor | discriminate]]]]].
  split; repeat constructor; cbn; unfold sent_z, time_min, time_max; lia.
Qed.

Print Assumptions C57_no_abort.
Print Assumptions C57_placed.
Print Assumptions C57_last_point.
Print Assumptions C57_groups.
Print Assumptions C57_motion_filter.
Print Assumptions C57_clock.
Print Assumptions C57_matched_pose_refuted.
Print Assumptions C57_last_point_refuted.
