(* Model of cartographer/ground_truth/autogenerate_ground_truth.cc (ag) and of the computation in
   compute_relations_metrics_main.cc (cm), with real numbers instead of doubles; times are ticks
   (FromUniversal and ToUniversal are mutually inverse), transform::ToProto and ToRigid3 copy
   poses.  None: a CHECK fails, vector::at throws or an element of a repeated proto field that
   does not exist is accessed. *)
From Coq Require Import Reals List ZArith.
From Verif Require Import CF_Model RG_Model TIB_Model.
Import ListNotations.
Open Scope R_scope.

(* mapping/proto/trajectory.proto: Trajectory.Node and Trajectory.Submap *)
Record tnode := mk_tnode { tn_index : Z; tn_time : Z; tn_pose : rigid3 }.
Record tsubmap := mk_tsubmap { ts_index : Z; ts_pose : rigid3 }.
Record trajectory := mk_trajectory { tr_nodes : list tnode; tr_submaps : list tsubmap }.
(* mapping/proto/pose_graph.proto: Constraint; trajectory id and index of the submap and of the
   node; the weights are not used here *)
Record gconstraint := mk_gconstraint { gc_intra : bool; gc_submap : Z * Z; gc_node : Z * Z; gc_pose : rigid3 }.
Record graph := mk_graph { g_trajectories : list trajectory; g_constraints : list gconstraint }.
(* ground_truth/proto/relations.proto: Relation *)
Record relation := mk_relation { r_time1 : Z; r_time2 : Z; r_expected : rigid3; r_covered : R }.

(* vector::at and the accessors of repeated fields with an int *)
Definition at_index {A} (l : list A) (i : Z) : option A :=
  if Z.ltb i 0 then None else nth_error l (Z.to_nat i).

(* ComputeCoveredDistance, ag:30-44: the loop, ag:36-42 *)
Fixpoint covered_from (d : R) (last : rigid3) (l : list tnode) : list R :=
  match l with
  | [] => []
  | n :: r => let d' := d + vnorm (trans (r3_mul (r3_inv last) (tn_pose n))) in
              d' :: covered_from d' (tn_pose n) r
  end.
Definition covered_distance (t : trajectory) : option (list R) :=
  match tr_nodes t with
  | [] => None
  | n :: r => Some (0 :: covered_from 0 (tn_pose n) r)
  end.

(* ComputeSubmapRepresentativeNode, ag:50-71 *)
Fixpoint representatives_from (acc : list Z) (cs : list gconstraint) : option (list Z) :=
  match cs with
  | [] => Some acc
  | c :: r =>
    if gc_intra c then
      if (Z.eqb (fst (gc_submap c)) 0 && Z.eqb (fst (gc_node c)) 0)%bool then
        let next := Z.of_nat (length acc) in
        let s := snd (gc_submap c) in
        if Z.leb s next then representatives_from acc r
        else if Z.eqb s (next + 1) then representatives_from (acc ++ [snd (gc_node c)]) r
        else None
      else None
    else representatives_from acc r
  end.
Definition representatives (g : graph) : option (list Z) := representatives_from [] (g_constraints g).

(* what becomes of one constraint in the loop ag:88-146 *)
Inductive outcome := Skip | Outlier | Keep (r : relation).
(* ag:117-145 *)
Definition judge (t : trajectory) (c : gconstraint) (n1 n2 : tnode) (sm : tsubmap) (covered meters radians : R) : outcome :=
  let solution_pose1 := tn_pose n1 in
  let solution_pose2 := tn_pose n2 in
  let solution := r3_mul (r3_inv solution_pose1) solution_pose2 in
  let submap_solution_to_node_solution := r3_mul (r3_inv solution_pose1) (ts_pose sm) in
  let expected := r3_mul submap_solution_to_node_solution (gc_pose c) in
  let error := r3_mul solution (r3_inv expected) in
  if Rlt_dec meters (vnorm (trans error)) then Outlier
  else if Rlt_dec radians (get_angle error) then Outlier
  else Keep (mk_relation (tn_time n1) (tn_time n2) expected covered).
Definition handle (t : trajectory) (cov : list R) (reps : list Z) (min_covered meters radians : R) (c : gconstraint)
  : option outcome :=
  if gc_intra c then Some Skip
  else if (Z.eqb (fst (gc_submap c)) 0 && Z.eqb (fst (gc_node c)) 0)%bool then
    if Z.leb (Z.of_nat (length reps)) (snd (gc_submap c)) then Some Skip
    else
      let matched := snd (gc_node c) in
      match at_index reps (snd (gc_submap c)) with
      | None => None
      | Some rep =>
        match at_index cov matched, at_index cov rep with
        | Some d2, Some d1 =>
          let covered := Rabs (d2 - d1) in
          if Rlt_dec covered min_covered then Some Skip
          else match at_index (tr_nodes t) rep, at_index (tr_nodes t) matched,
                     at_index (tr_submaps t) (snd (gc_submap c)) with
               | Some n1, Some n2, Some sm => Some (judge t c n1 n2 sm covered meters radians)
               | _, _, _ => None
               end
        | _, _ => None
        end
      end
  else None.
(* GenerateGroundTruth, ag:75-150: the relations and the number of outliers, which is logged *)
Fixpoint generate_from (t : trajectory) (cov : list R) (reps : list Z) (min_covered meters radians : R)
  (cs : list gconstraint) : option (list relation * nat) :=
  match cs with
  | [] => Some ([], 0%nat)
  | c :: r =>
    match handle t cov reps min_covered meters radians c with
    | None => None
    | Some o =>
      match generate_from t cov reps min_covered meters radians r with
      | None => None
      | Some (rs, k) => Some (match o with Skip => (rs, k) | Outlier => (rs, S k) | Keep x => (x :: rs, k) end)
      end
    end
  end.
Definition generate (g : graph) (min_covered meters radians : R) : option (list relation * nat) :=
  match g_trajectories g with
  | [] => None
  | t :: _ =>
    match covered_distance t, representatives g with
    | Some cov, Some reps => generate_from t cov reps min_covered meters radians (g_constraints g)
    | _, _ => None
    end
  end.

(* ComputeError, cm:55-58, 65-72: squared length of the translation and square of the angle *)
Record gt_error := mk_error { e_trans2 : R; e_rot2 : R }.
Definition compute_error (pose1 pose2 expected : rigid3) : gt_error :=
  let e := r3_mul (r3_mul (r3_inv pose1) pose2) (r3_inv expected) in
  mk_error (vdot (trans e) (trans e)) (get_angle e * get_angle e).

(* MeanAndStdDevString, cm:74-88: the two numbers, which are then printed *)
Definition sum_of (l : list R) : R := fold_left Rplus l 0.
Definition mean_and_std_dev (l : list R) : option (R * R) :=
  if Nat.leb 2 (length l) then
    let n := INR (length l) in
    let mean := sum_of l / n in
    let squares := fold_left (fun s v => s + (v - mean) * (v - mean)) l 0 in
    Some (mean, sqrt (squares / (n - 1)))
  else None.
(* common::RadToDeg, common/math.h:58 *)
Definition rad_to_deg (x : R) : R := 180 * x / PI.
(* StatisticsString, cm:90-114 *)
Definition statistics (es : list gt_error) : option (list (R * R)) :=
  let translational := map (fun e => sqrt (e_trans2 e)) es in
  let squared_translational := map e_trans2 es in
  let rotational := map (fun e => rad_to_deg (sqrt (e_rot2 e))) es in
  let squared_rotational := map (fun e => rad_to_deg (sqrt (e_rot2 e)) * rad_to_deg (sqrt (e_rot2 e))) es in
  match mean_and_std_dev translational, mean_and_std_dev squared_translational,
        mean_and_std_dev rotational, mean_and_std_dev squared_rotational with
  | Some a, Some b, Some c, Some d => Some [a; b; c; d]
  | _, _, _, _ => None
  end.

Section Metrics.
(* the pose computed in Interpolate, transform/timestamped_transform.cc:29-37 *)
Variable blend : Z * rigid3 -> Z * rigid3 -> Z -> rigid3.
(* LookupTransform, cm:156-169 *)
Definition lookup_transform (b : buffer rigid3) (t : Z) : option rigid3 :=
  match earliest_time rigid3 b with
  | None => None
  | Some e =>
    if has b t then lookup blend b t
    else if Z.ltb t e then lookup blend b e
    else match latest_time rigid3 b with None => None | Some l => lookup blend b l end
  end.
(* Run, cm:193-204 *)
Fixpoint errors_of (b : buffer rigid3) (rs : list relation) : option (list gt_error) :=
  match rs with
  | [] => Some []
  | r :: rs' =>
    match lookup_transform b (r_time1 r), lookup_transform b (r_time2 r), errors_of b rs' with
    | Some p1, Some p2, Some es => Some (compute_error p1 p2 (r_expected r) :: es)
    | _, _, _ => None
    end
  end.
(* Run, cm:171-213 without reading and writing files *)
Definition metrics (g : graph) (rs : list relation) : option (list gt_error * list (R * R)) :=
  match g_trajectories g with
  | [] => None
  | t :: _ =>
    match from_trajectory (map (fun n => (tn_time n, tn_pose n)) (tr_nodes t)) with
    | None => None
    | Some b =>
      match errors_of b rs with
      | None => None
      | Some es => match statistics es with None => None | Some s => Some (es, s) end
      end
    end
  end.
End Metrics.
