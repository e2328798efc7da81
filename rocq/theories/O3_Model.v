(* Model of the terms from IMU data in OptimizationProblem3D::Solve,
   cartographer/mapping/internal/optimization/optimization_problem_3d.cc:353-448 (op below), with
   real numbers instead of doubles.  None: a CHECK fails, .at() throws or ceres aborts.  The nodes
   of a trajectory are given by their indices and times, in the order of their indices (MapById);
   their poses only appear as parameter blocks of the terms. *)
From Coq Require Import Reals List ZArith.
From Verif Require Import CF_Model RG_Model IM_Model C3_Model.
Import ListNotations.
Open Scope R_scope.

(* NodeSpec3D, optimization_problem_3d.h:40-44: index and time *)
Record node3 := mk_node3 { n_index : Z; n_time : Z }.

(* op:419: Eigen's Quaternion::inverse *)
Definition qinverse (a : quat) : quat := if Rlt_dec 0 (qnorm2 a) then qscale (/ qnorm2 a) (qconj a) else mk_quat 0 0 0 0.

(* the residual blocks: nodes by their indices, then the arguments of the cost functions
   (rotation_cost3 and acceleration_cost3 in C3_Model), op:422-442 *)
Inductive imu_term :=
| RotationTerm (first second : Z) (scaling : R) (delta_rotation : quat)
| AccelerationTerm (first second third : Z) (scaling : R) (delta_velocity : vec3 R) (dt1 dt2 : R).

(* the value of a residual block with the parameter blocks it is given, op:427-434, 440-442:
   rotations and translations of the nodes, gravity_constant and imu_calibration *)
Definition residual (rotation : Z -> quat) (translation : Z -> vec3 R) (gravity : R) (calibration : quat) (t : imu_term) : vec3 R :=
  match t with
  | RotationTerm i j scaling delta_rotation =>
    rotation_cost3 scaling delta_rotation (rotation i) (rotation j) calibration
  | AccelerationTerm i j k scaling delta_velocity dt1 dt2 =>
    acceleration_cost3 scaling delta_velocity dt1 dt2 (rotation j) (translation i) (translation j) (translation k)
      gravity calibration
  end.

(* the options acceleration_weight and rotation_weight, op:424, 438 *)
Record weights := mk_weights { w_acceleration : R; w_rotation : R }.

(* op:388-392: skip IMU data before the node; fuel runs out as None *)
Fixpoint skip_imu (fuel : nat) (data : list imu) (it : nat) (t : Z) : option nat :=
  match fuel with
  | O => None
  | S fuel =>
    match nth_error data (S it) with
    | Some n => if (i_time n <=? t)%Z then skip_imu fuel data (S it) t else Some it
    | None => Some it
    end
  end.

(* op:407-408: duration / 2 of std::chrono truncates *)
Definition half_of (d : Z) : Z := Z.quot d 2.

(* op:397-435: the acceleration term, if there is a third node *)
Definition acceleration_terms (w : weights) (data : list imu) (first second : node3) (rest : list node3)
    (result : motion) (imu_it2 : nat) : option (list imu_term) :=
  match rest with
  | [] => Some []
  | third :: _ =>
    if (n_index third =? n_index second + 1)%Z then
      let first_duration := (n_time second - n_time first)%Z in
      let second_duration := (n_time third - n_time second)%Z in
      let first_center := (n_time first + half_of first_duration)%Z in
      let second_center := (n_time second + half_of second_duration)%Z in
      match integrate_plain data (n_time first) first_center imu_it2 with
      | None => None
      | Some (to_first_center, it) =>
        match integrate_plain data first_center second_center it with
        | None => None
        | Some (center_to_center, _) =>
          let delta_velocity :=
            qrot (qmul (qinverse (d_rot result)) (d_rot to_first_center)) (d_vel center_to_center) in
          Some [AccelerationTerm (n_index first) (n_index second) (n_index third)
                  (w_acceleration w / to_seconds (first_duration + second_duration))
                  delta_velocity (to_seconds first_duration) (to_seconds second_duration)]
        end
      end
    else Some []
  end.

(* the loop over the nodes of a trajectory, op:377-443, from the first node on *)
Fixpoint imu_loop (w : weights) (data : list imu) (first : node3) (rest : list node3) (imu_it : nat) : option (list imu_term) :=
  match rest with
  | [] => Some []
  | second :: rest' =>
    if (n_index second =? n_index first + 1)%Z then
      match skip_imu (length data) data imu_it (n_time first) with
      | None => None
      | Some imu_it =>
        match integrate_plain data (n_time first) (n_time second) imu_it with
        | None => None
        | Some (result, it') =>
          match acceleration_terms w data first second rest' result imu_it with
          | None => None
          | Some acc =>
            match imu_loop w data second rest' it' with
            | None => None
            | Some ts =>
              Some (acc ++ [RotationTerm (n_index first) (n_index second)
                              (w_rotation w / to_seconds (n_time second - n_time first)) (d_rot result)] ++ ts)
            end
          end
        end
      end
    else imu_loop w data second rest' imu_it
  end.

(* op:446: Problem::SetParameterLowerBound aborts if the block of the gravity constant has not been added
   by a residual block *)
Definition has_gravity_block (ts : list imu_term) : bool :=
  existsb (fun t => match t with AccelerationTerm _ _ _ _ _ _ _ => true | _ => false end) ts.

(* what is added for one trajectory that is not frozen, op:363-446: whether the calibration is
   held constant and the terms *)
Definition imu_trajectory (w : weights) (online : bool) (known : bool) (imu_data : option (list imu)) (nodes : list node3)
    : option (bool * list imu_term) :=
  match nodes with
  | [] => None
  | first :: rest =>
    if known then
      match imu_data with
      | None | Some [] => None
      | Some data =>
        match imu_loop w data first rest 0 with
        | None => None
        | Some ts => if has_gravity_block ts then Some (negb online, ts) else None
        end
      end
    else None
  end.

(* op:355-447: all trajectories with nodes; frozen ones are skipped *)
Record trajectory3 := mk_trajectory3 {
  t_id : Z; t_frozen : bool; t_known : bool;              (* t_known: it is in trajectory_data_ *)
  t_imu : option (list imu); t_nodes : list node3 }.
Fixpoint imu_problem (w : weights) (online : bool) (ts : list trajectory3) : option (list (Z * (bool * list imu_term))) :=
  match ts with
  | [] => Some []
  | t :: ts' =>
    if t_frozen t then imu_problem w online ts'
    else match imu_trajectory w online (t_known t) (t_imu t) (t_nodes t) with
         | None => None
         | Some x => match imu_problem w online ts' with None => None | Some xs => Some ((t_id t, x) :: xs) end
         end
  end.
