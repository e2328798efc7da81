(* Model of cartographer/mapping/imu_tracker.{h,cc} (itc), internal/eigen_quaterniond_from_two_vectors.cc
   with the Eigen function it calls, and internal/3d/imu_integration.h (iih), with real numbers
   instead of doubles. Times are common::Time, that is ticks of 100 ns (common/time.h:30-46). *)
From Coq Require Import Reals ZArith List Bool.
From Verif Require Import CF_Model RG_Model.
Import ListNotations.
Open Scope R_scope.

(* common::ToSeconds, common/time.cc:35-38 *)
Definition to_seconds (d : Z) : R := IZR d / 10000000.
(* common::Time::min(), Time::max(): the limits of int64 *)
Definition time_min : Z := (- 9223372036854775808)%Z.
Definition time_max : Z := 9223372036854775807%Z.

(* Eigen: normalized() of a vector; the null vector is left alone *)
Definition vnormalized (a : vec3 R) : vec3 R :=
  if Rlt_dec 0 (vdot a a) then vscale (/ sqrt (vdot a a)) a else a.

Section FromTwo.
(* the last right singular vector of the 2x3 matrix with these rows, from Eigen::JacobiSVD;
   the theorems hold for every function that returns a unit vector orthogonal to both *)
Variable svd : vec3 R -> vec3 R -> vec3 R.

(* FromTwoVectors, eigen_quaterniond_from_two_vectors.cc:22-25, which is
   Eigen::Quaterniond::FromTwoVectors (Quaternion.h: setFromTwoVectors) *)
Definition from_two_vectors (a b : vec3 R) : quat :=
  let n0 := vnormalized a in
  let n1 := vnormalized b in
  let c := vdot n1 n0 in
  if Rlt_dec c (-1 + 1 / 1000000000000) then
    let c := Rmax c (-1) in
    let axis := svd n0 n1 in
    let w2 := (1 + c) * (1 / 2) in
    let k := sqrt (1 - w2) in
    mk_quat (sqrt w2) (v0 axis * k) (v1 axis * k) (v2 axis * k)
  else
    let axis := vcross n0 n1 in
    let s := sqrt ((1 + c) * 2) in
    let invs := 1 / s in
    mk_quat (s * (1 / 2)) (v0 axis * invs) (v1 axis * invs) (v2 axis * invs).

(* ImuTracker, imu_tracker.h:53-60 *)
Record tracker := mk_tracker {
  t_constant : R;        (* imu_gravity_time_constant_ *)
  t_time : Z;            (* time_ *)
  t_last : Z;            (* last_linear_acceleration_time_ *)
  t_orientation : quat;  (* orientation_ *)
  t_gravity : vec3 R;    (* gravity_vector_ *)
  t_omega : vec3 R       (* imu_angular_velocity_ *)
}.

Definition unit_z : vec3 R := mk_vec3 0 0 1.
(* the constructor, itc:30-37 *)
Definition tracker_init (constant : R) (time : Z) : tracker :=
  mk_tracker constant time time_min q_one unit_z v_zero.

(* Advance, itc:39-48 *)
Definition advance (k : tracker) (time : Z) : option tracker :=
  if (time <? t_time k)%Z then None
  else
    let delta_t := to_seconds (time - t_time k) in
    let rotation := of_angle_axis (vscale delta_t (t_omega k)) in
    Some (mk_tracker (t_constant k) time (t_last k)
            (qnormalized (qmul (t_orientation k) rotation))
            (qrot (qconj rotation) (t_gravity k)) (t_omega k)).

(* the weight of a new acceleration, itc:54-59; for the first one delta_t is infinity and
   std::exp(-infinity) is 0 as long as the time constant is positive *)
Definition alpha (k : tracker) : R :=
  if (time_min <? t_last k)%Z
  then 1 - exp (- to_seconds (t_time k - t_last k) / t_constant k)
  else 1.

(* AddImuLinearAccelerationObservation, itc:50-69 *)
Definition add_acceleration (k : tracker) (a : vec3 R) : option tracker :=
  let al := alpha k in
  let gravity := vadd (vscale (1 - al) (t_gravity k)) (vscale al a) in
  let rotation := from_two_vectors gravity (qrot (qconj (t_orientation k)) unit_z) in
  let orientation := qnormalized (qmul (t_orientation k) rotation) in
  if Rlt_dec 0 (v2 (qrot orientation gravity)) then
    if Rlt_dec (99 / 100) (v2 (vnormalized (qrot orientation gravity))) then
      Some (mk_tracker (t_constant k) (t_time k) (t_time k) orientation gravity (t_omega k))
    else None
  else None.

(* AddImuAngularVelocityObservation, itc:71-74 *)
Definition add_angular_velocity (k : tracker) (w : vec3 R) : tracker :=
  mk_tracker (t_constant k) (t_time k) (t_last k) (t_orientation k) (t_gravity k) w.

(* the calls a tracker can get *)
Inductive op := Advance (time : Z) | Acceleration (a : vec3 R) | AngularVelocity (w : vec3 R).
Definition step (k : tracker) (o : op) : option tracker :=
  match o with
  | Advance time => advance k time
  | Acceleration a => add_acceleration k a
  | AngularVelocity w => Some (add_angular_velocity k w)
  end.
Fixpoint run (k : tracker) (os : list op) : option tracker :=
  match os with
  | [] => Some k
  | o :: os => match step k o with Some k => run k os | None => None end
  end.
End FromTwo.

(* sensor::ImuData, sensor/imu_data.h:28-32 *)
Record imu := mk_imu { i_time : Z; i_acc : vec3 R; i_omega : vec3 R }.

(* IntegrateImuResult, iih:34-39 *)
Record motion := mk_motion { d_vel : vec3 R; d_trans : vec3 R; d_rot : quat }.

(* the body of the loop for one piece, iih:67-79; ca, cw are the affine maps
   linear_acceleration_calibration and angular_velocity_calibration *)
Definition one_piece (ca cw : vec3 R -> vec3 R) (r : motion) (d : imu) (dt : R) : motion :=
  let delta_angle := vscale dt (cw (i_omega d)) in
  let rotation := qmul (d_rot r) (of_angle_axis delta_angle) in
  let velocity := vadd (d_vel r) (qrot rotation (vscale dt (ca (i_acc d)))) in
  mk_motion velocity (vadd (d_trans r) (vscale dt velocity)) rotation.

(* the loop, iih:61-84; an iterator is an index. Fuel runs out as None. *)
Fixpoint integrate_loop (fuel : nat) (ca cw : vec3 R -> vec3 R) (data : list imu)
    (current end_ : Z) (it : nat) (r : motion) : option (motion * nat) :=
  if (current <? end_)%Z then
    match fuel with
    | O => None
    | S fuel =>
      match nth_error data it with
      | None => None
      | Some d =>
        let next_imu := match nth_error data (S it) with Some n => i_time n | None => time_max end in
        let next_time := Z.min next_imu end_ in
        let r := one_piece ca cw r d (to_seconds (next_time - current)) in
        integrate_loop fuel ca cw data next_time end_ (if (next_time =? next_imu)%Z then S it else it) r
      end
    end
  else Some (r, it).

(* IntegrateImu, iih:41-86: the checks, iih:49-54, and the loop *)
Definition motion_zero : motion := mk_motion v_zero v_zero q_one.
Definition integrate (ca cw : vec3 R -> vec3 R) (data : list imu) (start end_ : Z) (it : nat)
    : option (motion * nat) :=
  if (end_ <? start)%Z then None
  else match nth_error data it with
  | None => None
  | Some d =>
    if (start <? i_time d)%Z then None
    else if match nth_error data (S it) with Some n => (i_time n <=? start)%Z | None => false end then None
    else integrate_loop (length data) ca cw data start end_ it motion_zero
  end.
(* the overload without calibration, iih:88-97 *)
Definition same (v : vec3 R) : vec3 R := v.
Definition integrate_plain := integrate same same.

(* ExtrapolatePoseWithImu from a pose and a velocity, iih:105-134: pose, velocity and iterator *)
Definition extrapolate (prev : rigid3) (prev_velocity : vec3 R) (prev_time : Z) (gravity : vec3 R)
    (time : Z) (data : list imu) (it : nat) : option (rigid3 * vec3 R * nat) :=
  match integrate_plain data prev_time time it with
  | None => None
  | Some (r, it) =>
    let dt := to_seconds (time - prev_time) in
    let translation :=
      vsub (vadd (trans prev) (qrot (rot prev) (vadd (vscale dt prev_velocity) (d_trans r))))
           (vscale (1 / 2 * dt * dt) gravity) in
    let velocity := vsub (qrot (rot prev) (vadd prev_velocity (d_vel r))) (vscale dt gravity) in
    Some (mk_rigid3 translation (qmul (rot prev) (d_rot r)), velocity, it)
  end.

(* ExtrapolatePoseWithImu from the last two poses, iih:136-158; dividing by a zero time, which
   gives infinities and NaN, is None *)
Definition extrapolate_two (prev : rigid3) (prev_time : Z) (prev_prev : rigid3) (prev_prev_time : Z)
    (gravity : vec3 R) (time : Z) (data : list imu) (it : nat) : option (rigid3 * vec3 R * nat) :=
  if (prev_time =? prev_prev_time)%Z then None
  else
    let prev_dt := to_seconds (prev_time - prev_prev_time) in
    let v := vscale (/ prev_dt) (qrot (rot (r3_inv prev)) (vsub (trans prev) (trans prev_prev))) in
    extrapolate prev v prev_time gravity time data it.
