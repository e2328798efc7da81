(* PoseExtrapolator and ImuTracker,
     cartographer/mapping/pose_extrapolator.cc   (called pe below)
     cartographer/mapping/imu_tracker.cc         (called it below).
   Times are ticks, as integers without wrap-around.  Rotations, vectors and the arithmetic on
   them are parameters; what is modelled is which data is used when.  A failed CHECK and a null
   or dangling reference are None. *)
From Coq Require Import ZArith List Bool.
Import ListNotations.
Open Scope Z_scope.

(* common::Time::min() *)
Definition tmin : Z := - 2 ^ 63.

(* The types and the arithmetic: Eigen::Quaterniond, Eigen::Vector3d, and orientation_ with
   gravity_vector_ of an ImuTracker *)
Record kit := mk_kit {
  Rot : Type;
  Vec : Type;
  Att : Type;
  att0 : Att;                                   (* it:35-36 *)
  orientation : Att -> Rot;                     (* imu_tracker.h:49 *)
  turn : Z -> Vec -> Att -> Att;                (* Advance by a duration, it:41-46 *)
  (* AddImuLinearAccelerationObservation, it:54-68: the duration since the last one, None for
     infinity; the result is None if a CHECK fails *)
  observe : option Z -> Vec -> Att -> option Att;
  zero : Vec;
  unit_z : Vec;
  identity : Rot;
  mul : Rot -> Rot -> Rot;
  inv : Rot -> Rot;
  rotate : Rot -> Vec -> Vec;
  add : Vec -> Vec -> Vec;
  scale : Z -> Vec -> Vec;                      (* ToSeconds(duration) * vector *)
  too_short : Z -> Z -> bool;                   (* ToSeconds(delta) < ToSeconds(duration), pe:168 *)
  (* linear and angular velocity from the newest and the oldest pose and their distance in time,
     pe:173-179 *)
  pose_velocity : Z -> Vec * Rot -> Vec * Rot -> Vec * Vec;
  (* the same in the tracking frame from the newest and the oldest odometry pose, pe:111-118 and
     122-124 *)
  odometry_velocity : Z -> Vec * Rot -> Vec * Rot -> Vec * Vec }.

Section Extrapolator.
Context {K : kit}.
Notation pose := (Vec K * Rot K)%type.

(* ImuTracker, imu_tracker.h:53-60 *)
Record tracker := mk_tracker { k_time : Z; k_last : Z; k_att : Att K; k_ang : Vec K }.
Definition new_tracker (t : Z) : tracker := mk_tracker t tmin (att0 K) (zero K).      (* it:30-37 *)
(* Advance, it:39-48 *)
Definition advance (t : Z) (k : tracker) : option tracker :=
  if k_time k <=? t then Some (mk_tracker t (k_last k) (turn K (t - k_time k) (k_ang k) (k_att k)) (k_ang k))
  else None.
(* AddImuLinearAccelerationObservation, it:50-69 *)
Definition accelerate (v : Vec K) (k : tracker) : option tracker :=
  let delta := if tmin <? k_last k then Some (k_time k - k_last k) else None in
  match observe K delta v (k_att k) with
  | Some a => Some (mk_tracker (k_time k) (k_time k) a (k_ang k))
  | None => None
  end.
(* AddImuAngularVelocityObservation, it:71-74 *)
Definition set_angular (v : Vec K) (k : tracker) : tracker := mk_tracker (k_time k) (k_last k) (k_att k) v.
(* both observations *)
Definition imu_update (lin ang : Vec K) (k : tracker) : option tracker :=
  match accelerate lin k with Some k' => Some (set_angular ang k') | None => None end.

(* sensor::ImuData and sensor::OdometryData, with their times *)
Notation imu_reading := (Z * (Vec K * Vec K))%type.
Notation timed_pose := (Z * pose)%type.
(* pose_extrapolator.h:73-95; the constants are parameters of the functions *)
Record ext := mk_ext {
  x_poses : list timed_pose;               (* timed_pose_queue_, front first *)
  x_vel : Vec K * Vec K;                       (* linear and angular velocity from poses *)
  x_imu : list imu_reading;
  x_tracker : option tracker;
  x_otracker : option tracker;             (* odometry_imu_tracker_ *)
  x_etracker : option tracker;             (* extrapolation_imu_tracker_ *)
  x_cached : timed_pose;
  x_odo : list timed_pose;
  x_ovel : Vec K * Vec K }.                    (* linear and angular velocity from odometry *)
(* pe:28-33 and the initializers of the class *)
Definition new_ext : ext :=
  mk_ext [] (zero K, zero K) [] None None None (tmin, (zero K, identity K)) [] (zero K, zero K).

Definition back {A} (l : list A) : option A := nth_error (rev l) 0.
(* GetLastPoseTime, pe:54-59, and GetLastExtrapolatedTime, pe:61-66 *)
Definition last_pose_time (x : ext) : Z := match back (x_poses x) with Some p => fst p | None => tmin end.
Definition last_extrapolated_time (x : ext) : Z :=
  match x_etracker x with Some k => k_time k | None => tmin end.

(* the loops that drop the front while more than `keep` entries are there and the second one is
   not after t: pe:79-82 and 182-194 *)
Fixpoint trim {A} (keep : nat) (t : Z) (l : list (Z * A)) : list (Z * A) :=
  match l with
  | [] => []
  | _ :: r =>
      match r with
      | (t1, _) :: _ => if (keep <? length l)%nat && (t1 <=? t) then trim keep t r else l
      | [] => l
      end
  end.
(* TrimImuData, TrimOdometryData, pe:182-194 *)
Definition trim_data {A} (keep : nat) (x : ext) (l : list (Z * A)) : list (Z * A) :=
  match back (x_poses x) with Some p => trim keep (fst p) l | None => l end.

(* the loop of pe:218-223 *)
Fixpoint feed (t : Z) (l : list imu_reading) (k : tracker) : option tracker :=
  match l with
  | [] => Some k
  | (s, (lin, ang)) :: r =>
      if s <? t then
        match advance s k with
        | None => None
        | Some k1 => match imu_update lin ang k1 with
                     | None => None
                     | Some k2 => feed t r k2
                     end
        end
      else Some k
  end.
(* std::lower_bound by time on a sorted queue *)
Fixpoint lower_bound {A} (t : Z) (l : list (Z * A)) : list (Z * A) :=
  match l with
  | (s, a) :: r => if s <? t then lower_bound t r else l
  | [] => []
  end.
(* AdvanceImuTracker, pe:196-225 *)
Definition advance_tracker (x : ext) (t : Z) (k : tracker) : option tracker :=
  if t <? k_time k then None
  else
    match x_imu x with
    | (s, _) :: _ =>
        if t <? s then
          match advance t k with
          | Some k1 => imu_update (unit_z K) (if (length (x_odo x) <? 2)%nat then snd (x_vel x) else snd (x_ovel x)) k1
          | None => None
          end
        else
          match (if k_time k <? s then advance s k else Some k) with
          | None => None
          | Some k1 =>
              match feed t (lower_bound (k_time k1) (x_imu x)) k1 with
              | None => None
              | Some k2 => advance t k2
              end
          end
    | [] =>
        match advance t k with
        | Some k1 => imu_update (unit_z K) (if (length (x_odo x) <? 2)%nat then snd (x_vel x) else snd (x_ovel x)) k1
        | None => None
        end
    end.

(* UpdateVelocitiesFromPoses, pe:156-180 *)
Definition update_velocities (dur : Z) (x : ext) : ext :=
  match x_poses x, back (x_poses x) with
  | (t0, p0) :: _ :: _, Some (t1, p1) =>
      if too_short K (t1 - t0) dur then x
      else mk_ext (x_poses x) (pose_velocity K (t1 - t0) p1 p0) (x_imu x) (x_tracker x) (x_otracker x)
             (x_etracker x) (x_cached x) (x_odo x) (x_ovel x)
  | _, _ => x
  end.

(* AddPose, pe:68-89 *)
Definition add_pose (dur : Z) (t : Z) (p : pose) (x : ext) : option ext :=
  let k := match x_tracker x with
           | Some k => k
           | None => new_tracker (match x_imu x with (s, _) :: _ => Z.min t s | [] => t end)
           end in
  let x1 := update_velocities dur
              (mk_ext (trim 2 (t - dur) (x_poses x ++ [(t, p)])) (x_vel x) (x_imu x) (x_tracker x)
                 (x_otracker x) (x_etracker x) (x_cached x) (x_odo x) (x_ovel x)) in
  match advance_tracker x1 t k with
  | None => None
  | Some k1 =>
      Some (mk_ext (x_poses x1) (x_vel x1) (trim_data 1 x1 (x_imu x1)) (Some k1) (Some k1) (Some k1)
              (x_cached x1) (trim_data 2 x1 (x_odo x1)) (x_ovel x1))
  end.

(* CHECK(timed_pose_queue_.empty() || time >= timed_pose_queue_.back().time) *)
Definition after_pose (t : Z) (x : ext) : bool :=
  match back (x_poses x) with Some p => fst p <=? t | None => true end.
(* AddImuData, pe:91-96 *)
Definition add_imu (r : imu_reading) (x : ext) : option ext :=
  if after_pose (fst r) x then
    Some (mk_ext (x_poses x) (x_vel x) (trim_data 1 x (x_imu x ++ [r])) (x_tracker x) (x_otracker x)
            (x_etracker x) (x_cached x) (x_odo x) (x_ovel x))
  else None.

(* ExtrapolateRotation, pe:227-233: the rotation and the advanced tracker *)
Definition extrapolate_rotation (x : ext) (t : Z) (k : option tracker) : option (Rot K * tracker) :=
  match x_tracker x, k with
  | Some k0, Some k =>
      match advance_tracker x t k with
      | Some k1 => Some (mul K (inv K (orientation K (k_att k0))) (orientation K (k_att k1)), k1)
      | None => None
      end
  | _, _ => None
  end.
(* AddOdometryData, pe:98-132 *)
Definition add_odometry (o : timed_pose) (x : ext) : option ext :=
  if after_pose (fst o) x then
    let odo := trim_data 2 x (x_odo x ++ [o]) in
    let x1 := mk_ext (x_poses x) (x_vel x) (x_imu x) (x_tracker x) (x_otracker x) (x_etracker x)
                (x_cached x) odo (x_ovel x) in
    match odo, back odo with
    | (t0, p0) :: _ :: _, Some (t1, p1) =>
        let '(lin, ang) := odometry_velocity K (t0 - t1) p1 p0 in
        let x2 := mk_ext (x_poses x) (x_vel x) (x_imu x) (x_tracker x) (x_otracker x) (x_etracker x)
                    (x_cached x) odo (fst (x_ovel x), ang) in
        match back (x_poses x) with
        | None => Some x2
        | Some (_, (_, rot)) =>
            match extrapolate_rotation x2 t1 (x_otracker x2) with
            | None => None
            | Some (r, k) =>
                Some (mk_ext (x_poses x) (x_vel x) (x_imu x) (x_tracker x) (Some k) (x_etracker x)
                        (x_cached x) odo (rotate K (mul K rot r) lin, ang))
            end
        end
    | _, _ => Some x1
    end
  else None.

(* ExtrapolateTranslation, pe:235-243 *)
Definition extrapolate_translation (x : ext) (t newest : Z) : Vec K :=
  scale K (t - newest) (if (length (x_odo x) <? 2)%nat then fst (x_vel x) else fst (x_ovel x)).
(* ExtrapolatePose, pe:134-147 *)
Definition extrapolate (t : Z) (x : ext) : option (pose * ext) :=
  match back (x_poses x) with
  | None => None
  | Some (newest, (tra, rot)) =>
      if t <? newest then None
      else if fst (x_cached x) =? t then Some (snd (x_cached x), x)
      else match extrapolate_rotation x t (x_etracker x) with
           | None => None
           | Some (r, k) =>
               let p := (add K (extrapolate_translation x t newest) tra, mul K rot r) in
               Some (p, mk_ext (x_poses x) (x_vel x) (x_imu x) (x_tracker x) (x_otracker x) (Some k)
                          (t, p) (x_odo x) (x_ovel x))
           end
  end.
(* EstimateGravityOrientation, pe:149-154 *)
Definition gravity_orientation (t : Z) (x : ext) : option (Rot K) :=
  match x_tracker x with
  | Some k => option_map (fun k1 => orientation K (k_att k1)) (advance_tracker x t k)
  | None => None
  end.

(* InitializeWithImu, pe:35-52 *)
Definition initialize_with_imu (dur : Z) (r : imu_reading) : option ext :=
  let '(t, (lin, ang)) := r in
  match add_imu r new_ext with
  | None => None
  | Some x =>
      match imu_update lin ang (new_tracker t) with
      | None => None
      | Some k =>
          match advance t k with
          | None => None
          | Some k1 =>
              add_pose dur t (zero K, orientation K (k_att k1))
                (mk_ext (x_poses x) (x_vel x) (x_imu x) (Some k1) (x_otracker x) (x_etracker x)
                   (x_cached x) (x_odo x) (x_ovel x))
          end
      end
  end.

(* the public member functions with what they return; ExtrapolatePosesWithGravity, pe:245-259,
   is a sequence of them *)
Inductive call := CPose (t : Z) (p : pose) | CImu (r : imu_reading) | COdometry (o : timed_pose)
                | CExtrapolate (t : Z) | CGravity (t : Z).
Inductive answer := ADone | APose (p : pose) | ARotation (r : Rot K).
Definition step (dur : Z) (c : call) (x : ext) : option (answer * ext) :=
  match c with
  | CPose t p => option_map (fun x' => (ADone, x')) (add_pose dur t p x)
  | CImu r => option_map (fun x' => (ADone, x')) (add_imu r x)
  | COdometry o => option_map (fun x' => (ADone, x')) (add_odometry o x)
  | CExtrapolate t => option_map (fun r => (APose (fst r), snd r)) (extrapolate t x)
  | CGravity t => option_map (fun r => (ARotation r, x)) (gravity_orientation t x)
  end.
Fixpoint run (dur : Z) (cs : list call) (x : ext) : option (list answer * ext) :=
  match cs with
  | [] => Some ([], x)
  | c :: r =>
      match step dur c x with
      | None => None
      | Some (a, x') => match run dur r x' with
                        | None => None
                        | Some (l, x'') => Some (a :: l, x'')
                        end
      end
  end.
End Extrapolator.
Arguments tracker : clear implicits.
Arguments ext : clear implicits.
Arguments call : clear implicits.
Arguments answer : clear implicits.
