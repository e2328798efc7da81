(* An extrapolator that never forgets: it keeps all poses, IMU readings and odometry poses and
   says which of them determine an answer. *)
From Coq Require Import ZArith List Bool.
From Verif Require Import PE_Model.
Import ListNotations.
Open Scope Z_scope.

Section History.
Context {K : kit}.
Notation pose := (Vec K * Rot K)%type.

(* Everything received, the orientation tracked to the newest pose, to the newest odometry pose
   and to the last prediction, the last prediction, and the velocity from odometry. *)
Record hist := mk_hist {
  h_poses : list (Z * pose);
  h_imu : list (Z * (Vec K * Vec K));
  h_odo : list (Z * pose);
  h_tracker : option (tracker K);
  h_otracker : option (tracker K);
  h_etracker : option (tracker K);
  h_cached : Z * pose;
  h_ovel : Vec K * Vec K }.
Definition hist0 : hist := mk_hist [] [] [] None None None (tmin, (zero K, identity K)) (zero K, zero K).

(* the latest entry up to t other than the newest, or else the first *)
Definition base {A} (t : Z) (l : list (Z * A)) : option (Z * A) :=
  match back (filter (fun e => fst e <=? t) (removelast l)) with
  | Some e => Some e
  | None => hd_error l
  end.
(* velocity from poses: over the shortest period of at least dur *)
Definition velocity (dur : Z) (l : list (Z * pose)) : Vec K * Vec K :=
  match back l with
  | Some (t1, p1) =>
      match base (t1 - dur) l with
      | Some (t0, p0) =>
          if (length l <? 2)%nat || too_short K (t1 - t0) dur then (zero K, zero K) else pose_velocity K (t1 - t0) p1 p0
      | None => (zero K, zero K)
      end
  | None => (zero K, zero K)
  end.
(* which velocity counts *)
Definition current {A} (h : hist) (from_poses from_odometry : A) : A :=
  if (length (h_odo h) <? 2)%nat then from_poses else from_odometry.

(* apply readings in order *)
Fixpoint apply_all (l : list (Z * (Vec K * Vec K))) (k : tracker K) : option (tracker K) :=
  match l with
  | [] => Some k
  | (s, (lin, ang)) :: r =>
      match advance s k with
      | None => None
      | Some k1 => match imu_update lin ang k1 with None => None | Some k2 => apply_all r k2 end
      end
  end.
(* Track to time t: without an IMU reading up to t assume upright and the current angular velocity;
   else apply each reading from the time of the tracker up to before t. *)
Definition track (dur : Z) (h : hist) (t : Z) (k : tracker K) : option (tracker K) :=
  if t <? k_time k then None
  else
    match h_imu h with
    | (s, _) :: _ =>
        if s <=? t then
          match (if k_time k <? s then advance s k else Some k) with
          | None => None
          | Some k1 =>
              match apply_all (filter (fun r => (k_time k1 <=? fst r) && (fst r <? t)) (h_imu h)) k1 with
              | None => None
              | Some k2 => advance t k2
              end
          end
        else
          match advance t k with
          | Some k1 => imu_update (unit_z K) (current h (snd (velocity dur (h_poses h))) (snd (h_ovel h))) k1
          | None => None
          end
    | [] =>
        match advance t k with
        | Some k1 => imu_update (unit_z K) (current h (snd (velocity dur (h_poses h))) (snd (h_ovel h))) k1
        | None => None
        end
    end.
Definition not_before_pose (t : Z) (h : hist) : bool :=
  match back (h_poses h) with Some p => fst p <=? t | None => true end.
(* rotation since the newest pose *)
Definition rotation_since (dur : Z) (h : hist) (t : Z) (k : option (tracker K)) : option (Rot K * tracker K) :=
  match h_tracker h, k with
  | Some k0, Some k =>
      option_map (fun k1 => (mul K (inv K (orientation K (k_att k0))) (orientation K (k_att k1)), k1)) (track dur h t k)
  | _, _ => None
  end.

Definition h_step (dur : Z) (c : call K) (h : hist) : option (answer K * hist) :=
  match c with
  | CPose t p =>
      let k := match h_tracker h with
               | Some k => k
               | None => new_tracker (match h_imu h with (s, _) :: _ => Z.min t s | [] => t end)
               end in
      let h1 := mk_hist (h_poses h ++ [(t, p)]) (h_imu h) (h_odo h) (h_tracker h) (h_otracker h)
                  (h_etracker h) (h_cached h) (h_ovel h) in
      option_map (fun k1 => (ADone, mk_hist (h_poses h1) (h_imu h) (h_odo h) (Some k1) (Some k1) (Some k1)
                                      (h_cached h) (h_ovel h)))
        (track dur h1 t k)
  | CImu r =>
      if not_before_pose (fst r) h then
        Some (ADone, mk_hist (h_poses h) (h_imu h ++ [r]) (h_odo h) (h_tracker h) (h_otracker h)
                       (h_etracker h) (h_cached h) (h_ovel h))
      else None
  | COdometry o =>
      if not_before_pose (fst o) h then
        let odo := h_odo h ++ [o] in
        let with_vel k v := mk_hist (h_poses h) (h_imu h) odo (h_tracker h) k (h_etracker h) (h_cached h) v in
        let oldest := match back (h_poses h) with Some p => base (fst p) odo | None => hd_error odo end in
        match oldest with
        | Some (t0, p0) =>
            if (length odo <? 2)%nat then Some (ADone, with_vel (h_otracker h) (h_ovel h))
            else
              let '(lin, ang) := odometry_velocity K (t0 - fst o) (snd o) p0 in
              match back (h_poses h) with
              | None => Some (ADone, with_vel (h_otracker h) (fst (h_ovel h), ang))
              | Some (_, (_, rot)) =>
                  option_map (fun r => (ADone, with_vel (Some (snd r)) (rotate K (mul K rot (fst r)) lin, ang)))
                    (rotation_since dur (with_vel (h_otracker h) (fst (h_ovel h), ang)) (fst o) (h_otracker h))
              end
        | None => None
        end
      else None
  | CExtrapolate t =>
      match back (h_poses h) with
      | None => None
      | Some (newest, (tra, rot)) =>
          if t <? newest then None
          else if fst (h_cached h) =? t then Some (APose (snd (h_cached h)), h)
          else option_map (fun r =>
                 let p := (add K (scale K (t - newest) (current h (fst (velocity dur (h_poses h))) (fst (h_ovel h)))) tra,
                           mul K rot (fst r)) in
                 (APose p, mk_hist (h_poses h) (h_imu h) (h_odo h) (h_tracker h) (h_otracker h)
                               (Some (snd r)) (t, p) (h_ovel h)))
               (rotation_since dur h t (h_etracker h))
      end
  | CGravity t =>
      match h_tracker h with
      | None => None
      | Some k => option_map (fun k1 => (ARotation (orientation K (k_att k1)), h)) (track dur h t k)
      end
  end.
Fixpoint h_run (dur : Z) (cs : list (call K)) (h : hist) : option (list (answer K)) :=
  match cs with
  | [] => Some []
  | c :: r =>
      match h_step dur c h with
      | None => None
      | Some (a, h') => option_map (cons a) (h_run dur r h')
      end
  end.
End History.
Arguments hist : clear implicits.

(* the times of the IMU readings and of the odometry poses among calls *)
Section Times.
Context {K : kit}.
Definition imu_times (cs : list (call K)) : list Z :=
  flat_map (fun c => match c with CImu r => [fst r] | _ => [] end) cs.
Definition odometry_times (cs : list (call K)) : list Z :=
  flat_map (fun c => match c with COdometry o => [fst o] | _ => [] end) cs.

(* When times fit.  The clocks: newest pose, newest odometry pose since then that was tracked, last
   prediction since then, time of the last prediction, number of odometry poses. *)
Record clocks := mk_clocks { c_pose : option Z; c_odometry : Z; c_predicted : Z; c_last : Z; c_count : nat }.
Definition clocks0 : clocks := mk_clocks None tmin tmin tmin 0.
Definition tick (c : call K) (k : clocks) : option clocks :=
  match c, c_pose k with
  | CPose t _, None => Some (mk_clocks (Some t) t t (c_last k) (c_count k))
  | CPose t _, Some p =>
      if p <=? t then Some (mk_clocks (Some t) t t (c_last k) (c_count k)) else None
  | CImu  _, None => Some k
  | CImu r, Some p => if p <=? fst r then Some k else None
  | COdometry  _, None => Some (mk_clocks None (c_odometry k) (c_predicted k) (c_last k) (S (c_count k)))
  | COdometry o, Some p =>
      if fst o <? p then None
      else if (c_count k =? 0)%nat then Some (mk_clocks (Some p) (c_odometry k) (c_predicted k) (c_last k) 1)
      else if fst o <? c_odometry k then None
      else Some (mk_clocks (Some p) (fst o) (c_predicted k) (c_last k) (S (c_count k)))
  | CExtrapolate  _, None => None
  | CExtrapolate t, Some p =>
      if t <? p then None
      else if c_last k =? t then Some k
      else if t <? c_predicted k then None
      else Some (mk_clocks (Some p) (c_odometry k) t t (c_count k))
  | CGravity  _, None => None
  | CGravity t, Some p => if p <=? t then Some k else None
  end.
Fixpoint tick_all (cs : list (call K)) (k : clocks) : option clocks :=
  match cs with
  | [] => Some k
  | c :: r => match tick c k with None => None | Some k' => tick_all r k' end
  end.
End Times.

(* What an IMU tracker made at time t0 knows after some events, newest first. *)
Section Tracking.
Context {K : kit}.
Variable t0 : Z.
Inductive event := EAdvance (t : Z) | EAcceleration (v : Vec K) | ERate (v : Vec K).
Fixpoint now (past : list event) : Z :=
  match past with [] => t0 | EAdvance t :: _ => t | _ :: r => now r end.
Fixpoint rate (past : list event) : Vec K :=
  match past with [] => zero K | ERate v :: _ => v | _ :: r => rate r end.
(* when the last acceleration was measured *)
Fixpoint measured (past : list event) : option Z :=
  match past with [] => None | EAcceleration _ :: r => Some (now r) | _ :: r => measured r end.
(* None if it goes back in time or if acceleration and orientation disagree *)
Fixpoint attitude (past : list event) : option (Att K) :=
  match past with
  | [] => Some (att0 K)
  | e :: r =>
      match attitude r with
      | None => None
      | Some a =>
          match e with
          | EAdvance t => if now r <=? t then Some (turn K (t - now r) (rate r) a) else None
          | EAcceleration v => observe K (option_map (fun q => now r - q) (measured r)) v a
          | ERate _ => Some a
          end
      end
  end.
End Tracking.
Arguments event : clear implicits.
