(* LocalTrajectoryBuilder2D, cartographer/mapping/internal/2d/local_trajectory_builder_2d.cc (called
   ltb below), and MotionFilter, cartographer/mapping/internal/motion_filter.cc, on top of the
   models of the range data collator and of the pose extrapolator.  A failed CHECK and a thrown
   exception are None.  Metrics and logging are left out. *)
From Coq Require Import ZArith List Bool.
From Verif Require Import RDC_Model PE_Model.
Import ListNotations.
Open Scope Z_scope.

(* Types and arithmetic beyond those of the extrapolator: points and times of range data, the
   accumulated points, what is made of them, 2D poses and the active submaps *)
Record parts (K : kit) := mk_parts {
  Pnt : Type; Org : Type; Int : Type; Tim : Type;
  no_intensity : Int;
  tick_of : Tim -> Z;                                        (* common::FromSeconds of a point time *)
  shift_by : Z -> Tim -> Tim;                                (* see RDC_Model *)
  sort_by : list (Pnt * Tim * Int * nat) -> list (Pnt * Tim * Int * nat);
  past : Tim -> bool;                                        (* time <= 0.f, ltb:130 *)
  Hit : Type;
  (* ltb:165-184 with the pose of the point, the origin and the position: dropped, a return (true)
     or a miss (false) *)
  place : Vec K * Rot K -> Org -> Pnt -> option (bool * Hit);
  Scan : Type;
  (* TransformToGravityAlignedFrameAndFilter, ltb:51-63, of returns and misses, with the gravity
     alignment and the last pose, ltb:196-206 *)
  align : Rot K -> Vec K * Rot K -> list Hit -> list Hit -> Scan;
  no_returns : Scan -> bool;                                 (* ltb:217 *)
  Cloud : Type;
  thin : Scan -> Cloud;                                      (* AdaptiveVoxelFilter, ltb:228-230 *)
  is_empty : Cloud -> bool;                                  (* ltb:231 *)
  Flat : Type;                                               (* transform::Rigid2d *)
  project : Vec K * Rot K -> Rot K -> Flat;                  (* ltb:225-226 *)
  embed : Flat -> Rot K -> Vec K * Rot K;                    (* ltb:242-243 *)
  Maps : Type;                                               (* ActiveSubmaps2D *)
  maps0 : Maps;
  no_maps : Maps -> bool;                                    (* submaps().empty() *)
  fit : Maps -> Flat -> Cloud -> option Flat;                (* ltb:71-101; never null *)
  insert : Maps -> Scan -> Flat -> option Maps;              (* ltb:246-248 and 288-289 *)
  (* motion_filter.cc:47-51 for the time since the last inserted pose, the pose and that pose *)
  near : Z -> Vec K * Rot K -> Vec K * Rot K -> bool }.
Arguments Pnt {K}. Arguments Org {K}. Arguments Int {K}. Arguments Tim {K}. Arguments Hit {K}.
Arguments Scan {K}. Arguments Cloud {K}. Arguments Flat {K}. Arguments Maps {K}.
Arguments no_intensity {K}. Arguments tick_of {K}. Arguments shift_by {K}. Arguments sort_by {K}.
Arguments past {K}. Arguments place {K}. Arguments align {K}. Arguments no_returns {K}. Arguments thin {K}.
Arguments is_empty {K}. Arguments project {K}. Arguments embed {K}. Arguments maps0 {K}.
Arguments no_maps {K}. Arguments fit {K}. Arguments insert {K}. Arguments near {K}.

Section Builder.
Context {K : kit} (F : parts K).
Notation pose := (Vec K * Rot K)%type.
Notation message_data := (data (Pnt F) (Org F) (Int F) (Tim F)).
Notation merge := (merged (Pnt F) (Org F) (Int F) (Tim F)).
Notation point := (Pnt F * Tim F * Int F * nat)%type.

(* the options used, and the expected range sensors *)
Record options := mk_options { use_imu : bool; num_accumulated_range_data : Z; queue_duration : Z; expected : list Z }.
Variable opt : options.

(* MatchingResult, local_trajectory_builder_2d.h:50-56: time, pose, range data with the pose that
   takes it to the local frame, and whether there is an insertion result *)
Record result := mk_result { r_time : Z; r_pose : pose; r_scan : Scan F; r_flat : Flat F; r_inserted : bool }.

(* local_trajectory_builder_2d.h:102-119; last_pose_ and last_time_ of the motion filter are
   there once num_total_ is positive *)
Record builder := mk_builder {
  b_collator : collator (Pnt F) (Org F) (Int F) (Tim F);
  b_ext : option (ext K);
  b_num : Z;
  b_returns : list (Hit F);
  b_misses : list (Hit F);
  b_maps : Maps F;
  b_filter : option (Z * pose) }.
Definition new_builder : builder := mk_builder new None 0 [] [] (maps0 F) None.
Definition set_collator c b := mk_builder c (b_ext b) (b_num b) (b_returns b) (b_misses b) (b_maps b) (b_filter b).
Definition set_ext x b := mk_builder (b_collator b) x (b_num b) (b_returns b) (b_misses b) (b_maps b) (b_filter b).

(* What a call did.  The result inside, if any, is what AddRangeData returns. *)
Inductive event :=
  | EData                                                  (* IMU or odometry data *)
  | EWaiting                                               (* the collator has nothing *)
  | EUninitialized | EEarly                                (* ltb:121-126 and 134-137 *)
  | EPlaced (m : merge) (ps : list pose) (s : option (list (Hit F) * list (Hit F) * option result)).

(* InitializeExtrapolator, ltb:318-332; `use_imu_based` is taken to be false *)
Definition initialize (t : Z) (b : builder) : option builder :=
  match b_ext b with
  | Some _ => Some b
  | None => option_map (fun x => set_ext (Some x) b) (add_pose (queue_duration opt) t (zero K, identity K) new_ext)
  end.

(* the loop of ltb:142-155: one pose per point *)
Fixpoint point_poses (t : Z) (l : list point) (x : ext K) : option (list pose * ext K) :=
  match l with
  | [] => Some ([], x)
  | (_, s, _, _) :: r =>
      let tp := Z.max (t + tick_of F s) (last_extrapolated_time x) in
      match extrapolate tp x with
      | None => None
      | Some (p, x1) => match point_poses t r x1 with
                        | None => None
                        | Some (ps, x2) => Some (p :: ps, x2)
                        end
      end
  end.

(* the loop of ltb:165-185; `origins.at` throws *)
Fixpoint sort_out (os : list (Org F)) (l : list point) (ps : list pose) : option (list (Hit F) * list (Hit F)) :=
  match l, ps with
  | (q, _, _, n) :: r, p :: ps =>
      match nth_error os n with
      | None => None
      | Some o =>
          match sort_out os r ps with
          | None => None
          | Some (rs, ms) =>
              Some (match place F p o q with
                    | None => (rs, ms)
                    | Some (true, h) => (h :: rs, ms)
                    | Some (false, h) => (rs, h :: ms)
                    end)
          end
      end
  | [], _ => Some ([], [])
  | _ :: _, [] => None
  end.

(* MotionFilter::IsSimilar, motion_filter.cc:40-58 *)
Definition is_similar (t : Z) (p : pose) (f : option (Z * pose)) : bool * option (Z * pose) :=
  match f with
  | Some (t0, p0) => if near F (t - t0) p p0 then (true, f) else (false, Some (t, p))
  | None => (false, Some (t, p))
  end.

(* ScanMatch, ltb:65-102 *)
Definition scan_match (m : Maps F) (p : Flat F) (c : Cloud F) : option (Flat F) :=
  if no_maps F m then Some p else fit F m p c.

(* AddAccumulatedRangeData and InsertIntoSubmap, ltb:211-300, with the extrapolator given *)
Definition add_accumulated (t : Z) (s : Scan F) (g : Rot K) (x : ext K) (b : builder) : option (option result * builder) :=
  if no_returns F s then Some (None, set_ext (Some x) b)
  else
    match extrapolate t x with
    | None => None
    | Some (p, x1) =>
        if is_empty F (thin F s) then Some (None, set_ext (Some x1) b)
        else
          match scan_match (b_maps b) (project F p g) (thin F s) with
          | None => None
          | Some flat =>
              let estimate := embed F flat g in
              match add_pose (queue_duration opt) t estimate x1 with
              | None => None
              | Some x2 =>
                  let '(similar, f) := is_similar t estimate (b_filter b) in
                  let b1 := mk_builder (b_collator b) (Some x2) (b_num b) (b_returns b) (b_misses b) (b_maps b) f in
                  if similar then Some (Some (mk_result t estimate s flat false), b1)
                  else match insert F (b_maps b) s flat with
                       | None => None
                       | Some m => Some (Some (mk_result t estimate s flat true),
                                         mk_builder (b_collator b) (Some x2) (b_num b) (b_returns b) (b_misses b) m f)
                       end
              end
          end
    end.

(* AddRangeData after the collator, ltb:110-209 *)
Definition add_merged (m : merge) (b : builder) : option (event * builder) :=
  match m_ranges m, back (m_ranges m) with
  | (_, s0, _, _) :: _, Some (_, s1, _, _) =>
      match (if use_imu opt then Some b else initialize (m_time m) b) with
      | None => None
      | Some b1 =>
          match b_ext b1 with
          | None => Some (EUninitialized, b1)
          | Some x =>
              if negb (past F s1) then None
              else if m_time m + tick_of F s0 <? last_pose_time x then Some (EEarly, b1)
              else
                match point_poses (m_time m) (m_ranges m) x with
                | None => None
                | Some (ps, x1) =>
                    match sort_out (m_origins m) (m_ranges m) ps, back ps with
                    | Some (rs, ms), Some lastp =>
                        let rs := (if b_num b1 =? 0 then [] else b_returns b1) ++ rs in
                        let ms := (if b_num b1 =? 0 then [] else b_misses b1) ++ ms in
                        let num := b_num b1 + 1 in
                        if num_accumulated_range_data opt <=? num then
                          let b2 := mk_builder (b_collator b1) (Some x1) 0 rs ms (b_maps b1) (b_filter b1) in
                          match gravity_orientation (m_time m) x1 with
                          | None => None
                          | Some g =>
                              match add_accumulated (m_time m) (align F g lastp rs ms) g x1 b2 with
                              | None => None
                              | Some (r, b3) => Some (EPlaced m ps (Some (rs, ms, r)), b3)
                              end
                          end
                        else
                          Some (EPlaced m ps None,
                                mk_builder (b_collator b1) (Some x1) num rs ms (b_maps b1) (b_filter b1))
                    | _, _ => None
                    end
                end
          end
      end
  | _, _ => Some (EWaiting, b)
  end.

(* AddRangeData, ltb:104-109 *)
Definition add_range (k : Z) (d : message_data) (b : builder) : option (event * builder) :=
  match RDC_Model.add (no_intensity F) (tick_of F) (shift_by F) (sort_by F) (expected opt) (b_collator b) k d with
  | None => None
  | Some (None, c) => Some (EWaiting, set_collator c b)
  | Some (Some m, c) => add_merged m (set_collator c b)
  end.

(* AddImuData, ltb:302-306 *)
Definition add_imu_data (r : Z * (Vec K * Vec K)) (b : builder) : option (event * builder) :=
  if use_imu opt then
    match initialize (fst r) b with
    | None => None
    | Some b1 =>
        match b_ext b1 with
        | None => None
        | Some x => option_map (fun x' => (EData, set_ext (Some x') b1)) (add_imu r x)
        end
    end
  else None.
(* AddOdometryData, ltb:308-316 *)
Definition add_odometry_data (o : Z * pose) (b : builder) : option (event * builder) :=
  match b_ext b with
  | None => Some (EData, b)
  | Some x => option_map (fun x' => (EData, set_ext (Some x') b)) (add_odometry o x)
  end.

Inductive message := MRange (k : Z) (d : message_data) | MImu (r : Z * (Vec K * Vec K)) | MOdometry (o : Z * pose).
Definition step (m : message) (b : builder) : option (event * builder) :=
  match m with
  | MRange k d => add_range k d b
  | MImu r => add_imu_data r b
  | MOdometry o => add_odometry_data o b
  end.
Fixpoint run (ms : list message) (b : builder) : option (list event * builder) :=
  match ms with
  | [] => Some ([], b)
  | m :: r =>
      match step m b with
      | None => None
      | Some (e, b') => match run r b' with
                        | None => None
                        | Some (es, b'') => Some (e :: es, b'')
                        end
      end
  end.
End Builder.
Arguments EData {K F}. Arguments EWaiting {K F}. Arguments EUninitialized {K F}. Arguments EEarly {K F}.
Arguments EPlaced {K F}. Arguments MRange {K F}. Arguments MImu {K F}. Arguments MOdometry {K F}.
Arguments r_time {K F}. Arguments r_pose {K F}. Arguments r_scan {K F}. Arguments r_flat {K F}. Arguments r_inserted {K F}.
Arguments b_collator {K F}. Arguments b_ext {K F}. Arguments b_num {K F}. Arguments b_returns {K F}.
Arguments b_misses {K F}. Arguments b_maps {K F}. Arguments b_filter {K F}.
Arguments new_builder {K F}.
