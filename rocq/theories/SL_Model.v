(* Model of saving and loading the state of a map builder with a 2D pose graph.
   cartographer/io/internal/mapping_state_serialization.cc (ms below),
   cartographer/mapping/pose_graph.cc: ToProto (pp),
   cartographer/io/proto_stream_deserializer.cc (pd),
   cartographer/mapping/map_builder.cc: LoadState (mb),
   cartographer/mapping/internal/2d/pose_graph_2d.cc (pg),
   cartographer/mapping/internal/optimization/optimization_problem_2d.cc (op).
   A failed CHECK, an exception and undefined behaviour are the outcome None.  The stream is the
   list of its messages; their bytes are modelled in PS_Model. *)
From Coq Require Import List ZArith Bool.
From Verif Require Import ZMap MapById_Model PG_Model.
Import ListNotations.
Open Scope Z_scope.
Open Scope pg_scope.

(* poses, grids, scans, weights, sensor readings, trajectory options: an opaque value each.
   Their conversions to and from protos are taken to be exact; of a constraint this is the value
   that constraints() returns, which multiplies by the gravity alignment of the node, pg:1030-1036,
   what AddSerializedConstraints undoes, pg:817-822. *)
Definition val : Type := Z.

(* a submap: insertion_finished(), what GetSubmapData reports as its pose, and the rest *)
Record subval := mk_subval { s_finished : bool; s_pose : val; s_val : val }.
(* a node: global_pose and *constant_data *)
Record nodeval := mk_nodeval { n_pose : val; n_val : val }.
(* LandmarkNode, pose_graph_interface.h:55-66: observations with trajectory and time *)
Record obs := mk_obs { o_traj : Z; o_time : Z; o_val : val }.
Record landmark := mk_landmark { l_obs : list obs; l_pose : option val; l_frozen : bool }.

(* what PG_Model leaves out of the pose graph.  What is said of a submap or node is meant for the
   ids that are stored.  Landmark names are numbers in their order. *)
Record pay := mk_pay {
  sp : id -> subval;
  np : id -> nodeval;
  cons_vals : list (cons * val);                (* data_.constraints with their values *)
  landmarks : list (Z * landmark);              (* data_.landmark_nodes *)
  odometry : list (Z * list (Z * val));         (* odometry_data_ of the optimization problem *)
  fixed : list (Z * list (Z * val));            (* fixed_frame_pose_data_ *)
  tdata : list (Z * option val);                (* trajectory_data_: fixed_frame_origin_in_map *)
  options : list val                            (* all_trajectory_builder_options_ *)
}.
Definition set_sp v p := mk_pay v (np p) (cons_vals p) (landmarks p) (odometry p) (fixed p) (tdata p) (options p).
Definition set_np v p := mk_pay (sp p) v (cons_vals p) (landmarks p) (odometry p) (fixed p) (tdata p) (options p).
Definition set_cons_vals v p := mk_pay (sp p) (np p) v (landmarks p) (odometry p) (fixed p) (tdata p) (options p).
Definition set_landmarks v p := mk_pay (sp p) (np p) (cons_vals p) v (odometry p) (fixed p) (tdata p) (options p).
Definition set_odometry v p := mk_pay (sp p) (np p) (cons_vals p) (landmarks p) v (fixed p) (tdata p) (options p).
Definition set_fixed v p := mk_pay (sp p) (np p) (cons_vals p) (landmarks p) (odometry p) v (tdata p) (options p).
Definition set_tdata v p := mk_pay (sp p) (np p) (cons_vals p) (landmarks p) (odometry p) (fixed p) v (options p).
Definition set_options v p := mk_pay (sp p) (np p) (cons_vals p) (landmarks p) (odometry p) (fixed p) (tdata p) v.

(* ---- the messages ---- *)
(* proto::Trajectory: trajectory_id, the submap indices and node indices with their poses; the
   timestamps of the nodes are not read when loading and left out *)
Record traj_proto := mk_tp { tp_id : Z; tp_subs : list (Z * val); tp_nodes : list (Z * val) }.
(* proto::PoseGraph *)
Record graph_proto := mk_gp {
  gp_trajs : list traj_proto; gp_cons : list (cons * val); gp_landmarks : list (Z * val) }.
(* SerializationHeader and the cases of SerializedData.  IMU data is not kept in 2D, op:176-180 *)
Inductive msg :=
| MHeader (version : Z)
| MGraph (g : graph_proto)
| MOptions (l : list val)
| MSubmap (s : id) (finished : bool) (v : val)
| MNode (n : id) (v : val)
| MTrajectory (t : Z) (origin : option val)
| MOdometry (t time : Z) (v : val)
| MFixed (t time : Z) (v : val)
| MLandmark (t time lm : Z) (v : val).

(* ---- writing ---- *)
(* trajectory(id) of ToProto, pp:139-147, and what is done to the message it returns *)
Fixpoint at_traj (t : Z) (f : traj_proto -> traj_proto) (l : list traj_proto) : list traj_proto :=
  match l with
  | [] => [f (mk_tp t [] [])]
  | p :: r => if tp_id p =? t then f p :: r else p :: at_traj t f r
  end.
Definition add_sub (i : Z) (v : val) (p : traj_proto) : traj_proto :=
  mk_tp (tp_id p) (tp_subs p ++ [(i, v)]) (tp_nodes p).
Definition add_node (i : Z) (v : val) (p : traj_proto) : traj_proto :=
  mk_tp (tp_id p) (tp_subs p) (tp_nodes p ++ [(i, v)]).

(* whether a submap is written, pp:153-158 and ms:87-90 *)
Definition written (incl : bool) (p : pay) (s : id) : bool := incl || s_finished (sp p s).
(* GetSubmapDataUnderLock, pg:1133-1150: whether it returns; GetAllSubmapData, pg:1301-1309 *)
Definition submap_data_ok (g : graph) : bool :=
  forallb (fun e => has (fst e) (gposes g) || local_to_global_ok (gposes g) (fst (fst e)) g)
          (entries (subs g)).
(* ToProto, pp:135-210; the loop over orphaned_nodes has no effect on the result *)
Definition to_proto (incl : bool) (g : graph) (p : pay) : option graph_proto :=
  check submap_data_ok g ;;
  let ts := fold_left (fun ts e =>
              let s := fst e in
              at_traj (fst s) (fun q => if written incl p s then add_sub (snd s) (s_pose (sp p s)) q else q) ts)
              (entries (subs g)) [] in
  let unfinished := filter (fun s => negb (written incl p s)) (map fst (entries (subs g))) in
  check forallb (fun c => has (c_node c) (nodes g)) (constraints g) ;;
  let cs := filter (fun c => incl || negb (mem (c_sub (fst c)) unfinished)) (cons_vals p) in
  let ts := fold_left (fun ts e =>
              let n := fst e in at_traj (fst n) (add_node (snd n) (n_pose (np p n))) ts)
              (entries (nodes g)) ts in
  let ls := flat_map (fun e => match l_pose (snd e) with Some v => [(fst e, v)] | None => [] end)
                     (landmarks p) in
  Some (mk_gp ts cs ls).

(* GetValidTrajectoryIds, ms:46-56 *)
Definition valid_ids (g : graph) : list Z :=
  map fst (filter (fun e => match fst (snd e) with Deleted => false | _ => true end) (trajs g)).
(* CreateAllTrajectoryBuilderOptionsProto, ms:32-43; a read past the end is None *)
Fixpoint options_of (ids : list Z) (all : list val) : option (list val) :=
  match ids with
  | [] => Some []
  | t :: r =>
      check 0 <=? t ;;
      o <- nth_error all (Z.to_nat t) ;;
      os <- options_of r all ;;
      Some (o :: os)
  end.
(* kMappingStateSerializationFormatVersion and kFormatVersionWithoutSubmapHistograms,
   mapping_state_serialization.h:28-29 *)
Definition current_version : Z := 2.
Definition old_version : Z := 1.

(* SerializeSubmaps, ms:82-101; SerializeTrajectoryNodes, ms:103-116; SerializeTrajectoryData,
   ms:118-140; SerializeOdometryData, ms:155-169, and SerializeFixedFramePoseData, ms:171-187;
   SerializeLandmarkNodes, ms:189-210 *)
Definition submap_msgs (incl : bool) (g : graph) (p : pay) : list msg :=
  map (fun s => MSubmap s (s_finished (sp p s)) (s_val (sp p s)))
      (filter (written incl p) (map fst (entries (subs g)))).
Definition node_msgs (g : graph) (p : pay) : list msg :=
  map (fun e => MNode (fst e) (n_val (np p (fst e)))) (entries (nodes g)).
Definition tdata_msgs (p : pay) : list msg := map (fun e => MTrajectory (fst e) (snd e)) (tdata p).
Definition time_msgs (mk : Z -> Z -> val -> msg) (m : list (Z * list (Z * val))) : list msg :=
  flat_map (fun e => map (fun x => mk (fst e) (fst x) (snd x)) (snd e)) m.
Definition landmark_msgs (p : pay) : list msg :=
  flat_map (fun e => map (fun o => MLandmark (o_traj o) (o_time o) (fst e) (o_val o)) (l_obs (snd e)))
           (landmarks p).
(* WritePbStream, ms:214-234.  It reads the pose graph with many calls; they are taken to see the
   state (g, p) that is not changed in between; write_two below tells two states apart. *)
Definition write_two (incl : bool) (g : graph) (p : pay) (g2 : graph) (p2 : pay) : option (list msg) :=
  gp <- to_proto incl g p ;;
  os <- options_of (valid_ids g2) (options p2) ;;
  check submap_data_ok g2 ;;
  Some ([MHeader current_version; MGraph gp; MOptions os] ++
        submap_msgs incl g2 p2 ++ node_msgs g2 p2 ++ tdata_msgs p2 ++
        time_msgs MOdometry (odometry p2) ++ time_msgs MFixed (fixed p2) ++ landmark_msgs p2).
Definition write (incl : bool) (g : graph) (p : pay) : option (list msg) := write_two incl g p g p.

(* ---- loading ---- *)
(* the calls LoadState makes to the pose graph *)
Inductive lcall :=
| LFreeze (t : Z)
| LLandmarkPose (lm : Z) (v : val)
| LSubmap (s : id) (v : subval)
| LNode (n : id) (v : nodeval)
| LTrajectory (t : Z) (v : val)
| LOdometry (t time : Z) (v : val)
| LFixed (t time : Z) (v : val)
| LLandmark (t time lm : Z) (v : val)
| LNodeToSubmap (n s : id)
| LConstraints (l : list (cons * val)).

(* ProtoStreamDeserializer, pd:47-72, and ReadHeaderOrDie, IsVersionSupported, pd:26-36.  A
   message of one type read as another type is not modelled. *)
Definition deserialize (ms : list msg) : option (graph_proto * list val * list msg) :=
  match ms with
  | MHeader v :: MGraph g :: MOptions os :: r =>
      check (v =? current_version) || (v =? old_version) ;;
      check (length (gp_trajs g) =? length os)%nat ;;
      Some (g, os, r)
  | _ => None
  end.

(* the loop mb:227-241 with AddTrajectoryForDeserialization, mb:168-177: trajectory_remapping;
   n trajectory builders exist *)
Fixpoint remap_all (n : Z) (l : list traj_proto) (m : list (Z * Z)) : option (list (Z * Z)) :=
  match l with
  | [] => Some m
  | p :: r =>
      match zfind (tp_id p) m with
      | Some _ => None
      | None => remap_all (n + 1) r (zput (tp_id p) n m)
      end
  end.
(* trajectory_remapping.at *)
Definition re (m : list (Z * Z)) (x : id) : option id :=
  t <- zfind (fst x) m ;; Some (t, snd x).
(* the loop mb:244-249 *)
Fixpoint remap_cons (m : list (Z * Z)) (l : list (cons * val)) : option (list (cons * val)) :=
  match l with
  | [] => Some []
  | (c, v) :: r =>
      s <- re m (c_sub c) ;;
      n <- re m (c_node c) ;;
      l <- remap_cons m r ;;
      Some ((mk_cons s n (c_inter c), v) :: l)
  end.
(* the loops mb:252-270; the trajectory ids are the new ones *)
Fixpoint insert_poses (t : Z) (l : list (Z * val)) (m : mbi val) : option (mbi val) :=
  match l with
  | [] => Some m
  | (i, v) :: r => m <- mbi_insert t i v m ;; insert_poses t r m
  end.
Fixpoint poses (n : Z) (f : traj_proto -> list (Z * val)) (l : list traj_proto) (m : mbi val)
    : option (mbi val) :=
  match l with
  | [] => Some m
  | p :: r => m <- insert_poses n (f p) m ;; poses (n + 1) f r m
  end.
(* the loop mb:288-358: the calls for a message; fz is load_frozen_state.  A submap without 2D
   data is ignored, pg:691-693 (not modelled). *)
Definition load_msg (fz : bool) (m : list (Z * Z)) (sps nps : mbi val) (x : msg) : option (list lcall) :=
  match x with
  | MHeader _ | MGraph _ | MOptions _ => Some []
  | MSubmap s f v =>
      s <- re m s ;; q <- get s sps ;; Some [LSubmap s (mk_subval f q v)]
  | MNode n v =>
      n <- re m n ;; q <- get n nps ;; Some [LNode n (mk_nodeval q v)]
  | MTrajectory t o =>
      t <- zfind t m ;;
      Some match o with Some v => [LTrajectory t v] | None => [] end   (* pg:769-783 *)
  | MOdometry t time v => if fz then Some [] else t <- zfind t m ;; Some [LOdometry t time v]
  | MFixed t time v => if fz then Some [] else t <- zfind t m ;; Some [LFixed t time v]
  | MLandmark t time lm v => if fz then Some [] else t <- zfind t m ;; Some [LLandmark t time lm v]
  end.
Fixpoint load_msgs (fz : bool) (m : list (Z * Z)) (sps nps : mbi val) (l : list msg) : option (list lcall) :=
  match l with
  | [] => Some []
  | x :: r => a <- load_msg fz m sps nps x ;; b <- load_msgs fz m sps nps r ;; Some (a ++ b)
  end.
(* 0, 1, ... from n on *)
Fixpoint count_from (n : Z) (k : nat) : list Z :=
  match k with O => [] | S k => n :: count_from (n + 1) k end.
(* LoadState, mb:216-384, into a map builder with n trajectory builders: the calls, the remapping
   it returns and the options it adds.  The check of the version for 3D, mb:279-285, is left out;
   CHECK(reader->eof()) holds as all messages are read. *)
Definition load (fz : bool) (n : Z) (ms : list msg) : option (list lcall * list (Z * Z) * list val) :=
  r <- deserialize ms ;;
  let '(g, os, rest) := r in
  m <- remap_all n (gp_trajs g) [] ;;
  cs <- remap_cons m (gp_cons g) ;;
  sps <- poses n tp_subs (gp_trajs g) [] ;;
  nps <- poses n tp_nodes (gp_trajs g) [] ;;
  body <- load_msgs fz m sps nps rest ;;
  Some ((if fz then map LFreeze (count_from n (length (gp_trajs g))) else []) ++
        map (fun e => LLandmarkPose (fst e) (snd e)) (gp_landmarks g) ++
        body ++
        (if fz then map (fun e => LNodeToSubmap (c_node (fst e)) (c_sub (fst e)))
                        (filter (fun e => negb (c_inter (fst e))) cs)
         else [LConstraints cs]),
        m, os).

(* ---- what the calls do ---- *)
(* the call of PG_Model; ob are the objects made for the submaps, pg:702-704 *)
Definition plain (ob : id -> Z) (c : lcall) : call :=
  match c with
  | LFreeze t => FreezeTrajectory t
  | LLandmarkPose _ _ => SetLandmarkPose
  | LSubmap s _ => AddSubmapFromProto s (ob s)
  | LNode n _ => AddNodeFromProto n
  | LTrajectory t _ | LOdometry t _ _ | LFixed t _ _ | LLandmark t _ _ _ => AddData t
  | LNodeToSubmap n s => AddNodeToSubmap n s
  | LConstraints l => AddSerializedConstraints (map fst l)
  end.
Definition over {A} (x : id) (v : A) (f : id -> A) : id -> A := fun y => if id_eqb y x then v else f y.
(* the effect at once, pg:707-711 and 742-743 *)
Definition at_once (c : lcall) (p : pay) : pay :=
  match c with
  | LSubmap s v => set_sp (over s v (sp p)) p
  | LNode n v => set_np (over n v (np p)) p
  | _ => p
  end.
(* data_.landmark_nodes[lm] *)
Definition get_landmark (lm : Z) (l : list (Z * landmark)) : landmark :=
  match zfind lm l with Some x => x | None => mk_landmark [] None false end.
(* the effect of the work item *)
Definition in_item (c : lcall) (p : pay) : option pay :=
  match c with
  | LLandmarkPose lm v =>                                             (* pg:985-994 *)
      Some (set_landmarks (zput lm (mk_landmark (l_obs (get_landmark lm (landmarks p))) (Some v) true)
                                (landmarks p)) p)
  | LNode n _ =>                                                      (* op:204-208 *)
      Some (match zfind (fst n) (tdata p) with
            | Some _ => p
            | None => set_tdata (zput (fst n) None (tdata p)) p
            end)
  | LTrajectory t v => Some (set_tdata (zput t (Some v) (tdata p)) p)
  | LOdometry t time v =>
      m <- mbt_append t time v (odometry p) ;; Some (set_odometry m p)
  | LFixed t time v =>
      m <- mbt_append t time v (fixed p) ;; Some (set_fixed m p)
  | LLandmark t time lm v =>                                          (* pg:244-259 *)
      let l := get_landmark lm (landmarks p) in
      Some (set_landmarks (zput lm (mk_landmark (l_obs l ++ [mk_obs t time v]) (l_pose l) (l_frozen l))
                                (landmarks p)) p)
  | LConstraints l => Some (set_cons_vals (cons_vals p ++ l) p)
  | _ => Some p
  end.

(* the pose graph while a file is loaded: the calls whose items are in the queue, first first *)
Record lsys := mk_lsys { ls : sys; lp : pay; lq : list lcall }.
(* a call of LoadState, or one turn of the worker in DrainWorkQueue *)
Inductive levent := LCall (c : lcall) | LWork (o : id -> id -> verdict).
Definition lenabled (e : levent) (s : lsys) : bool :=
  match e, md (ls s) with
  | LCall _, _ | LWork _, Draining => true
  | _, _ => false
  end.
Definition lstep (ob : id -> Z) (every_n : Z) (e : levent) (s : lsys) : option lsys :=
  match e with
  | LCall c =>
      s' <- step every_n (Call (plain ob c)) (ls s) ;;
      Some (mk_lsys s' (at_once c (lp s)) (lq s ++ [c]))
  | LWork o =>
      s' <- step every_n (Work o) (ls s) ;;
      match lq s with
      | [] => Some (mk_lsys s' (lp s) [])
      | c :: q => p <- in_item c (lp s) ;; Some (mk_lsys s' p q)
      end
  end.
Fixpoint lrun (ob : id -> Z) (every_n : Z) (es : list levent) (s : lsys) : option lsys :=
  match es with
  | [] => Some s
  | e :: r => s <- lstep ob every_n e s ;; lrun ob every_n r s
  end.
Fixpoint lfair (ob : id -> Z) (every_n : Z) (es : list levent) (s : lsys) : Prop :=
  match es with
  | [] => True
  | e :: r => lenabled e s = true /\
              match lstep ob every_n e s with Some s' => lfair ob every_n r s' | None => True end
  end.
Definition calls_of (es : list levent) : list lcall :=
  flat_map (fun e => match e with LCall c => [c] | LWork _ => [] end) es.
(* LoadState on a map builder with the graph g whose queue is empty; AddTrajectoryForDeserialization
   adds the options os of the file.  The sensor data a frozen load skips is not read. *)
Definition load_start (g : graph) (p : pay) (os : list val) : lsys :=
  mk_lsys (mk_sys g [] Idle) (set_options (options p ++ os) p) [].
