(* Model of mapping::PoseGraph2D: which submaps, nodes and constraints exist, the states of the
   trajectories, the work queue and trimming.
   cartographer/mapping/internal/2d/pose_graph_2d.cc (pg below),
   cartographer/mapping/pose_graph_trimmer.cc (pt),
   cartographer/mapping/internal/optimization/optimization_problem_2d.cc (op),
   cartographer/mapping/internal/trajectory_connectivity_state.cc (tc).
   Poses, times, sensor data and landmarks are left out.  A failed CHECK, LOG(FATAL) and an
   exception of .at() are the outcome None.  Iteration over a MapById is over its entries in
   order (proved of its iterators in Properties_Maps). *)
From Coq Require Import List ZArith Bool.
From Verif Require Import ZMap MapById_Model.
Import ListNotations.
Open Scope Z_scope.

Definition bind {A B} (x : option A) (f : A -> option B) : option B :=
  match x with Some a => f a | None => None end.
Declare Scope pg_scope.
Notation "x <- e ;; f" := (bind e (fun x => f))
  (at level 61, e at next level, right associativity) : pg_scope.
Notation "'check' b ;; f" := (if b then f else None)
  (at level 61, b at next level, right associativity) : pg_scope.
Open Scope pg_scope.

(* NodeId and SubmapId, mapping/id.h:43-113 *)
Definition id : Type := Z * Z.
Definition id_eqb (a b : id) : bool := (fst a =? fst b) && (snd a =? snd b).
Definition id_ltb (a b : id) : bool :=
  (fst a <? fst b) || ((fst a =? fst b) && (snd a <? snd b)).
Definition mem (x : id) (l : list id) : bool := existsb (id_eqb x) l.
(* std::set<NodeId>::insert *)
Fixpoint set_add (x : id) (l : list id) : list id :=
  match l with
  | [] => [x]
  | y :: r => if id_ltb x y then x :: l else if id_eqb x y then l else y :: set_add x r
  end.

Section Maps.
Context {D : Type}.
Implicit Type m : mbi D.
(* at, id.h:317-323, and Contains *)
Definition get (x : id) m : option D := mbi_at (fst x) (snd x) m.
Definition has (x : id) m : bool := mbi_contains (fst x) (snd x) m.
(* assignment through the reference at() returns *)
Definition upd (x : id) (f : D -> D) m : option (mbi D) :=
  match zfind (fst x) m with
  | None => None
  | Some (can, data) =>
      match zfind (snd x) data with
      | None => None
      | Some v => Some (zput (fst x) (can, zput (snd x) (f v) data) m)
      end
  end.
(* the entries of one trajectory, id.h:361-367, and of all *)
Definition traj_entries (t : Z) m : list (id * D) :=
  match zfind t m with
  | None => []
  | Some (_, data) => map (fun e => ((t, fst e), snd e)) data
  end.
Definition entries m : list (id * D) :=
  flat_map (fun e => map (fun x => ((fst e, fst x), snd x)) (snd (snd e))) m.
(* std::prev(EndOfTrajectory(t))->id *)
Definition last_id (t : Z) m : option id :=
  match zfind t m with
  | None => None
  | Some (_, data) => match zlast data with None => None | Some (i, _) => Some (t, i) end
  end.
End Maps.

(* InternalSubmapData, pose_graph_data.h: the identity of the submap object, state == kFinished
   and node_ids *)
Record sub := mk_sub { obj : Z; fin : bool; nids : list id }.
(* TrajectoryState and DeletionState *)
Inductive tstate := Active | Finished | Frozen | Deleted.
Inductive dstate := Normal | Scheduled | Waiting.
(* Constraint: submap_id, node_id, tag == INTER_SUBMAP *)
Record cons := mk_cons { c_sub : id; c_node : id; c_inter : bool }.
(* PureLocalizationTrimmer with its fields, pose_graph_trimmer.h; the overlapping submaps
   trimmer is modelled by an arbitrary choice of submaps from GetOptimizedSubmapData *)
Inductive trimmer := Pure (t keep : Z) (finished : bool) | Overlapping.

(* data_ (PoseGraphData), the contents of optimization_problem_, trimmers_, the searches of
   constraint_builder_ whose results have not been delivered, and the counters *)
Record graph := mk_graph {
  subs : mbi sub;            (* data_.submap_data *)
  nodes : mbi unit;          (* data_.trajectory_nodes *)
  osubs : mbi unit;          (* optimization_problem_->submap_data() *)
  onodes : mbi unit;         (* optimization_problem_->node_data() *)
  gposes : mbi unit;         (* data_.global_submap_poses_2d *)
  constraints : list cons;          (* data_.constraints *)
  trajs : list (Z * (tstate * dstate));  (* data_.trajectories_state *)
  added : list Z;                   (* trajectories Add()ed to the connectivity state *)
  initial : list (Z * Z);           (* data_.initial_trajectory_poses: to_trajectory_id *)
  trimmers : list trimmer;
  searches : list (id * id);        (* (submap, node) *)
  num_nodes : Z;                    (* data_.num_trajectory_nodes *)
  num_finished : Z;                 (* constraint_builder_.GetNumFinishedNodes() *)
  since_closure : Z                 (* num_nodes_since_last_loop_closure_ *)
}.
Definition empty_graph : graph := mk_graph [] [] [] [] [] [] [] [] [] [] [] 0 0 0.

(* the fields assigned in the functions below *)
Definition set_subs v g := mk_graph v (nodes g) (osubs g) (onodes g) (gposes g) (constraints g) (trajs g) (added g) (initial g) (trimmers g) (searches g) (num_nodes g) (num_finished g) (since_closure g).
Definition set_nodes v g := mk_graph (subs g) v (osubs g) (onodes g) (gposes g) (constraints g) (trajs g) (added g) (initial g) (trimmers g) (searches g) (num_nodes g) (num_finished g) (since_closure g).
Definition set_osubs v g := mk_graph (subs g) (nodes g) v (onodes g) (gposes g) (constraints g) (trajs g) (added g) (initial g) (trimmers g) (searches g) (num_nodes g) (num_finished g) (since_closure g).
Definition set_onodes v g := mk_graph (subs g) (nodes g) (osubs g) v (gposes g) (constraints g) (trajs g) (added g) (initial g) (trimmers g) (searches g) (num_nodes g) (num_finished g) (since_closure g).
Definition set_gposes v g := mk_graph (subs g) (nodes g) (osubs g) (onodes g) v (constraints g) (trajs g) (added g) (initial g) (trimmers g) (searches g) (num_nodes g) (num_finished g) (since_closure g).
Definition set_constraints v g := mk_graph (subs g) (nodes g) (osubs g) (onodes g) (gposes g) v (trajs g) (added g) (initial g) (trimmers g) (searches g) (num_nodes g) (num_finished g) (since_closure g).
Definition set_trajs v g := mk_graph (subs g) (nodes g) (osubs g) (onodes g) (gposes g) (constraints g) v (added g) (initial g) (trimmers g) (searches g) (num_nodes g) (num_finished g) (since_closure g).
Definition set_added v g := mk_graph (subs g) (nodes g) (osubs g) (onodes g) (gposes g) (constraints g) (trajs g) v (initial g) (trimmers g) (searches g) (num_nodes g) (num_finished g) (since_closure g).
Definition set_initial v g := mk_graph (subs g) (nodes g) (osubs g) (onodes g) (gposes g) (constraints g) (trajs g) (added g) v (trimmers g) (searches g) (num_nodes g) (num_finished g) (since_closure g).
Definition set_trimmers v g := mk_graph (subs g) (nodes g) (osubs g) (onodes g) (gposes g) (constraints g) (trajs g) (added g) (initial g) v (searches g) (num_nodes g) (num_finished g) (since_closure g).
Definition set_searches v g := mk_graph (subs g) (nodes g) (osubs g) (onodes g) (gposes g) (constraints g) (trajs g) (added g) (initial g) (trimmers g) v (num_nodes g) (num_finished g) (since_closure g).
Definition set_num_nodes v g := mk_graph (subs g) (nodes g) (osubs g) (onodes g) (gposes g) (constraints g) (trajs g) (added g) (initial g) (trimmers g) (searches g) v (num_finished g) (since_closure g).
Definition set_num_finished v g := mk_graph (subs g) (nodes g) (osubs g) (onodes g) (gposes g) (constraints g) (trajs g) (added g) (initial g) (trimmers g) (searches g) (num_nodes g) v (since_closure g).
Definition set_since v g := mk_graph (subs g) (nodes g) (osubs g) (onodes g) (gposes g) (constraints g) (trajs g) (added g) (initial g) (trimmers g) (searches g) (num_nodes g) (num_finished g) v.

(* trajectories_state[t]: ACTIVE, NORMAL when absent *)
Definition traj_state (t : Z) (g : graph) : tstate * dstate :=
  match zfind t (trajs g) with Some s => s | None => (Active, Normal) end.
(* IsTrajectoryFinished, pg:648-652; IsTrajectoryFrozen, pg:683-687 *)
Definition is_finished (t : Z) (g : graph) : bool :=
  match fst (traj_state t g) with Finished => true | _ => false end.
Definition is_frozen (t : Z) (g : graph) : bool :=
  match fst (traj_state t g) with Frozen => true | _ => false end.

(* trajectory_connectivity_state.Connect, tc:26-55: GetComponent CHECKs that both are known
   unless they are connected already; both known leaves the set of known trajectories alone *)
Definition knows (t : Z) (g : graph) : bool := existsb (Z.eqb t) (added g).
Definition connect_ok (a b : Z) (g : graph) : bool := (a =? b) || (knows a g && knows b g).

(* AddTrajectoryIfNeeded, pg:192-207; the sampler is left out *)
Definition add_trajectory (t : Z) (g : graph) : option graph :=
  match traj_state t g with
  | (Active, Normal) | (Frozen, Normal) =>
      Some (set_added (t :: added g) (set_trajs (zput t (traj_state t g) (trajs g)) g))
  | _ => None
  end.
(* CanAddWorkItemModifying, pg:911-937: true or LOG(FATAL) *)
Definition can_modify (t : Z) (g : graph) : bool :=
  match zfind t (trajs g) with
  | None => true
  | Some (Active, Normal) | Some (Frozen, Normal) => true
  | Some _ => false
  end.

(* ComputeLocalToGlobalTransform, pg:1109-1131, with GetInterpolatedGlobalTrajectoryPose,
   pg:1050-1069: whether it returns *)
Definition local_to_global_ok (poses : mbi unit) (t : Z) (g : graph) : bool :=
  match last_id t poses with
  | None =>
      match zfind t (initial g) with
      | Some to => negb (mbi_traj_size to (nodes g) =? 0)%nat
      | None => true
      end
  | Some x => has x (subs g)
  end.

(* work items, in the order of the functions that make them *)
Inductive item :=
| INode (n : id) (objs : list Z) (newly : bool)   (* AddNode, pg:167-170 *)
| IData (t : Z)                (* Add...Data and SetTrajectoryDataFromProto, pg:209-259, 774-782 *)
| IDelete (t : Z)              (* pg:621-632 *)
| IFinish (t : Z)              (* pg:636-645 *)
| IFreeze (t : Z)              (* pg:659-680 *)
| ISubmap (s : id)             (* AddSubmapFromProto, pg:722-728 *)
| INodeProto (n : id)          (* AddNodeFromProto, pg:746-761 *)
| INodeToSubmap (n s : id)     (* pg:788-794 *)
| IConstraints (l : list cons) (* AddSerializedConstraints, pg:799-828 *)
| ITrimmer (tr : trimmer)      (* pg:834-838 *)
| IOptimize                    (* RunFinalOptimization, first item, pg:843-848 *)
| IOther.                      (* its second item and SetLandmarkPose, pg:849-856, 988-993 *)

(* AppendNode, pg:126-152; insertion_submaps.back() of an empty vector is None *)
Definition append_node (t : Z) (objs : list Z) (g : graph) : option (id * graph) :=
  match rev objs with
  | [] => None
  | o :: _ =>
      g <- add_trajectory t g ;;
      check can_modify t g ;;
      r <- mbi_append t tt (nodes g) ;;
      let g := set_num_nodes (num_nodes g + 1) (set_nodes (snd r) g) in
      let new :=
        match last_id t (subs g) with
        | None => true
        | Some x => match get x (subs g) with Some s => negb (obj s =? o) | None => true end
        end in
      if new then
        q <- mbi_append t (mk_sub o false []) (subs g) ;;
        Some (fst r, set_subs (snd q) g)
      else Some (fst r, g)
  end.

(* the public functions.  Each is one atomic step; in C++ AddNode takes the mutex twice and the
   lock of the queue once, so another thread may get in between (not modelled). *)
Inductive call :=
| AddNode (t : Z) (objs : list Z) (newly : bool)
| AddData (t : Z)
| DeleteTrajectory (t : Z)
| FinishTrajectory (t : Z)
| FreezeTrajectory (t : Z)
| AddSubmapFromProto (s : id) (o : Z)
| AddNodeFromProto (n : id)
| AddNodeToSubmap (n s : id)
| AddSerializedConstraints (l : list cons)
| AddTrimmer (tr : trimmer)
| RunFinalOptimization         (* without the waiting *)
| SetLandmarkPose
| SetInitialTrajectoryPose (from to : Z)
| GetLocalToGlobalTransform (t : Z)
| GetConstraints.
(* what a call does at once and the items it adds to the queue *)
Definition do_call (c : call) (g : graph) : option (graph * list item) :=
  match c with
  | AddNode t objs newly =>                                  (* pg:154-172 *)
      check local_to_global_ok (gposes g) t g ;;
      r <- append_node t objs g ;;
      Some (snd r, [INode (fst r) objs newly])
  | AddData t => Some (g, [IData t])
  | DeleteTrajectory t =>                                    (* pg:609-633 *)
      match zfind t (trajs g) with
      | None => Some (g, [])
      | Some (s, _) => Some (set_trajs (zput t (s, Scheduled) (trajs g)) g, [IDelete t])
      end
  | FinishTrajectory t => Some (g, [IFinish t])
  | FreezeTrajectory t => Some (set_added (t :: added g) g, [IFreeze t])  (* pg:655-658 *)
  | AddSubmapFromProto s o =>                                (* pg:689-729 *)
      g <- add_trajectory (fst s) g ;;
      check can_modify (fst s) g ;;
      m <- mbi_insert (fst s) (snd s) (mk_sub o false []) (subs g) ;;
      p <- mbi_insert (fst s) (snd s) tt (gposes g) ;;
      Some (set_gposes p (set_subs m g), [ISubmap s])
  | AddNodeFromProto n =>                                    (* pg:731-762 *)
      g <- add_trajectory (fst n) g ;;
      check can_modify (fst n) g ;;
      m <- mbi_insert (fst n) (snd n) tt (nodes g) ;;
      Some (set_nodes m g, [INodeProto n])
  | AddNodeToSubmap n s => Some (g, [INodeToSubmap n s])
  | AddSerializedConstraints l => Some (g, [IConstraints l])
  | AddTrimmer tr =>
      match tr with
      | Pure _ keep _ => check 2 <=? keep ;; Some (g, [ITrimmer tr])   (* pt:26 *)
      | Overlapping => Some (g, [ITrimmer tr])
      end
  | RunFinalOptimization => Some (g, [IOptimize; IOther])
  | SetLandmarkPose => Some (g, [IOther])
  | SetInitialTrajectoryPose from to => Some (set_initial (zput from to (initial g)) g, [])
  | GetLocalToGlobalTransform t =>                           (* pg:1071-1076 *)
      check local_to_global_ok (gposes g) t g ;; Some (g, [])
  | GetConstraints =>                                        (* pg:1024-1039 *)
      check forallb (fun c => has (c_node c) (nodes g)) (constraints g) ;; Some (g, [])
  end.

(* GetLatestNodeTime, pg:404-416: whether it returns *)
Definition latest_ok (n s : id) (g : graph) : bool :=
  has n (nodes g) &&
  match get s (subs g) with
  | None => false
  | Some d => match rev (nids d) with [] => true | x :: _ => has x (nodes g) end
  end.

(* What the environment decides for a pair in ComputeConstraint: the submap object is not
   insertion_finished(); there is a recent connection; a search is started (sampler, distance) *)
Record verdict := mk_verdict { v_skip : bool; v_recent : bool; v_search : bool }.

(* ComputeConstraint, pg:261-310 *)
Definition compute_constraint (v : verdict) (n s : id) (g : graph) : option graph :=
  match get s (subs g) with
  | None => None
  | Some d =>
      check fin d ;;
      if v_skip v then Some g else
      check latest_ok n s g ;;
      check if (fst n =? fst s) || v_recent v then has s (osubs g) && has n (onodes g) else true ;;
      Some (if v_search v then set_searches (searches g ++ [(s, n)]) g else g)
  end.
Fixpoint compute_all (o : id -> id -> verdict) (l : list (id * id)) (g : graph) : option graph :=
  match l with
  | [] => Some g
  | (n, s) :: r => g <- compute_constraint (o n s) n s g ;; compute_all o r g
  end.

(* InitializeGlobalSubmapPoses, pg:75-124 *)
Definition same_obj (x : id) (o : Z) (g : graph) : option bool :=
  match get x (subs g) with Some d => Some (obj d =? o) | None => None end.
Definition initialize_poses (t : Z) (objs : list Z) (g : graph) : option (list id * graph) :=
  match objs with
  | [o] =>
      g <- (if (mbi_traj_size t (osubs g) =? 0)%nat then
              check match zfind t (initial g) with Some to => connect_ok t to g | None => true end ;;
              check local_to_global_ok (gposes g) t g ;;
              r <- mbi_append t tt (osubs g) ;;
              Some (set_osubs (snd r) g)
            else Some g) ;;
      check (mbi_traj_size t (osubs g) =? 1)%nat ;;
      b <- same_obj (t, 0) o g ;;
      check b ;;
      Some ([(t, 0)], g)
  | [o1; o2] =>
      match last_id t (osubs g) with
      | None => None
      | Some last =>
          b <- same_obj last o1 g ;;
          if b : bool then
            r <- mbi_append t tt (osubs g) ;;
            Some ([last; (t, snd last + 1)], set_osubs (snd r) g)
          else
            b2 <- same_obj last o2 g ;;
            check b2 ;;
            b1 <- same_obj (t, snd last - 1) o1 g ;;
            check b1 ;;
            Some ([(t, snd last - 1); last], g)
      end
  | _ => None
  end.

(* the loop pg:340-357 *)
Fixpoint insert_node (n : id) (ss : list id) (g : graph) : option graph :=
  match ss with
  | [] => Some g
  | s :: r =>
      d <- get s (subs g) ;;
      check negb (fin d) ;;
      m <- upd s (fun d => mk_sub (obj d) (fin d) (set_add n (nids d))) (subs g) ;;
      insert_node n r (set_constraints (constraints g ++ [mk_cons s n false]) (set_subs m g))
  end.

(* ComputeConstraintsForNode, pg:312-402.  Executed without calls of other threads in between.
   every_n is options_.optimize_every_n_nodes(); true: kRunOptimization *)
Definition node_item (every_n : Z) (o : id -> id -> verdict) (n : id) (objs : list Z) (newly : bool)
    (g : graph) : option (graph * bool) :=
  check has n (nodes g) ;;
  r <- initialize_poses (fst n) objs g ;;
  let ss := fst r in
  let g := snd r in
  match ss with
  | [] => None
  | front :: _ =>
      check has front (osubs g) ;;
      m <- mbi_append (fst front) tt (onodes g) ;;
      g <- insert_node n ss (set_onodes (snd m) g) ;;
      let finished := filter (fun e => fin (snd e)) (entries (subs g)) in
      check forallb (fun e => negb (mem n (nids (snd e)))) finished ;;
      r <- (if newly : bool then
              d <- get front (subs g) ;;
              check negb (fin d) ;;
              m <- upd front (fun d => mk_sub (obj d) true (nids d)) (subs g) ;;
              Some (set_subs m g, nids d)
            else Some (g, [])) ;;
      g <- compute_all o (map (fun e => (n, fst e)) finished) (fst r) ;;
      g <- (if newly : bool then
              compute_all o (map (fun e => (fst e, front))
                               (filter (fun e => negb (mem (fst e) (snd r))) (entries (onodes g)))) g
            else Some g) ;;
      let g := set_since (since_closure g + 1) (set_num_finished (num_finished g + 1) g) in
      Some (g, (0 <? every_n) && (every_n <? since_closure g))
  end.

(* the loop pg:641-643 *)
Definition finish_submaps (t : Z) (m : mbi sub) : mbi sub :=
  match zfind t m with
  | None => m
  | Some (can, data) =>
      zput t (can, map (fun e => (fst e, mk_sub (obj (snd e)) true (nids (snd e)))) data) m
  end.

(* the loop pg:801-825 *)
Fixpoint add_constraints (l : list cons) (g : graph) : option graph :=
  match l with
  | [] => Some g
  | c :: r =>
      check has (c_node c) (nodes g) ;;
      d <- get (c_sub c) (subs g) ;;
      g <- (if c_inter c then
              (* UpdateTrajectoryConnectivity, pg:418-425 *)
              check latest_ok (c_node c) (c_sub c) g ;;
              check connect_ok (fst (c_node c)) (fst (c_sub c)) g ;;
              Some g
            else
              check negb (mem (c_node c) (nids d)) ;;
              m <- upd (c_sub c) (fun d => mk_sub (obj d) (fin d) (set_add (c_node c) (nids d))) (subs g) ;;
              Some (set_subs m g)) ;;
      add_constraints r (set_constraints (constraints g ++ [c]) g)
  end.

(* a work item; true: kRunOptimization *)
Definition exec (every_n : Z) (o : id -> id -> verdict) (i : item) (g : graph)
    : option (graph * bool) :=
  match i with
  | INode n objs newly => node_item every_n o n objs newly g
  | IData t => check can_modify t g ;; Some (g, false)
  | IDelete t =>
      match zfind t (trajs g) with
      | Some ((Finished | Frozen) as s, Scheduled) =>
          Some (set_trajs (zput t (s, Waiting) (trajs g)) g, false)
      | _ => None
      end
  | IFinish t =>
      check negb (is_finished t g) ;;
      Some (set_subs (finish_submaps t (subs g))
              (set_trajs (zput t (Finished, snd (traj_state t g)) (trajs g)) g), true)
  | IFreeze t =>
      check negb (is_frozen t g) ;;
      check forallb (fun e => if is_frozen (fst e) g then connect_ok t (fst e) g else true) (trajs g) ;;
      Some (set_trajs (zput t (Frozen, snd (traj_state t g)) (trajs g)) g, false)
  | ISubmap s =>
      m <- upd s (fun d => mk_sub (obj d) true (nids d)) (subs g) ;;
      p <- mbi_insert (fst s) (snd s) tt (osubs g) ;;
      Some (set_osubs p (set_subs m g), false)
  | INodeProto n =>
      check has n (nodes g) ;;
      p <- mbi_insert (fst n) (snd n) tt (onodes g) ;;
      Some (set_onodes p g, false)
  | INodeToSubmap n s =>
      check can_modify (fst s) g ;;
      m <- upd s (fun d => mk_sub (obj d) (fin d) (set_add n (nids d))) (subs g) ;;
      Some (set_subs m g, false)
  | IConstraints l => g <- add_constraints l g ;; Some (g, false)
  | ITrimmer tr => Some (set_trimmers (trimmers g ++ [tr]) g, false)
  | IOptimize => Some (g, true)
  | IOther => Some (g, false)
  end.

(* RunOptimization, pg:861-909, with the look-ups of Solve, op:240-410; the numbers of the
   solution are left out *)
Definition run_optimization (g : graph) : option graph :=
  match entries (osubs g) with
  | [] => Some g
  | _ =>
      check match entries (onodes g) with
            | [] => true
            | _ => forallb (fun c => has (c_sub c) (osubs g) && has (c_node c) (onodes g))
                           (constraints g)
            end ;;
      check forallb (fun e => has (fst e) (nodes g)) (entries (onodes g)) ;;
      check forallb (fun e => local_to_global_ok (osubs g) (fst e) g &&
                              local_to_global_ok (gposes g) (fst e) g) (onodes g) ;;
      Some (set_gposes (osubs g) g)
  end.

(* the loop pg:1295-1298; TrimTrajectoryNode, op:210-218, without the sensor data *)
Fixpoint remove_nodes (l : list id) (g : graph) : option graph :=
  match l with
  | [] => Some g
  | n :: r =>
      m <- mbi_trim (fst n) (snd n) (nodes g) ;;
      p <- mbi_trim (fst n) (snd n) (onodes g) ;;
      remove_nodes r (set_onodes p (set_nodes m g))
  end.
(* TrimmingHandle::TrimSubmap, pg:1207-1299; the scan matchers and the metrics are left out *)
Definition trim_submap (s : id) (g : graph) : option graph :=
  d <- get s (subs g) ;;
  check fin d ;;
  let retain := flat_map (fun e => nids (snd e))
                  (filter (fun e => negb (id_eqb (fst e) s)) (entries (subs g))) in
  let remove := filter (fun n => negb (mem n retain)) (nids d) in
  let keep c := negb (id_eqb (c_sub c) s) in
  let keep' c := negb (mem (c_node c) remove) in
  m <- mbi_trim (fst s) (snd s) (subs g) ;;
  p <- mbi_trim (fst s) (snd s) (osubs g) ;;
  remove_nodes remove
    (set_osubs p (set_subs m (set_constraints (filter keep' (filter keep (constraints g))) g))).
Fixpoint trim_all (l : list id) (g : graph) : option graph :=
  match l with
  | [] => Some g
  | s :: r => g <- trim_submap s g ;; trim_all r g
  end.

(* GetSubmapIds, pg:1178-1186 *)
Definition submap_ids (t : Z) (g : graph) : list id := map fst (traj_entries t (osubs g)).

(* DeleteTrajectoriesIfNeeded, pg:427-442 *)
Fixpoint delete_trajectories (l : list (Z * (tstate * dstate))) (g : graph) : option graph :=
  match l with
  | [] => Some g
  | (t, (_, Waiting)) :: r =>
      g <- trim_all (submap_ids t g) g ;;
      delete_trajectories r (set_trajs (zput t (Deleted, Normal) (trajs g)) g)
  | _ :: r => delete_trajectories r g
  end.

(* PureLocalizationTrimmer::Trim, pt:29-44 *)
Definition trim_pure (t keep : Z) (g : graph) : option (trimmer * graph) :=
  let keep := if is_finished t g then 0 else keep in
  let ids := submap_ids t g in
  g <- trim_all (firstn (length ids - Z.to_nat keep) ids) g ;;
  Some (if keep =? 0
        then (Pure t keep true,
              set_trajs (zput t (Deleted, snd (traj_state t g)) (trajs g)) g)
        else (Pure t keep false, g)).
(* GetOptimizedSubmapData, pg:1160-1176 *)
Definition optimized (g : graph) : list id :=
  map fst (filter (fun e => fin (snd e) && has (fst e) (gposes g)) (entries (subs g))).
(* Trim of one trimmer; an overlapping submaps trimmer trims those of the optimized submaps
   that are in ch *)
Definition trim_one (ch : list id) (tr : trimmer) (g : graph) : option (trimmer * graph) :=
  match tr with
  | Pure t keep _ => trim_pure t keep g
  | Overlapping => g <- trim_all (filter (fun x => mem x ch) (optimized g)) g ;; Some (tr, g)
  end.
(* the loop pg:485-487 *)
Fixpoint trim_with (chs : nat -> list id) (k : nat) (l : list trimmer) (g : graph)
    : option (list trimmer * graph) :=
  match l with
  | [] => Some ([], g)
  | tr :: r =>
      a <- trim_one (chs k) tr g ;;
      b <- trim_with chs (S k) r (snd a) ;;
      Some (fst a :: fst b, snd b)
  end.
Definition trimmer_done (tr : trimmer) : bool :=
  match tr with Pure _ _ f => f | Overlapping => false end.

(* the last part of HandleWorkQueue, pg:478-515: every_result is UpdateTrajectoryConnectivity *)
Definition finish_handling (res : list cons) (chs : nat -> list id) (g : graph) : option graph :=
  check forallb (fun c => c_inter c && latest_ok (c_node c) (c_sub c) g &&
                          connect_ok (fst (c_node c)) (fst (c_sub c)) g) res ;;
  g <- delete_trajectories (trajs g) g ;;
  r <- trim_with chs 0 (trimmers g) g ;;
  Some (set_since 0 (set_trimmers (filter (fun tr => negb (trimmer_done tr)) (fst r)) (snd r))).

(* What the worker is at: no queue; DrainWorkQueue, pg:520-544; waiting for the constraint
   builder; the three parts of HandleWorkQueue, pg:444-518, between which calls can happen. *)
Inductive mode := Idle | Draining | Awaiting | Optimizing (res : list cons) | Handling (res : list cons).
Record sys := mk_sys { gr : graph; queue : list item; md : mode }.
Definition init : sys := mk_sys empty_graph [] Idle.

(* the constraints the finished searches yield: a choice from them *)
Definition results (found : id -> id -> bool) (g : graph) : list cons :=
  map (fun p => mk_cons (fst p) (snd p) true)
      (filter (fun p => found (fst p) (snd p)) (searches g)).

Inductive event :=
| Call (c : call)
| Work (o : id -> id -> verdict)          (* one turn of the loop of DrainWorkQueue *)
| Deliver (found : id -> id -> bool)      (* the callback of WhenDone, pg:446-450 *)
| Optimize                                (* pg:451 *)
| Handle (chs : nat -> list id)           (* pg:478-517 *)
| Wait (found : id -> id -> bool).        (* WaitForAllComputations, pg:546-607, atomic *)

Definition enabled (e : event) (s : sys) : bool :=
  match e, md s with
  | Call _, _ => true
  | Work _, Draining => true
  | Deliver _, Awaiting => true
  | Optimize, Optimizing _ => true
  | Handle _, Handling _ => true
  | Wait _, Idle => true
  | _, _ => false
  end.
(* an enabled event; None: the process dies.  AddWorkItem, pg:174-190, makes the queue and
   schedules DrainWorkQueue when there is no queue. *)
Definition step (every_n : Z) (e : event) (s : sys) : option sys :=
  match e, md s with
  | Call c, _ =>
      r <- do_call c (gr s) ;;
      Some (mk_sys (fst r) (queue s ++ snd r)
              (match md s, snd r with Idle, _ :: _ => Draining | _, _ => md s end))
  | Work o, Draining =>
      match queue s with
      | [] => Some (mk_sys (gr s) [] Idle)
      | i :: q => r <- exec every_n o i (gr s) ;;
                  Some (mk_sys (fst r) q (if snd r : bool then Awaiting else Draining))
      end
  | Deliver found, Awaiting =>
      let res := results found (gr s) in
      Some (mk_sys (set_searches [] (set_constraints (constraints (gr s) ++ res) (gr s)))
              (queue s) (Optimizing res))
  | Optimize, Optimizing res =>
      g <- run_optimization (gr s) ;; Some (mk_sys g (queue s) (Handling res))
  | Handle chs, Handling res =>
      g <- finish_handling res chs (gr s) ;; Some (mk_sys g (queue s) Draining)
  | Wait found, Idle =>
      let g := gr s in
      check num_finished g =? num_nodes g ;;
      Some (mk_sys (set_searches [] (set_constraints (constraints g ++ results found g) g))
              (queue s) Idle)
  | _, _ => Some s
  end.
Fixpoint run (every_n : Z) (es : list event) (s : sys) : option sys :=
  match es with
  | [] => Some s
  | e :: r => s <- step every_n e s ;; run every_n r s
  end.
(* every event is enabled when it happens *)
Fixpoint fair (every_n : Z) (es : list event) (s : sys) : Prop :=
  match es with
  | [] => True
  | e :: r => enabled e s = true /\
              match step every_n e s with Some s' => fair every_n r s' | None => True end
  end.
