(* OptimizationProblem2D, cartographer/mapping/internal/optimization/optimization_problem_2d.cc
   (called op below): its data and the problem it hands to the solver.  A failed CHECK, an
   exception of .at() and a dereferenced end iterator are None.  Iteration over a MapById is over
   its entries in order (proved of its iterators in Properties_Maps), except for landmarks, where
   the iterators are used directly. *)
From Coq Require Import List ZArith Bool.
From Verif Require Import ZMap MapById_Model PG_Model.
Import ListNotations.
Open Scope Z_scope.
Open Scope pg_scope.

(* Poses and what is computed from them *)
Record geometry := mk_geometry {
  P2 : Type; P3 : Type;                                    (* Rigid2d and Rigid3d *)
  Arr : Type;                                              (* std::array<double, 3> *)
  Larr : Type;                                             (* CeresPose *)
  Grav : Type;                                             (* gravity_alignment *)
  Seen : Type;                                             (* landmark_to_tracking_transform and weights *)
  Rel : Type;                                              (* Constraint::Pose *)
  from_pose : P2 -> Arr; to_pose : Arr -> P2;              (* op:78-86 *)
  to_ceres : P3 -> Larr; to_rigid : Larr -> P3;
  project : P3 -> P2; embed : P2 -> P3;
  compose : P2 -> P2 -> P2; invert : P2 -> P2;
  blend : Z * P3 -> Z * P3 -> Z -> P3;                     (* timestamped_transform.cc:30-38 *)
  odometry_step : Grav -> P3 -> P3 -> Grav -> P3;          (* op:459-463 *)
  (* GetInitialLandmarkPose, op:90-107, with times and gravity of the nodes *)
  first_sight : Z * Seen -> Z * Grav -> Z * Grav -> Arr -> Arr -> P3 }.

Section Problem.
Variable G : geometry.

(* NodeSpec2D, optimization_problem_2d.h:43-48 *)
Record node := mk_node { n_time : Z; n_local : P2 G; n_grav : Grav G; n_global : P2 G }.
(* Constraint, pose_graph_interface.h:36-53; k_inter is tag == INTER_SUBMAP *)
Record constraint := mk_constraint { k_sub : id; k_node : id; k_pose : Rel G; k_inter : bool }.
(* LandmarkNode with its observations, pose_graph_interface.h:55-66 *)
Record sighting := mk_sighting { s_traj : Z; s_time : Z; s_seen : Seen G }.
Record landmark := mk_landmark { l_seen : list sighting; l_pose : option (P3 G); l_frozen : bool }.

(* optimization_problem_2d.h:128-134; of TrajectoryData only fixed_frame_origin_in_map; landmark ids
   are numbers in the order of the strings *)
Record data := mk_data {
  o_subs : mbi (P2 G);
  o_nodes : mbi node;
  o_odo : mbt (P3 G);
  o_frames : mbt (option (P3 G));
  o_traj : list (Z * option (P3 G));
  o_landmarks : list (Z * P3 G) }.
(* op:170-172 *)
Definition empty_data : data := mk_data [] [] [] [] [] [].
(* assignments to one member *)
Definition set_nodes m o := mk_data (o_subs o) m (o_odo o) (o_frames o) (o_traj o) (o_landmarks o).
Definition set_traj m o := mk_data (o_subs o) (o_nodes o) (o_odo o) (o_frames o) m (o_landmarks o).
Definition set_subs m o := mk_data m (o_nodes o) (o_odo o) (o_frames o) (o_traj o) (o_landmarks o).

(* trajectory_data_[t], op:196 and 207 *)
Definition touch (t : Z) (m : list (Z * option (P3 G))) : list (Z * option (P3 G)) :=
  match zfind t m with Some _ => m | None => zput t None m end.

(* The modifying members, op:182-232 *)
Inductive op :=
  | AddOdometry (t q : Z) (p : P3 G)
  | AddFixedFrame (t q : Z) (p : option (P3 G))
  | AddNode (t : Z) (n : node)
  | InsertNode (x : id) (n : node)
  | TrimNode (x : id)
  | SetTrajectory (t : Z) (origin : option (P3 G))
  | AddSubmap (t : Z) (p : P2 G)
  | InsertSubmap (x : id) (p : P2 G)
  | TrimSubmap (x : id).
Definition apply (c : op) (o : data) : option data :=
  match c with
  | AddOdometry t q p =>
      m <- mbt_append t q p (o_odo o);; Some (mk_data (o_subs o) (o_nodes o) m (o_frames o) (o_traj o) (o_landmarks o))
  | AddFixedFrame t q p =>
      m <- mbt_append t q p (o_frames o);; Some (mk_data (o_subs o) (o_nodes o) (o_odo o) m (o_traj o) (o_landmarks o))
  | AddNode t n =>
      r <- mbi_append t n (o_nodes o);; Some (set_traj (touch t (o_traj o)) (set_nodes (snd r) o))
  | InsertNode x n =>
      m <- mbi_insert (fst x) (snd x) n (o_nodes o);; Some (set_traj (touch (fst x) (o_traj o)) (set_nodes m o))
  | TrimNode x =>
      _ <- mbt_trim n_time (o_nodes o) (fst x) (snd x) ([] : mbt unit);;       (* empty_imu_data_ *)
      od <- mbt_trim n_time (o_nodes o) (fst x) (snd x) (o_odo o);;
      fr <- mbt_trim n_time (o_nodes o) (fst x) (snd x) (o_frames o);;
      m <- mbi_trim (fst x) (snd x) (o_nodes o);;
      Some (mk_data (o_subs o) m od fr
              (if Nat.eqb (mbi_traj_size (fst x) m) 0 then zerase (fst x) (o_traj o) else o_traj o) (o_landmarks o))
  | SetTrajectory t origin => Some (set_traj (zput t origin (o_traj o)) o)
  | AddSubmap t p => r <- mbi_append t p (o_subs o);; Some (set_subs (snd r) o)
  | InsertSubmap x p => m <- mbi_insert (fst x) (snd x) p (o_subs o);; Some (set_subs m o)
  | TrimSubmap x => m <- mbi_trim (fst x) (snd x) (o_subs o);; Some (set_subs m o)
  end.

(* transform::Interpolate, timestamped_transform.cc:24-39 *)
Definition interpolate (a b : Z * P3 G) (q : Z) : option (P3 G) :=
  check (fst a <=? q);; check (q <=? fst b);; Some (blend G a b q).
(* InterpolateOdometry, op:430-447, on the odometry of the trajectory; nullptr is Some None *)
Definition odometry_at (tr : list (Z * P3 G)) (q : Z) : option (option (P3 G)) :=
  match zlower q tr with
  | [] => Some None
  | (s, p) :: _ =>
      match zprev s tr with
      | None => Some (if s =? q then Some p else None)
      | Some e => r <- interpolate e (s, p) q;; Some (Some r)
      end
  end.
(* Interpolate for fixed frame poses, op:48-73 *)
Definition frame_at (tr : list (Z * option (P3 G))) (q : Z) : option (option (P3 G)) :=
  match zlower q tr with
  | (s, Some p) :: _ =>
      match zprev s tr with
      | None => Some (if s =? q then Some p else None)
      | Some (s0, Some p0) => r <- interpolate (s0, p0) (s, p) q;; Some (Some r)
      | Some (_, None) => Some None
      end
  | _ => Some None
  end.
(* CalculateOdometryBetweenNodes, op:449-468; HasTrajectory is the presence of the entry *)
Definition odometry_between (t : Z) (a b : node) (o : data) : option (option (P3 G)) :=
  match zfind t (o_odo o) with
  | None => Some None
  | Some tr =>
      pa <- odometry_at tr (n_time a);;
      pb <- odometry_at tr (n_time b);;
      Some (match pa, pb with
            | Some pa, Some pb => Some (odometry_step G (n_grav a) pa pb (n_grav b))
            | _, _ => None
            end)
  end.

(* parameter blocks, op:271, 283, 387 and 145; residual blocks, op:158, 290, 329, 341 and 392.  Loss
   functions and the weights of the options are left out. *)
Inductive param := PSub (x : id) | PNode (x : id) | PFrame (t : Z) | PLandmark (l : Z).
Inductive residual :=
  | RConstraint (c : constraint)
  | RLandmark (l : Z) (s : sighting) (a b : id)
  | ROdometry (p : P3 G) (a b : id)
  | RLocal (p : P2 G) (a b : id)                 (* before Embed3D *)
  | RFrame (p : P3 G) (t : Z) (x : id).
Record problem := mk_problem {
  q_subs : list (id * Arr G);                    (* C_submaps *)
  q_nodes : list (id * Arr G);                   (* C_nodes *)
  q_landmarks : list (Z * Larr G);               (* C_landmarks *)
  q_frames : list (Z * Arr G);                   (* C_fixed_frames *)
  q_const : list param;                          (* SetParameterBlockConstant *)
  q_res : list residual }.
(* C_submaps.at and C_nodes.at *)
Definition find_id {A} (x : id) (l : list (id * A)) : option A :=
  option_map snd (find (fun e => id_eqb x (fst e)) l).

(* The landmark observation between nodes, op:118-135: None inside if it is not used *)
Definition sighted (m : mbi node) (s : sighting) : option (option ((id * node) * (id * node))) :=
  let b := it_begin m (s_traj s) in
  first <- it_deref b;;
  if s_time s <? n_time (snd first) then Some None
  else
    next <- mbi_lower_bound n_time (s_traj s) (s_time s) m;;
    if it_eqb next (it_end m (s_traj s)) then Some None
    else
      next <- (if it_eqb next b then it_next next else Some next);;
      prev <- it_prev m next;;
      a <- it_deref prev;;
      z <- it_deref next;;
      Some (Some (a, z)).
(* the body of the loops of op:115-165; l is the id *)
Definition add_sighting (m : mbi node) (l : Z) (k : landmark) (s : sighting) (q : problem) : option problem :=
  r <- sighted m s;;
  match r with
  | None => Some q
  | Some ((xa, a), (xb, b)) =>
      pa <- find_id xa (q_nodes q);;
      pb <- find_id xb (q_nodes q);;
      let q1 :=
        match zfind l (q_landmarks q) with
        | Some _ => q
        | None =>
            let start := match l_pose k with
                         | Some p => p
                         | None => first_sight G (s_time s, s_seen s) (n_time a, n_grav a) (n_time b, n_grav b) pa pb
                         end in
            mk_problem (q_subs q) (q_nodes q) (zput l (to_ceres G start) (q_landmarks q)) (q_frames q)
              (if l_frozen k then q_const q ++ [PLandmark l] else q_const q) (q_res q)
        end in
      Some (mk_problem (q_subs q1) (q_nodes q1) (q_landmarks q1) (q_frames q1) (q_const q1)
              (q_res q1 ++ [RLandmark l s xa xb]))
  end.
(* a loop whose body may abort *)
Fixpoint fold_opt {A B} (f : B -> A -> option A) (l : list B) (a : A) : option A :=
  match l with
  | [] => Some a
  | x :: r => a' <- f x a;; fold_opt f r a'
  end.
(* AddLandmarkCostFunctions, op:109-166 *)
Definition add_landmarks (m : mbi node) (ls : list (Z * landmark)) (q : problem) : option problem :=
  fold_opt (fun lk q => fold_opt (fun s q => add_sighting m (fst lk) (snd lk) s q) (l_seen (snd lk)) q) ls q.

(* AddResidualBlock *)
Definition push (r : list residual) (q : problem) : problem :=
  mk_problem (q_subs q) (q_nodes q) (q_landmarks q) (q_frames q) (q_const q) (q_res q ++ r).
(* op:289-298 *)
Definition add_constraint (c : constraint) (q : problem) : option problem :=
  _ <- find_id (k_sub c) (q_subs q);;
  _ <- find_id (k_node c) (q_nodes q);;
  Some (push [RConstraint c] q).
(* the body of the loop of op:313-348 for two neighbouring nodes of trajectory t *)
Definition add_step (o : data) (t : Z) (ab : (Z * node) * (Z * node)) (q : problem) : option problem :=
  let '((i, a), (j, b)) := ab in
  if negb (j =? i + 1) then Some q
  else
    odo <- odometry_between t a b o;;
    _ <- find_id (t, i) (q_nodes q);;
    _ <- find_id (t, j) (q_nodes q);;
    Some (push (match odo with Some p => [ROdometry p (t, i) (t, j)] | None => [] end ++
                [RLocal (compose G (invert G (n_local a)) (n_local b)) (t, i) (t, j)]) q).
(* op:304-349; `frozen` are the frozen trajectories *)
Definition add_steps (o : data) (frozen : list Z) (q : problem) : option problem :=
  fold_opt (fun e q => if existsb (Z.eqb (fst e)) frozen then Some q
                       else fold_opt (add_step o (fst e)) (combine (snd (snd e)) (tl (snd (snd e)))) q) (o_nodes o) q.
(* the body of the loop of op:362-400; whether the frame of t is initialized is whether it has an
   entry, as every trajectory is visited once *)
Definition add_frame (t : Z) (origin : option (P3 G)) (tr : list (Z * option (P3 G))) (n : Z * node) (q : problem) : option problem :=
  p <- frame_at tr (n_time (snd n));;
  match p with
  | None => Some q
  | Some p =>
      let q1 := match zfind t (q_frames q) with
                | Some _ => q
                | None =>
                    let start := match origin with
                                 | Some w => project G w
                                 | None => compose G (n_global (snd n)) (invert G (project G p))
                                 end in
                    mk_problem (q_subs q) (q_nodes q) (q_landmarks q) (zput t (from_pose G start) (q_frames q)) (q_const q) (q_res q)
                end in
      _ <- find_id (t, fst n) (q_nodes q1);;
      Some (push [RFrame p t (t, fst n)] q1)
  end.
(* op:351-401; a trajectory without nodes is not visited *)
Definition add_frames (o : data) (q : problem) : option problem :=
  fold_opt (fun e q =>
    match snd (snd e), zfind (fst e) (o_frames o) with
    | [], _ | _, None => Some q
    | _ :: _, Some tr => origin <- zfind (fst e) (o_traj o);; fold_opt (add_frame (fst e) origin tr) (snd (snd e)) q
    end) (o_nodes o) q.

(* op:260-287.  The insertions into C_submaps and C_nodes are of the ids of a MapById in order. *)
Definition start_problem (o : data) (frozen : list Z) : problem :=
  let is_frozen t := existsb (Z.eqb t) frozen in
  mk_problem (map (fun e => (fst e, from_pose G (snd e))) (entries (o_subs o)))
    (map (fun e => (fst e, from_pose G (n_global (snd e)))) (entries (o_nodes o))) [] []
    (map PSub (match map fst (entries (o_subs o)) with
               | [] => []
               | x :: r => x :: filter (fun y => is_frozen (fst y)) r
               end) ++
     map PNode (filter (fun x => is_frozen (fst x)) (map fst (entries (o_nodes o))))) [].
(* op:260-401: the problem that is solved *)
Definition build (o : data) (frozen : list Z) (cs : list constraint) (ls : list (Z * landmark)) : option problem :=
  q1 <- fold_opt add_constraint cs (start_problem o frozen);;
  q2 <- add_landmarks (o_nodes o) ls q1;;
  q3 <- add_steps o frozen q2;;
  add_frames o q3.

(* ceres::Solve, op:405-407: any new values for the blocks that are not constant *)
Record solver := mk_solver { new_arr : problem -> param -> Arr G; new_larr : problem -> Z -> Larr G }.
Variable C : solver.
(* the value of a block afterwards *)
Definition param_eqb (a b : param) : bool :=
  match a, b with
  | PSub x, PSub y | PNode x, PNode y => id_eqb x y
  | PFrame x, PFrame y | PLandmark x, PLandmark y => x =? y
  | _, _ => false
  end.
Definition solved (q : problem) (p : param) (a : Arr G) : Arr G :=
  if existsb (param_eqb p) (q_const q) then a else new_arr C q p.
Definition solved_l (q : problem) (l : Z) (a : Larr G) : Larr G :=
  if existsb (param_eqb (PLandmark l)) (q_const q) then a else new_larr C q l.

(* assignments through at(), op:413-420 *)
Definition store {D V} (set : V -> D -> D) (vs : list (id * V)) (m : mbi D) : option (mbi D) :=
  fold_opt (fun e m => upd (fst e) (set (snd e)) m) vs m.
(* op:418-419 *)
Definition with_global (p : P2 G) (n : node) : node := mk_node (n_time n) (n_local n) (n_grav n) p.
(* Solve, op:240-428; an empty node_data_ is nothing to do *)
Definition solve (frozen : list Z) (cs : list constraint) (ls : list (Z * landmark)) (o : data) : option data :=
  match entries (o_nodes o) with
  | [] => Some o
  | _ :: _ =>
      q <- build o frozen cs ls;;
      subs <- store (fun v _ => to_pose G v) (map (fun e => (fst e, solved q (PSub (fst e)) (snd e))) (q_subs q)) (o_subs o);;
      nodes <- store (fun v n => with_global (to_pose G v) n) (map (fun e => (fst e, solved q (PNode (fst e)) (snd e))) (q_nodes q)) (o_nodes o);;
      traj <- fold_opt (fun e m => _ <- zfind (fst e) m;;
                        Some (zput (fst e) (Some (embed G (to_pose G (solved q (PFrame (fst e)) (snd e))))) m)) (q_frames q) (o_traj o);;
      Some (mk_data subs nodes (o_odo o) (o_frames o) traj
              (fold_left (fun m e => zput (fst e) (to_rigid G (solved_l q (fst e) (snd e))) m) (q_landmarks q) (o_landmarks o)))
  end.

(* a history of changes and optimizations *)
Inductive request := Change (c : op) | Optimize (frozen : list Z) (cs : list constraint) (ls : list (Z * landmark)).
Definition serve (r : request) (o : data) : option data :=
  match r with Change c => apply c o | Optimize f cs ls => solve f cs ls o end.
End Problem.
