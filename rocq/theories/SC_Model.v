(* Model of the way of submaps to an uplink server: MapBuilderServer::OnLocalSlamResult in
   cartographer/cloud/internal/map_builder_server.cc (bs below), CreateSensorDataForLocalSlamResult in
   cloud/internal/sensor/serialization.cc (cs), mapping/internal/submap_controller.{h,cc} (sc, scc), and
   AddToPoseGraph in mapping/internal/2d/local_slam_result_2d.cc (r2) and 3d/local_slam_result_3d.cc (r3).
   Active submaps are those of ASM_Model; pose and grid are what ToProto writes of a submap, and are read
   back as they were written.  The uploader gives the trajectories other numbers, which is left out.
   None: a failed CHECK, or a null pointer that is used. *)
From Coq Require Import List ZArith Bool.
From Verif Require Import ASM_Model.
Import ListNotations.
Open Scope Z_scope.

Section Uplink.
Variables D C P G : Type.
Variable create : D -> C.
Variable insert : C -> D -> option C.
Variable finish : C -> option C.
Variables (pose : C -> P) (grid : C -> G).

(* proto::Submap without its id *)
Record sproto := mk_sproto { p_pose : P; p_num : Z; p_fin : bool; p_grid : option G }.
(* Submap2D::ToProto, submap_2d.cc:96-107, Submap3D::ToProto, submap_3d.cc:214-233 (there the histogram is
   sent with every message; here it is part of the grid); the grid is included if the submap is finished, cs:95 *)
Definition proto_of (s : submap C) : sproto :=
  mk_sproto (pose (s_content s)) (s_num s) (s_fin s) (if s_fin s then Some (grid (s_content s)) else None).
(* proto::LocalSlamResultData with the trajectory: the data of the node and submaps with their indices *)
Record message := mk_message { m_trajectory : Z; m_node : D; m_submaps : list (Z * sproto) }.
(* the indices, cs:92-99 *)
Fixpoint number (start : Z) (ss : list (submap C)) : list (Z * sproto) :=
  match ss with [] => [] | s :: r => (start, proto_of s) :: number (start + 1) r end.
(* the active submaps of each trajectory, and starting_submap_index_, map_builder_server.h:145, one for all of
   them; it is not bounded here *)
Definition sender : Type := (Z -> list (submap C)) * Z.
Definition new_sender : sender := (fun _ => [], 0).
(* data are inserted into the submaps of a trajectory, and OnLocalSlamResult is called, bs:188-206 *)
Definition send (N : Z) (s : sender) (e : Z * D) : option (sender * message) :=
  let '(t, d) := e in
  match insert_range_data D C create insert finish N (fst s t) d with
  | Some ((front :: _) as ss) =>
    Some ((fun u => if u =? t then ss else fst s u, if s_fin front then snd s + 1 else snd s),
          mk_message t d (number (snd s) ss))
  | _ => None
  end.
Fixpoint send_all (N : Z) (s : sender) (es : list (Z * D)) : option (sender * list message) :=
  match es with
  | [] => Some (s, [])
  | e :: r =>
    match send N s e with
    | None => None
    | Some (s', m) => match send_all N s' r with Some (s'', ms) => Some (s'', m :: ms) | None => None end
    end
  end.

(* the submaps of the uplink server are objects in the order of their creation *)
Record rsub := mk_rsub { r_pose : P; r_num : Z; r_fin : bool; r_grid : option G }.
(* unfinished_submaps_, and the nodes with their submaps as given to AddNode *)
Record cloud := mk_cloud { c_objects : list rsub; c_unfinished : list ((Z * Z) * nat); c_nodes : list (Z * D * list nat) }.
Definition new_cloud : cloud := mk_cloud [] [] [].
Definition sid_eqb (a b : Z * Z) : bool := (fst a =? fst b) && (snd a =? snd b).
Fixpoint lookup (i : Z * Z) (l : list ((Z * Z) * nat)) : option nat :=
  match l with [] => None | (j, p) :: r => if sid_eqb i j then Some p else lookup i r end.
Fixpoint set_object (p : nat) (o : rsub) (l : list rsub) : list rsub :=
  match l, p with [], _ => [] | _ :: r, O => o :: r | x :: r, S p' => x :: set_object p' o r end.
(* Submap2D::UpdateFromProto, submap_2d.cc:109-125 *)
Definition updated (o : rsub) (p : sproto) : rsub :=
  mk_rsub (r_pose o) (p_num p) (p_fin p) (match p_grid p with Some g => Some g | None => r_grid o end).
(* UpdateSubmap, sc:31-60, with CreateSubmap, scc:24-35; the pointer, or no pointer if it is refused *)
Definition update_submap (c : cloud) (i : Z * Z) (p : sproto) : option (cloud * option nat) :=
  match lookup i (c_unfinished c) with
  | None =>
    if p_num p =? 1 then
      if (0 <=? fst i) && (0 <=? snd i) then
        Some (mk_cloud (c_objects c ++ [mk_rsub (p_pose p) (p_num p) (p_fin p) (p_grid p)])
                       ((i, length (c_objects c)) :: c_unfinished c) (c_nodes c), Some (length (c_objects c)))
      else None
    else Some (c, None)
  | Some q =>
    match nth_error (c_objects c) q with
    | None => None
    | Some o =>
      let o' := updated o p in
      if r_fin o' then
        Some (mk_cloud (set_object q o' (c_objects c)) (filter (fun e => negb (sid_eqb i (fst e))) (c_unfinished c)) (c_nodes c), Some q)
      else
        Some (mk_cloud (set_object q (mk_rsub (r_pose o') 0 (r_fin o') (r_grid o')) (c_objects c)) (c_unfinished c) (c_nodes c), Some q)
    end
  end.
(* the loop over the submaps, r2:36-43 *)
Fixpoint update_all (c : cloud) (t : Z) (l : list (Z * sproto)) : option (cloud * list (option nat)) :=
  match l with
  | [] => Some (c, [])
  | (i, p) :: r =>
    match update_submap c (t, i) p with
    | None => None
    | Some (c', q) => match update_all c' t r with Some (c'', qs) => Some (c'', q :: qs) | None => None end
    end
  end.
Fixpoint pointers (l : list (option nat)) : list nat :=
  match l with [] => [] | Some p :: r => p :: pointers r | None :: r => pointers r end.
Definition add_node (c : cloud) (m : message) (ps : list nat) : cloud :=
  mk_cloud (c_objects c) (c_unfinished c) (c_nodes c ++ [(m_trajectory m, m_node m, ps)]).
(* LocalSlamResult2D::AddToPoseGraph, r2:30-51 *)
Definition receive (c : cloud) (m : message) : option cloud :=
  match m_submaps m with
  | [] => None
  | _ =>
    match update_all c (m_trajectory m) (m_submaps m) with
    | None => None
    | Some (c', qs) => match pointers qs with [] => Some c' | ps => Some (add_node c' m ps) end
    end
  end.
(* LocalSlamResult3D::AddToPoseGraph, r3:30-43: pointers are not looked at; the first
   is used in AddNode, pose_graph_3d.cc:153-154.  Simplified: any null pointer is taken as a failure, also a second one. *)
Definition receive3 (c : cloud) (m : message) : option cloud :=
  match m_submaps m with
  | [] => None
  | _ =>
    match update_all c (m_trajectory m) (m_submaps m) with
    | None => None
    | Some (c', qs) => if Nat.eqb (length (pointers qs)) (length qs) then Some (add_node c' m (pointers qs)) else None
    end
  end.
Fixpoint receive_all (rc : cloud -> message -> option cloud) (c : cloud) (ms : list message) : option cloud :=
  match ms with [] => Some c | m :: r => match rc c m with Some c' => receive_all rc c' r | None => None end end.

(* the submaps of one trajectory in the pose graph: the pointers in data_.submap_data, and how many the
   optimization problem has *)
Record graph := mk_graph { g_submaps : list nat; g_optimized : nat }.
Definition new_graph : graph := mk_graph [] 0.
(* PoseGraph2D::AppendNode, pose_graph_2d.cc:139-150, and InitializeGlobalSubmapPoses, pose_graph_2d.cc:75-125;
   the latter runs later, on the work queue, but its indices are not changed by later nodes.  The result are the
   indices of the submaps of the node. *)
Definition register (g : graph) (ps : list nat) : option (graph * list nat) :=
  match rev ps with
  | [] => None
  | back :: _ =>
    let subs := match rev (g_submaps g) with
                | last :: _ => if Nat.eqb last back then g_submaps g else g_submaps g ++ [back]
                | [] => [back]
                end in
    match ps with
    | [p] =>
      let n := match g_optimized g with O => 1%nat | n => n end in
      match n, subs with
      | 1%nat, first :: _ => if Nat.eqb first p then Some (mk_graph subs n, [O]) else None
      | _, _ => None
      end
    | [p; q] =>
      match g_optimized g with
      | O => None
      | S n =>
        match nth_error subs n with
        | None => None
        | Some last =>
          if Nat.eqb last p then Some (mk_graph subs (S (S n)), [n; S n])
          else if Nat.eqb last q then
            match n with
            | O => None
            | S m => match nth_error subs m with
                     | Some before => if Nat.eqb before p then Some (mk_graph subs (S n), [m; n]) else None
                     | None => None
                     end
            end
          else None
        end
      end
    | _ => None
    end
  end.
Fixpoint register_all (g : graph) (l : list (list nat)) : option (graph * list (list nat)) :=
  match l with
  | [] => Some (g, [])
  | ps :: r =>
    match register g ps with
    | None => None
    | Some (g', is) => match register_all g' r with Some (g'', iss) => Some (g'', is :: iss) | None => None end
    end
  end.
End Uplink.
Arguments mk_sproto {P G}. Arguments p_pose {P G}. Arguments p_num {P G}. Arguments p_fin {P G}. Arguments p_grid {P G}.
Arguments mk_message {D P G}. Arguments m_trajectory {D P G}. Arguments m_node {D P G}. Arguments m_submaps {D P G}.
Arguments mk_rsub {P G}. Arguments r_pose {P G}. Arguments r_num {P G}. Arguments r_fin {P G}. Arguments r_grid {P G}.
Arguments mk_cloud {D P G}. Arguments c_objects {D P G}. Arguments c_unfinished {D P G}. Arguments c_nodes {D P G}.
Arguments proto_of {C P G}. Arguments number {C P G}. Arguments send {D C P G}. Arguments send_all {D C P G}. Arguments new_sender {C}. Arguments new_cloud {D P G}.
Arguments set_object {P G}. Arguments updated {P G}. Arguments update_submap {D P G}. Arguments update_all {D P G}. Arguments add_node {D P G}.
Arguments receive {D P G}. Arguments receive3 {D P G}. Arguments receive_all {D P G}.
