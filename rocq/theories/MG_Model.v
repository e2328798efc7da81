(* Model of MigrateSubmapFormatVersion1ToVersion2, cartographer/io/serialization_format_migration.cc
   (sm below), and of the histogram in Submap3D::InsertData, mapping/3d/submap_3d.cc (s3), with real
   numbers instead of floats.  Of submaps and nodes only the histograms and the rotations they are
   turned with are kept; None is a failed CHECK or an access outside a histogram. *)
From Coq Require Import ZArith Reals List Bool.
From Verif Require Import CF_Model RG_Model RH_Model.
Import ListNotations.
Open Scope R_scope.

(* SubmapId and NodeId, mapping/id.h *)
Definition ident : Type := Z * Z.
Definition same_id (a b : ident) : bool := Z.eqb (fst a) (fst b) && Z.eqb (snd a) (snd b).
(* proto::Submap: a oneof; the rotation of the local pose and the histogram of a 3D submap *)
Inductive msubmap := m_none | m_2d | m_3d (pose : quat) (histogram : list R).
(* TrajectoryNode::Data *)
Record mnode := mk_mnode { mn_local : quat; mn_gravity : quat; mn_histogram : list R }.
(* proto::PoseGraph::Constraint *)
Record mconstraint := mk_mconstraint { mc_intra : bool; mc_submap : ident; mc_node : ident }.

(* MapById::Contains and at, as a list in the order of ids *)
Fixpoint find_id {A} (i : ident) (l : list (ident * A)) : option A :=
  match l with [] => None | (j, a) :: l => if same_id i j then Some a else find_id i l end.
Fixpoint set_id {A} (i : ident) (a : A) (l : list (ident * A)) : list (ident * A) :=
  match l with [] => [] | (j, b) :: l => if same_id i j then (j, a) :: l else (j, b) :: set_id i a l end.

(* Eigen's inverse of a quaternion *)
Definition qinverse (q : quat) : quat := if Rlt_dec 0 (qnorm2 q) then qscale (/ qnorm2 q) (qconj q) else mk_quat 0 0 0 0.

(* the turned histogram, sm:246-255 *)
Definition turned_histogram (pose : quat) (n : mnode) : list R :=
  rotate_histogram (mn_histogram n) (get_yaw (qmul (qmul (qconj pose) (mn_local n)) (qinverse (mn_gravity n)))).
(* the bins are added, or copied into an empty histogram, sm:257-270 *)
Fixpoint add_bins (h g : list R) : option (list R) :=
  match h, g with
  | _, [] => Some h
  | [], _ => None
  | a :: h, b :: g => match add_bins h g with None => None | Some s => Some (a + b :: s) end
  end.
Definition add_histogram (h g : list R) : option (list R) := match h with [] => Some g | _ => add_bins h g end.

(* the loop over the constraints, sm:226-273 *)
Definition migrate_step (nodes : list (ident * mnode)) (submaps : option (list (ident * msubmap))) (c : mconstraint) :=
  match submaps with
  | None => None
  | Some submaps =>
    if mc_intra c then
      match find_id (mc_node c) nodes, find_id (mc_submap c) submaps with
      | Some n, Some (m_3d pose h) =>
        match add_histogram h (turned_histogram pose n) with
        | None => None
        | Some g => Some (set_id (mc_submap c) (m_3d pose g) submaps)
        end
      | _, _ => None
      end
    else Some submaps
  end.
(* sm:214-276 *)
Definition migrate (submaps : list (ident * msubmap)) (nodes : list (ident * mnode)) (constraints : list mconstraint) :=
  match submaps with
  | [] => Some submaps
  | (_, m_2d) :: _ => Some submaps
  | _ => fold_left (migrate_step nodes) constraints (Some submaps)
  end.

(* Submap3D::InsertData, s3:289-293, with local_from_gravity_aligned of
   internal/3d/local_trajectory_builder_3d.cc:406-407; both sides of += have the same size *)
Definition live_step (pose : quat) (h : option (list R)) (n : mnode) : option (list R) :=
  match h with
  | None => None
  | Some h =>
    let g := rotate_histogram (mn_histogram n) (get_yaw (qmul (qconj pose) (qmul (mn_local n) (qinverse (mn_gravity n))))) in
    if Nat.eqb (length h) (length g) then add_bins h g else None
  end.
(* AddSubmap, s3:346-350, and the insertions *)
Definition live_histogram (pose : quat) (size : nat) (nodes : list mnode) : option (list R) :=
  fold_left (live_step pose) nodes (Some (repeat 0 size)).
