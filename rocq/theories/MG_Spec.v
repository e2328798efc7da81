(* Migrated histograms. *)
From Coq Require Import ZArith Reals List.
From Verif Require Import CF_Model RG_Model RH_Model RH_Spec MG_Model.
Import ListNotations.
Open Scope R_scope.

(* the sum of a quantity over a list *)
Fixpoint total {A} (f : A -> R) (l : list A) : R := match l with [] => 0 | a :: l => f a + total f l end.
Definition bin_at (h : list R) (k : nat) : R := nth k h 0.
(* the nodes that were inserted into a submap, in the order of the constraints *)
Fixpoint inserted (nodes : list (ident * mnode)) (i : ident) (constraints : list mconstraint) : list mnode :=
  match constraints with
  | [] => []
  | c :: l =>
    match find_id (mc_node c) nodes with
    | Some n => if mc_intra c && same_id (mc_submap c) i then n :: inserted nodes i l else inserted nodes i l
    | None => inserted nodes i l
    end
  end%bool.
(* what is in a file of version 1: 3D submaps without histograms, nodes with histograms of one size,
   and constraints between existing submaps and nodes *)
Definition empty3 (s : ident * msubmap) : Prop := exists pose, snd s = m_3d pose [].
Definition good_nodes (size : nat) (nodes : list (ident * mnode)) : Prop :=
  forall i n, In (i, n) nodes -> length (mn_histogram n) = size.
Definition good_constraint {A B} (submaps : list (ident * A)) (nodes : list (ident * B)) (c : mconstraint) : Prop :=
  mc_intra c = true -> In (mc_submap c) (map fst submaps) /\ In (mc_node c) (map fst nodes).
(* the angle from the gravity aligned frame of a node to the frame of a submap *)
Definition turn_into (pose : quat) (n : mnode) : R := get_yaw (qmul (qconj pose) (qmul (mn_local n) (qinverse (mn_gravity n)))).
