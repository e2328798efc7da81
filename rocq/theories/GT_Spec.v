(* What the generation of ground truth should do (used by Properties_GT). *)
From Coq Require Import Reals ZArith.
From Verif Require Import CF_Model RG_Model RG_Spec GT_Model.
From Coq Require Import List.
Import ListNotations.
Open Scope R_scope.

Definition distance (p q : vec3 R) : R := sqrt (dist2 p q).
(* the length of a polyline *)
Fixpoint path_length (l : list (vec3 R)) : R :=
  match l with
  | [] => 0
  | p :: r => match r with [] => 0 | q :: _ => distance p q + path_length r end
  end.
Definition positions (nodes : list tnode) : list (vec3 R) := map (fun n => trans (tn_pose n)) nodes.
(* how far the robot drove from the i-th to the j-th node *)
Definition segment (l : list (vec3 R)) (i j : Z) : R :=
  path_length (firstn (Z.to_nat (j - i + 1)) (skipn (Z.to_nat i) l)).
Definition travelled (l : list (vec3 R)) (i j : Z) : R := if Z.leb i j then segment l i j else segment l j i.

(* the i-th element of a list *)
Definition is_at {A} (l : list A) (i : Z) (x : A) : Prop := (0 <= i)%Z /\ nth_error l (Z.to_nat i) = Some x.

(* node n is the node of the first constraint for submap s *)
Definition first_of (cs : list gconstraint) (s n : Z) : Prop :=
  exists pre c post, cs = pre ++ c :: post /\ snd (gc_submap c) = s /\ snd (gc_node c) = n /\
    Forall (fun c' => snd (gc_submap c') <> s) pre.
Definition intra_of (cs : list gconstraint) : list gconstraint := filter gc_intra cs.
(* submap s is represented by the node that was first inserted into the submap after it *)
Definition represented_by (cs : list gconstraint) (s n : Z) : Prop := (0 <= s)%Z /\ first_of (intra_of cs) (s + 1) n.
Definition of_trajectory_0 (c : gconstraint) : Prop := fst (gc_submap c) = 0%Z /\ fst (gc_node c) = 0%Z.
(* submaps appear one after the other *)
Definition one_by_one (cs : list gconstraint) : Prop :=
  forall pre c post, cs = pre ++ c :: post ->
    (snd (gc_submap c) <= 1)%Z \/ exists c', In c' pre /\ (snd (gc_submap c) <= snd (gc_submap c') + 1)%Z.

(* where the constraint puts the node, and the motion from there to where the solution has it *)
Definition predicted (sm : tsubmap) (c : gconstraint) : rigid3 := r3_mul (ts_pose sm) (gc_pose c).
Definition discrepancy (n2 : tnode) (sm : tsubmap) (c : gconstraint) : rigid3 :=
  r3_mul (tn_pose n2) (r3_inv (predicted sm c)).
(* the discrepancy displaces the representative node too much or turns too much *)
Definition bad (n1 n2 : tnode) (sm : tsubmap) (c : gconstraint) (meters radians : R) : Prop :=
  let d := discrepancy n2 sm c in
  meters < distance (r3_apply d (trans (tn_pose n1))) (trans (tn_pose n1)) \/ radians < get_angle d.

Section Chosen.
Variables (t : trajectory) (all : list gconstraint) (min_covered meters radians : R).
Definition covers (s i : Z) (c : gconstraint) (d : R) (n1 n2 : tnode) : Prop :=
  gc_intra c = false /\ of_trajectory_0 c /\ snd (gc_submap c) = s /\ represented_by all s i /\
  is_at (tr_nodes t) i n1 /\ is_at (tr_nodes t) (snd (gc_node c)) n2 /\
  d = travelled (positions (tr_nodes t)) i (snd (gc_node c)).
Inductive chosen : list gconstraint -> list relation -> nat -> Prop :=
| ch_nil : chosen [] [] 0
| ch_intra : forall c cs rs k, gc_intra c = true -> chosen cs rs k -> chosen (c :: cs) rs k
| ch_last : forall c cs rs k, gc_intra c = false -> of_trajectory_0 c -> (0 <= snd (gc_submap c))%Z ->
    (forall n, ~ represented_by all (snd (gc_submap c)) n) -> chosen cs rs k -> chosen (c :: cs) rs k
| ch_near : forall c cs rs k s i d n1 n2, covers s i c d n1 n2 -> d < min_covered -> chosen cs rs k -> chosen (c :: cs) rs k
| ch_bad : forall c cs rs k s i d n1 n2 sm, covers s i c d n1 n2 -> min_covered <= d -> is_at (tr_submaps t) s sm ->
    bad n1 n2 sm c meters radians -> chosen cs rs k -> chosen (c :: cs) rs (S k)
| ch_keep : forall c cs rs k s i d n1 n2 sm, covers s i c d n1 n2 -> min_covered <= d -> is_at (tr_submaps t) s sm ->
    ~ bad n1 n2 sm c meters radians -> chosen cs rs k ->
    chosen (c :: cs) (mk_relation (tn_time n1) (tn_time n2) (r3_mul (r3_inv (tn_pose n1)) (predicted sm c)) d :: rs) k.
End Chosen.

(* rotations are unit quaternions *)
Definition unit_trajectory (t : trajectory) : Prop :=
  Forall (fun n => unit_rotation (rot (tn_pose n))) (tr_nodes t) /\
  Forall (fun s => unit_rotation (rot (ts_pose s))) (tr_submaps t).
Definition unit_constraints (cs : list gconstraint) : Prop := Forall (fun c => unit_rotation (rot (gc_pose c))) cs.

(* statistics *)
Fixpoint total (f : R -> R) (l : list R) : R := match l with [] => 0 | x :: r => f x + total f r end.
Definition increasing_times (nodes : list tnode) : Prop :=
  forall i j a b, (i < j)%nat -> nth_error nodes i = Some a -> nth_error nodes j = Some b -> (tn_time a < tn_time b)%Z.
