(* What the IMU data is expected to add to the 3D optimization problem: no iterators. *)
From Coq Require Import Reals ZArith.
From Verif Require Import CF_Model RG_Model RG_Spec IM_Model IM_Spec O3_Model.
From Coq Require Import List.
Import ListNotations.
Open Scope R_scope.

(* numbered one after the other *)
Definition follows (b a : node3) : Prop := n_index b = (n_index a + 1)%Z.
(* neighbours in a trajectory, numbered one after the other *)
Definition pair_of (nodes : list node3) (a b : node3) : Prop :=
  follows b a /\ exists l1 l2, nodes = l1 ++ a :: b :: l2.
Definition triple_of (nodes : list node3) (a b c : node3) : Prop :=
  follows b a /\ follows c b /\ exists l1 l2, nodes = l1 ++ a :: b :: c :: l2.
(* nodes in the order of time, before the end of time *)
Fixpoint in_time (nodes : list node3) : Prop :=
  match nodes with
  | [] => True
  | a :: rest => (n_time a < time_max)%Z /\ match rest with [] => True | b :: _ => (n_time a <= n_time b)%Z end /\ in_time rest
  end.

(* the tick in the middle of two *)
Definition middle (a b : node3) : Z := ((n_time a + n_time b) / 2)%Z.
(* the motion of the IMU from s to e: every reading holds until the next *)
Definition moved (data : list imu) (s e : Z) : motion := travel same same (pieces data s e).

(* between nodes a and b: the rotation from a to b *)
Definition rotation_of (w : weights) (data : list imu) (a b : node3) : imu_term :=
  RotationTerm (n_index a) (n_index b) (w_rotation w / seconds (n_time b - n_time a)) (d_rot (moved data (n_time a) (n_time b))).
(* around node b: the change of velocity between the middles, as seen from b *)
Definition acceleration_of (w : weights) (data : list imu) (a b c : node3) : imu_term :=
  AccelerationTerm (n_index a) (n_index b) (n_index c) (w_acceleration w / seconds (n_time c - n_time a))
    (qrot (qconj (d_rot (moved data (middle a b) (n_time b)))) (d_vel (moved data (middle a b) (middle b c))))
    (seconds (n_time b - n_time a)) (seconds (n_time c - n_time b)).

(* readings start early enough for every pair *)
Definition covered (data : list imu) (nodes : list node3) : Prop :=
  exists d rest, data = d :: rest /\ forall a b, pair_of nodes a b -> (i_time d <= n_time a)%Z.
(* no turn is rounded by the small-angle branch of the conversion from angle vectors *)
Definition turns_resolved (data : list imu) (nodes : list node3) : Prop :=
  forall a b, pair_of nodes a b ->
    all_resolved same (pieces data (n_time a) (middle a b)) /\ all_resolved same (pieces data (middle a b) (n_time b)) /\
    forall c, triple_of nodes a b c -> all_resolved same (pieces data (middle a b) (middle b c)).
(* acceleration and rotation terms, pair by pair *)
Definition is_follows (b a : node3) : bool := (n_index b =? n_index a + 1)%Z.
Fixpoint expected (w : weights) (data : list imu) (nodes : list node3) : list imu_term :=
  match nodes with
  | [] => []
  | a :: rest =>
    match rest with
    | [] => []
    | b :: rest' =>
      (if is_follows b a
       then match rest' with c :: _ => if is_follows c b then [acceleration_of w data a b c] else [] | [] => [] end ++
            [rotation_of w data a b]
       else [])
    end ++ expected w data rest
  end.
