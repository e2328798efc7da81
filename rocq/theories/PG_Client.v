(* What a well-behaved client of the pose graph does: a mapping session in which every trajectory
   gets its nodes as the front end makes them, and is finished and deleted at most once. *)
From Coq Require Import List ZArith Bool.
From Verif Require Import ZMap MapById_Model PG_Model.
Import ListNotations.
Open Scope Z_scope.

(* The submaps the nodes of a trajectory were inserted into so far: none; one submap; two,
   the second being the k-th of the trajectory; the same, and the first is finished
   (ActiveSubmaps2D::InsertRangeData, mapping/2d/submap_2d.cc:160-174). *)
Inductive phase := P0 | P1 (a : Z) | P2 (k a b : Z) | P3 (k a b : Z).
Definition two (k a b : Z) (newly : bool) : phase := if newly then P3 k a b else P2 k a b.
(* the next node, with its submaps and whether the first of them is finished now *)
Definition adv (w : phase) (objs : list Z) (newly : bool) : option phase :=
  match w, objs with
  | P0, [a] => if newly then None else Some (P1 a)
  | P1 a, [a'] => if (a =? a') && negb newly then Some (P1 a) else None
  | P1 a, [a'; b] => if (a =? a') && negb (b =? a) then Some (two 1 a b newly) else None
  | P2 k a b, [a'; b'] => if (a =? a') && (b =? b') then Some (two k a b newly) else None
  | P3 k a b, [b'; c] => if (b =? b') && negb (c =? b) then Some (two (k + 1) b c newly) else None
  | _, _ => None
  end.

(* what the client remembers of its trajectories *)
Record client := mk_client {
  ph : Z -> phase;        (* nodes added *)
  closed : Z -> bool;     (* FinishTrajectory called *)
  pure : Z -> bool;       (* a pure localization trimmer was added *)
  del : Z -> bool         (* DeleteTrajectory called *)
}.
Definition new_client : client :=
  mk_client (fun _ => P0) (fun _ => false) (fun _ => false) (fun _ => false).
Definition put {A} (t : Z) (v : A) (f : Z -> A) : Z -> A := fun x => if x =? t then v else f x.

(* the calls it makes, depending on what it remembers and on the reported states *)
Definition allowed (c : call) (k : client) (g : graph) : option client :=
  match c with
  | AddNode t objs newly =>
      if (0 <=? t) && negb (closed k t) then
        match adv (ph k t) objs newly with
        | Some w => Some (mk_client (put t w (ph k)) (closed k) (pure k) (del k))
        | None => None
        end
      else None
  | AddData t => if closed k t then None else Some k
  | FinishTrajectory t =>
      if closed k t then None
      else Some (mk_client (ph k) (put t true (closed k)) (pure k) (del k))
  | DeleteTrajectory t =>
      (* only when the trajectory is reported finished, once, and without a localization trimmer *)
      if is_finished t g && negb (pure k t) && negb (del k t)
      then Some (mk_client (ph k) (closed k) (pure k) (put t true (del k)))
      else None
  | AddTrimmer (Pure t keep f) =>
      if (2 <=? keep) && negb f && negb (del k t)
      then Some (mk_client (ph k) (closed k) (put t true (pure k)) (del k))
      else None
  | GetLocalToGlobalTransform t => if closed k t then None else Some k
  | AddTrimmer Overlapping | RunFinalOptimization | SetLandmarkPose | GetConstraints => Some k
  | FreezeTrajectory _ | AddSubmapFromProto _ _ | AddNodeFromProto _ | AddNodeToSubmap _ _
  | AddSerializedConstraints _ | SetInitialTrajectoryPose _ _ => None
  end.

(* the overlapping submaps trimmer does not choose the last submap of a trajectory *)
Definition spares_last (chs : nat -> list id) (g : graph) : Prop :=
  forall k x, In x (chs k) -> last_id (fst x) (gposes g) <> Some x.

(* a session of such a client under any schedule *)
Fixpoint polite (every_n : Z) (es : list event) (s : sys) (k : client) : Prop :=
  match es with
  | [] => True
  | e :: r =>
      enabled e s = true /\
      exists k',
        match e with
        | Call c => allowed c k (gr s) = Some k'
        | Handle chs => spares_last chs (gr s) /\ k' = k
        | _ => k' = k
        end /\
        match step every_n e s with Some s' => polite every_n r s' k' | None => True end
  end.
