(* What the optimization problem should consist of, in terms of look-ups in the data only. *)
From Coq Require Import List ZArith Bool.
From Verif Require Import ZMap MapById_Model PG_Model OP_Model.
Import ListNotations.
Open Scope Z_scope.

(* a before and b not before q, with nothing in between *)
Definition around {V} (l : list (Z * V)) (q : Z) (a b : Z * V) : Prop :=
  In a l /\ In b l /\ fst a < q <= fst b /\ forall e, In e l -> fst e <= fst a \/ fst b <= fst e.
(* the first of all is at q *)
Definition starts_at {V} (l : list (Z * V)) (q : Z) (v : V) : Prop :=
  In (q, v) l /\ forall e, In e l -> q <= fst e.
(* measurements of a trajectory *)
Definition series {V} (m : mbt V) (t : Z) : list (Z * V) := match zfind t m with Some l => l | None => [] end.

Section Spec.
Context {G : geometry}.

(* the odometry pose at time q *)
Inductive odometry_estimate (l : list (Z * P3 G)) (q : Z) : P3 G -> Prop :=
  | odo_between a b : around l q a b -> odometry_estimate l q (blend G a b q)
  | odo_first p : starts_at l q p -> odometry_estimate l q p.
(* the fixed frame pose at time q *)
Inductive frame_estimate (l : list (Z * option (P3 G))) (q : Z) : P3 G -> Prop :=
  | frame_between s p s' p' : around l q (s, Some p) (s', Some p') -> frame_estimate l q (blend G (s, p) (s', p') q)
  | frame_first p : starts_at l q (Some p) -> frame_estimate l q p.

(* the terms between nodes and those of the fixed frame *)
Inductive wanted (o : data G) (frozen : list Z) : residual G -> Prop :=
  | wanted_local t i a b : ~ In t frozen -> get (t, i) (o_nodes G o) = Some a -> get (t, i + 1) (o_nodes G o) = Some b ->
      wanted o frozen (RLocal G (compose G (invert G (n_local G a)) (n_local G b)) (t, i) (t, i + 1))
  | wanted_odometry t i a b p p' : ~ In t frozen -> get (t, i) (o_nodes G o) = Some a -> get (t, i + 1) (o_nodes G o) = Some b ->
      odometry_estimate (series (o_odo G o) t) (n_time G a) p -> odometry_estimate (series (o_odo G o) t) (n_time G b) p' ->
      wanted o frozen (ROdometry G (odometry_step G (n_grav G a) p p' (n_grav G b)) (t, i) (t, i + 1))
  | wanted_frame t i n p : get (t, i) (o_nodes G o) = Some n -> frame_estimate (series (o_frames G o) t) (n_time G n) p ->
      wanted o frozen (RFrame G p t (t, i)).

(* two nodes of trajectory t with none in between *)
Definition neighbours (m : mbi (node G)) (t i j : Z) (a b : node G) : Prop :=
  get (t, i) m = Some a /\ get (t, j) m = Some b /\ i < j /\ forall k, i < k < j -> get (t, k) m = None.
(* the nodes of its trajectory a sighting is put between, if any *)
Inductive place (m : mbi (node G)) (s : sighting G) : list (id * id) -> Prop :=
  | place_late : (forall i n, get (s_traj G s, i) m = Some n -> n_time G n < s_time G s) -> place m s []
  | place_early : (forall i n, get (s_traj G s, i) m = Some n -> s_time G s < n_time G n) -> place m s []
  | place_between i j a b : neighbours m (s_traj G s) i j a b -> n_time G a < s_time G s <= n_time G b ->
      place m s [((s_traj G s, i), (s_traj G s, j))]
  | place_first i j a b : neighbours m (s_traj G s) i j a b -> n_time G a = s_time G s ->
      (forall k n, get (s_traj G s, k) m = Some n -> i <= k) -> place m s [((s_traj G s, i), (s_traj G s, j))].

(* seen from the only node of its trajectory, at the time of that node *)
Definition lonely (m : mbi (node G)) (s : sighting G) : Prop :=
  exists i n, get (s_traj G s, i) m = Some n /\ n_time G n = s_time G s /\
    forall j, j <> i -> get (s_traj G s, j) m = None.
(* no node follows *)
Definition stranded (m : mbi (node G)) (s : sighting G) : Prop :=
  (forall t i, s_traj G s <= t -> get (t, i) m = None) \/
  (lonely m s /\ forall t i, s_traj G s < t -> get (t, i) m = None).

(* the terms of the landmarks, in order *)
Inductive placed_all (m : mbi (node G)) : list (Z * sighting G) -> list (residual G) -> Prop :=
  | placed_nil : placed_all m [] []
  | placed_cons l s ls xs rs : place m s xs -> placed_all m ls rs ->
      placed_all m ((l, s) :: ls) (map (fun x => RLandmark G l s (fst x) (snd x)) xs ++ rs).
Definition sightings (ls : list (Z * landmark G)) : list (Z * sighting G) :=
  flat_map (fun e => map (pair (fst e)) (l_seen G (snd e))) ls.
(* the first sighting that is put between nodes *)
Definition first_placed (m : mbi (node G)) (l : list (sighting G)) (s : sighting G) (x y : id) : Prop :=
  exists p r, l = p ++ s :: r /\ Forall (fun z => place m z []) p /\ place m s [(x, y)].

(* the first node of t with a fixed frame pose *)
Definition first_frame (o : data G) (t i : Z) (n : node G) (p : P3 G) : Prop :=
  get (t, i) (o_nodes G o) = Some n /\ frame_estimate (series (o_frames G o) t) (n_time G n) p /\
  forall j n' p', j < i -> get (t, j) (o_nodes G o) = Some n' -> ~ frame_estimate (series (o_frames G o) t) (n_time G n') p'.

(* the first submap of all *)
Definition first_submap (o : data G) (x : id) : Prop :=
  get x (o_subs G o) <> None /\
  forall y, get y (o_subs G o) <> None -> fst x < fst y \/ (fst x = fst y /\ snd x <= snd y).

(* where the position of a landmark starts: where it was set or found before, or from the sighting between a and b *)
Definition mark_start (k : landmark G) (s : sighting G) (a b : node G) : P3 G :=
  match l_pose G k with
  | Some p => p
  | None => first_sight G (s_time G s, s_seen G s) (n_time G a, n_grav G a) (n_time G b, n_grav G b)
              (from_pose G (n_global G a)) (from_pose G (n_global G b))
  end.
(* where the origin of the fixed frame starts: where it was found before, or from node n *)
Definition frame_start (origin : option (P3 G)) (n : node G) (p : P3 G) : P2 G :=
  match origin with Some w => project G w | None => compose G (n_global G n) (invert G (project G p)) end.

(* the nodes of a term *)
Definition nodes_of (r : residual G) : list id :=
  match r with
  | RConstraint _ c => [k_node G c]
  | RLandmark _ _ _ a b | ROdometry _ _ a b | RLocal _ _ a b => [a; b]
  | RFrame _ _ _ a => [a]
  end.
(* what a change may do, in terms of look-ups *)
Definition put {D} (x : id) (v : option D) (m m' : mbi D) : Prop := forall y, (y = x -> get y m' = v) /\ (y <> x -> get y m' = get y m).
Definition grown {V} (t q : Z) (p : V) (m m' : mbt V) : Prop :=
  series m' t = series m t ++ [(q, p)] /\ forall a, a <> t -> series m' a = series m a.
Definition fresh {D} (t i : Z) (m : mbi D) : Prop :=
  (i = 0 /\ forall j, get (t, j) m = None) \/ (get (t, i - 1) m <> None /\ forall j, i <= j -> get (t, j) m = None).
Definition known (t : Z) (m m' : list (Z * option (P3 G))) : Prop :=
  forall a, zfind a m' = match zfind a m with None => if a =? t then Some None else None | w => w end.
Definition changed (c : op G) (o o' : data G) : Prop :=
  o_landmarks G o' = o_landmarks G o /\
  match c with
  | AddSubmap _ _ _ | InsertSubmap _ _ _ | TrimSubmap _ _ => True
  | _ => o_subs G o' = o_subs G o
  end /\
  match c with
  | AddNode _ _ _ | InsertNode _ _ _ | TrimNode _ _ => True
  | _ => o_nodes G o' = o_nodes G o
  end /\
  match c with
  | AddNode _ _ _ | InsertNode _ _ _ | TrimNode _ _ | SetTrajectory _ _ _ => True
  | _ => o_traj G o' = o_traj G o
  end /\
  match c with
  | AddOdometry _ _ _ _ | TrimNode _ _ => True
  | _ => o_odo G o' = o_odo G o
  end /\
  match c with
  | AddFixedFrame _ _ _ _ | TrimNode _ _ => True
  | _ => o_frames G o' = o_frames G o
  end /\
  match c with
  | AddOdometry _ t q p => grown t q p (o_odo G o) (o_odo G o')
  | AddFixedFrame _ t q p => grown t q p (o_frames G o) (o_frames G o')
  | AddNode _ t n => known t (o_traj G o) (o_traj G o') /\ exists i, fresh t i (o_nodes G o) /\ put (t, i) (Some n) (o_nodes G o) (o_nodes G o')
  | InsertNode _ x n => known (fst x) (o_traj G o) (o_traj G o') /\ get x (o_nodes G o) = None /\ put x (Some n) (o_nodes G o) (o_nodes G o')
  | TrimNode _ x => get x (o_nodes G o) <> None /\ put x None (o_nodes G o) (o_nodes G o') /\
      (forall a, a <> fst x -> zfind a (o_traj G o') = zfind a (o_traj G o)) /\
      ((forall i, get (fst x, i) (o_nodes G o') = None) -> zfind (fst x) (o_traj G o') = None) /\
      (forall i, get (fst x, i) (o_nodes G o') <> None -> zfind (fst x) (o_traj G o') = zfind (fst x) (o_traj G o))
  | SetTrajectory _ t w => forall a, zfind a (o_traj G o') = if a =? t then Some w else zfind a (o_traj G o)
  | AddSubmap _ t p => exists i, fresh t i (o_subs G o) /\ put (t, i) (Some p) (o_subs G o) (o_subs G o')
  | InsertSubmap _ x p => get x (o_subs G o) = None /\ put x (Some p) (o_subs G o) (o_subs G o')
  | TrimSubmap _ x => get x (o_subs G o) <> None /\ put x None (o_subs G o) (o_subs G o')
  end.

(* times do not decrease along a trajectory *)
Definition in_order (m : mbi (node G)) : Prop :=
  forall t i j a b, get (t, i) m = Some a -> get (t, j) m = Some b -> i <= j -> n_time G a <= n_time G b.
End Spec.
