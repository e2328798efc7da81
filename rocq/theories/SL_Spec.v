(* What is meant to hold of a saved and loaded map, said of look-ups only. *)
From Coq Require Import List ZArith Bool.
From Verif Require Import ZMap MapById_Model PG_Model PG_Spec SL_Model.
Import ListNotations.
Open Scope Z_scope.

(* trajectory t has a submap or a node; its state is known and it is not deleted *)
Definition mentioned (g : graph) (t : Z) : Prop :=
  exists j, stored (t, j) (subs g) \/ stored (t, j) (nodes g).
Definition listed (g : graph) (t : Z) : Prop :=
  exists st, zfind t (trajs g) = Some st /\ fst st <> Deleted.
Definition enumerates (l : list Z) (P : Z -> Prop) : Prop := NoDup l /\ forall t, In t l <-> P t.

(* something else is kept for trajectory t; with fz the sensor data does not matter *)
Definition has_data (fz : bool) (p : pay) (t : Z) : Prop :=
  zfind t (tdata p) <> None \/
  (fz = false /\
   (zfind t (odometry p) <> None \/ zfind t (fixed p) <> None \/
    exists lm l o, zfind lm (landmarks p) = Some l /\ In o (l_obs l) /\ o_traj o = t)).

(* the file of the state (g, p) can be loaded *)
Definition loadable (fz : bool) (g : graph) (p : pay) : Prop :=
  (exists a b, enumerates a (mentioned g) /\ enumerates b (listed g) /\ length a = length b) /\
  (forall t, has_data fz p t -> mentioned g t).

(* the maps are maps and the values are those of the constraints *)
Definition timed (m : list (Z * list (Z * val))) : Prop :=
  zsorted m /\ forall t l, zfind t m = Some l -> zsorted l /\ l <> [].
Record sane (g : graph) (p : pay) : Prop := {
  s_cons : map fst (cons_vals p) = constraints g;
  s_trajs : zsorted (trajs g);
  s_landmarks : zsorted (landmarks p);
  s_odometry : timed (odometry p);
  s_fixed : timed (fixed p);
  s_tdata : zsorted (tdata p)
}.
(* no node is recorded twice in a submap by a constraint *)
Definition intra_once (g : graph) : Prop :=
  NoDup (filter (fun c => negb (c_inter c)) (constraints g)).

(* the map builder the file is loaded into: its trajectories are 0, 1, ..., one for each of its
   options, and no new one is known yet *)
Definition next (p : pay) : Z := Z.of_nat (length (options p)).
Record receiver (g : graph) (p : pay) : Prop := {
  r_sub : forall x, stored x (subs g) \/ stored x (osubs g) \/ stored x (gposes g) -> fst x < next p;
  r_node : forall x, stored x (nodes g) \/ stored x (onodes g) -> fst x < next p;
  r_traj : forall t, zfind t (trajs g) <> None -> t < next p;
  r_data : forall t, zfind t (tdata p) <> None \/ zfind t (odometry p) <> None \/
                     zfind t (fixed p) <> None -> t < next p;
  r_frozen : forall t, is_frozen t g = true -> In t (added g)
}.

(* x is the new name of s; l' are the constraints or observations l renamed *)
Definition renamed (m : list (Z * Z)) (s x : id) : Prop :=
  zfind (fst s) m = Some (fst x) /\ snd x = snd s.
Definition renamed_cons (m : list (Z * Z)) (a b : cons * val) : Prop :=
  renamed m (c_sub (fst a)) (c_sub (fst b)) /\ renamed m (c_node (fst a)) (c_node (fst b)) /\
  c_inter (fst b) = c_inter (fst a) /\ snd b = snd a.
Definition renamed_obs (m : list (Z * Z)) (a b : obs) : Prop :=
  zfind (o_traj a) m = Some (o_traj b) /\ o_time b = o_time a /\ o_val b = o_val a.

(* (g1, p1) is (g0, p0) with the map (g, p) added: with all submaps or only those whose
   insertion is finished (incl); with its sensor data and constraints or frozen without (fz) *)
Record same_map (incl fz : bool) (m : list (Z * Z)) (g : graph) (p : pay) (g0 : graph) (p0 : pay)
    (g1 : graph) (p1 : pay) : Prop := {
  (* the trajectories get different new numbers *)
  sm_dom : forall t, (exists t', zfind t m = Some t') <-> mentioned g t;
  sm_inj : forall t u t', zfind t m = Some t' -> zfind u m = Some t' -> t = u;
  sm_new : forall t t', zfind t m = Some t' -> next p0 <= t' < next p1;
  sm_state : forall t t', zfind t m = Some t' ->
    traj_state t' g1 = (if fz then Frozen else Active, Normal);
  (* the new submaps and nodes are the old ones *)
  sm_subs : forall x, next p0 <= fst x ->
    (stored x (subs g1) <-> exists s, renamed m s x /\ stored s (subs g) /\
                                      (incl = true \/ s_finished (sp p s) = true));
  sm_sub : forall s x, renamed m s x -> stored s (subs g) -> (incl = true \/ s_finished (sp p s) = true) ->
    sp p1 x = sp p s /\ stored x (osubs g1) /\ stored x (gposes g1) /\
    exists d, mbi_at (fst x) (snd x) (subs g1) = Some d /\ fin d = true /\
      forall y, In y (nids d) <-> exists n, renamed m n y /\ In (mk_cons s n false) (constraints g);
  sm_nodes : forall x, next p0 <= fst x ->
    (stored x (nodes g1) <-> exists n, renamed m n x /\ stored n (nodes g));
  sm_node : forall n x, renamed m n x -> stored n (nodes g) -> np p1 x = np p n /\ stored x (onodes g1);
  (* the constraints, except those of submaps left out *)
  sm_cons : map fst (cons_vals p1) = constraints g1 /\
    exists l l', cons_vals p1 = cons_vals p0 ++ l' /\
      (if fz then l' = []
       else kept (fun e => incl = true \/ s_finished (sp p (c_sub (fst e))) = true) (cons_vals p) l /\
            Forall2 (renamed_cons m) l l');
  (* the landmarks *)
  sm_landmark_pose : forall lm, l_pose (get_landmark lm (landmarks p1)) =
    match l_pose (get_landmark lm (landmarks p)) with
    | Some v => Some v
    | None => l_pose (get_landmark lm (landmarks p0))
    end;
  sm_landmark_obs : forall lm, exists l',
    l_obs (get_landmark lm (landmarks p1)) = l_obs (get_landmark lm (landmarks p0)) ++ l' /\
    (if fz then l' = [] else Forall2 (renamed_obs m) (l_obs (get_landmark lm (landmarks p))) l');
  (* the data of the trajectories *)
  sm_odometry : forall t t', zfind t m = Some t' ->
    zfind t' (odometry p1) = if fz then None else zfind t (odometry p);
  sm_fixed : forall t t', zfind t m = Some t' ->
    zfind t' (fixed p1) = if fz then None else zfind t (fixed p);
  sm_origin : forall t t' v, zfind t m = Some t' ->
    (zfind t' (tdata p1) = Some (Some v) <-> zfind t (tdata p) = Some (Some v));
  (* what was there before *)
  sm_old : forall x, fst x < next p0 ->
    mbi_at (fst x) (snd x) (subs g1) = mbi_at (fst x) (snd x) (subs g0) /\
    mbi_at (fst x) (snd x) (nodes g1) = mbi_at (fst x) (snd x) (nodes g0) /\
    sp p1 x = sp p0 x /\ np p1 x = np p0 x;
  sm_old_traj : forall t, t < next p0 ->
    zfind t (trajs g1) = zfind t (trajs g0) /\ zfind t (odometry p1) = zfind t (odometry p0) /\
    zfind t (fixed p1) = zfind t (fixed p0) /\ zfind t (tdata p1) = zfind t (tdata p0) /\
    (0 <= t -> nth_error (options p1) (Z.to_nat t) = nth_error (options p0) (Z.to_nat t))
}.
