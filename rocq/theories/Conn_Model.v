(* Model of cartographer/mapping/internal/connected_components.{h,cc} (cc below)
   and trajectory_connectivity_state.{h,cc} (tcs below).
   flat_hash_map and std::map are association lists; the iteration order of the
   hash maps is unspecified in C++, the model uses ascending keys and the
   theorems only use the results as sets.  All public methods hold the mutex for
   their whole duration (cc:31-117), so calls are atomic steps.
   A failed CHECK is None.  Connection counts do not overflow int. *)
From Coq Require Import List ZArith Bool.
From Verif Require Import ZMap.
Import ListNotations.
Open Scope Z_scope.

(* std::map<std::pair<int,int>, T> *)
Definition peq (a b : Z * Z) : bool := (fst a =? fst b) && (snd a =? snd b).
Fixpoint pfind {V} (k : Z * Z) (m : list (Z * Z * V)) : option V :=
  match m with
  | [] => None
  | (k', v) :: r => if peq k k' then Some v else pfind k r
  end.
Fixpoint pput {V} (k : Z * Z) (v : V) (m : list (Z * Z * V)) : list (Z * Z * V) :=
  match m with
  | [] => [(k, v)]
  | (k', v') :: r => if peq k k' then (k, v) :: r else (k', v') :: pput k v r
  end.

(* std::minmax(a, b) *)
Definition minmax (a b : Z) : Z * Z := if b <? a then (b, a) else (a, b).

Definition forest : Type := list (Z * Z).

(* forest_.emplace(k, k): no effect if present *)
Definition emplace (k : Z) (f : forest) : forest :=
  match zfind k f with Some _ => f | None => zput k k f end.

(* FindSet, cc:54-62; fuel stands for the call stack, running out of it is None
   and shown not to happen *)
Fixpoint find_set (fuel : nat) (f : forest) (n : Z) : option (forest * Z) :=
  match fuel with
  | O => None
  | S k =>
      match zfind n f with
      | None => None                                            (* CHECK, cc:56 *)
      | Some p =>
          if n =? p then Some (f, p)
          else match find_set k f p with
               | None => None
               | Some (f', r) => Some (zput n r f', r)
               end
      end
  end.
Definition FindSet (f : forest) (n : Z) : option (forest * Z) :=
  find_set (S (length f)) f n.

Record cc := { cc_forest : forest; cc_counts : list (Z * Z * Z) }.
Definition cc_init : cc := {| cc_forest := []; cc_counts := [] |}.   (* cc:27-28 *)

(* Add, cc:30-33 *)
Definition cc_add (s : cc) (t : Z) : cc :=
  {| cc_forest := emplace t (cc_forest s); cc_counts := cc_counts s |}.

(* Union, cc:43-50 *)
Definition union (f : forest) (a b : Z) : option forest :=
  let f1 := emplace b (emplace a f) in
  match FindSet f1 a with
  | None => None
  | Some (f2, ra) =>
      match FindSet f2 b with
      | None => None
      | Some (f3, rb) => Some (zput ra rb f3)
      end
  end.

(* Connect, cc:35-41 *)
Definition cc_connect (s : cc) (a b : Z) : option cc :=
  match union (cc_forest s) a b with
  | None => None
  | Some f =>
      let k := minmax a b in
      let n := match pfind k (cc_counts s) with Some n => n | None => 0 end in
      Some {| cc_forest := f; cc_counts := pput k (n + 1) (cc_counts s) |}
  end.

(* TransitivelyConnected, cc:64-77 *)
Definition cc_connected (s : cc) (a b : Z) : option (cc * bool) :=
  if a =? b then Some (s, true)
  else
    match zfind a (cc_forest s), zfind b (cc_forest s) with
    | Some _, Some _ =>
        match FindSet (cc_forest s) a with
        | None => None
        | Some (f2, ra) =>
            match FindSet f2 b with
            | None => None
            | Some (f3, rb) =>
                Some ({| cc_forest := f3; cc_counts := cc_counts s |}, ra =? rb)
            end
        end
    | _, _ => Some (s, false)
    end.

(* the loop of Components, cc:83-86 *)
Fixpoint comp_loop (f : forest) (keys : list Z) (m : list (Z * list Z))
  : option (forest * list (Z * list Z)) :=
  match keys with
  | [] => Some (f, m)
  | k :: r =>
      match FindSet f k with
      | None => None
      | Some (f', s) =>
          let old := match zfind s m with Some l => l | None => [] end in
          comp_loop f' r (zput s (old ++ [k]) m)
      end
  end.
(* Components, cc:79-94 *)
Definition cc_components (s : cc) : option (cc * list (list Z)) :=
  match comp_loop (cc_forest s) (map fst (cc_forest s)) [] with
  | None => None
  | Some (f, m) =>
      Some ({| cc_forest := f; cc_counts := cc_counts s |}, map snd m)
  end.

(* the loop of GetComponent, cc:100-104 *)
Fixpoint get_loop (f : forest) (keys : list Z) (set_id : Z)
  : option (forest * list Z) :=
  match keys with
  | [] => Some (f, [])
  | k :: r =>
      match FindSet f k with
      | None => None
      | Some (f', s) =>
          match get_loop f' r set_id with
          | None => None
          | Some (f'', l) => Some (f'', if s =? set_id then k :: l else l)
          end
      end
  end.
(* GetComponent, cc:96-106 *)
Definition cc_component (s : cc) (t : Z) : option (cc * list Z) :=
  match FindSet (cc_forest s) t with
  | None => None
  | Some (f, set_id) =>
      match get_loop f (map fst f) set_id with
      | None => None
      | Some (f', l) =>
          Some ({| cc_forest := f'; cc_counts := cc_counts s |}, l)
      end
  end.

(* ConnectionCount, cc:108-114 *)
Definition cc_count (s : cc) (a b : Z) : Z :=
  match pfind (minmax a b) (cc_counts s) with Some n => n | None => 0 end.

(* ---- calls on ConnectedComponents ---- *)
Inductive ccop :=
| CAdd (t : Z) | CConnect (a b : Z) | CConnected (a b : Z)
| CComponents | CComponent (t : Z).

Definition cc_step (s : cc) (o : ccop) : option cc :=
  match o with
  | CAdd t => Some (cc_add s t)
  | CConnect a b => cc_connect s a b
  | CConnected a b => option_map fst (cc_connected s a b)
  | CComponents => option_map fst (cc_components s)
  | CComponent t => option_map fst (cc_component s t)
  end.
Fixpoint cc_run (s : cc) (os : list ccop) : option cc :=
  match os with
  | [] => Some s
  | o :: r => match cc_step s o with None => None | Some s' => cc_run s' r end
  end.

(* ---- TrajectoryConnectivityState ---- *)
Record tcs := { t_cc : cc; t_times : list (Z * Z * Z) }.
Definition tcs_init : tcs := {| t_cc := cc_init; t_times := [] |}.

(* last_connection_time_map_[p] without the insertion; Time() is 0 *)
Definition time_at (m : list (Z * Z * Z)) (k : Z * Z) : Z :=
  match pfind k m with Some t => t | None => 0 end.

(* operator[] inserts the default value, tcs:37, 70 *)
Definition touch (k : Z * Z) (m : list (Z * Z * Z)) : list (Z * Z * Z) :=
  match pfind k m with Some _ => m | None => pput k 0 m end.

(* Add, tcs:23-25 *)
Definition tcs_add (s : tcs) (t : Z) : tcs :=
  {| t_cc := cc_add (t_cc s) t; t_times := t_times s |}.

(* the two nested loops, tcs:50-55 *)
Definition set_times (ca cb : list Z) (t : Z) (m : list (Z * Z * Z)) :=
  fold_left (fun m a => fold_left (fun m b => pput (minmax a b) t m) cb m) ca m.

(* Connect, tcs:27-58 *)
Definition tcs_connect (s : tcs) (a b t : Z) : option tcs :=
  match cc_connected (t_cc s) a b with
  | None => None
  | Some (c, true) =>
      let k := minmax a b in
      let m := touch k (t_times s) in
      let m' := if time_at m k <? t then pput k t m else m in
      match cc_connect c a b with
      | None => None
      | Some c' => Some {| t_cc := c'; t_times := m' |}
      end
  | Some (c, false) =>
      match cc_component c a with
      | None => None
      | Some (c1, la) =>
          match cc_component c1 b with
          | None => None
          | Some (c2, lb) =>
              match cc_connect c2 a b with
              | None => None
              | Some c' => Some {| t_cc := c'; t_times := set_times la lb t (t_times s) |}
              end
          end
      end
  end.

(* LastConnectionTime, tcs:68-72 *)
Definition tcs_last_time (s : tcs) (a b : Z) : tcs * Z :=
  let k := minmax a b in
  let m := touch k (t_times s) in
  ({| t_cc := t_cc s; t_times := m |}, time_at m k).

(* TransitivelyConnected and Components, tcs:60-66 *)
Definition tcs_connected (s : tcs) (a b : Z) : option (tcs * bool) :=
  match cc_connected (t_cc s) a b with
  | None => None
  | Some (c, r) => Some ({| t_cc := c; t_times := t_times s |}, r)
  end.
Definition tcs_components (s : tcs) : option (tcs * list (list Z)) :=
  match cc_components (t_cc s) with
  | None => None
  | Some (c, r) => Some ({| t_cc := c; t_times := t_times s |}, r)
  end.

Inductive tcsop :=
| TAdd (t : Z) | TConnect (a b t : Z) | TConnected (a b : Z)
| TComponents | TLastTime (a b : Z).

Definition tcs_step (s : tcs) (o : tcsop) : option tcs :=
  match o with
  | TAdd t => Some (tcs_add s t)
  | TConnect a b t => tcs_connect s a b t
  | TConnected a b => option_map fst (tcs_connected s a b)
  | TComponents => option_map fst (tcs_components s)
  | TLastTime a b => Some (fst (tcs_last_time s a b))
  end.
Fixpoint tcs_run (s : tcs) (os : list tcsop) : option tcs :=
  match os with
  | [] => Some s
  | o :: r => match tcs_step s o with None => None | Some s' => tcs_run s' r end
  end.
