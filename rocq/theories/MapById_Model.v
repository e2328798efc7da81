(* Model of mapping::MapById (cartographer/mapping/id.h) and of
   sensor::MapByTime (cartographer/sensor/map_by_time.h).
   A failed CHECK, an exception of .at() and a dereferenced end iterator are
   all the outcome None ("the process dies"). *)
From Coq Require Import List ZArith Bool.
From Verif Require Import ZMap.
Import ListNotations.
Open Scope Z_scope.

(* std::numeric_limits<int>::max(), id.h:364 *)
Definition int_max : Z := 2147483647.

Section MapById.
Context {D : Type}.

(* MapByIndex, id.h:409-412: (can_append_, data_) *)
Definition by_index : Type := bool * list (Z * D).
(* trajectories_, id.h:417 *)
Definition mbi : Type := list (Z * by_index).

(* trajectories_[t], id.h:271 and 289: default construction when absent
   (id.h:410 can_append_ = true) *)
Definition slot (t : Z) (m : mbi) : by_index :=
  match zfind t m with Some x => x | None => (true, []) end.

(* Append, id.h:269-277.  Overflow of the index past INT_MAX is not modelled. *)
Definition mbi_append (t : Z) (d : D) (m : mbi) : option ((Z * Z) * mbi) :=
  if t <? 0 then None else
  let '(can, data) := slot t m in
  if negb can then None else
  let index := match zlast data with None => 0 | Some (i, _) => i + 1 end in
  Some ((t, index), zput t (can, zput index d data) m).

(* Insert, id.h:286-292 *)
Definition mbi_insert (t i : Z) (d : D) (m : mbi) : option mbi :=
  if t <? 0 then None else if i <? 0 then None else
  let '(_, data) := slot t m in
  match zfind i data with
  | Some _ => None
  | None => Some (zput t (false, zput i d data) m)
  end.

(* Trim, id.h:295-310; "std::next(it) == end()" is: no key above i *)
Definition mbi_trim (t i : Z) (m : mbi) : option mbi :=
  match zfind t m with
  | None => None
  | Some (can, data) =>
      match zfind i data with
      | None => None
      | Some _ =>
          let can' := match zupper i data with [] => false | _ => can end in
          let data' := zerase i data in
          Some (match data' with
                | [] => zerase t (zput t (can', data') m)
                | _ => zput t (can', data') m
                end)
      end
  end.

(* Contains, id.h:312-315; at, id.h:317-323 *)
Definition mbi_at (t i : Z) (m : mbi) : option D :=
  match zfind t m with None => None | Some (_, data) => zfind i data end.
Definition mbi_contains (t i : Z) (m : mbi) : bool :=
  match mbi_at t i m with None => false | Some _ => true end.

(* SizeOfTrajectoryOrZero, id.h:334-338; size, id.h:341-347 *)
Definition mbi_traj_size (t : Z) (m : mbi) : nat :=
  match zfind t m with None => 0%nat | Some (_, data) => length data end.
Definition mbi_size (m : mbi) : nat :=
  fold_left (fun s e => (s + length (snd (snd e)))%nat) m 0%nat.

(* ConstIterator, id.h:146-230.  An iterator into a std::map is represented by
   the entries from its position to the end; (current_trajectory_,
   current_data_) is the pair; the end iterator is ([], []). *)
Definition iter : Type := mbi * list (Z * D).

(* AdvanceToValidDataIterator, id.h:216-225 (its CHECK is in the callers) *)
Fixpoint advance (ts : mbi) (ds : list (Z * D)) {struct ts} : iter :=
  match ds with
  | _ :: _ => (ts, ds)
  | [] =>
      match ts with
      | [] => ([], [])
      | _ :: ts' =>
          match ts' with
          | [] => ([], [])
          | (_, (_, d')) :: _ => advance ts' d'
          end
      end
  end.

(* ConstIterator(map, trajectory_id), id.h:154-162 =
   BeginOfTrajectory, id.h:326-328 *)
Definition it_begin (m : mbi) (t : Z) : iter :=
  match zlower t m with
  | [] => ([], [])
  | (k, (c, d)) :: r => advance ((k, (c, d)) :: r) d
  end.
(* EndOfTrajectory, id.h:329-331.  t = INT_MAX overflows in C++; not modelled *)
Definition it_end (m : mbi) (t : Z) : iter := it_begin m (t + 1).

(* ConstIterator(map, id), id.h:164-174 = find, id.h:281-283 *)
Definition it_find (m : mbi) (t i : Z) : iter :=
  match zlower t m with
  | [] => ([], [])
  | (k, (c, d)) :: r =>
      if k =? t then
        match zlower i d with
        | [] => ([], [])
        | (j, v) :: dr =>
            if j =? i then ((k, (c, d)) :: r, (j, v) :: dr) else ([], [])
        end
      else ([], [])
  end.

(* operator*, id.h:176-181 *)
Definition it_deref (it : iter) : option ((Z * Z) * D) :=
  match it with
  | ((t, _) :: _, (i, v) :: _) => Some ((t, i), v)
  | _ => None
  end.

(* operator++, id.h:187-192 *)
Definition it_next (it : iter) : option iter :=
  match it with
  | ([], _) => None
  | (ts, _ :: ds) => Some (advance ts ds)
  | (_ :: _, []) => None
  end.

(* operator--, id.h:194-202: within a trajectory one entry back, otherwise back
   over the (never empty) trajectories before *)
Fixpoint back (rp : mbi) (ts : mbi) : option iter :=
  match rp with
  | [] => None
  | (t, (c, d)) :: rp' =>
      match rev d with
      | [] => back rp' ((t, (c, d)) :: ts)
      | e :: _ => Some ((t, (c, d)) :: ts, [e])
      end
  end.
Definition it_prev (m : mbi) (it : iter) : option iter :=
  let '(ts, ds) := it in
  let before := rev (firstn (length m - length ts) m) in
  match ts with
  | [] => back before []
  | (t, (c, d)) :: _ =>
      match nth_error (rev d) (length ds) with
      | Some e => Some (ts, e :: ds)
      | None => back before ts
      end
  end.

(* operator==, id.h:204-211 *)
Definition it_eqb (a b : iter) : bool :=
  match fst a, fst b with
  | [], [] => true
  | [], _ :: _ | _ :: _, [] => false
  | _, _ => Nat.eqb (length (fst a)) (length (fst b)) &&
            Nat.eqb (length (snd a)) (length (snd b))
  end.

(* a range-for loop from it to stop, collecting the elements; the fuel bounds
   the number of iterations, exhausting it is None *)
Fixpoint it_collect (fuel : nat) (stop it : iter) : option (list ((Z * Z) * D)) :=
  if it_eqb it stop then Some [] else
  match fuel with
  | O => None
  | S fuel =>
      match it_deref it, it_next it with
      | Some x, Some it' =>
          match it_collect fuel stop it' with
          | Some l => Some (x :: l)
          | None => None
          end
      | _, _ => None
      end
  end.

(* begin()/end(), id.h:362-365, and the loop over them; trajectory(t),
   id.h:350-353 *)
Definition mbi_items (m : mbi) : option (list ((Z * Z) * D)) :=
  it_collect (mbi_size m) (it_begin m int_max) (it_begin m 0).
Definition mbi_traj_items (t : Z) (m : mbi) : option (list ((Z * Z) * D)) :=
  it_collect (mbi_size m) (it_end m t) (it_begin m t).
(* trajectory_ids(), id.h:356-360 *)
Definition mbi_ids (m : mbi) : list Z := map fst m.

(* lower_bound(trajectory, time), id.h:373-406; "time" is internal::GetTime.
   left and right are positions in data_, given by their (unique) keys. *)
Section LowerBound.
Variable time : D -> Z.

Fixpoint lb_loop (fuel : nat) (data : list (Z * D)) (left right q : Z)
  : option Z :=
  if left =? right then Some left else
  match fuel with
  | O => None
  | S fuel =>
      let middle := left + Z.quot (right - left) 2 in
      match zlower middle data with
      | [] => None                      (* end() dereferenced, id.h:394 *)
      | (k, v) :: _ =>
          match (if middle <? k then
                   if k =? left then None        (* CHECK, id.h:395 *)
                   else zprev k data             (* std::prev, id.h:396 *)
                 else Some (k, v)) with
          | None => None
          | Some (k', v') =>
              if time v' <? q then
                match zupper k' data with
                | [] => None             (* left = end() *)
                | (k2, _) :: _ => lb_loop fuel data k2 right q
                end
              else lb_loop fuel data left k' q
          end
      end
  end.

Definition mbi_lower_bound (t q : Z) (m : mbi) : option iter :=
  match zfind t m with
  | None => Some (it_end m t)
  | Some (_, data) =>
      match data, zlast data with
      | [], _ | _, None => Some (it_end m t)
      | (l, _) :: _, Some (r, vr) =>
          if time vr <? q then Some (it_end m t)
          else match lb_loop (length data) data l r q with
               | None => None
               | Some k => Some (it_find m t k)
               end
      end
  end.
End LowerBound.

(* the public modifying calls *)
Inductive mop :=
| OpAppend (t : Z) (d : D)
| OpInsert (t i : Z) (d : D)
| OpTrim (t i : Z).

Definition mstep (m : mbi) (o : mop) : option (option (Z * Z) * mbi) :=
  match o with
  | OpAppend t d =>
      match mbi_append t d m with
      | None => None
      | Some (id, m') => Some (Some id, m')
      end
  | OpInsert t i d =>
      match mbi_insert t i d m with None => None | Some m' => Some (None, m') end
  | OpTrim t i =>
      match mbi_trim t i m with None => None | Some m' => Some (None, m') end
  end.

(* a whole history; outs are the returned ids (None for void calls) *)
Fixpoint mrun (m : mbi) (ops : list mop) : option (list (option (Z * Z)) * mbi) :=
  match ops with
  | [] => Some ([], m)
  | o :: ops' =>
      match mstep m o with
      | None => None
      | Some (r, m') =>
          match mrun m' ops' with
          | None => None
          | Some (rs, m'') => Some (r :: rs, m'')
          end
      end
  end.
End MapById.
Arguments mbi : clear implicits.
Arguments mop : clear implicits.

(* ---- sensor::MapByTime, map_by_time.h:35-208 ---- *)

(* common::Time::min() / max(): a time point over int64 ticks *)
Definition time_min : Z := - 2 ^ 63.
Definition time_max : Z := 2 ^ 63 - 1.

Section MapByTime.
Context {D N : Type}.
Variable node_time : N -> Z.

(* data_, map_by_time.h:207; the entry's key is data.time *)
Definition mbt : Type := list (Z * list (Z * D)).

(* Append, map_by_time.h:39-46 *)
Definition mbt_append (t : Z) (time : Z) (d : D) (m : mbt) : option mbt :=
  if t <? 0 then None else
  let tr := match zfind t m with Some x => x | None => [] end in
  match zlast tr with
  | Some (lt, _) => if lt <? time then Some (zput t (zput time d tr) m) else None
  | None => Some (zput t (zput time d tr) m)
  end.

(* Trim, map_by_time.h:51-97.  data_it and data_end are the suffixes from the
   position on. *)
Definition mbt_trim (nodes : mbi N) (t i : Z) (m : mbt) : option mbt :=
  if t <? 0 then None else
  match zfind t m with
  | None => Some m
  | Some tr =>
      let node_it := it_find nodes t i in
      if it_eqb node_it (it_begin nodes int_max) then None else
      match (if negb (it_eqb node_it (it_begin nodes t)) then
               match it_prev nodes node_it with
               | None => None
               | Some p => match it_deref p with
                           | None => None
                           | Some (_, nd) => Some (node_time nd)
                           end
               end
             else Some time_min),
            it_next node_it with
      | Some gap_start, Some next_it =>
          match (if negb (it_eqb next_it (it_end nodes t)) then
                   match it_deref next_it with
                   | None => None
                   | Some (_, nd) => Some (node_time nd)
                   end
                 else Some time_max) with
          | None => None
          | Some gap_end =>
              if negb (gap_start <? gap_end) then None else
              let data_it := zlower gap_start tr in
              let data_end := zupper gap_end tr in
              let inside := firstn (length data_it - length data_end) data_it in
              match inside with
              | [] => Some m
              | _ :: _ =>
                  (* what the erase loop removes, map_by_time.h:80-93 *)
                  let inside1 := if negb (gap_end =? time_max)
                                 then removelast inside else inside in
                  match inside1 with
                  | [] => Some m
                  | _ :: _ =>
                      let inside2 := if negb (gap_start =? time_min)
                                     then tl inside1 else inside1 in
                      let tr' := fold_left (fun a e => zerase (fst e) a)
                                           inside2 tr in
                      Some (match tr' with
                            | [] => zerase t m
                            | _ => zput t tr' m
                            end)
                  end
              end
          end
      | _, _ => None
      end
  end.

(* lower_bound, map_by_time.h:201-204 (suffix from the position) *)
Definition mbt_lower_bound (t q : Z) (m : mbt) : option (list (Z * D)) :=
  match zfind t m with None => None | Some tr => Some (zlower q tr) end.
End MapByTime.
Arguments mbt : clear implicits.
