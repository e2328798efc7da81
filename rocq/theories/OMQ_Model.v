(** Model of sensor::OrderedMultiQueue, sensor::Collator and
    sensor::TrajectoryCollator.
    cartographer/sensor/internal/ordered_multi_queue.{h,cc},
    cartographer/sensor/internal/collator.cc,
    cartographer/sensor/internal/trajectory_collator.cc. *)
From Coq Require Import List ZArith Bool.
Import ListNotations.
Local Open Scope Z_scope.

(** Outcome of an operation: normal result, process abort (failed CHECK or
    uncaught exception), or exhausted model fuel (excluded by theorem). *)
Inductive result (A : Type) : Type :=
| ROk (a : A)
| RAbort
| RFuel.
Arguments ROk {A} a.
Arguments RAbort {A}.
Arguments RFuel {A}.

(** Sequencing: an abort ends the process. *)
Definition rbind {A B} (r : result A) (f : A -> result B) : result B :=
  match r with ROk a => f a | RAbort => RAbort | RFuel => RFuel end.

(** sensor/internal/ordered_multi_queue.h 34-42: QueueKey, ordered
    lexicographically.  Simplification: the sensor id string is represented by
    an integer that stands for its rank in the string order. *)
Definition key : Type := (Z * Z)%type.

(** ordered_multi_queue.h 38-41: operator<. *)
Definition key_ltb (a b : key) : bool :=
  (fst a <? fst b) || ((fst a =? fst b) && (snd a <? snd b)).
(** Equality of QueueKeys (neither is less). *)
Definition key_eqb (a b : key) : bool :=
  (fst a =? fst b) && (snd a =? snd b).

(** A sensor::Data object: its GetTime() and an identity for its content. *)
Record item : Type := mkItem { it_time : Z; it_id : Z }.

(** common/time.h: Time::min() of a 64 bit tick count. *)
Definition time_min : Z := - 2 ^ 63.

(** ordered_multi_queue.h 80-84: struct Queue (the callback is represented by
    the Deliver event carrying the queue key). *)
Record queue : Type := mkQueue { q_data : list item; q_fin : bool }.

(** ordered_multi_queue.h 90-95: members.  [blocker] is None while blocker_ has
    not been assigned (its trajectory_id is then indeterminate in C++). *)
Record state : Type := mkState {
  last_time : Z;
  common_start : list (Z * Z);
  queues : list (key * queue);
  blocker : option key }.

(** Events: Deliver is a callback invocation; Ignore is the "Ignored data for
    queue" warning; Drop is a ghost event recording data discarded before the
    common start time. *)
Inductive event : Type :=
| Deliver (k : key) (d : item)
| Drop (k : key) (d : item)
| Ignore (k : key) (d : item).

(** ordered_multi_queue.cc 41: constructor; header initialisers 90-95. *)
Definition init : state := mkState time_min [] [] None.

(** std::map::find on queues_ (ordered_multi_queue.cc 50, 55, 65). *)
Fixpoint lookup (k : key) (qs : list (key * queue)) : option queue :=
  match qs with
  | [] => None
  | (k', q) :: rest => if key_eqb k k' then Some q else lookup k rest
  end.

(** std::map insertion of a fresh key, keeping ascending key order. *)
Fixpoint insert (k : key) (q : queue) (qs : list (key * queue)) :=
  match qs with
  | [] => [(k, q)]
  | (k', q') :: rest =>
      if key_ltb k k' then (k, q) :: qs else (k', q') :: insert k q rest
  end.

(** In-place modification of an existing map entry. *)
Fixpoint update (k : key) (q : queue) (qs : list (key * queue)) :=
  match qs with
  | [] => []
  | (k', q') :: rest =>
      if key_eqb k k' then (k', q) :: rest else (k', q') :: update k q rest
  end.

(** ordered_multi_queue.cc 49-52: AddQueue. *)
Definition add_queue (k : key) (s : state) : result state :=
  match lookup k (queues s) with
  | Some _ => RAbort
  | None => ROk (mkState (last_time s) (common_start s)
                         (insert k (mkQueue [] false) (queues s)) (blocker s))
  end.

Inductive scan_result : Type :=
| SAbort
| SBlocked (k : key) (qs : list (key * queue))
| SDone (qs : list (key * queue)) (best : option (key * item)).

(** ordered_multi_queue.cc 94-115: the scan over all queues in Dispatch. *)
Fixpoint scan (last : Z) (best : option (key * item))
         (qs : list (key * queue)) : scan_result :=
  match qs with
  | [] => SDone [] best
  | (k, q) :: rest =>
      match q_data q with
      | [] => if q_fin q then scan last best rest else SBlocked k qs
      | d :: _ =>
          let nb := match best with
                    | None => (k, d)
                    | Some b => if it_time d <? it_time (snd b) then (k, d)
                                else b
                    end in
          if last <=? it_time (snd nb) then
            match scan last (Some nb) rest with
            | SAbort => SAbort
            | SBlocked k' qs' => SBlocked k' ((k, q) :: qs')
            | SDone qs' b => SDone ((k, q) :: qs') b
            end
          else SAbort
      end
  end.

(** Lookup in common_start_time_per_trajectory_ (ordered_multi_queue.cc 162). *)
Fixpoint zlookup (t : Z) (m : list (Z * Z)) : option Z :=
  match m with
  | [] => None
  | (t', v) :: rest => if t =? t' then Some v else zlookup t rest
  end.

(** ordered_multi_queue.cc 165-171: the maximum over the fronts of the queues
    of one trajectory.  Called only when every queue is non-empty; an empty
    queue would be a null dereference there and is skipped here. *)
Fixpoint max_front (t : Z) (acc : Z) (qs : list (key * queue)) : Z :=
  match qs with
  | [] => acc
  | (k, q) :: rest =>
      if fst k =? t then
        match q_data q with
        | [] => max_front t acc rest
        | d :: _ => max_front t (Z.max acc (it_time d)) rest
        end
      else max_front t acc rest
  end.

(** ordered_multi_queue.cc 161-176: GetCommonStartTime. *)
Definition get_common_start (t : Z) (cs : list (Z * Z))
           (qs : list (key * queue)) : Z * list (Z * Z) :=
  match zlookup t cs with
  | Some v => (v, cs)
  | None => let v := max_front t time_min qs in (v, (t, v) :: cs)
  end.

Inductive iter_result : Type :=
| IStop (s : state)
| ICont (s : state) (e : event)
| IAbort.

(** ordered_multi_queue.cc 93-148: one round of the while loop of Dispatch.
    151-159 (CannotMakeProgress) sets blocker_; its logging is omitted. *)
Definition iter (s : state) : iter_result :=
  match scan (last_time s) None (queues s) with
  | SAbort => IAbort
  | SBlocked k qs =>
      IStop (mkState (last_time s) (common_start s) qs (Some k))
  | SDone qs None =>
      match qs with
      | [] => IStop (mkState (last_time s) (common_start s) [] (blocker s))
      | _ :: _ => IAbort
      end
  | SDone qs (Some (k, d)) =>
      let (c, cs) := get_common_start (fst k) (common_start s) qs in
      match lookup k qs with
      | None => IAbort
      | Some q =>
          let q' := mkQueue (tl (q_data q)) (q_fin q) in
          let deliver := ICont (mkState (it_time d) cs (update k q' qs)
                                        (blocker s)) (Deliver k d) in
          if c <=? it_time d then deliver
          else match tl (q_data q) with
               | [] => if q_fin q then deliver
                       else IStop (mkState (last_time s) cs qs (Some k))
               | d2 :: _ =>
                   if c <? it_time d2 then deliver
                   else ICont (mkState (last_time s) cs (update k q' qs)
                                       (blocker s)) (Drop k d)
               end
      end
  end.

(** ordered_multi_queue.cc 92-149: Dispatch.  Fuel bounds the while loop; it is
    proved never to run out. *)
Fixpoint dispatch_fuel (n : nat) (s : state) : result (state * list event) :=
  match n with
  | O => RFuel
  | S n' =>
      match iter s with
      | IAbort => RAbort
      | IStop s' => ROk (s', [])
      | ICont s' e =>
          rbind (dispatch_fuel n' s')
                (fun r => ROk (fst r, e :: snd r))
      end
  end.

(** Number of queued items; only used as fuel for [dispatch]. *)
Fixpoint total_items (qs : list (key * queue)) : nat :=
  match qs with
  | [] => O
  | (_, q) :: rest => (length (q_data q) + total_items rest)%nat
  end.

(** ordered_multi_queue.cc 92-149 with enough fuel. *)
Definition dispatch (s : state) : result (state * list event) :=
  dispatch_fuel (S (total_items (queues s))) s.

(** Helper: replaces queues_, the other members unchanged. *)
Definition set_queues (s : state) (qs : list (key * queue)) : state :=
  mkState (last_time s) (common_start s) qs (blocker s).

(** ordered_multi_queue.cc 54-61: MarkQueueAsFinished. *)
Definition mark_finished (k : key) (s : state)
  : result (state * list event) :=
  match lookup k (queues s) with
  | None => RAbort
  | Some q =>
      if q_fin q then RAbort
      else dispatch (set_queues s (update k (mkQueue (q_data q) true)
                                          (queues s)))
  end.

(** ordered_multi_queue.cc 63-73: Add. *)
Definition add (k : key) (d : item) (s : state)
  : result (state * list event) :=
  match lookup k (queues s) with
  | None => ROk (s, [Ignore k d])
  | Some q =>
      dispatch (set_queues s (update k (mkQueue (q_data q ++ [d]) (q_fin q))
                                     (queues s)))
  end.

(** ordered_multi_queue.cc 82-84: the second loop of Flush; also collator.cc
    37-39. *)
Fixpoint mark_all (ks : list key) (s : state) : result (state * list event) :=
  match ks with
  | [] => ROk (s, [])
  | k :: rest =>
      rbind (mark_finished k s) (fun r1 =>
      rbind (mark_all rest (fst r1)) (fun r2 =>
      ROk (fst r2, snd r1 ++ snd r2)))
  end.

(** ordered_multi_queue.cc 75-85: Flush. *)
Definition flush (s : state) : result (state * list event) :=
  mark_all (map fst (filter (fun e => negb (q_fin (snd e))) (queues s))) s.

(** ordered_multi_queue.cc 87-90: GetBlocker. *)
Definition get_blocker (s : state) : result (option key) :=
  match queues s with
  | [] => RAbort
  | _ => ROk (blocker s)
  end.

(** ordered_multi_queue.cc 43-47: the destructor's CHECK. *)
Definition destroy (s : state) : result unit :=
  if forallb (fun e => q_fin (snd e)) (queues s) then ROk tt else RAbort.

(** The public operations of OrderedMultiQueue. *)
Inductive op : Type :=
| OAddQueue (k : key)
| OAdd (k : key) (d : item)
| OFinish (k : key)
| OFlush.

(** Dispatch of one operation to the member functions above. *)
Definition exec (o : op) (s : state) : result (state * list event) :=
  match o with
  | OAddQueue k => rbind (add_queue k s) (fun s' => ROk (s', []))
  | OAdd k d => add k d s
  | OFinish k => mark_finished k s
  | OFlush => flush s
  end.

(** A history of calls; concatenates the events. *)
Fixpoint run (ops : list op) (s : state) : result (state * list event) :=
  match ops with
  | [] => ROk (s, [])
  | o :: rest =>
      rbind (exec o s) (fun r1 =>
      rbind (run rest (fst r1)) (fun r2 =>
      ROk (fst r2, snd r1 ++ snd r2)))
  end.

(** * Collators *)

(** Operations of sensor::CollatorInterface.  The set of expected sensor ids is
    a list without duplicates in hash set iteration order (any order). *)
Inductive cop : Type :=
| CAddTrajectory (t : Z) (sensors : list Z)
| CAddData (t : Z) (sensor : Z) (d : item)
| CFinish (t : Z)
| CFlush.

(** collator.cc 26-33: the AddQueue calls of AddTrajectory. *)
Fixpoint add_queues (ks : list key) (s : state) : result state :=
  match ks with
  | [] => ROk s
  | k :: rest => rbind (add_queue k s) (add_queues rest)
  end.

(** collator.cc 32, 37: queue_keys_[trajectory_id] (empty if absent). *)
Fixpoint klookup (t : Z) (m : list (Z * list key)) : list key :=
  match m with
  | [] => []
  | (t', v) :: rest => if t =? t' then v else klookup t rest
  end.

(** sensor/internal/collator.h: members queue_ and queue_keys_. *)
Record collator : Type := mkCollator {
  c_queue : state; c_keys : list (Z * list key) }.

(** collator.h: default constructed members. *)
Definition collator_init : collator := mkCollator init [].

(** collator.cc 22-48: AddTrajectory, AddSensorData, FinishTrajectory, Flush. *)
Definition collator_exec (o : cop) (c : collator)
  : result (collator * list event) :=
  match o with
  | CAddTrajectory t sensors =>
      let ks := map (fun x => (t, x)) sensors in
      rbind (add_queues ks (c_queue c)) (fun s =>
      ROk (mkCollator s ((t, klookup t (c_keys c) ++ ks) :: c_keys c), []))
  | CAddData t sensor d =>
      rbind (add (t, sensor) d (c_queue c)) (fun r =>
      ROk (mkCollator (fst r) (c_keys c), snd r))
  | CFinish t =>
      rbind (mark_all (klookup t (c_keys c)) (c_queue c)) (fun r =>
      ROk (mkCollator (fst r) (c_keys c), snd r))
  | CFlush =>
      rbind (flush (c_queue c)) (fun r =>
      ROk (mkCollator (fst r) (c_keys c), snd r))
  end.

(** A history of calls to Collator. *)
Fixpoint collator_run (ops : list cop) (c : collator)
  : result (collator * list event) :=
  match ops with
  | [] => ROk (c, [])
  | o :: rest =>
      rbind (collator_exec o c) (fun r1 =>
      rbind (collator_run rest (fst r1)) (fun r2 =>
      ROk (fst r2, snd r1 ++ snd r2)))
  end.

(** trajectory_collator.h: trajectory_to_queue_ and trajectory_to_queue_keys_.
    One entry per trajectory; an entry exists once the trajectory has been
    added with at least one sensor (operator[] in the loop). *)
Definition tcollator : Type := list (Z * (state * list key)).

(** trajectory_collator.cc 32, 45, 54: find in trajectory_to_queue_. *)
Fixpoint tlookup (t : Z) (m : tcollator) : option (state * list key) :=
  match m with
  | [] => None
  | (t', v) :: rest => if t =? t' then Some v else tlookup t rest
  end.

(** In-place update of an entry of trajectory_to_queue_. *)
Fixpoint tupdate (t : Z) (v : state * list key) (m : tcollator) : tcollator :=
  match m with
  | [] => []
  | (t', v') :: rest =>
      if t =? t' then (t', v) :: rest else (t', v') :: tupdate t v rest
  end.

(** trajectory_collator.cc 58-62: Flush over all trajectories.  flat_hash_map
    iteration order is unspecified; the model uses the order of insertion. *)
Fixpoint tflush (m : tcollator) : result (tcollator * list event) :=
  match m with
  | [] => ROk ([], [])
  | (t, (s, ks)) :: rest =>
      rbind (flush s) (fun r1 =>
      rbind (tflush rest) (fun r2 =>
      ROk ((t, (fst r1, ks)) :: fst r2, snd r1 ++ snd r2)))
  end.

(** trajectory_collator.cc 28-62.  Metrics are omitted. *)
Definition tcollator_exec (o : cop) (c : tcollator)
  : result (tcollator * list event) :=
  match o with
  | CAddTrajectory t sensors =>
      match tlookup t c with
      | Some _ => RAbort
      | None =>
          match sensors with
          | [] => ROk (c, [])
          | _ =>
              let ks := map (fun x => (t, x)) sensors in
              rbind (add_queues ks init) (fun s =>
              ROk (c ++ [(t, (s, ks))], []))
          end
      end
  | CAddData t sensor d =>
      match tlookup t c with
      | None => RAbort
      | Some (s, ks) =>
          rbind (add (t, sensor) d s) (fun r =>
          ROk (tupdate t (fst r, ks) c, snd r))
      end
  | CFinish t =>
      match tlookup t c with
      | None => ROk (c, [])
      | Some (s, ks) =>
          rbind (mark_all ks s) (fun r =>
          ROk (tupdate t (fst r, ks) c, snd r))
      end
  | CFlush => tflush c
  end.

(** A history of calls to TrajectoryCollator. *)
Fixpoint tcollator_run (ops : list cop) (c : tcollator)
  : result (tcollator * list event) :=
  match ops with
  | [] => ROk (c, [])
  | o :: rest =>
      rbind (tcollator_exec o c) (fun r1 =>
      rbind (tcollator_run rest (fst r1)) (fun r2 =>
      ROk (fst r2, snd r1 ++ snd r2)))
  end.
