(* Model of LocalTrajectoryUploader: cartographer/cloud/internal/local_trajectory_uploader.cc
   (lt below). *)
From Coq Require Import List ZArith Bool.
Import ListNotations.
Open Scope Z_scope.

(* proto::SensorData: its trajectory id, the rest as an opaque tag, and whether it is a local
   SLAM result whose last submap is new (lt:168-172, IsNewSubmap lt:52-55) *)
Record item := mk_item { traj : Z; tag : Z; new_submap : bool }.

(* where the upload thread is: at the head of the loop of ProcessSendQueue (lt:204), in the
   loop of TryRecovery (lt:162), or finished *)
Inductive where_at := InLoop | InRecovery | Stopped.

(* local_trajectory_id_to_trajectory_info_, reduced to uplink_trajectory_id, in key order *)
Definition idmap := list (Z * option Z).

(* received and past are not variables of the program: the batches that reached the uplink (an
   item with its translated trajectory id), and every item that left the queue and the batch,
   with true if it reached the uplink. *)
Record state := mk_state
  { queue : list item;              (* send_queue_ *)
    batch : list (item * Z);        (* batch_request *)
    ids : idmap;
    shutting_down : bool;
    at_ : where_at;
    received : list (list (item * Z));
    past : list (item * bool) }.

(* after Start, lt:131-136 *)
Definition start : state := mk_state [] [] [] false InLoop [] [].

(* TranslateTrajectoryId, lt:245-259 *)
Fixpoint translate (m : idmap) (t : Z) : option Z :=
  match m with
  | [] => None
  | (k, u) :: r => if k =? t then u else translate r t
  end.

(* the result of client.Write, lt:229; a failed write may still have reached the uplink *)
Inductive write := WriteOk | WriteFailed (arrived : bool).

(* lt:188-197 after the reset of lt:180-182: RegisterTrajectory for each entry until one
   fails; rs: the answers of the uplink, None for a failure *)
Fixpoint register (m : idmap) (rs : list (option Z)) : idmap :=
  match m, rs with
  | (k, _) :: m', Some u :: rs' => (k, Some u) :: register m' rs'
  | _, _ => map (fun e => (fst e, None)) m
  end.

(* TryRecovery up to its loop, lt:146-161; connected: the channel is ready or becomes so *)
Definition try_recovery (connected : bool) : where_at := if connected then InRecovery else InLoop.

Definition lost (l : list (item * Z)) : list (item * bool) := map (fun e => (fst e, false)) l.
Definition arrived (l : list (item * Z)) : list (item * bool) := map (fun e => (fst e, true)) l.

(* One iteration of a loop of the upload thread, given the answers of the environment. The
   timeouts of the queue when it is empty are iterations without effect. *)
Definition tick (batch_size : Z) (w : write) (connected : bool) (rs : list (option Z))
    (s : state) : state :=
  match at_ s with
  | Stopped => s
  | InLoop =>                                                    (* lt:204-242 *)
      if shutting_down s then
        mk_state (queue s) (batch s) (ids s) true Stopped (received s) (past s)
      else
        match queue s with
        | [] => s
        | x :: q =>
            match translate (ids s) (traj x) with
            | None =>                                            (* lt:207-211 *)
                mk_state q [] (ids s) false (try_recovery connected) (received s)
                         (past s ++ lost (batch s) ++ [(x, false)])
            | Some u =>
                let b := batch s ++ [(x, u)] in
                if Z.of_nat (length b) =? batch_size then        (* lt:224 *)
                  match w with
                  | WriteOk =>                                   (* lt:229-234 *)
                      mk_state q [] (ids s) false InLoop (received s ++ [b])
                               (past s ++ arrived b)
                  | WriteFailed true =>                          (* lt:236-237 *)
                      mk_state q [] (ids s) false (try_recovery connected) (received s ++ [b])
                               (past s ++ arrived b)
                  | WriteFailed false =>
                      mk_state q [] (ids s) false (try_recovery connected) (received s)
                               (past s ++ lost b)
                  end
                else mk_state q b (ids s) false InLoop (received s) (past s)
            end
        end
  | InRecovery =>                                                (* lt:162-199 *)
      if shutting_down s then
        mk_state (queue s) (batch s) (ids s) true InLoop (received s) (past s)
      else
        match queue s with
        | [] => s
        | x :: q =>
            if new_submap x then
              mk_state (queue s) (batch s) (register (ids s) rs) false InLoop (received s) (past s)
            else mk_state q (batch s) (ids s) false InRecovery (received s)
                          (past s ++ [(x, false)])
        end
  end.

(* insertion into the std::map *)
Fixpoint insert (m : idmap) (k : Z) (u : option Z) : idmap :=
  match m with
  | [] => [(k, u)]
  | (k', u') :: r => if k <? k' then (k, u) :: m else (k', u') :: insert r k u
  end.

Inductive event :=
| Enqueue (x : item)                        (* EnqueueSensorData, lt:329-332 *)
| AddTrajectory (t : Z) (u : option Z)      (* lt:261-303, with the answer of the uplink *)
| ShutdownCall                              (* Shutdown up to the join, lt:138-142 *)
| Tick (w : write) (connected : bool) (rs : list (option Z)).

(* None: a CHECK fails, lt:265, lt:139. Simplification: the unsynchronised accesses of
   AddTrajectory and the upload thread to the map do not overlap. *)
Definition step (batch_size : Z) (s : state) (e : event) : option state :=
  match e with
  | Enqueue x =>
      Some (mk_state (queue s ++ [x]) (batch s) (ids s) (shutting_down s) (at_ s) (received s)
                     (past s))
  | AddTrajectory t u =>
      if existsb (fun e => fst e =? t) (ids s) then None
      else Some (mk_state (queue s) (batch s) (insert (ids s) t u) (shutting_down s) (at_ s)
                          (received s) (past s))
  | ShutdownCall =>
      if shutting_down s then None
      else Some (mk_state (queue s) (batch s) (ids s) true (at_ s) (received s) (past s))
  | Tick w c rs => Some (tick batch_size w c rs s)
  end.

Fixpoint steps (batch_size : Z) (s : state) (es : list event) : option state :=
  match es with
  | [] => Some s
  | e :: r => match step batch_size s e with
              | Some s' => steps batch_size s' r
              | None => None
              end
  end.
