(* Model of BlockingQueue: cartographer/common/internal/blocking_queue.h (bq below), used by
   any number of threads.  Every method is one critical section of mutex_; Await gives the
   mutex up until its condition holds and continues with the mutex held. *)
From Coq Require Import List ZArith Bool.
Import ListNotations.
Open Scope Z_scope.

Section Queue.
Variable T : Type.
Variable capacity : Z.         (* queue_size_, kInfiniteQueueSize = 0 *)

(* the methods, bq:49-140; durations are not modelled *)
Inductive op :=
| Push (t : T)
| PushWithTimeout (t : T)
| Pop
| PopWithTimeout
| PeekWithTimeout
| Peek
| Size
| WaitUntilEmpty.
(* what they return *)
Inductive res :=
| RVoid
| RBool (b : bool)
| RItem (t : T)                (* Peek: what the pointer points to *)
| RNull
| RSize (n : Z).

(* QueueEmptyCondition, QueueNotFullCondition, bq:142-150 *)
Definition queue_empty (q : list T) : bool := match q with [] => true | _ => false end.
Definition queue_not_full (q : list T) : bool :=
  (capacity =? 0) || (Z.of_nat (length q) <? capacity).

(* The critical section of a method, entered with the mutex held; [expired] says whether
   the timeout of an AwaitWithTimeout has passed, which then returns whether its condition
   holds.  None: the thread stays in Await. *)
Definition section (o : op) (expired : bool) (q : list T) : option (list T * res) :=
  match o with
  | Push t =>                                                     (* bq:49-56 *)
      if queue_not_full q then Some (q ++ [t], RVoid) else None
  | PushWithTimeout t =>                                          (* bq:59-70 *)
      if queue_not_full q then Some (q ++ [t], RBool true)
      else if expired then Some (q, RBool false) else None
  | Pop =>                                                        (* bq:73-83 *)
      match q with t :: r => Some (r, RItem t) | [] => None end
  | PopWithTimeout =>                                             (* bq:86-98 *)
      match q with
      | t :: r => Some (r, RItem t)
      | [] => if expired then Some (q, RNull) else None
      end
  | PeekWithTimeout =>                                            (* bq:101-113 *)
      match q with
      | t :: _ => Some (q, RItem t)
      | [] => if expired then Some (q, RNull) else None
      end
  | Peek =>                                                       (* bq:118-125 *)
      match q with t :: _ => Some (q, RItem t) | [] => Some (q, RNull) end
  | Size => Some (q, RSize (Z.of_nat (length q)))                 (* bq:128-131 *)
  | WaitUntilEmpty =>                                             (* bq:134-140 *)
      if queue_empty q then Some (q, RVoid) else None
  end.

(* what a thread is doing *)
Inductive thread :=
| Outside                      (* not in a method *)
| Inside (o : op)              (* called, critical section not yet passed *)
| Leaving (o : op) (r : res).  (* critical section passed, about to return r *)
Record state := mk_state { queue : list T; threads : nat -> thread }.
Definition init : state := mk_state [] (fun _ => Outside).
Definition upd (f : nat -> thread) (t : nat) (v : thread) : nat -> thread :=
  fun u => if Nat.eqb u t then v else f u.

Inductive event :=
| Call (t : nat) (o : op)
| Enter (t : nat) (expired : bool)
| Return (t : nat) (r : res).
Definition step (s : state) (e : event) (s' : state) : Prop :=
  match e with
  | Call t o => threads s t = Outside /\ s' = mk_state (queue s) (upd (threads s) t (Inside o))
  | Enter t expired => exists o q r, threads s t = Inside o /\ section o expired (queue s) = Some (q, r) /\
                       s' = mk_state q (upd (threads s) t (Leaving o r))
  | Return t r => exists o, threads s t = Leaving o r /\ s' = mk_state (queue s) (upd (threads s) t Outside)
  end.
(* executions; the last event first *)
Inductive run : list event -> state -> Prop :=
| run_init : run [] init
| run_step es s e s' : run es s -> step s e s' -> run (e :: es) s'.
End Queue.
Arguments Push {T}. Arguments PushWithTimeout {T}. Arguments Pop {T}. Arguments PopWithTimeout {T}.
Arguments PeekWithTimeout {T}. Arguments Peek {T}. Arguments Size {T}. Arguments WaitUntilEmpty {T}.
Arguments RVoid {T}. Arguments RBool {T}. Arguments RItem {T}. Arguments RNull {T}. Arguments RSize {T}.
Arguments Call {T}. Arguments Enter {T}. Arguments Return {T}. Arguments queue {T}. Arguments threads {T}.
Arguments Outside {T}. Arguments Inside {T}. Arguments Leaving {T}. Arguments run {T}. Arguments step {T}.
Arguments section {T}. Arguments init {T}.
