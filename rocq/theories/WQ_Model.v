(* Model of the work queue of PoseGraph2D: cartographer/mapping/internal/2d/pose_graph_2d.cc
   (pg below), between threads.  A step is what a thread does while it holds work_queue_mutex_,
   or the execution of one work item, or one call of the constraint builder.  What the items
   and the optimization do is not modelled (PG_Model has that); whether an item asks for an
   optimization is decided by the schedule.  None: undefined behaviour or a CHECK fails. *)
From Coq Require Import List ZArith Bool.
Import ListNotations.
Open Scope Z_scope.

(* a thread of the pool that is in DrainWorkQueue or HandleWorkQueue *)
Inductive pc :=
| AtLoop            (* pg:523, about to take the lock; also: scheduled and not yet begun *)
| Running (x : Z)   (* pg:536, in the work item *)
| AtWhenDone        (* pg:540, about to call WhenDone *)
| AtHandle.         (* pg:444-516, HandleWorkQueue, before it calls DrainWorkQueue *)
(* who made the callback stored in when_done_ of the constraint builder *)
Inductive owner := Queue | Waiter (k : nat).
(* a thread in WaitForAllComputations, pg:546-607 *)
Inductive wait := WaitQueue (* pg:578-583 *) | WaitWhenDone (* pg:586-589 *)
                | WaitCallback (* pg:600-603 *) | WaitOver.
Record state := mk_state {
  work : option (list Z);      (* work_queue_; None: nullptr *)
  workers : list pc;
  when_done : option owner;    (* constraint_builder_.when_done_ *)
  waits : list wait;
  submitted : list Z;          (* the items given to AddWorkItem so far *)
  finished : list Z            (* the items executed so far *)
}.
Definition start : state := mk_state None [] None [] [] [].

Inductive event :=
| Add (x : Z)                  (* AddWorkItem, pg:174-190 *)
| Take (j : nat)               (* worker j: pg:526-535 *)
| Execute (j : nat) (b : bool) (* worker j: pg:536, b: kRunOptimization *)
| AskDone (j : nat)            (* worker j: pg:540-543 *)
| Callback                     (* ConstraintBuilder2D::RunWhenDoneCallback, constraint_builder_2d.cc:285-306 *)
| Handled (j : nat)            (* worker j: the rest of HandleWorkQueue, pg:444-517 *)
| Wait                         (* WaitForAllComputations is called, pg:546 *)
| WaitEmpty (k : nat)          (* its first wait ends, pg:571-583 *)
| WaitAsk (k : nat).           (* it calls WhenDone, pg:586-599 *)

Fixpoint put {A} (j : nat) (v : A) (l : list A) : list A :=
  match l, j with
  | [], _ => []
  | _ :: r, O => v :: r
  | a :: r, S j => a :: put j v r
  end.
Fixpoint drop {A} (j : nat) (l : list A) : list A :=
  match l, j with
  | [], _ => []
  | _ :: r, O => r
  | a :: r, S j => a :: drop j r
  end.

(* whether the event can happen *)
Definition enabled (e : event) (s : state) : bool :=
  match e with
  | Add _ | Wait => true
  | Take j => match nth_error (workers s) j with Some AtLoop => true | _ => false end
  | Execute j _ => match nth_error (workers s) j with Some (Running _) => true | _ => false end
  | AskDone j => match nth_error (workers s) j with Some AtWhenDone => true | _ => false end
  | Handled j => match nth_error (workers s) j with Some AtHandle => true | _ => false end
  | Callback => match when_done s with Some _ => true | None => false end
  | WaitEmpty k => match nth_error (waits s) k, work s with Some WaitQueue, None => true | _, _ => false end
  | WaitAsk k => match nth_error (waits s) k with Some WaitWhenDone => true | _ => false end
  end.
(* what an enabled event does *)
Definition step (e : event) (s : state) : option state :=
  let '(mk_state q ws wd wt sub fin) := s in
  match e with
  | Add x =>
      match q with
      | None => Some (mk_state (Some [x]) (ws ++ [AtLoop]) wd wt (sub ++ [x]) fin)
      | Some l => Some (mk_state (Some (l ++ [x])) ws wd wt (sub ++ [x]) fin)
      end
  | Take j =>
      match q with
      | None => None                                    (* work_queue_->empty() of nullptr *)
      | Some [] => Some (mk_state None (drop j ws) wd wt sub fin)
      | Some (x :: r) => Some (mk_state (Some r) (put j (Running x) ws) wd wt sub fin)
      end
  | Execute j b =>
      match nth_error ws j with
      | Some (Running x) =>
          Some (mk_state q (put j (if b then AtWhenDone else AtLoop) ws) wd wt sub (fin ++ [x]))
      | _ => Some s
      end
  | AskDone j =>
      match wd with
      | Some _ => None                                  (* CHECK(when_done_ == nullptr) *)
      | None => Some (mk_state q (drop j ws) (Some Queue) wt sub fin)
      end
  | Callback =>
      match wd with
      | None => Some s
      | Some Queue => Some (mk_state q (ws ++ [AtHandle]) None wt sub fin)
      | Some (Waiter k) => Some (mk_state q ws None (put k WaitOver wt) sub fin)
      end
  | Handled j => Some (mk_state q (put j AtLoop ws) wd wt sub fin)
  | Wait => Some (mk_state q ws wd (wt ++ [WaitQueue]) sub fin)
  | WaitEmpty k => Some (mk_state q ws wd (put k WaitWhenDone wt) sub fin)
  | WaitAsk k =>
      match wd with
      | Some _ => None
      | None => Some (mk_state q ws (Some (Waiter k)) (put k WaitCallback wt) sub fin)
      end
  end.
Fixpoint run (es : list event) (s : state) : option state :=
  match es with
  | [] => Some s
  | e :: r => match step e s with Some s' => run r s' | None => None end
  end.
