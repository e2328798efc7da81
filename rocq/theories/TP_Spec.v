(* How clients may use tasks and the pool, and executions. *)
From Coq Require Import List ZArith Bool PeanoNat.
From Verif Require Import TP_Model.
Import ListNotations.
Open Scope Z_scope.

(* A trace lists the actions done, the last first. *)
Definition handed (tr : list action) (t : nat) : Prop := exists c, In (Schedule c t) tr.
Definition returned (tr : list action) (t : nat) : Prop := exists c, In (SetThreadPool c t) tr.
Definition depends (tr : list action) (t d : nat) : Prop := exists c alive, In (AddDependency c t d alive) tr.
Definition finished (tr : list action) (t : nat) : Prop := exists w, In (Finish w t) tr.
Fixpoint starts (t : nat) (tr : list action) : nat :=
  match tr with
  | [] => 0
  | Start _ u :: r => if Nat.eqb t u then S (starts t r) else starts t r
  | _ :: r => starts t r
  end.
Fixpoint num_deps (t : nat) (tr : list action) : nat :=
  match tr with
  | [] => 0
  | AddDependency _ u _ _ :: r => if Nat.eqb t u then S (num_deps t r) else num_deps t r
  | _ :: r => num_deps t r
  end.

(* external calls happen before the destructor, calls of work items while they run *)
Definition may_call (s : state) (c : who) : Prop :=
  match c with
  | External => running s = true
  | Inside w => exists t, workers s w = Running t
  end.
Definition in_use (s : state) (d : nat) : Prop :=
  exists w, workers s w = Popped d \/ workers s w = Checked d \/ workers s w = Running d \/ workers s w = Notifying d.

(* The contract of the interface: dependencies are added before a task is handed to the
   pool, once per dependency; a dependency is a weak_ptr as returned by Schedule; a task is
   handed to the pool once (it is a unique_ptr); the pool is destroyed once, not during an
   external call.  lock() fails only for a task that is completed and not in use. *)
Definition allowed (tr : list action) (s : state) (a : action) : Prop :=
  match a with
  | AddDependency c t d alive =>
      may_call s c /\ ~ handed tr t /\ returned tr d /\ ~ depends tr t d /\
      Z.of_nat (num_deps t tr) < 2 ^ 32 - 1 /\
      (alive = false -> t_state (tasks s d) = COMPLETED /\ ~ in_use s d)
  | Schedule c t => may_call s c /\ ~ handed tr t
  | Destructor => ~ In Destructor tr /\ (forall t d, ~ In (External, t, d) (adding s)) /\
                  (forall t, ~ In (External, t) (scheduling s))
  | _ => True
  end.

(* executions of a pool with n workers *)
Inductive run (n : nat) : list action -> state -> Prop :=
| run_init : run n [] (init n)
| run_step tr s a s' : run n tr s -> allowed tr s a -> step s a = Next s' -> run n (a :: tr) s'.

(* steps that are not new calls by clients *)
Definition internal (a : action) : Prop :=
  match a with
  | AddDependency _ _ _ _ | Schedule _ _ | Destructor => False
  | _ => True
  end.
(* counts of actions *)
Fixpoint internals (tr : list action) : nat :=
  match tr with
  | [] => 0
  | (AddDependency _ _ _ _ | Schedule _ _ | Destructor) :: r => internals r
  | _ :: r => S (internals r)
  end.
Fixpoint additions (tr : list action) : nat :=
  match tr with [] => 0 | AddDependency _ _ _ _ :: r => S (additions r) | _ :: r => additions r end.
Fixpoint schedules (tr : list action) : nat :=
  match tr with [] => 0 | Schedule _ _ :: r => S (schedules r) | _ :: r => schedules r end.
(* no thread in the pool and no call in progress can make a step *)
Definition stuck (s : state) : Prop := forall a s', internal a -> step s a <> Next s'.
