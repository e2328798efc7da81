(* Model of Task and ThreadPool: cartographer/common/task.cc (tk below) and
   cartographer/common/thread_pool.cc (tp below), used by any number of client threads.
   Tasks and workers are numbered.

   Granularity: a step is a critical section.  Where a section of one mutex contains
   sections of others and all are entered before any is left (SetThreadPool,
   AddDependentTask, OnDependenyCompleted with NotifyDependenciesCompleted inside), the
   whole is one step.  The last section of Task::Execute is left only after many sections
   of other mutexes were entered and left; it is several steps, during which the mutex of
   the task is held (t_held) and steps that need it are blocked. *)
From Coq Require Import List ZArith Bool PeanoNat.
Import ListNotations.
Open Scope Z_scope.

(* Task::State, task.h:37 *)
Inductive tstate := NEW | DISPATCHED | DEPENDENCIES_COMPLETED | RUNNING | COMPLETED.
Definition tstate_eqb (a b : tstate) : bool :=
  match a, b with
  | NEW, NEW | DISPATCHED, DISPATCHED | DEPENDENCIES_COMPLETED, DEPENDENCIES_COMPLETED
  | RUNNING, RUNNING | COMPLETED, COMPLETED => true
  | _, _ => false
  end.

(* the members of Task, task.h:66-72.  Elements that the loop at the end of Execute has
   visited are removed from t_dependents: the set is not used otherwise from then on. *)
Record task := mk_task {
  t_state : tstate;
  t_uncompleted : Z;            (* unsigned int *)
  t_dependents : list nat;
  t_pool : bool;                (* thread_pool_to_notify_ is set *)
  t_held : bool                 (* mutex_ is held by a worker in the last part of Execute *)
}.
Definition task_new : task := mk_task NEW 0 [] false false.

(* where a worker is in DoWork, tp:79-105, and Execute, tk:87-104 *)
Inductive worker :=
| Waiting                       (* in Await, or about to be *)
| Popped (t : nat)              (* has taken t from the queue *)
| Checked (t : nat)             (* has done CHECK_EQ(task->GetState(), ...) *)
| Running (t : nat)             (* executes the work item of t *)
| Notifying (t : nat)           (* t is COMPLETED, in the loop over dependent_tasks_ *)
| Exited.

(* who calls AddDependency and Schedule: a thread outside the pool, or the work item that a
   worker is executing *)
Inductive who := External | Inside (w : nat).

Record state := mk_state {
  tasks : nat -> task;
  not_ready : list nat;         (* keys of tasks_not_ready_ *)
  ready : list nat;             (* task_queue_ *)
  workers : nat -> worker;
  adding : list (who * nat * nat);   (* AddDependency t d between its two sections *)
  scheduling : list (who * nat);     (* Schedule t between its two sections *)
  running : bool
}.
(* ThreadPool(num_threads), tp:39-45 *)
Definition init (num_threads : nat) : state :=
  mk_state (fun _ => task_new) [] [] (fun w => if Nat.ltb w num_threads then Waiting else Exited) [] [] true.

Definition upd {A} (f : nat -> A) (k : nat) (v : A) : nat -> A := fun i => if Nat.eqb i k then v else f i.
Definition mem (t : nat) (l : list nat) : bool := existsb (Nat.eqb t) l.
Definition remove1 (t : nat) (l : list nat) : list nat := filter (fun u => negb (Nat.eqb t u)) l.
Definition same_add (t d : nat) (a : who * nat * nat) : bool := Nat.eqb t (snd (fst a)) && Nat.eqb d (snd a).
Definition same_who (a b : who) : bool :=
  match a, b with
  | External, External => true
  | Inside v, Inside w => Nat.eqb v w
  | _, _ => false
  end.

(* Next: done; Blocked: waits for a mutex, a condition or is not at that point; Crash: a
   CHECK fails *)
Inductive result := Next (s : state) | Blocked | Crash.

Definition set_task (s : state) (t : nat) (x : task) : state :=
  mk_state (upd (tasks s) t x) (not_ready s) (ready s) (workers s) (adding s) (scheduling s) (running s).
Definition set_worker (s : state) (w : nat) (x : worker) : state :=
  mk_state (tasks s) (not_ready s) (ready s) (upd (workers s) w x) (adding s) (scheduling s) (running s).
Definition set_adding (s : state) (l : list (who * nat * nat)) : state :=
  mk_state (tasks s) (not_ready s) (ready s) (workers s) l (scheduling s) (running s).
Definition set_scheduling (s : state) (l : list (who * nat)) : state :=
  mk_state (tasks s) (not_ready s) (ready s) (workers s) (adding s) l (running s).

(* NotifyDependenciesCompleted, tp:58-64 *)
Definition notify_pool (s : state) (t : nat) : result :=
  if mem t (not_ready s)
  then Next (mk_state (tasks s) (remove1 t (not_ready s)) (ready s ++ [t]) (workers s) (adding s)
               (scheduling s) (running s))
  else Crash.

(* OnDependenyCompleted, tk:76-85 *)
Definition on_dependency_completed (s : state) (t : nat) : result :=
  let x := tasks s t in
  if t_held x then Blocked
  else match t_state x with
       | NEW | DISPATCHED =>
           let u := (t_uncompleted x - 1) mod 2 ^ 32 in
           if (u =? 0) && tstate_eqb (t_state x) DISPATCHED then
             if t_pool x
             then notify_pool (set_task s t (mk_task DEPENDENCIES_COMPLETED u (t_dependents x) (t_pool x) false)) t
             else Crash
           else Next (set_task s t (mk_task (t_state x) u (t_dependents x) (t_pool x) false))
       | _ => Crash
       end.

Inductive action :=
| AddDependency (c : who) (t d : nat) (alive : bool)  (* first section, tk:40-48; alive: dependency.lock() *)
| AddDependentTask (c : who) (t d : nat)              (* second section, tk:49-51 *)
| Schedule (c : who) (t : nat)                        (* first section, tp:66-74 *)
| SetThreadPool (c : who) (t : nat)                   (* second section, tp:75 *)
| Destructor                                          (* tp:47-56; the joins wait for Exited *)
| Pop (w : nat)
| Check (w : nat)
| Start (w t : nat)
| Finish (w t : nat)
| Notify (w d : nat)
| Release (w : nat)
| Exit (w : nat).

Definition step (s : state) (a : action) : result :=
  match a with
  | AddDependency c t d alive =>
      let x := tasks s t in
      if t_held x then Blocked
      else match t_state x with
           | NEW =>
               if alive
               then Next (set_adding
                            (set_task s t (mk_task NEW ((t_uncompleted x + 1) mod 2 ^ 32) (t_dependents x)
                                             (t_pool x) (t_held x)))
                            ((c, t, d) :: adding s))
               else Next s
           | _ => Crash
           end
  | AddDependentTask c t d =>                          (* tk:66-74 *)
      if existsb (fun a => same_add t d a && same_who c (fst (fst a))) (adding s) then
        let s1 := set_adding s (filter (fun a => negb (same_add t d a)) (adding s)) in
        let x := tasks s d in
        if t_held x then Blocked
        else match t_state x with
             | COMPLETED => on_dependency_completed s1 t
             | _ => if mem t (t_dependents x) then Crash
                    else Next (set_task s1 d (mk_task (t_state x) (t_uncompleted x) (t :: t_dependents x)
                                                (t_pool x) (t_held x)))
             end
      else Blocked
  | Schedule c t =>
      if mem t (not_ready s) then Crash
      else Next (mk_state (tasks s) (t :: not_ready s) (ready s) (workers s) (adding s)
                   ((c, t) :: scheduling s) (running s))
  | SetThreadPool c t =>                               (* tk:54-64 *)
      if existsb (fun a => Nat.eqb t (snd a) && same_who c (fst a)) (scheduling s) then
        let s1 := set_scheduling s (filter (fun a => negb (Nat.eqb t (snd a))) (scheduling s)) in
        let x := tasks s t in
        if t_held x then Blocked
        else match t_state x with
             | NEW =>
                 if t_uncompleted x =? 0
                 then notify_pool (set_task s1 t (mk_task DEPENDENCIES_COMPLETED (t_uncompleted x)
                                                    (t_dependents x) true (t_held x))) t
                 else Next (set_task s1 t (mk_task DISPATCHED (t_uncompleted x) (t_dependents x) true (t_held x)))
             | _ => Crash
             end
      else Blocked
  | Destructor =>
      if running s
      then Next (mk_state (tasks s) (not_ready s) (ready s) (workers s) (adding s) (scheduling s) false)
      else Crash
  | Pop w =>                                           (* tp:92-97 *)
      match workers s w, ready s with
      | Waiting, t :: r => Next (mk_state (tasks s) (not_ready s) r (upd (workers s) w (Popped t))
                                   (adding s) (scheduling s) (running s))
      | _, _ => Blocked
      end
  | Check w =>                                         (* tp:101-102 *)
      match workers s w with
      | Popped t =>
          if t_held (tasks s t) then Blocked
          else if tstate_eqb (t_state (tasks s t)) DEPENDENCIES_COMPLETED
               then Next (set_worker s w (Checked t)) else Crash
      | _ => Blocked
      end
  | Start w t =>                                       (* tk:88-92 *)
      match workers s w with
      | Checked u =>
          if Nat.eqb u t then
            let x := tasks s t in
            if t_held x then Blocked
            else if tstate_eqb (t_state x) DEPENDENCIES_COMPLETED
                 then Next (set_worker (set_task s t (mk_task RUNNING (t_uncompleted x) (t_dependents x)
                                                        (t_pool x) (t_held x))) w (Running t))
                 else Crash
          else Blocked
      | _ => Blocked
      end
  | Finish w t =>                                      (* tk:94-100; after the calls of the work item *)
      match workers s w with
      | Running u =>
          let x := tasks s t in
          if Nat.eqb u t && negb (t_held x)
             && negb (existsb (fun a => same_who (Inside w) (fst (fst a))) (adding s))
             && negb (existsb (fun a => same_who (Inside w) (fst a)) (scheduling s))
          then Next (set_worker (set_task s t (mk_task COMPLETED (t_uncompleted x) (t_dependents x)
                                                 (t_pool x) true)) w (Notifying t))
          else Blocked
      | _ => Blocked
      end
  | Notify w d =>                                      (* tk:101-103, one turn; d any element not visited yet *)
      match workers s w with
      | Notifying t =>
          let x := tasks s t in
          if mem d (t_dependents x)
          then on_dependency_completed
                 (set_task s t (mk_task (t_state x) (t_uncompleted x) (remove1 d (t_dependents x))
                                  (t_pool x) (t_held x))) d
          else Blocked
      | _ => Blocked
      end
  | Release w =>                                       (* tk:104 *)
      match workers s w with
      | Notifying t =>
          let x := tasks s t in
          match t_dependents x with
          | [] => Next (set_worker (set_task s t (mk_task (t_state x) (t_uncompleted x) [] (t_pool x) false))
                          w Waiting)
          | _ => Blocked
          end
      | _ => Blocked
      end
  | Exit w =>                                          (* tp:97-99 *)
      match workers s w, ready s with
      | Waiting, [] => if running s then Blocked else Next (set_worker s w Exited)
      | _, _ => Blocked
      end
  end.
