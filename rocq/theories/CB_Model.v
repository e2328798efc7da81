(* Model of ConstraintBuilder2D between threads:
   cartographer/mapping/internal/constraints/constraint_builder_2d.cc (cb below).

   A step is a critical section of mutex_ or the beginning or the end of a task.  The thread
   pool starts a task when all its dependencies have completed and executes it once (C05 has
   that for ThreadPool).  A task gets its number when it is scheduled: of finish_node_task_ and
   when_done_task_, which wait to be scheduled, only the dependencies are kept.
   Pointers are numbers: the k-th search since construction writes to the k-th element of
   constraints_ ever made, of which those from base on exist; a scan matcher is known by the
   number of the task that creates it.  What scan matching finds is a parameter.
   None: a CHECK fails or memory that has been freed is used. *)
From Coq Require Import List ZArith Bool PeanoNat.
Import ListNotations.
Open Scope Z_scope.

(* the four kinds of tasks: cb:177-182, cb:103-107 and cb:128-132, cb:142-145, cb:160 *)
Inductive kind :=
| KCreate (s : Z)                             (* creates the scan matcher of submap s *)
| KSearch (k : nat) (s n : Z) (m : nat)       (* k-th search, node n in submap s, matcher m *)
| KNode                                       (* end of a node *)
| KReport.                                    (* RunWhenDoneCallback *)
Inductive status := Ready | Active | Done.    (* scheduled, begun, completed *)
Record task := mk_task { t_kind : kind; t_deps : list nat; t_status : status }.

(* the members of ConstraintBuilder2D, constraint_builder_2d.h:136-169, and what has been reported *)
Record state := mk_state {
  slots : list (option (Z * Z * Z));          (* constraints_ *)
  base : nat;                                 (* elements of constraints_ freed so far *)
  matchers : list (Z * (nat * bool));         (* submap_scan_matchers_: matcher, whether created *)
  tasks : list task;
  node_deps : list nat;                       (* dependencies of finish_node_task_ *)
  done_deps : list nat;                       (* dependencies of when_done_task_ *)
  when_done : option Z;                       (* when_done_, callbacks have numbers *)
  started : nat;                              (* num_started_nodes_ *)
  finished : nat;                             (* num_finished_nodes_ *)
  reports : list (Z * list (Z * Z * Z))       (* calls of callbacks so far *)
}.
(* cb:59-66 *)
Definition start : state := mk_state [] 0 [] [] [] [] None 0 0 [].

Inductive event :=
| Search (s n : Z)       (* MaybeAddConstraint that gets to cb:92, or MaybeAddGlobalConstraint *)
| EndOfNode              (* NotifyEndOfNode *)
| WhenDone (c : Z)
| Delete (s : Z)         (* DeleteScanMatcher *)
| Begin (t : nat)        (* a KCreate or KSearch task begins *)
| End (t : nat)          (* and ends *)
| Finish (t : nat)       (* a KNode task is executed *)
| Report (t : nat).      (* a KReport task is executed *)

Fixpoint put {A} (j : nat) (v : A) (l : list A) : list A :=
  match l, j with
  | [], _ => []
  | _ :: r, O => v :: r
  | a :: r, S j => a :: put j v r
  end.
Definition done (s : state) (t : nat) : bool :=
  match nth_error (tasks s) t with Some (mk_task _ _ Done) => true | _ => false end.
(* a scheduled task can begin: task.cc:76-85 *)
Definition ready (s : state) (x : task) : bool :=
  match t_status x with Ready => forallb (done s) (t_deps x) | _ => false end.
(* whether the event can happen *)
Definition enabled (e : event) (s : state) : bool :=
  match e with
  | Begin t => match nth_error (tasks s) t with
               | Some x => ready s x && match t_kind x with KCreate _ | KSearch _ _ _ _ => true | _ => false end
               | None => false end
  | End t => match nth_error (tasks s) t with
             | Some x => match t_kind x, t_status x with
                         | KCreate _, Active | KSearch _ _ _ _, Active => true | _, _ => false end
             | None => false end
  | Finish t => match nth_error (tasks s) t with
                | Some x => ready s x && match t_kind x with KNode => true | _ => false end
                | None => false end
  | Report t => match nth_error (tasks s) t with
                | Some x => ready s x && match t_kind x with KReport => true | _ => false end
                | None => false end
  | _ => true
  end.

Definition set_status (l : list task) (t : nat) (st : status) : list task :=
  match nth_error l t with Some x => put t (mk_task (t_kind x) (t_deps x) st) l | None => l end.
(* the matcher with this number, if it exists: whether it has been created *)
Definition matcher (m : nat) (l : list (Z * (nat * bool))) : option bool :=
  option_map (fun x => snd (snd x)) (find (fun x => Nat.eqb (fst (snd x)) m) l).
(* fast_correlative_scan_matcher = ..., cb:179-181 *)
Definition created (m : nat) (l : list (Z * (nat * bool))) : list (Z * (nat * bool)) :=
  map (fun x => if Nat.eqb (fst (snd x)) m then (fst x, (m, true)) else x) l.

(* DispatchScanMatcherConstruction, cb:165-186.  That grid is not null is assumed. *)
Definition dispatch (s : Z) (x : state) : nat * list (Z * (nat * bool)) * list task :=
  match find (fun y => fst y =? s) (matchers x) with
  | Some y => (fst (snd y), matchers x, tasks x)
  | None => let m := length (tasks x) in
            (m, matchers x ++ [(s, (m, false))], tasks x ++ [mk_task (KCreate s) [] Ready])
  end.

(* found k: what the k-th search finds *)
Definition step (found : nat -> option Z) (e : event) (x : state) : option state :=
  let '(mk_state sl b ms ts nd dd wd st fi rp) := x in
  match e with
  | Search s n =>                                              (* cb:92-111, cb:117-136 *)
      let '(m, ms', ts') := dispatch s x in
      let t := length ts' in
      Some (mk_state (sl ++ [None]) b ms' (ts' ++ [mk_task (KSearch (b + length sl) s n m) [m] Ready])
              (nd ++ [t]) dd wd st fi rp)
  | EndOfNode =>                                               (* cb:139-151 *)
      Some (mk_state sl b ms (ts ++ [mk_task KNode nd Ready]) [] (dd ++ [length ts]) wd (S st) fi rp)
  | WhenDone c =>                                              (* cb:153-163 *)
      match wd with
      | Some _ => None
      | None => Some (mk_state sl b ms (ts ++ [mk_task KReport dd Ready]) nd [] (Some c) st fi rp)
      end
  | Delete s =>                                                (* cb:307-316 *)
      Some (mk_state sl b (filter (fun y => negb (fst y =? s)) ms) ts nd dd wd st fi rp)
  | Begin t =>
      match nth_error ts t with
      | Some (mk_task (KCreate s) _ _) =>                      (* cb:179-181, reads grid *)
          match matcher t ms with
          | Some _ => Some (mk_state sl b ms (set_status ts t Active) nd dd wd st fi rp)
          | None => None
          end
      | Some (mk_task (KSearch k s n m) _ _) =>                (* cb:195 *)
          match matcher m ms with
          | Some true => Some (mk_state sl b ms (set_status ts t Active) nd dd wd st fi rp)
          | _ => None
          end
      | _ => Some x
      end
  | End t =>
      match nth_error ts t with
      | Some (mk_task (KCreate s) _ _) =>                      (* cb:179-181, writes *)
          match matcher t ms with
          | Some _ => Some (mk_state sl b (created t ms) (set_status ts t Done) nd dd wd st fi rp)
          | None => None
          end
      | Some (mk_task (KSearch k s n m) _ _) =>                (* cb:211-258 *)
          match matcher m ms with
          | None => None
          | Some _ =>
              match found k with
              | None => Some (mk_state sl b ms (set_status ts t Done) nd dd wd st fi rp)
              | Some v =>
                  if Nat.leb b k && Nat.ltb k (b + length sl)
                  then Some (mk_state (put (k - b) (Some (s, n, v)) sl) b ms (set_status ts t Done) nd dd wd st fi rp)
                  else None
              end
          end
      | _ => Some x
      end
  | Finish t =>                                                (* cb:142-145 *)
      Some (mk_state sl b ms (set_status ts t Done) nd dd wd st (S fi) rp)
  | Report t =>                                                (* cb:279-300 *)
      match wd with
      | None => None
      | Some c =>
          Some (mk_state [] (b + length sl) ms (set_status ts t Done) nd dd None st fi
                  (rp ++ [(c, flat_map (fun o => match o with Some r => [r] | None => [] end) sl)]))
      end
  end.
Fixpoint run (found : nat -> option Z) (es : list event) (s : state) : option state :=
  match es with
  | [] => Some s
  | e :: r => match step found e s with Some s' => run found r s' | None => None end
  end.
(* ~ConstraintBuilder2D, cb:68-75, does not abort; finish_node_task_ and when_done_task_ are NEW
   as they have not been scheduled *)
Definition destructible (s : state) : bool :=
  match slots s, when_done s with [], None => Nat.eqb (started s) (finished s) | _, _ => false end.
