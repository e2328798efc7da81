(* What is meant to hold of the work queue. *)
From Coq Require Import List ZArith Bool.
From Verif Require Import WQ_Model.
Import ListNotations.
Open Scope Z_scope.

(* every event can happen when it does *)
Fixpoint possible (es : list event) (s : state) : Prop :=
  match es with
  | [] => True
  | e :: r => enabled e s = true /\ match step e s with Some s' => possible r s' | None => True end
  end.
(* the items being executed, and those that wait *)
Definition busy (s : state) : list Z :=
  flat_map (fun p => match p with Running x => [x] | _ => [] end) (workers s).
Definition waiting (s : state) : list Z := match work s with Some l => l | None => [] end.
(* events of the outside *)
Definition outside (e : event) : bool := match e with Add _ | Wait => true | _ => false end.
(* while a thread is in WaitForAllComputations nothing is added and no other thread enters it *)
Fixpoint calm (es : list event) (s : state) : Prop :=
  match es with
  | [] => True
  | e :: r => (outside e = true -> Forall (fun w => w = WaitOver) (waits s)) /\
              match step e s with Some s' => calm r s' | None => True end
  end.
