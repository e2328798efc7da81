(* A bounded FIFO queue as a property of sequential histories, and what threads observe. *)
From Coq Require Import List ZArith Bool.
From Verif Require Import BQ_Model.
Import ListNotations.
Open Scope Z_scope.

Section Spec.
Variable T : Type.
Variable capacity : Z.
Definition entry : Type := nat * op T * res T.     (* thread, method, result *)

(* items put in and taken out by a history *)
Definition put (e : entry) : list T :=
  match e with
  | (_, Push t, RVoid) => [t]
  | (_, PushWithTimeout t, RBool true) => [t]
  | _ => []
  end.
Definition taken (e : entry) : list T :=
  match e with
  | (_, Pop, RItem t) => [t]
  | (_, PopWithTimeout, RItem t) => [t]
  | _ => []
  end.
Definition puts (l : list entry) : list T := flat_map put l.
Definition takes (l : list entry) : list T := flat_map taken l.
(* the items put in but not taken out, oldest first *)
Definition stored (l : list entry) : list T := skipn (length (takes l)) (puts l).
Definition has_room (l : list entry) : Prop := capacity = 0 \/ Z.of_nat (length (stored l)) < capacity.

(* the result that the method must have after history [before] *)
Definition correct (before : list entry) (e : entry) : Prop :=
  match snd (fst e), snd e with
  | Push _, RVoid => has_room before
  | PushWithTimeout _, RBool true => has_room before
  | PushWithTimeout _, RBool false => ~ has_room before
  | Pop, RItem t => exists r, stored before = t :: r
  | PopWithTimeout, RItem t | PeekWithTimeout, RItem t | Peek, RItem t => exists r, stored before = t :: r
  | PopWithTimeout, RNull | PeekWithTimeout, RNull | Peek, RNull => stored before = []
  | Size, RSize n => n = Z.of_nat (length (stored before))
  | WaitUntilEmpty, RVoid => stored before = []
  | _, _ => False
  end.
(* history, oldest entry first *)
Definition fifo (l : list entry) : Prop :=
  forall before e after, l = before ++ e :: after -> correct before e.

(* what thread t called and what it got back, oldest first; events are listed last first *)
Fixpoint calls (t : nat) (es : list (event T)) : list (op T) :=
  match es with
  | [] => []
  | Call u o :: r => if Nat.eqb u t then calls t r ++ [o] else calls t r
  | _ :: r => calls t r
  end.
Fixpoint returns (t : nat) (es : list (event T)) : list (res T) :=
  match es with
  | [] => []
  | Return u x :: r => if Nat.eqb u t then returns t r ++ [x] else returns t r
  | _ :: r => returns t r
  end.
Definition of_thread (t : nat) (l : list entry) : list entry := filter (fun e => Nat.eqb (fst (fst e)) t) l.
End Spec.
Arguments puts {T}. Arguments takes {T}. Arguments stored {T}. Arguments has_room {T}. Arguments fifo {T}.
Arguments correct {T}.
Arguments calls {T}. Arguments returns {T}. Arguments of_thread {T}.
