(* What a client of ConstraintBuilder2D may do and expect; nothing of this uses the state of the
   builder. *)
From Coq Require Import List ZArith Bool.
From Verif Require Import CB_Model.
Import ListNotations.
Open Scope Z_scope.

(* the k-th search is for node n in submap s *)
Definition answer (found : nat -> option Z) (k : nat) (q : Z * Z) : list (Z * Z * Z) :=
  match found k with Some v => [(fst q, snd q, v)] | None => [] end.
Fixpoint answers (found : nat -> option Z) (k : nat) (qs : list (Z * Z)) : list (Z * Z * Z) :=
  match qs with [] => [] | q :: r => answer found k q ++ answers found (S k) r end.
(* a callback gets what the searches found that were asked for since the previous callback was
   given, in that order; k searches were made before, qs since *)
Fixpoint expected (found : nat -> option Z) (k : nat) (qs : list (Z * Z)) (es : list event) : list (Z * list (Z * Z * Z)) :=
  match es with
  | [] => []
  | Search s n :: r => expected found k (qs ++ [(s, n)]) r
  | WhenDone c :: r => (c, answers found k qs) :: expected found (k + length qs) [] r
  | _ :: r => expected found k qs r
  end.

(* whether there is a search since the end of a node, a search since the last report, a callback
   that has not been called *)
Record client := mk_client { unended : bool; asked : bool; waiting : bool }.
Definition newcomer : client := mk_client false false false.
Definition allowed (c : client) (e : event) : bool :=
  match e with
  | Search _ _ | EndOfNode => negb (waiting c)
  | WhenDone _ => negb (waiting c) && negb (unended c)
  | Delete _ => negb (asked c)
  | _ => true
  end.
Definition next (c : client) (e : event) : client :=
  match e with
  | Search _ _ => mk_client true true (waiting c)
  | EndOfNode => mk_client false (asked c) (waiting c)
  | WhenDone _ => mk_client (unended c) (asked c) true
  | Report _ => mk_client (unended c) false false
  | _ => c
  end.
Fixpoint polite (c : client) (es : list event) : bool :=
  match es with [] => true | e :: r => allowed c e && polite (next c e) r end.
Definition after (c : client) (es : list event) : client := fold_left next es c.

(* every event can happen when it does *)
Fixpoint possible (found : nat -> option Z) (es : list event) (s : state) : Prop :=
  match es with
  | [] => True
  | e :: r => enabled e s = true /\ match step found e s with Some s' => possible found r s' | None => True end
  end.
(* events of the pool *)
Definition internal (e : event) : bool :=
  match e with Begin _ | End _ | Finish _ | Report _ => true | _ => false end.
