(* What is meant to hold of the pose graph, said of its look-ups only. *)
From Coq Require Import List ZArith Bool.
From Verif Require Import MapById_Model PG_Model.
Import ListNotations.
Open Scope Z_scope.

Definition stored {D} (x : id) (m : mbi D) : Prop := mbi_at (fst x) (snd x) m <> None.

(* node n is recorded in submap s *)
Definition recorded (g : graph) (s n : id) : Prop :=
  exists d, mbi_at (fst s) (snd s) (subs g) = Some d /\ In n (nids d).

(* referential integrity *)
Definition integrity (g : graph) : Prop :=
  (forall c, In c (constraints g) -> stored (c_node c) (nodes g) /\ stored (c_sub c) (subs g)) /\
  (forall s n, recorded g s n -> stored n (nodes g)).

(* node n is recorded in submap s and in no other *)
Definition only_in (g : graph) (s n : id) : Prop :=
  recorded g s n /\ forall s', recorded g s' n -> s' = s.

(* the map m' is m without the ids in P *)
Definition without {D} (P : id -> Prop) (m m' : mbi D) : Prop :=
  forall x, (P x -> mbi_at (fst x) (snd x) m' = None) /\
            (~ P x -> mbi_at (fst x) (snd x) m' = mbi_at (fst x) (snd x) m).

(* l' is l with exactly the elements satisfying P, in the same order *)
Inductive kept {A} (P : A -> Prop) : list A -> list A -> Prop :=
| kept_nil : kept P [] []
| kept_yes a l l' : P a -> kept P l l' -> kept P (a :: l) (a :: l')
| kept_no a l l' : ~ P a -> kept P l l' -> kept P (a :: l) l'.

(* g' is g without submap s, the nodes recorded only in it, and their constraints *)
Definition trimmed (s : id) (g g' : graph) : Prop :=
  without (fun x => x = s) (subs g) (subs g') /\
  without (fun x => x = s) (osubs g) (osubs g') /\
  without (only_in g s) (nodes g) (nodes g') /\
  without (only_in g s) (onodes g) (onodes g') /\
  kept (fun c => c_sub c <> s /\ ~ only_in g s (c_node c)) (constraints g) (constraints g') /\
  gposes g' = gposes g /\ trajs g' = trajs g /\ trimmers g' = trimmers g /\
  searches g' = searches g /\ added g' = added g /\ initial g' = initial g.

(* no queued AddNodeToSubmap is executed for a node that is not stored *)
Fixpoint tidy (every_n : Z) (es : list event) (s : sys) : Prop :=
  match es with
  | [] => True
  | e :: r =>
      match e, md s, queue s with
      | Work _, Draining, INodeToSubmap n _ :: _ => stored n (nodes (gr s))
      | _, _, _ => True
      end /\
      match step every_n e s with Some s' => tidy every_n r s' | None => True end
  end.

(* g' is g without the submaps in P, the nodes recorded in some of them and in no other submap,
   and the constraints of both *)
Definition leaves (P : id -> Prop) (g : graph) (n : id) : Prop :=
  (exists s, P s /\ recorded g s n) /\ forall s, recorded g s n -> P s.
Definition trimmed_set (P : id -> Prop) (g g' : graph) : Prop :=
  without P (subs g) (subs g') /\
  without P (osubs g) (osubs g') /\
  without (leaves P g) (nodes g) (nodes g') /\
  without (leaves P g) (onodes g) (onodes g') /\
  kept (fun c => ~ P (c_sub c) /\ ~ leaves P g (c_node c)) (constraints g) (constraints g').

(* fewer than k of the submaps of its trajectory are newer than submap s *)
Definition among_newest (k : Z) (g : graph) (s : id) : Prop :=
  exists l, (forall j, In j l <-> stored (fst s, j) (osubs g) /\ snd s < j) /\
            NoDup l /\ Z.of_nat (length l) < k.
