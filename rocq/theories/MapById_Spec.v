(* What MapById is meant to be, independent of its representation: a finite map
   from (trajectory, index) to data, plus, per trajectory, whether appending is
   forbidden. *)
From Coq Require Import List ZArith Bool Sorted.
From Verif Require Import MapById_Model.
Import ListNotations.
Open Scope Z_scope.

Section Spec.
Context {D : Type}.

Record sstate := { sf : Z -> Z -> option D; sealed : Z -> bool }.

(* the index the next append has to get *)
Definition next_index (s : sstate) (t i : Z) : Prop :=
  (i = 0 /\ forall j, sf s t j = None) \/
  (sf s t (i - 1) <> None /\ forall j, i <= j -> sf s t j = None).

Definition updated (f f' : Z -> Z -> option D) (t i : Z) (v : option D) : Prop :=
  f' t i = v /\ forall a b, (a, b) <> (t, i) -> f' a b = f a b.

Definition greatest (s : sstate) (t i : Z) : Prop :=
  forall j, i < j -> sf s t j = None.

Definition spec_step (s : sstate) (o : mop D) (r : option (Z * Z)) (s' : sstate)
  : Prop :=
  match o with
  | OpAppend t d =>
      0 <= t /\ sealed s t = false /\
      (exists i, next_index s t i /\ r = Some (t, i) /\
                 updated (sf s) (sf s') t i (Some d)) /\
      (forall a, sealed s' a = sealed s a)
  | OpInsert t i d =>
      0 <= t /\ 0 <= i /\ sf s t i = None /\ r = None /\
      updated (sf s) (sf s') t i (Some d) /\
      sealed s' t = true /\ (forall a, a <> t -> sealed s' a = sealed s a)
  | OpTrim t i =>
      sf s t i <> None /\ r = None /\ updated (sf s) (sf s') t i None /\
      (forall a, a <> t -> sealed s' a = sealed s a) /\
      ((forall j, sf s' t j = None) -> sealed s' t = false) /\
      (forall j, sf s' t j <> None ->
         (greatest s t i -> sealed s' t = true) /\
         (~ greatest s t i -> sealed s' t = sealed s t))
  end.

Inductive spec_run : sstate -> list (mop D) -> list (option (Z * Z)) -> sstate -> Prop :=
| spec_nil : forall s, spec_run s [] [] s
| spec_cons : forall s o r s' ops rs s'',
    spec_step s o r s' -> spec_run s' ops rs s'' ->
    spec_run s (o :: ops) (r :: rs) s''.

Definition spec_init : sstate :=
  {| sf := fun _ _ => None; sealed := fun _ => false |}.

Definition id_lt (a b : Z * Z) : Prop :=
  fst a < fst b \/ (fst a = fst b /\ snd a < snd b).

(* l lists the finite map f, every id once, ascending *)
Definition lists_map (f : Z -> Z -> option D) (l : list ((Z * Z) * D)) : Prop :=
  StronglySorted (fun x y => id_lt (fst x) (fst y)) l /\
  forall t i d, In ((t, i), d) l <-> f t i = Some d.

(* first entry of trajectory t not before q *)
Definition first_not_before (time : D -> Z) (f : Z -> Z -> option D)
  (t q i : Z) (d : D) : Prop :=
  f t i = Some d /\ q <= time d /\
  forall j d', f t j = Some d' -> q <= time d' -> i <= j.

Definition times_monotone (time : D -> Z) (f : Z -> Z -> option D) (t : Z) : Prop :=
  forall i j d d', f t i = Some d -> f t j = Some d' -> i <= j ->
    time d <= time d'.

End Spec.
Arguments sstate : clear implicits.

(* sensor data bracketing a time: latest not after, earliest not before *)
Definition latest_not_after {D} (q : Z) (tr : list (Z * D)) (e : Z * D) : Prop :=
  In e tr /\ fst e <= q /\
  forall e', In e' tr -> fst e' <= q -> fst e' <= fst e.
Definition earliest_not_before {D} (q : Z) (tr : list (Z * D)) (e : Z * D) : Prop :=
  In e tr /\ q <= fst e /\
  forall e', In e' tr -> q <= fst e' -> fst e <= fst e'.
