(* What spans, levels and floors should be. *)
From Coq Require Import ZArith List Bool Arith Relations Permutation Sorting.Sorted.
From Verif Require Import DF_Model.
Import ListNotations.

Section Spec.
Variable D : Type.
Variable lt : D -> D -> bool.
Variable apart close : D -> D -> bool.
Variable long : nat -> nat -> bool.   (* from a first to before a last node *)
Notation span := (span D).

Definition sorted (l : list D) : Prop := Sorted (fun a b => lt b a = false) l.
(* the element in the middle, the upper one of two *)
Definition is_median (l : list D) (m : D) : Prop :=
  exists s, Permutation s l /\ sorted s /\ nth_error s (List.length l / 2) = Some m.
(* the values number a, a+1, ..., b-1 *)
Definition part {A} (l : list A) (a b : nat) : list A := firstn (b - a) (skipn a l).

(* a span of the nodes from its start to before its end: within it no value is apart from the median of those before it *)
Definition cut_ok (zs : list D) (s : span) : Prop :=
  (s_start s < s_end s)%nat /\ Permutation (s_z s) (part zs (s_start s) (s_end s)) /\ sorted (s_z s) /\
  (forall i z, (s_start s < i < s_end s)%nat -> nth_error zs i = Some z ->
     exists m, is_median (part zs (s_start s) i) m /\ apart m z = false).
(* consecutive spans from a on that cover the rest; the first value of a span is apart from the median of the span before *)
Inductive cut_up (zs : list D) : nat -> list span -> Prop :=
| cut_last : forall s, cut_ok zs s -> s_end s = List.length zs -> cut_up zs (s_start s) [s]
| cut_more : forall s ss, cut_ok zs s ->
    (exists m z, is_median (part zs (s_start s) (s_end s)) m /\ nth_error zs (s_end s) = Some z /\ apart m z = true) ->
    cut_up zs (s_end s) ss -> cut_up zs (s_start s) (s :: ss).

(* spans of similar height, and those connected through such *)
Definition middle (s : span) : option D := nth_error (s_z s) (List.length (s_z s) / 2).
Definition similar (spans : list span) (i j : nat) : Prop :=
  (i < j)%nat /\ exists si sj mi mj, nth_error spans i = Some si /\ nth_error spans j = Some sj /\
    middle si = Some mi /\ middle sj = Some mj /\ close mi mj = true.
Definition same_level (spans : list span) : nat -> nat -> Prop := clos_refl_sym_trans nat (similar spans).
Definition is_long (spans : list span) (i : nat) : Prop := exists s, nth_error spans i = Some s /\ long (s_start s) (s_end s) = true.
(* spans on the level of a long one *)
Definition anchored (spans : list span) (i : nat) : Prop := exists j, same_level spans i j /\ is_long spans j.

(* a floor made of spans, given by their numbers *)
Definition floor_made_of (spans : list span) (times : list Z) (f : floor D) (g : list nat) : Prop :=
  Sorted le g /\
  Forall2 (fun t i => exists s, nth_error spans i = Some s /\ nth_error times (s_start s) = Some (fst t) /\
    nth_error times (s_end s - 1) = Some (snd t)) (f_timespans f) g /\
  exists values, Forall2 (fun v i => exists s, nth_error spans i = Some s /\ v = if long (s_start s) (s_end s) then s_z s else []) values g /\
    is_median (concat values) (f_z f).
End Spec.
