(* What the merged range data should contain. *)
From Coq Require Import ZArith List Bool Permutation Sorted.
From Verif Require Import RDC_Model.
Import ListNotations.
Open Scope Z_scope.

Section Spec.
Variables P O I T : Type.
Variable zero_intensity : I.
Variable ticks : T -> Z.
Variable shift : Z -> T -> T.
Variable tlt : T -> T -> bool.

(* a point received: time and origin of its message, position, time and intensity *)
Record entry := { e_time : Z; e_origin : O; e_point : P; e_rel : T; e_int : I }.
Definition abs_time (e : entry) : Z := e_time e + ticks (e_rel e).

(* the points of a message; missing intensities are zero, surplus ones are ignored *)
Definition entries (d : data P O I T) : list entry :=
  map (fun n => match n with (p, t, i) =>
                  {| e_time := time d; e_origin := origin d;
                     e_point := p; e_rel := t; e_int := i |} end)
    (combine (ranges d)
       (intensities d ++ repeat zero_intensity (length (ranges d)))).

(* what a reader of the result sees of a point: origin, position, time relative to the
   result, intensity; None if the origin index is out of range *)
Definition seen (m : merged P O I T) : list (option (O * P * T * I)) :=
  map (fun r => match r with (p, t, i, n) =>
         match nth_error (m_origins m) n with
         | Some o => Some (o, p, t, i)
         | None => None
         end end) (m_ranges m).
Definition view (e : entry) (at_time : Z) : option (O * P * T * I) :=
  Some (e_origin e, e_point e, shift (e_time e - at_time) (e_rel e), e_int e).

(* never a later point before an earlier one *)
Definition by_time (m : merged P O I T) : Prop :=
  StronglySorted (fun a b => tlt (snd (fst (fst b))) (snd (fst (fst a))) = false)
    (m_ranges m).

(* messages whose points are sorted and not later than the message *)
Definition message_ok (d : data P O I T) : Prop :=
  StronglySorted (fun a b => ticks (snd a) <= ticks (snd b)) (ranges d) /\
  Forall (fun p => ticks (snd p) <= 0) (ranges d) /\
  time_min <= time d <= time_max.

(* The results of a run, with for each the points it delivers and the points it drops
   for being too old: delivered points are between the time of the last result and that
   of this one, dropped ones are before the last result. *)
Fixpoint results_ok (last : Z) (os : list (option (merged P O I T)))
    (del drop : list (list entry)) : Prop :=
  match os, del, drop with
  | [], [], [] => True
  | None :: os, [] :: del, [] :: drop => results_ok last os del drop
  | Some m :: os, d :: del, x :: drop =>
      Permutation (seen m) (map (fun e => view e (m_time m)) d) /\
      by_time m /\
      last <= m_time m /\
      Forall (fun e => last <= abs_time e <= m_time m) d /\
      Forall (fun e => abs_time e < last) x /\
      results_ok (m_time m) os del drop
  | _, _, _ => False
  end.
End Spec.
Arguments entry P O I T : clear implicits.
Arguments e_time {P O I T}. Arguments e_origin {P O I T}. Arguments e_point {P O I T}.
Arguments e_rel {P O I T}. Arguments e_int {P O I T}. Arguments abs_time {P O I T}.
Arguments entries {P O I T}. Arguments seen {P O I T}. Arguments view {P O I T}.
Arguments by_time {P O I T}. Arguments message_ok {P O I T}. Arguments results_ok {P O I T}.
