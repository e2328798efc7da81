(* Histograms and windows of events. *)
From Coq Require Import ZArith Reals List.
From Verif Require Import MG_Spec HT_Model.
Import ListNotations.
Open Scope R_scope.

(* how many values have a property *)
Inductive counts {A} (P : A -> Prop) : list A -> nat -> Prop :=
| counts_nil : counts P [] 0
| counts_yes x l n : P x -> counts P l n -> counts P (x :: l) (S n)
| counts_no x l n : ~ P x -> counts P l n -> counts P (x :: l) n.
(* the bound between buckets *)
Definition bound (mn mx : R) (buckets j : nat) : R := mn + (mx - mn) * (INR j / INR buckets).
Definition is_min (m : R) (l : list R) : Prop := In m l /\ forall v, In v l -> m <= v.
Definition is_max (m : R) (l : list R) : Prop := In m l /\ forall v, In v l -> v <= m.

(* walls that do not go back, and the wall time between the first and the last event *)
Fixpoint ordered (l : list event) : Prop :=
  match l with e :: ((f :: _) as l') => (e_wall e <= e_wall f)%Z /\ ordered l' | _ => True end.
Definition span (l : list event) : Z := match l with [] => 0 | e :: _ => e_wall (last l e) - e_wall e end.
Definition time_span (l : list event) : Z := match l with [] => 0 | e :: _ => e_time (last l e) - e_time e end.
(* pulses at equal distances *)
Definition periodic_pulses (d : Z) (l : list event) : Prop := forall k e f, nth_error l k = Some e -> nth_error l (S k) = Some f -> (e_time f - e_time e = d)%Z.
