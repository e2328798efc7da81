(* Which submaps the overlapping submaps trimmer may and must remove. *)
From Coq Require Import List ZArith Bool.
From Verif Require Import OST_Model.
Import ListNotations.
Open Scope Z_scope.

Definition count {A} (p : A -> bool) (l : list A) : Z := Z.of_nat (length (filter p l)).

(* n is the largest node with an intra-submap constraint to the submap s *)
Definition latest (cs : list constraint) (s n : id) : Prop :=
  (exists c, In c cs /\ intra c = true /\ c_submap c = s /\ c_node c = n) /\
  (forall c, In c cs -> intra c = true -> c_submap c = s -> id_ltb n (c_node c) = false).
(* time of the last insertion into a stored submap *)
Definition is_fresh (subs : list submap) (nodes : list (id * Z)) (cs : list constraint)
    (s : id) (t : Z) : Prop :=
  In s (map sid subs) /\ exists n, latest cs s n /\ find n nodes = Some t.

(* a point of coverage: cell, submap, time of the last insertion into it *)
Definition entry := (cell * (id * Z))%type.
Definition e_cell (e : entry) := fst e.
Definition e_sub (e : entry) := fst (snd e).
Definition e_time (e : entry) := snd (snd e).

(* on its cell, e is one of the `fresh` freshest entries whatever the order of ties *)
Definition surely_fresh (fresh : Z) (es : list entry) (e : entry) : bool :=
  count (fun f => id_eqb (e_cell e) (e_cell f) && (e_time e <=? e_time f)) es <=? fresh.
(* ... for some order of ties *)
Definition maybe_fresh (fresh : Z) (es : list entry) (e : entry) : bool :=
  count (fun f => id_eqb (e_cell e) (e_cell f) && (e_time e <? e_time f)) es <? fresh.

Definition covered_surely fresh es s :=
  count (fun e => id_eqb s (e_sub e) && surely_fresh fresh es e) es.
Definition covered_maybe fresh es s :=
  count (fun e => id_eqb s (e_sub e) && maybe_fresh fresh es e) es.
Definition covered_total (es : list entry) s := count (fun e => id_eqb s (e_sub e)) es.

(* the coverage of the submaps that are finished and have a last insertion time *)
Definition coverage (fr : list (id * Z)) (subs : list submap) : list entry :=
  flat_map (fun s => match find (sid s) fr with
                     | Some t => if finished s then map (fun c => (c, (sid s, t))) (cover s) else []
                     | None => []
                     end) subs.
Definition candidates (fr : list (id * Z)) (subs : list submap) : list id :=
  flat_map (fun s => match find (sid s) fr with
                     | Some t => if finished s then [sid s] else []
                     | None => []
                     end) subs.
