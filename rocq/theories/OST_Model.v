(* Model of the overlapping submaps trimmer:
   cartographer/mapping/internal/2d/overlapping_submaps_trimmer_2d.cc (ot below). *)
From Coq Require Import List ZArith Bool.
Import ListNotations.
Open Scope Z_scope.

(* SubmapId and NodeId: (trajectory_id, index), ordered lexicographically; CellId, ot:30 *)
Definition id := (Z * Z)%type.
Definition id_eqb (a b : id) : bool := (fst a =? fst b) && (snd a =? snd b).
Definition id_ltb (a b : id) : bool :=
  (fst a <? fst b) || ((fst a =? fst b) && (snd a <? snd b)).
Definition id_max (a b : id) : id := if id_ltb a b then b else a.
Definition cell := (Z * Z)%type.

(* std::map with such keys. Simplification: an association list in order of insertion; no
   result below depends on the order of iteration. *)
Fixpoint find {A} (k : id) (m : list (id * A)) : option A :=
  match m with
  | [] => None
  | (k', v) :: r => if id_eqb k k' then Some v else find k r
  end.
(* m[k] = f(old value, if any) *)
Fixpoint update {A} (k : id) (f : option A -> A) (m : list (id * A)) : list (id * A) :=
  match m with
  | [] => [(k, f None)]
  | (k', v) :: r => if id_eqb k k' then (k', f (Some v)) :: r else (k', v) :: update k f r
  end.

(* An entry of submap_data. Simplification: the geometry of ot:68-99 is reduced to the list of
   the coverage cells (ot:38-39) of the centres of the known cells of the submap's grid. *)
Record submap := mk_submap { sid : id; finished : bool; cover : list cell }.
(* the part of a constraint that is read *)
Record constraint := mk_constraint { c_submap : id; c_node : id; intra : bool }.

(* ComputeSubmapFreshness, ot:105-142; nodes: the times of the trajectory nodes *)
Definition latest_nodes (cs : list constraint) : list (id * id) :=
  fold_left (fun m c =>
               if intra c
               then update (c_submap c)
                      (fun o => match o with None => c_node c | Some n => id_max n (c_node c) end) m
               else m) cs [].
Definition freshness (subs : list submap) (nodes : list (id * Z)) (cs : list constraint)
  : list (id * Z) :=
  fold_left (fun m e =>
               match List.find (fun s => id_eqb (fst e) (sid s)) subs with
               | None => m
               | Some s => match find (snd e) nodes with
                           | None => m
                           | Some t => update (sid s) (fun _ => t) m
                           end
               end) (latest_nodes cs) [].

(* SubmapCoverageGrid2D::cells_ and AddPoint, ot:36-41 *)
Definition grid := list (cell * list (id * Z)).
Definition add_point (g : grid) (e : cell * (id * Z)) : grid :=
  update (fst e) (fun o => match o with None => [snd e] | Some l => l ++ [snd e] end) g.

(* AddSubmapsToSubmapCoverageGrid2D, ot:55-101 *)
Definition add_submap (fr : list (id * Z)) (acc : list id * grid) (s : submap) : list id * grid :=
  match find (sid s) fr with
  | None => acc
  | Some t =>
      if finished s
      then (fst acc ++ [sid s], fold_left add_point (map (fun c => (c, (sid s, t))) (cover s)) (snd acc))
      else acc
  end.
Definition add_submaps (fr : list (id * Z)) (subs : list submap) : list id * grid :=
  fold_left (add_submap fr) subs ([], []).

Section Find.
(* std::sort by time in descending order, ot:160-165: some function that sorts *)
Variable sortf : list (id * Z) -> list (id * Z).

(* FindSubmapIdsToTrim, ot:145-182; counters are uint16 *)
Definition keep_fresh (fresh : Z) (l : list (id * Z)) : list (id * Z) :=
  if fresh <? Z.of_nat (length l) then firstn (Z.to_nat fresh) (sortf l) else l.
Definition count_cells (fresh : Z) (g : grid) : list (id * Z) :=
  fold_left (fun m c => fold_left (fun m e =>
               update (fst e) (fun o => match o with None => 1 | Some n => (n + 1) mod 2 ^ 16 end) m)
             (keep_fresh fresh (snd c)) m) g [].
Definition ids_to_trim (fresh min_cells : Z) (all_ids : list id) (g : grid) : list id :=
  let counts := count_cells fresh g in
  let keep := map fst (filter (fun e => negb (snd e <? min_cells)) counts) in
  filter (fun i => negb (existsb (id_eqb i) keep)) all_ids.

(* Trim, ot:186-210: the new current_submap_count_ and the submaps to trim. None: begin() of
   an empty MapById is dereferenced, ot:193. min_cells: min_covered_area_ divided by the
   squared resolution, converted to uint16. size_t and uint16 arithmetic wraps. *)
Definition trim (fresh min_added min_cells : Z) (current : Z) (subs : list submap)
    (nodes : list (id * Z)) (cs : list constraint) : option (Z * list id) :=
  let size := Z.of_nat (length subs) in
  if (size - current) mod 2 ^ 64 <=? min_added then Some (current, [])
  else match subs with
       | [] => None
       | _ =>
           let (all_ids, g) := add_submaps (freshness subs nodes cs) subs in
           let rem := ids_to_trim fresh min_cells all_ids g in
           Some ((size - Z.of_nat (length rem)) mod 2 ^ 16, rem)
       end.
End Find.
