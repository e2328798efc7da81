(* Model of the 2D branch-and-bound scan matcher:
   cartographer/mapping/internal/2d/scan_matching/
     fast_correlative_scan_matcher_2d.{h,cc}  (called fcsm below)
     correlative_scan_matcher_2d.{h,cc}       (called csm below)
   Floats: cell probabilities and scores are only compared, and passed through
   the two monotone functions ComputeCellValue (uint8) and ToScore.  They are
   represented by integers (a finite float32 is an integer multiple of 2^-149),
   and the two functions are parameters "quant" and "to_score"; Properties_FCSM2D
   states what is needed of them, and FCSM_Float shows it for the actual
   float32 expressions.  NaN is not modelled (it arises only for an empty scan).
   A failed CHECK or DCHECK, and reading the front of an empty container, is
   None. *)
From Coq Require Import List ZArith Bool.
Import ListNotations.
Open Scope Z_scope.

(* ---- SlidingWindowMaximum, fcsm.cc:41-74; the deque, front first ---- *)

Fixpoint drop_lt (v : Z) (l : list Z) : list Z :=
  match l with
  | [] => []
  | b :: r => if b <? v then drop_lt v r else l
  end.

(* AddValue, fcsm.cc:43-49 *)
Definition sw_add (v : Z) (dq : list Z) : list Z :=
  rev (drop_lt v (rev dq)) ++ [v].

(* RemoveValue, fcsm.cc:51-59 *)
Definition sw_remove (v : Z) (dq : list Z) : option (list Z) :=
  match dq with
  | [] => None
  | f :: r => if v <=? f then Some (if v =? f then r else dq) else None
  end.

(* GetMaximum, fcsm.cc:61-66 *)
Definition sw_max (dq : list Z) : option Z :=
  match dq with [] => None | f :: _ => Some f end.

(* First loop, fcsm.cc:112-118 (also 140-146): k iterations from position x *)
Fixpoint sw_loop1 (g : Z -> Z) (n w : Z) (k : nat) (x : Z) (dq : list Z)
  : option (list Z * list Z) :=
  match k with
  | O => Some ([], dq)
  | S k =>
      match sw_max dq with
      | None => None
      | Some o =>
          let dq' := if x + w <? n then sw_add (g (x + w)) dq else dq in
          match sw_loop1 g n w k (x + 1) dq' with
          | None => None
          | Some (os, dq'') => Some (o :: os, dq'')
          end
      end
  end.

(* Second loop, fcsm.cc:119-125 (147-152) *)
Fixpoint sw_loop2 (g : Z -> Z) (w : Z) (k : nat) (x : Z) (dq : list Z)
  : option (list Z * list Z) :=
  match k with
  | O => Some ([], dq)
  | S k =>
      match sw_max dq, sw_remove (g x) dq with
      | Some o, Some dq' =>
          match sw_loop2 g w k (x + 1) (sw_add (g (x + w)) dq') with
          | None => None
          | Some (os, dq'') => Some (o :: os, dq'')
          end
      | _, _ => None
      end
  end.

(* Third loop, fcsm.cc:126-131 (153-158) *)
Fixpoint sw_loop3 (g : Z -> Z) (k : nat) (x : Z) (dq : list Z)
  : option (list Z * list Z) :=
  match k with
  | O => Some ([], dq)
  | S k =>
      match sw_max dq, sw_remove (g x) dq with
      | Some o, Some dq' =>
          match sw_loop3 g k (x + 1) dq' with
          | None => None
          | Some (os, dq'') => Some (o :: os, dq'')
          end
      | _, _ => None
      end
  end.

(* One line of the grid: fcsm.cc:109-132 (rows), 138-159 (columns).  The
   outputs go to consecutive positions 0, 1, ... of the widened line. *)
Definition sw_line (g : Z -> Z) (n w : Z) : option (list Z) :=
  let dq0 := sw_add (g 0) [] in
  match sw_loop1 g n w (Z.to_nat (w - 1)) (- w + 1) dq0 with
  | None => None
  | Some (o1, dq1) =>
      match sw_loop2 g w (Z.to_nat (n - w)) 0 dq1 with
      | None => None
      | Some (o2, dq2) =>
          let x3 := Z.max (n - w) 0 in
          match sw_loop3 g (Z.to_nat (n - x3)) x3 dq2 with
          | None => None
          | Some (o3, []) => Some (o1 ++ o2 ++ o3)
          | Some (_, _ :: _) => None                (* CheckIsEmpty, :132 *)
          end
      end
  end.

(* a for loop over [0, n) collecting results *)
Fixpoint for_lines (f : Z -> option (list Z)) (k : nat) (y : Z)
  : option (list (list Z)) :=
  match k with
  | O => Some []
  | S k =>
      match f y, for_lines f k (y + 1) with
      | Some l, Some ls => Some (l :: ls)
      | _, _ => None
      end
  end.

Definition znth {A} (d : A) (i : Z) (l : list A) : A :=
  if i <? 0 then d else nth (Z.to_nat i) l d.

Section Match.
(* ComputeCellValue, fcsm.cc:163-169, without its CHECKs *)
Variable quant : Z -> Z.
(* the two CHECKs, fcsm.cc:166-167, and the conversion to uint8 *)
Definition cell_value (p : Z) : option Z :=
  let v := quant p in
  if (0 <=? v) && (v <=? 255) then Some v else None.

Fixpoint map_cells (l : list Z) : option (list Z) :=
  match l with
  | [] => Some []
  | p :: r => match cell_value p, map_cells r with
              | Some v, Some vs => Some (v :: vs)
              | _, _ => None
              end
  end.

(* PrecomputationGrid2D: widened limits, width and cells_ (as columns, indexed
   x first; fcsm.h:70 uses the flat index x + y * stride) *)
Record pgrid := { pg_nx : Z; pg_ny : Z; pg_w : Z; pg_cells : list (list Z) }.

(* Constructor, fcsm.cc:91-161; g x y is 1.f - abs(GetCorrespondenceCost(x, y)) *)
Definition precompute (g : Z -> Z -> Z) (nx ny w : Z) : option pgrid :=
  if (w <? 1) || (nx <? 1) || (ny <? 1) then None else
  match for_lines (fun y => sw_line (fun x => g x y) nx w) (Z.to_nat ny) 0 with
  | None => None
  | Some rows =>
      let column x := fun y => znth 0 x (znth [] y rows) in
      match for_lines (fun x =>
              match sw_line (column x) ny w with
              | None => None
              | Some l => map_cells l
              end) (Z.to_nat (nx + w - 1)) 0 with
      | None => None
      | Some cols =>
          Some {| pg_nx := nx + w - 1; pg_ny := ny + w - 1; pg_w := w;
                  pg_cells := cols |}
      end
  end.

(* GetValue, fcsm.h:56-71; offset_ is (-width+1, -width+1), fcsm.cc:94 *)
Definition get_value (pg : pgrid) (x y : Z) : Z :=
  let lx := x - (- pg_w pg + 1) in
  let ly := y - (- pg_w pg + 1) in
  if (lx <? 0) || (pg_nx pg <=? lx) || (ly <? 0) || (pg_ny pg <=? ly) then 0
  else znth 0 ly (znth [] lx (pg_cells pg)).

(* PrecomputationGridStack2D, fcsm.cc:171-186: widths 1, 2, 4, ... *)
Fixpoint make_stack (g : Z -> Z -> Z) (nx ny : Z) (w : Z) (depth : nat)
  : option (list pgrid) :=
  match depth with
  | O => Some []
  | S d =>
      match precompute g nx ny w, make_stack g nx ny (2 * w) d with
      | Some p, Some ps => Some (p :: ps)
      | _, _ => None
      end
  end.
Definition stack (g : Z -> Z -> Z) (nx ny : Z) (depth : nat) : option (list pgrid) :=
  match depth with O => None (* CHECK_GE, :174 *) | S _ => make_stack g nx ny 1 depth end.

(* ---- search window, csm.h:35-60 ---- *)
Record bounds := { min_x : Z; max_x : Z; min_y : Z; max_y : Z }.
Definition dscan : Type := list (Z * Z).           (* DiscreteScan2D, csm.h:32 *)

(* ShrinkToFit for one scan, csm.cc:78-89 *)
Definition shrink (nx ny : Z) (s : dscan) (b : bounds) : bounds :=
  let mn := fold_left (fun a p => (Z.min (fst a) (- fst p), Z.min (snd a) (- snd p)))
                      s (0, 0) in
  let mx := fold_left (fun a p => (Z.max (fst a) (nx - 1 - fst p),
                                   Z.max (snd a) (ny - 1 - snd p))) s (0, 0) in
  {| min_x := Z.max (min_x b) (fst mn); max_x := Z.min (max_x b) (fst mx);
     min_y := Z.max (min_y b) (snd mn); max_y := Z.min (max_y b) (snd mx) |}.

(* ShrinkToFit, csm.cc:73-91, on scans paired with their bounds (the CHECKs on
   equal sizes hold by construction) *)
Definition shrink_all (nx ny : Z) (ss : list (dscan * bounds)) : list (dscan * bounds) :=
  map (fun sb => (fst sb, shrink nx ny (fst sb) (snd sb))) ss.

(* ---- candidates, csm.h:74-103 (the pose is a function of the indices) ---- *)
Record cand := { c_scan : Z; c_x : Z; c_y : Z; c_score : Z }.

(* for (v = lo; v <= hi; v += step), fcsm.cc:298-304 *)
Fixpoint steps (fuel : nat) (lo hi step : Z) : list Z :=
  match fuel with
  | O => []
  | S f => if lo <=? hi then lo :: steps f (lo + step) hi step else []
  end.
Definition step_list (lo hi step : Z) : list Z :=
  steps (Z.to_nat (hi - lo + 1)) lo hi step.

Definition num_steps (lo hi step : Z) : Z := Z.quot (hi - lo + step) step.

Fixpoint gen_from (i : Z) (ss : list (dscan * bounds)) (step : Z) : list (Z * Z * Z) :=
  match ss with
  | [] => []
  | (_, b) :: r =>
      flat_map (fun x => map (fun y => (i, x, y)) (step_list (min_y b) (max_y b) step))
               (step_list (min_x b) (max_x b) step)
      ++ gen_from (i + 1) r step
  end.

(* fcsm.cc:280-293 *)
Definition num_candidates (ss : list (dscan * bounds)) (step : Z) : Z :=
  fold_left (fun a sb => a + num_steps (min_x (snd sb)) (max_x (snd sb)) step *
                             num_steps (min_y (snd sb)) (max_y (snd sb)) step) ss 0.

(* GenerateLowestResolutionCandidates, fcsm.cc:276-312, with its CHECK_EQ *)
Definition generate (ss : list (dscan * bounds)) (max_depth : nat)
  : option (list (Z * Z * Z)) :=
  let step := 2 ^ Z.of_nat max_depth in
  let cs := gen_from 0 ss step in
  if Z.of_nat (length cs) =? num_candidates ss step then Some cs else None.

(* ToScore(sum / n), fcsm.cc:328-329 and fcsm.h:74-76 *)
Variable to_score : Z (* n *) -> Z (* sum *) -> Z.
(* std::sort with std::greater: some permutation in non-increasing order *)
Variable sort : list cand -> list cand.

Definition scan_of (ss : list (dscan * bounds)) (i : Z) : dscan * bounds :=
  znth ([], {| min_x := 0; max_x := 0; min_y := 0; max_y := 0 |}) i ss.

Definition sum_values (pg : pgrid) (s : dscan) (x y : Z) : Z :=
  fold_left (fun a p => a + get_value pg (fst p + x) (snd p + y)) s 0.

(* ScoreCandidates, fcsm.cc:314-333 *)
Definition score_one (pg : pgrid) (ss : list (dscan * bounds)) (c : Z * Z * Z) : cand :=
  let '(i, x, y) := c in
  let s := fst (scan_of ss i) in
  {| c_scan := i; c_x := x; c_y := y;
     c_score := to_score (Z.of_nat (length s)) (sum_values pg s x y) |}.
Definition score_candidates (pg : pgrid) (ss : list (dscan * bounds))
  (cs : list (Z * Z * Z)) : list cand :=
  sort (map (score_one pg ss) cs).

(* the candidates of the next level, fcsm.cc:351-367 *)
Definition offsets_up_to (base half hi : Z) : list Z :=
  if hi <? base + 0 then []
  else if hi <? base + half then [base + 0] else [base + 0; base + half].
Definition children (ss : list (dscan * bounds)) (half : Z) (c : cand)
  : list (Z * Z * Z) :=
  let b := snd (scan_of ss (c_scan c)) in
  flat_map (fun x => map (fun y => (c_scan c, x, y))
                         (offsets_up_to (c_y c) half (max_y b)))
           (offsets_up_to (c_x c) half (max_x b)).

(* std::max(a, b): a unless a < b *)
Definition cand_max (a b : cand) : cand :=
  if c_score a <? c_score b then b else a.

(* BranchAndBound, fcsm.cc:335-378 *)
Fixpoint bnb (grids : list pgrid) (ss : list (dscan * bounds)) (depth : nat)
  (cs : list cand) (min_score : Z) {struct depth} : option cand :=
  match depth with
  | O => match cs with [] => None | c :: _ => Some c end
  | S d =>
      match nth_error grids d with
      | None => None
      | Some pg =>
          (fix loop (cs : list cand) (best : cand) : option cand :=
             match cs with
             | [] => Some best
             | c :: r =>
                 if c_score c <=? min_score then Some best
                 else
                   match bnb grids ss d
                           (score_candidates pg ss (children ss (2 ^ Z.of_nat d) c))
                           (c_score best) with
                   | None => None
                   | Some h => loop r (cand_max best h)
                   end
             end) cs {| c_scan := 0; c_x := 0; c_y := 0; c_score := min_score |}
      end
  end.

(* MatchWithSearchParameters, fcsm.cc:246-261, after discretisation of the
   rotated scans: None = abort, Some None = false, Some (Some c) = true with the
   pose given by c *)
Definition match_window (g : Z -> Z -> Z) (nx ny : Z) (depth : nat)
  (ss : list (dscan * bounds)) (min_score : Z) : option (option cand) :=
  match stack g nx ny depth with
  | None => None
  | Some grids =>
      let max_depth := Nat.pred depth in
      let ss' := shrink_all nx ny ss in
      match generate ss' max_depth, nth_error grids max_depth with
      | Some cs, Some top =>
          match bnb grids ss' max_depth (score_candidates top ss' cs) min_score with
          | None => None
          | Some c => Some (if min_score <? c_score c then Some c else None)
          end
      | _, _ => None
      end
  end.
End Match.
