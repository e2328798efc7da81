(* What a 2D correlative match should return, stated without the machinery of
   the scan matcher: no window maxima, no tree. *)
From Coq Require Import List ZArith.
From Verif Require Import FCSM2D_Model.
Import ListNotations.
Open Scope Z_scope.

(* m is the maximum of g over the part of [x, x+w) inside [0, n) *)
Definition line_max (g : Z -> Z) (n w x m : Z) : Prop :=
  (exists i, x <= i < x + w /\ 0 <= i < n /\ g i = m) /\
  (forall i, x <= i < x + w -> 0 <= i < n -> g i <= m).

(* m is the maximum of v over the part of [x, x+w) * [y, y+w) inside the grid *)
Definition window_max (v : Z -> Z -> Z) (nx ny w x y m : Z) : Prop :=
  (exists i j, x <= i < x + w /\ y <= j < y + w /\ 0 <= i < nx /\ 0 <= j < ny /\
               v i j = m) /\
  (forall i j, x <= i < x + w -> y <= j < y + w -> 0 <= i < nx -> 0 <= j < ny ->
               v i j <= m).

Section S.
Variable quant : Z -> Z.
Variable to_score : Z -> Z -> Z.
Variable g : Z -> Z -> Z.
Variables nx ny : Z.

(* the 8-bit value of a grid cell; cells outside the grid count 0 *)
Definition cell (x y : Z) : Z :=
  if ((0 <=? x) && (x <? nx) && (0 <=? y) && (y <? ny))%bool
  then quant (g x y) else 0.

Fixpoint scan_sum (s : list (Z * Z)) (x y : Z) : Z :=
  match s with
  | [] => 0
  | (px, py) :: r => cell (px + x) (py + y) + scan_sum r x y
  end.

(* score of a scan shifted by (x, y), by direct lookup of every point *)
Definition pose_score (s : list (Z * Z)) (x y : Z) : Z :=
  to_score (Z.of_nat (length s)) (scan_sum s x y).

(* (i, x, y) is a pose of the search window *)
Definition in_window (ss : list (dscan * bounds)) (i x y : Z) (s : dscan) : Prop :=
  exists b, 0 <= i /\ nth_error ss (Z.to_nat i) = Some (s, b) /\
            min_x b <= x <= max_x b /\ min_y b <= y <= max_y b.
End S.
