(* Specification of the 2D probability grid, stated on cell values by (x, y) and on
   points of the plane. *)
From Coq Require Import List ZArith QArith Bool.
From Verif Require Import Vec Float32 PV_Model G2_Model.
Import ListNotations.
Open Scope Z_scope.

Definition lim_ok (l : limits) : Prop := (0 < l_res l)%Q /\ 0 < l_nx l /\ 0 < l_ny l.

(* a lookup table: every unmarked value is taken to a marked known value *)
Definition good_table (t : list Z) : Prop :=
  forall v, 0 <= v < 32768 -> exists w, vget t v = Some w /\ 32768 < w < 65536.

(* the known-cells box is the bounding box of the known cells *)
Definition box_exact (known : Z -> Z -> bool) (ob : option box) : Prop :=
  match ob with
  | None => forall x y, known x y = false
  | Some b =>
      (forall x y, known x y = true -> b_x0 b <= x <= b_x1 b /\ b_y0 b <= y <= b_y1 b) /\
      (exists y, known (b_x0 b) y = true) /\ (exists y, known (b_x1 b) y = true) /\
      (exists x, known x (b_y0 b) = true) /\ (exists x, known x (b_y1 b) = true)
  end.

(* the invariant of every reachable grid *)
Record wf (g : grid) : Prop := {
  wf_lim : lim_ok (g_lim g);
  wf_size : vsize (g_cells g) = l_nx (g_lim g) * l_ny (g_lim g);
  wf_nodup : NoDup (g_upd g);
  wf_upd : forall i, In i (g_upd g) -> 0 <= i < vsize (g_cells g);
  wf_marked : forall i v, In i (g_upd g) -> vget (g_cells g) i = Some v -> 32768 < v < 65536;
  wf_plain : forall i v, ~ In i (g_upd g) -> vget (g_cells g) i = Some v -> 0 <= v < 32768;
  wf_box : box_exact (is_known g) (g_box g);
  wf_cost : fltb (g_minc g) (g_maxc g) = true
}.

(* accesses between two FinishUpdate calls: cell and table *)
Definition access : Type := Z * Z * list Z.
Definition acc_at (x y : Z) (a : access) : bool :=
  let '(ax, ay, _) := a in (ax =? x) && (ay =? y).
(* the first access to a cell *)
Definition first_access (x y : Z) (acc : list access) : option (list Z) :=
  option_map snd (find (acc_at x y) acc).
(* for each access: is it the first one to its cell *)
Fixpoint first_flags (before acc : list access) : list bool :=
  match acc with
  | [] => []
  | a :: r =>
      let '(x, y, _) := a in
      negb (existsb (acc_at x y) before) :: first_flags (before ++ [a]) r
  end.

Fixpoint apply_all (g : grid) (acc : list access) : option (grid * list bool) :=
  match acc with
  | [] => Some (g, [])
  | (x, y, t) :: r =>
      match apply_table g x y t with
      | None => None
      | Some (g', b) =>
          match apply_all g' r with
          | None => None
          | Some (g'', bs) => Some (g'', b :: bs)
          end
      end
  end.

(* value of the cell a point lies in; unknown outside the grid *)
Definition value_at (g : grid) (px py : Q) : option Z :=
  let (x, y) := cell_index (g_lim g) px py in
  if contains (g_lim g) x y then cell_value g x y else Some kUnknown.

(* g' is g embedded in a larger grid, at offset (ox, oy); every new cell is unknown *)
Record embeds (g g' : grid) (ox oy : Z) : Prop := {
  em_res : l_res (g_lim g') = l_res (g_lim g);
  em_mx : (l_mx (g_lim g') == l_mx (g_lim g) + l_res (g_lim g) * inject_Z oy)%Q;
  em_my : (l_my (g_lim g') == l_my (g_lim g) + l_res (g_lim g) * inject_Z ox)%Q;
  em_x : 0 <= ox /\ ox + l_nx (g_lim g) <= l_nx (g_lim g');
  em_y : 0 <= oy /\ oy + l_ny (g_lim g) <= l_ny (g_lim g');
  em_val : forall x y, contains (g_lim g') x y = true ->
    cell_value g' x y = if contains (g_lim g) (x - ox) (y - oy)
                        then cell_value g (x - ox) (y - oy) else Some kUnknown;
  em_upd : g_upd g' = g_upd g;
  em_minc : g_minc g' = g_minc g;
  em_maxc : g_maxc g' = g_maxc g
}.
