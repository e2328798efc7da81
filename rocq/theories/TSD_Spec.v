(* Specification of the truncated signed distance field: which parameters are considered,
   and what a cell holds. *)
From Coq Require Import List ZArith QArith Bool SpecFloat.
From Verif Require Import Vec Float32 PV_Model G2_Model G2_Spec TSD_Model.
Import ListNotations.
Open Scope Z_scope.

(* truncation distances and maximum weights from 2^-30 to 2^30 *)
Definition small30 : f32 := fdiv (f_of_Z 1) (f_of_Z (2 ^ 30)).
Definition large30 : f32 := f_of_Z (2 ^ 30).
Definition usable (x : f32) : Prop :=
  SpecFloat.valid_binary 24 128 x = true /\ fleb small30 x = true /\ fleb x large30 = true.
Definition usable_conv (c : converter) : Prop := usable (max_tsd c) /\ usable (max_weight c).

(* a value without its update marker *)
Definition unmark (v : Z) : Z := if v <? 32768 then v else v - 32768.

(* distance and weight values of a cell, without the update marker *)
Definition cell_pair (t : tsdf) (x y : Z) : option (Z * Z) :=
  match cell_value (t_grid t) x y, weight_value t x y with
  | Some v, Some w => Some (unmark v, w)
  | _, _ => None
  end.

(* the same at a point of the plane; unknown outside the grid *)
Definition pair_at (t : tsdf) (px py : Q) : option (Z * Z) :=
  let (x, y) := cell_index (g_lim (t_grid t)) px py in
  if contains (g_lim (t_grid t)) x y then cell_pair t x y else Some (0, 0).

(* operations between two FinishUpdate calls: what each wants to store *)
Definition store : Type := Z * Z * f32 * f32.
Definition store_at (x y : Z) (s : store) : bool :=
  let '(sx, sy, _, _) := s in (sx =? x) && (sy =? y).
Fixpoint set_all (t : tsdf) (ss : list store) : option tsdf :=
  match ss with
  | [] => Some t
  | (x, y, d, w) :: r =>
      match set_cell t x y d w with
      | Some t' => set_all t' r
      | None => None
      end
  end.

(* what a store leaves in its cell *)
Definition stored (c : converter) (s : store) : option (Z * Z) :=
  let '(_, _, d, w) := s in
  match tsd_to_value c d, weight_to_value c w with
  | Some a, Some b => Some (a, b)
  | _, _ => None
  end.
