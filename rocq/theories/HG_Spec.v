(* Specification side of the 3D grids: a total map from voxels to values. *)
From Coq Require Import List ZArith Bool.
From Verif Require Import G2_Model HG_Model.
Import ListNotations.
Open Scope Z_scope.

(* all components in lo .. hi - 1 *)
Definition within (lo hi : Z) (i : Z3) : Prop :=
  (lo <= vx i < hi) /\ (lo <= vy i < hi) /\ (lo <= vz i < hi).

(* the voxels a hybrid grid can hold *)
Definition representable (i : Z3) : Prop := within (-8192) 8192 i.
(* indices for which index + 8192 is an int *)
Definition int_index (i : Z3) : Prop := within (- 2 ^ 31) (2 ^ 31 - 8192) i.

Definition same3 (i j : Z3) : bool := (vx i =? vx j) && (vy i =? vy j) && (vz i =? vz j).

(* a list visits exactly the voxels with a value different from the default, once each *)
Definition visits {V} (dflt : V) (m : Z3 -> option V) (l : list (Z3 * V)) : Prop :=
  NoDup (map fst l) /\
  forall i v, In (i, v) l <-> representable i /\ m i = Some v /\ v <> dflt.

(* the last value written to a voxel; the default if there is none *)
Definition last_write {V} (dflt : V) (ws : list (Z3 * V)) (i : Z3) : V :=
  fold_left (fun v w => if same3 (fst w) i then snd w else v) ws dflt.

(* accesses: a voxel and a lookup table; for each, is it the first one to its voxel *)
Definition vaccess : Type := (Z * Z * Z) * list Z.
Definition vfirst (i : Z3) (acc : list vaccess) : option (list Z) :=
  option_map snd (find (fun a => same3 (fst a) i) acc).
Fixpoint vflags (before acc : list vaccess) : list bool :=
  match acc with
  | [] => []
  | a :: r => negb (existsb (fun b => same3 (fst b) (fst a)) before) :: vflags (before ++ [a]) r
  end.
Fixpoint vapply_all (h : hybrid) (acc : list vaccess) : option (hybrid * list bool) :=
  match acc with
  | [] => Some (h, [])
  | (i, t) :: r =>
      match hy_apply h i t with
      | None => None
      | Some (h', b) =>
          match vapply_all h' r with
          | None => None
          | Some (h'', bs) => Some (h'', b :: bs)
          end
      end
  end.
