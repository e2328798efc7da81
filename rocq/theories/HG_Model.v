(* Model of the 3D grids: cartographer/mapping/3d/hybrid_grid.h (hg below).
   A failing CHECK, an access outside a vector or overflow of int is None (or Aborted).
   The C++ templates FlatGrid, NestedGrid and DynamicGrid take their cell type or wrapped
   grid as a parameter; here the operations of a wrapped grid are a record. *)
From Coq Require Import List ZArith Bool.
From Verif Require Import Vec Float32 PV_Model G2_Model.
Import ListNotations.
Open Scope Z_scope.

Notation Z3 := (Z * Z * Z)%type (only parsing).
Definition vx (i : Z3) : Z := fst (fst i).
Definition vy (i : Z3) : Z := snd (fst i).
Definition vz (i : Z3) : Z := snd i.

(* Eigen::Array3i arithmetic, component by component *)
Definition map3 (f : Z -> Z) (i : Z3) : Z3 := (f (vx i), f (vy i), f (vz i)).
Definition zip3 (f : Z -> Z -> Z) (i j : Z3) : Z3 :=
  (f (vx i) (vx j), f (vy i) (vy j), f (vz i) (vz j)).
Definition all3 (f : Z -> bool) (i : Z3) : bool := f (vx i) && f (vy i) && f (vz i).

(* ToFlatIndex, hg:40-43 *)
Definition to_flat (i : Z3) (bits : Z) : Z :=
  Z.shiftl (Z.shiftl (vz i) bits + vy i) bits + vx i.

(* To3DIndex, hg:47-52 *)
Definition to_3d (k bits : Z) : Z3 :=
  let mask := Z.shiftl 1 bits - 1 in
  (Z.land k mask, Z.land (Z.shiftr k bits) mask, Z.shiftr (Z.shiftr k bits) bits).

(* What NestedGrid and DynamicGrid use of their WrappedGrid and its Iterator.
   mutable_value returns a pointer: o_modify f reads the value v through it and writes w
   where f v = Some (a, w); None if f fails. *)
Record gops (V G It : Type) := mk_gops {
  o_size : Z;                                                    (* grid_size() *)
  o_new : G;                                                     (* constructor *)
  o_value : G -> Z3 -> option V;                                 (* value *)
  o_modify : forall A, (V -> option (A * V)) -> G -> Z3 -> option (A * G);  (* mutable_value *)
  o_begin : G -> It;                                             (* Iterator(grid) *)
  o_next : It -> It;                                             (* Next *)
  o_done : It -> bool;                                           (* Done *)
  o_index : It -> Z3;                                            (* GetCellIndex *)
  o_get : It -> option V                                         (* GetValue *)
}.
Arguments o_size {V G It}. Arguments o_new {V G It}. Arguments o_value {V G It}.
Arguments o_modify {V G It} _ {A}. Arguments o_begin {V G It}. Arguments o_next {V G It}.
Arguments o_done {V G It}. Arguments o_index {V G It}. Arguments o_get {V G It}.

Section Flat.
Variable V : Type.
Variable dflt : V.                 (* ValueType() *)
Variable is_default : V -> bool.   (* IsDefaultValue, hg:55-64 *)
Variable bits : Z.                 (* kBits *)

(* FlatGrid::value, hg:88-90 *)
Definition flat_value (cells : list V) (i : Z3) : option V := vget cells (to_flat i bits).

(* FlatGrid::mutable_value, hg:93-95 *)
Definition flat_modify {A} (f : V -> option (A * V)) (cells : list V) (i : Z3) : option (A * list V) :=
  match vget cells (to_flat i bits) with
  | None => None
  | Some v => match f v with
              | None => None
              | Some (a, w) => match vset cells (to_flat i bits) w with
                               | Some c => Some (a, c)
                               | None => None
                               end
              end
  end.

(* FlatGrid::Iterator, hg:99-134: the cells from current_ to end_ *)
Fixpoint flat_skip (l : list V) : list V :=
  match l with
  | [] => []
  | v :: r => if is_default v then flat_skip r else l
  end.
Definition flat_next (it : list V) : list V := flat_skip (tl it).
Definition flat_done (it : list V) : bool := match it with [] => true | _ => false end.
Definition flat_index (it : list V) : Z3 := to_3d (Z.shiftl 1 (3 * bits) - vsize it) bits.

(* FlatGrid, hg:68-138 *)
Definition flat_ops : gops V (list V) (list V) := {|
  o_size := Z.shiftl 1 bits;
  o_new := repeat dflt (Z.to_nat (Z.shiftl 1 (3 * bits)));
  o_value := flat_value;
  o_modify := @flat_modify;
  o_begin := flat_skip;
  o_next := flat_next;
  o_done := flat_done;
  o_index := flat_index;
  o_get := @hd_error V
|}.
End Flat.

Section Wrap.
Context {V G It : Type}.
Variable dflt : V.
Variable W : gops V G It.

(* common part of NestedGrid (hg:153-178) and DynamicGrid (hg:263-300): the wrapped grid
   of an index and the index in it; unique_ptr is an option *)
Definition meta_index (i : Z3) : Z3 := map3 (fun c => Z.quot c (o_size W)) i.
Definition inner_index (i : Z3) : Z3 := zip3 (fun c m => c - m * o_size W) i (meta_index i).
Definition cells_value (bits : Z) (cells : list (option G)) (i : Z3) : option V :=
  match vget cells (to_flat (meta_index i) bits) with
  | None => None
  | Some None => Some dflt
  | Some (Some g) => o_value W g (inner_index i)
  end.
Definition cells_modify (bits : Z) {A} (f : V -> option (A * V)) (cells : list (option G)) (i : Z3)
  : option (A * list (option G)) :=
  match vget cells (to_flat (meta_index i) bits) with
  | None => None
  | Some og =>
      let g := match og with Some g => g | None => o_new W end in
      match o_modify W f g (inner_index i) with
      | None => None
      | Some (a, g') => match vset cells (to_flat (meta_index i) bits) (Some g') with
                        | Some c => Some (a, c)
                        | None => None
                        end
      end
  end.

(* NestedGrid::Iterator, hg:181-230 and DynamicGrid::Iterator, hg:304-372: the cells from
   current_ to end_ and nested_iterator_; None is its default constructed value *)
Definition nit : Type := list (option G) * option It.
Fixpoint cells_advance (l : list (option G)) : nit :=
  match l with
  | [] => ([], None)
  | None :: r => cells_advance r
  | Some g :: r => if o_done W (o_begin W g) then cells_advance r else (l, Some (o_begin W g))
  end.
Definition cells_next (it : nit) : nit :=
  match snd it with
  | None => it
  | Some n => if o_done W (o_next W n) then cells_advance (tl (fst it))
              else (fst it, Some (o_next W n))
  end.
Definition cells_done (it : nit) : bool := match fst it with [] => true | _ => false end.
Definition cells_index (bits : Z) (it : nit) : Z3 :=
  match snd it with
  | None => (0, 0, 0)          (* not done excludes this *)
  | Some n => zip3 (fun c d => c * o_size W + d)
                   (to_3d (Z.shiftl 1 (3 * bits) - vsize (fst it)) bits) (o_index W n)
  end.
Definition cells_get (it : nit) : option V :=
  match snd it with None => None | Some n => o_get W n end.

(* NestedGrid, hg:143-244 *)
Definition nested_ops (bits : Z) : gops V (list (option G)) nit := {|
  o_size := Z.shiftl (o_size W) bits;
  o_new := repeat None (Z.to_nat (Z.shiftl 1 (3 * bits)));
  o_value := cells_value bits;
  o_modify := @cells_modify bits;
  o_begin := cells_advance;
  o_next := cells_next;
  o_done := cells_done;
  o_index := cells_index bits;
  o_get := cells_get
|}.

(* DynamicGrid, hg:250-407 *)
Record dynamic := mk_dynamic { d_bits : Z; d_cells : list (option G) }.
Definition dyn_new : dynamic := mk_dynamic 1 (repeat None 8).
Definition dyn_size (d : dynamic) : Z := Z.shiftl (o_size W) (d_bits d).

(* index + (grid_size() >> 1), hg:264, 284; overflow of int is None *)
Definition int_range (c : Z) : bool := (- 2 ^ 31 <=? c) && (c <? 2 ^ 31).
Definition dyn_shifted (d : dynamic) (i : Z3) : option Z3 :=
  let s := map3 (fun c => c + Z.shiftr (dyn_size d) 1) i in
  if all3 int_range s then Some s else None.
(* the cast to unsigned makes negative components large, hg:267, 287 *)
Definition dyn_inside (d : dynamic) (s : Z3) : bool :=
  all3 (fun c => c mod 2 ^ 32 <? dyn_size d) s.

(* DynamicGrid::value, hg:263-279 *)
Definition dyn_value (d : dynamic) (i : Z3) : option V :=
  match dyn_shifted d i with
  | None => None
  | Some s => if dyn_inside d s then cells_value (d_bits d) (d_cells d) s else Some dflt
  end.

(* DynamicGrid::Grow, hg:385-403: the loops over z, y, x *)
Definition grow_moves (cells : list (option G)) (bits new_bits : Z) : list Z3 -> option (list (Z * option G)) :=
  fix go l := match l with
  | [] => Some []
  | o :: r =>
      match vget cells (to_flat o bits), go r with
      | Some c, Some ws => Some ((to_flat (map3 (fun c => c + Z.shiftl 1 (bits - 1)) o) new_bits, c) :: ws)
      | _, _ => None
      end
  end.
Definition meta_range (bits : Z) : list Z3 :=
  let r := zrange (Z.shiftl 1 bits) in
  map (fun zyx => (snd zyx, snd (fst zyx), fst (fst zyx))) (list_prod (list_prod r r) r).
Definition dyn_grow (d : dynamic) : option dynamic :=
  let new_bits := d_bits d + 1 in
  if new_bits <=? 8 then
    match grow_moves (d_cells d) (d_bits d) new_bits (meta_range (d_bits d)) with
    | None => None
    | Some ws =>
        match vset_all (repeat None (Z.to_nat (8 * vsize (d_cells d)))) ws with
        | None => None
        | Some c => Some (mk_dynamic new_bits c)
        end
    end
  else None.

(* DynamicGrid::mutable_value, hg:283-300; the recursion has fuel *)
Fixpoint dyn_modify (fuel : nat) {A} (f : V -> option (A * V)) (d : dynamic) (i : Z3)
  : outcome (A * dynamic) :=
  match dyn_shifted d i with
  | None => Aborted
  | Some s =>
      if dyn_inside d s then
        match cells_modify (d_bits d) f (d_cells d) s with
        | Some (a, c) => Done (a, mk_dynamic (d_bits d) c)
        | None => Aborted
        end
      else match fuel with
           | O => OutOfFuel
           | S n => match dyn_grow d with
                    | None => Aborted
                    | Some d' => dyn_modify n f d' i
                    end
           end
  end.

(* DynamicGrid::Iterator, hg:304-372 *)
Definition dyn_begin (d : dynamic) : nit := cells_advance (d_cells d).
Definition dyn_index (d : dynamic) (it : nit) : Z3 :=
  map3 (fun c => c - Z.shiftl 1 (d_bits d - 1) * o_size W) (cells_index (d_bits d) it).
(* for (const auto it : grid): the pairs visited *)
Fixpoint dyn_iterate (fuel : nat) (d : dynamic) (it : nit) : outcome (list (Z3 * V)) :=
  if cells_done it then Done []
  else match fuel with
       | O => OutOfFuel
       | S n => match cells_get it, dyn_iterate n d (cells_next it) with
                | Some v, Done l => Done ((dyn_index d it, v) :: l)
                | None, _ => Aborted
                | _, o => o
                end
       end.
End Wrap.
Arguments dynamic : clear implicits.
Arguments mk_dynamic {G}. Arguments d_bits {G}. Arguments d_cells {G}.

(* GridBase<ValueType>, hg:409-410: DynamicGrid<NestedGrid<FlatGrid<ValueType, 3>, 3>>,
   of which this is what DynamicGrid wraps *)
Definition grid_ops (V : Type) (dflt : V) (is_default : V -> bool) :=
  nested_ops dflt (flat_ops V dflt is_default 3) 3.
(* ValueType = uint16 *)
Definition node_ops := grid_ops Z 0 (fun v => v =? 0).
Definition node : Type := list (option (list Z)).

(* HybridGrid, hg:468-545.  update_indices_ holds pointers to cells; here the voxel index
   of the cell, last one first: a cell stays at its voxel when the grid grows. *)
Record hybrid := mk_hybrid {
  h_res : f32;
  h_grid : dynamic node;
  h_upd : list Z3
}.
Definition hy_new (r : f32) : hybrid := mk_hybrid r dyn_new [].
Definition hy_value (h : hybrid) (i : Z3) : option Z := dyn_value 0 node_ops (h_grid h) i.

(* mutable_value grows at most 7 times: bits starts at 1 and may not exceed 8 *)
Definition grow_fuel : nat := 8.
Definition hy_modify {A} (f : Z -> option (A * Z)) (h : hybrid) (i : Z3) : option (A * hybrid) :=
  match dyn_modify node_ops grow_fuel f (h_grid h) i with
  | Done (a, d) => Some (a, mk_hybrid (h_res h) d (h_upd h))
  | _ => None
  end.

(* HybridGrid::SetProbability, hg:487-489 *)
Definition hy_set_probability (h : hybrid) (i : Z3) (p : f32) : option hybrid :=
  option_map snd (hy_modify (fun _ => match prob_to_value p with
                                      | Some w => Some (tt, w)
                                      | None => None
                                      end) h i).

(* HybridGrid::ApplyLookupTable, hg:507-518 *)
Definition hy_apply (h : hybrid) (i : Z3) (table : list Z) : option (hybrid * bool) :=
  match hy_modify (fun v => if kUpdateMarker <=? v then Some (false, v)
                            else match vget table v with
                                 | Some w => Some (true, w)
                                 | None => None
                                 end) h i with
  | None => None
  | Some (b, h') =>
      Some (mk_hybrid (h_res h') (h_grid h') (if b then i :: h_upd h' else h_upd h'), b)
  end.

(* HybridGrid::FinishUpdate, hg:492-498; uint16 subtraction *)
Fixpoint hy_finish_loop (h : hybrid) (upd : list Z3) : option hybrid :=
  match upd with
  | [] => Some h
  | i :: r =>
      match hy_modify (fun v => Some (tt, (v - kUpdateMarker) mod 65536)) h i with
      | Some (_, h') => hy_finish_loop h' r
      | None => None
      end
  end.
Definition hy_finish (h : hybrid) : option hybrid :=
  match hy_finish_loop h (h_upd h) with
  | Some h' => Some (mk_hybrid (h_res h') (h_grid h') [])
  | None => None
  end.

(* proto::HybridGrid, mapping/proto/hybrid_grid.proto:19-28 *)
Record hybrid_proto := mk_hybrid_proto {
  hp_res : f32;
  hp_x : list Z;
  hp_y : list Z;
  hp_z : list Z;
  hp_values : list Z
}.

(* HybridGrid::ToProto, hg:528-541 *)
Definition hy_to_proto (fuel : nat) (h : hybrid) : outcome hybrid_proto :=
  match h_upd h with
  | [] =>
      match dyn_iterate node_ops fuel (h_grid h) (dyn_begin node_ops (h_grid h)) with
      | Done l => Done (mk_hybrid_proto (h_res h) (map (fun p => vx (fst p)) l)
                          (map (fun p => vy (fst p)) l) (map (fun p => vz (fst p)) l) (map snd l))
      | Aborted => Aborted
      | OutOfFuel => OutOfFuel
      end
  | _ => Aborted
  end.

(* HybridGrid(proto), hg:473-484; values(i) is an int32 passed as a uint16 *)
Fixpoint hy_load (h : hybrid) (xs ys zs vs : list Z) : option hybrid :=
  match xs, ys, zs, vs with
  | [], [], [], [] => Some h
  | x :: xs', y :: ys', z :: zs', v :: vs' =>
      match hy_set_probability h (x, y, z) (value_to_prob (v mod 65536)) with
      | Some h' => hy_load h' xs' ys' zs' vs'
      | None => None
      end
  | _, _, _, _ => None
  end.
Definition hy_from_proto (p : hybrid_proto) : option hybrid :=
  if (vsize (hp_values p) =? vsize (hp_x p)) && (vsize (hp_values p) =? vsize (hp_y p))
     && (vsize (hp_values p) =? vsize (hp_z p))
  then hy_load (hy_new (hp_res p)) (hp_x p) (hp_y p) (hp_z p) (hp_values p)
  else None.
