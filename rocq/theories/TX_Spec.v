(* Specification of the submap textures. *)
From Coq Require Import ZArith Reals List Bool.
From Verif Require Import CF_Model RG_Model TX_Model.
Import ListNotations.
Open Scope R_scope.

(* what a texel adds to a pixel *)
Definition shade (t : Z * Z) : Z := (fst t - snd t)%Z.
Definition byte (z : Z) : Prop := (0 <= z <= 255)%Z.
(* the log odds of one step of the 8 bit scale: 127 of them from probability 1/2 to 9/10 *)
Definition log_odds_step : R := ln 9 / 127.
Definition log_odds (p : R) : R := ln p - ln (1 - p).
(* t is halfway between two integers *)
Definition tie (t : R) : Prop := exists k : Z, t = IZR k + 1 / 2.

(* the channels of a 32 bit ARGB pixel *)
Definition alpha_channel (w : Z) : Z := (w / 2 ^ 24)%Z.
Definition red_channel (w : Z) : Z := (w / 2 ^ 16 mod 2 ^ 8)%Z.
Definition green_channel (w : Z) : Z := (w / 2 ^ 8 mod 2 ^ 8)%Z.
Definition blue_channel (w : Z) : Z := (w mod 2 ^ 8)%Z.

(* the X-ray brightness of a column of n obstructed voxels from zmin to zmax, with the sum and the
   maximum of their probabilities: the mean, where each level that is not a voxel counts 15 % of a
   voxel and has the probability 1 - max *)
Definition xray (n zmin zmax : Z) (sum max : R) : R :=
  let free := 15 / 100 * Rmax (IZR (zmax - zmin - n)) 0 in
  (sum + (1 - max) * free) / (IZR n + free).
(* m is the least (greatest) of f over l *)
Definition least {A} (f : A -> Z) (l : list A) (m : Z) : Prop :=
  (exists a, In a l /\ f a = m) /\ forall a, In a l -> (m <= f a)%Z.
Definition greatest {A} (f : A -> Z) (l : list A) (m : Z) : Prop :=
  (exists a, In a l /\ f a = m) /\ forall a, In a l -> (f a <= m)%Z.
Definition greatest_real {A} (f : A -> R) (l : list A) (m : R) : Prop :=
  (exists a, In a l /\ f a = m) /\ forall a, In a l -> f a <= m.
Definition total {A} (f : A -> R) (l : list A) : R := fold_right (fun a s => f a + s) 0 l.

Open Scope Z_scope.
(* the obstructed voxels, rounded to the voxels of the global frame *)
Definition obstructed (p : Z -> R) (v : voxel) : bool := if Rlt_dec (p (w_value v)) k_obstructed then false else true.
Definition voxels (p : Z -> R) (res : R) (pose : rigid3) (cells : list voxel) : list voxel :=
  map (project_voxel res pose) (filter (obstructed p) cells).
(* no int overflows *)
Definition int_voxel (q : voxel) : bool := is_int (w_x q) && is_int (w_y q) && is_int (w_z q).
Definition fits (l : list voxel) : Prop :=
  (forall a, In a l -> int_voxel a = true) /\
  (forall a b, In a l -> In b l -> w_z a - w_z b <= int_max) /\
  (forall a b c d, In a l -> In b l -> In c l -> In d l -> (w_x a - w_x b + 1) * (w_y c - w_y d + 1) <= int_max).
(* the voxels below row i and column j of the texture *)
Definition at_pixel (hi : Z * Z) (i j : Z) (v : voxel) : bool := (w_x v =? fst hi - i) && (w_y v =? snd hi - j).
Definition column (hi : Z * Z) (i j : Z) (l : list voxel) : list voxel := filter (at_pixel hi i j) l.
(* the texel of a column: transparent when it is less than 3 voxels high *)
Definition column_texel (p : Z -> R) (l : list voxel) (t : Z * Z) : Prop :=
  (t = (0, 0) /\ forall a b, In a l -> In b l -> w_z a - w_z b < 3) \/
  (exists zmin zmax m, least w_z l zmin /\ greatest w_z l zmax /\ greatest_real (fun v => p (w_value v)) l m /\ 3 <= zmax - zmin /\
     (1 / 10 <= xray (Z.of_nat (length l)) zmin zmax (total (fun v => p (w_value v)) l) m <= 9 / 10)%R /\
     probability_texel (xray (Z.of_nat (length l)) zmin zmax (total (fun v => p (w_value v)) l) m) = Some t).

(* the slices before the first one without a surface *)
Fixpoint drawn_prefix (slices : list slice) : list slice :=
  match slices with [] => [] | s :: r => if s_drawn s then s :: drawn_prefix r else [] end.
