(* Which cells a scan hits and crosses, from the world coordinates. *)
From Coq Require Import List ZArith QArith Qround.
From Verif Require Import G2_Model RTP_Spec INS_Model.
Import ListNotations.
Open Scope Z_scope.

(* the cell (of n-fold finer resolution) a point is in: distance to the maximum corner,
   counted in whole cells; the x index runs along -y and the y index along -x *)
Definition cell_at (n : Z) (l : limits) (p : Q * Q) : Z * Z :=
  (Qfloor (inject_Z n * (l_my l - snd p) / l_res l),
   Qfloor (inject_Z n * (l_mx l - fst p) / l_res l)).

Definition is_hit (l : limits) (rd : range_data) (c : Z * Z) : Prop :=
  exists p, In p (rd_returns rd) /\ cell_at 1 l p = c.

(* the segment from the origin to a return or miss, each moved to the centre of its
   subpixel, meets the interior of the cell *)
Definition is_crossed (l : limits) (rd : range_data) (c : Z * Z) : Prop :=
  exists p, In p (rd_returns rd ++ rd_misses rd) /\
    crosses (cell_at 1000 l (rd_origin rd)) (cell_at 1000 l p) 1000 c.

(* all points of a scan *)
Definition scan_points (rd : range_data) : list (Q * Q) :=
  rd_origin rd :: rd_returns rd ++ rd_misses rd.
