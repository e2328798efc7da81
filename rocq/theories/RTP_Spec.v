(* What a ray cast should return, in terms of the segment in the plane. *)
From Coq Require Import List ZArith QArith.
Import ListNotations.
Open Scope Z_scope.

Definition int32 (z : Z) : Prop := 0 <= z < 2 ^ 31.

(* the centre of subpixel (x, y) is (x + 1/2, y + 1/2); the point at parameter t of
   the segment between two subpixel centres, one coordinate *)
Definition along (b e : Z) (t : Q) : Q :=
  (inject_Z b + (1 # 2) + t * (inject_Z e - inject_Z b))%Q.

(* pixel p of side s is an open square *)
Definition in_pixel (s p : Z) (v : Q) : Prop := (inject_Z (s * p) < v < inject_Z (s * (p + 1)))%Q.

Definition crosses (b e : Z * Z) (s : Z) (p : Z * Z) : Prop :=
  exists t : Q, (0 <= t <= 1)%Q /\
    in_pixel s (fst p) (along (fst b) (fst e) t) /\ in_pixel s (snd p) (along (snd b) (snd e) t).

(* neighbours: a common side or corner *)
Definition touching (p q : Z * Z) : Prop :=
  Z.abs (fst p - fst q) <= 1 /\ Z.abs (snd p - snd q) <= 1.

Fixpoint path (l : list (Z * Z)) : Prop :=
  match l with
  | p :: ((q :: _) as l') => touching p q /\ path l'
  | _ => True
  end.

Definition pixel_of (s : Z) (b : Z * Z) : Z * Z := (fst b / s, snd b / s).
