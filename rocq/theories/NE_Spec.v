(* What an estimated normal should be. *)
From Coq Require Import Reals List Arith.
From Verif Require Import CF_Model RG_Model NE_Model.
Import ListNotations.
Open Scope R_scope.

(* how many returns of a list are in a window: the first ones that are near, at most n *)
Definition near (radius : R) (p s : vec3 R) : Prop := vnorm (vsub p s) < radius.
Definition in_window (radius : R) (p : vec3 R) (n : nat) (l : list (vec3 R)) (k : nat) : Prop :=
  (k <= n)%nat /\ (k <= List.length l)%nat /\ Forall (near radius p) (firstn k l) /\
  (k = n \/ k = List.length l \/ exists s, nth_error l k = Some s /\ ~ near radius p s).
(* the samples of a return: those before it, at most half the number, and those after it, at most the
   other half *)
Definition samples_of (o : noptions) (before : list (vec3 R)) (p : vec3 R) (after samples : list (vec3 R)) : Prop :=
  exists k m, in_window (n_radius o) p (n_samples o / 2) (rev before) k /\
    in_window (n_radius o) p ((n_samples o + 1) / 2) after m /\
    samples = rev (firstn k (rev before)) ++ firstn m after.

(* in the plane *)
Definition dot2 (a b : vec3 R) : R := v0 a * v0 b + v1 a * v1 b.
Definition cross2 (a b : vec3 R) : R := v0 a * v1 b - v1 a * v0 b.
Definition length2 (a : vec3 R) : R := sqrt (dot2 a a).
(* the unit vector across the line through two points, on the side of the origin; on neither side, the
   one to the left of the way from the sample to the point *)
Definition across (origin p s n : vec3 R) : Prop :=
  v2 n = 0 /\ dot2 n n = 1 /\ dot2 n (vsub p s) = 0 /\ 0 <= dot2 n (vsub origin p) /\
  (dot2 n (vsub origin p) = 0 -> 0 < cross2 (vsub p s) n).
Definition far (p s : vec3 R) : Prop := 1 / 1000000 <= length2 (vsub p s).
(* the normals of all samples that are not too near *)
Fixpoint all_across (origin p : vec3 R) (samples ns : list (vec3 R)) : Prop :=
  match samples with
  | [] => ns = []
  | s :: samples =>
    (~ far p s /\ all_across origin p samples ns) \/
    (far p s /\ exists n ns', ns = n :: ns' /\ across origin p s n /\ all_across origin p samples ns')
  end.
Definition sum_all (ns : list (vec3 R)) : vec3 R := fold_right vadd (mk_vec3 0 0 0) ns.
(* an angle that points to the same side as a vector *)
Definition points_to (angle : R) (v : vec3 R) : Prop := 0 < cos angle * v0 v + sin angle * v1 v.
(* turned about the z axis *)
Definition turned2 (a : R) (p : vec3 R) : vec3 R :=
  mk_vec3 (cos a * v0 p - sin a * v1 p) (sin a * v0 p + cos a * v1 p) (v2 p).
