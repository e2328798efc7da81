(* Images and X-ray pictures. *)
From Coq Require Import ZArith Reals List Bool.
From Verif Require Import CF_Model RG_Model MG_Spec XR_Model.
Import ListNotations.

Definition byte_color (c : color8) : Prop := let '(r, g, b) := c in (0 <= r < 256 /\ 0 <= g < 256 /\ 0 <= b < 256)%Z.
Definition proper (i : image) : Prop := (0 <= i_w i /\ 0 <= i_h i)%Z /\ Z.of_nat (length (i_pixels i)) = (i_w i * i_h i)%Z.
Definition inside (i : image) (x y : Z) : Prop := (0 <= x < i_w i /\ 0 <= y < i_h i)%Z.

Open Scope R_scope.
(* the points that belong to the picture of a floor: all of them if there are no floors *)
Definition on_floor (floors : list (list (Z * Z))) (k : nat) (time : Z) : Prop :=
  floors = [] \/ exists spans s, nth_error floors k = Some spans /\ In s spans /\ (fst s <= time <= snd s)%Z.
Definition shown (floors : list (list (Z * Z))) (k : nat) (batches : list (Z * list xpoint)) (pts : list xpoint) : Prop :=
  exists keep, (forall b, keep b = true <-> on_floor floors k (fst b)) /\ pts = flat_map (fun b => if keep b then snd b else []) batches.
(* the smallest box around the columns with a property *)
Definition box_ok (b : box2) (P : Z * Z -> Prop) : Prop :=
  match b with
  | None => forall c, ~ P c
  | Some (lo, hi) =>
    (forall c, P c -> (fst lo <= fst c <= fst hi /\ snd lo <= snd c <= snd hi)%Z) /\
    (exists c, P c /\ fst c = fst lo) /\ (exists c, P c /\ snd c = snd lo) /\
    (exists c, P c /\ fst c = fst hi) /\ (exists c, P c /\ snd c = snd hi)
  end.
Definition in_box (lo hi c : Z * Z) : Prop := (fst lo <= fst c <= fst hi /\ snd lo <= snd c <= snd hi)%Z.
Definition column (c : Z * Z) (pts : list xpoint) : list xpoint := filter (fun p => column_eqb (snd (fst p)) c) pts.
Definition cell3_dec (a b : cell3) : {a = b} + {a <> b}.
Proof. repeat decide equality. Defined.
(* the number of different voxels in a column *)
Definition thickness (c : Z * Z) (pts : list xpoint) : nat := length (nodup cell3_dec (map fst (column c pts))).
Definition mean (f : vec3 R -> R) (pts : list xpoint) : R := total (fun p => f (snd p)) pts / INR (length pts).
Definition smallest_float : R := / 2 ^ 126.
(* the largest logarithm of a thickness, or the smallest float if there is no larger one *)
Definition largest (pts : list xpoint) (mx : R) : Prop :=
  smallest_float <= mx /\ (forall c, column c pts <> [] -> ln (INR (thickness c pts)) <= mx) /\
  (mx = smallest_float \/ exists c, column c pts <> [] /\ mx = ln (INR (thickness c pts))).
Definition faded (c s : R) : R := 1 - s + s * c.
Definition wanted_color (pts : list xpoint) (factor mx : R) (c : Z * Z) (out : color8) : Prop :=
  (column c pts = [] -> out = (255, 255, 255)%Z) /\
  (column c pts <> [] -> let s := Rmin 1 (ln (INR (thickness c pts)) / mx * factor) in
     out = to_color8 (mk_vec3 (faded (mean v0 (column c pts)) s) (faded (mean v1 (column c pts)) s) (faded (mean v2 (column c pts)) s))).
