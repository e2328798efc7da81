(* Model of cartographer/io/image.cc (im below) and of the pictures of
   cartographer/io/xray_points_processor.cc (xr), with real numbers instead of floats.  None is an
   access outside a vector or a failed CHECK.  Drawing trajectories, PNG encoding and the next
   processor are left out. *)
From Coq Require Import ZArith Reals List Bool.
From Verif Require Import CF_Model RG_Model IG_Model Vec.
Import ListNotations.

(* Uint8Color, io/color.h:28 *)
Definition color8 : Type := Z * Z * Z.
(* Uint8ColorToCairo and CairoToUint8Color, im:12-22; the shifted parts do not overlap, so that | is + *)
Definition to_cairo (c : color8) : Z := let '(r, g, b) := c in (255 * 2 ^ 24 + r * 2 ^ 16 + g * 2 ^ 8 + b)%Z.
Definition of_cairo (w : Z) : color8 := ((w / 2 ^ 16) mod 256, (w / 2 ^ 8) mod 256, w mod 256)%Z.

(* Image, image.h and im:49-50 *)
Record image := mk_image { i_w : Z; i_h : Z; i_pixels : list Z }.
Definition new_image (w h : Z) : image := mk_image w h (repeat 0%Z (Z.to_nat (w * h))).
(* GetPixel and SetPixel, im:91-97 *)
Definition get_pixel (i : image) (x y : Z) : option color8 := option_map of_cairo (vget (i_pixels i) (y * i_w i + x)%Z).
Definition set_pixel (i : image) (x y : Z) (c : color8) : option image :=
  option_map (mk_image (i_w i) (i_h i)) (vset (i_pixels i) (y * i_w i + x)%Z (to_cairo c)).
(* Rotate90DegreesClockwise, im:67-76 *)
Fixpoint all_some {A} (l : list (option A)) : option (list A) :=
  match l with
  | [] => Some []
  | None :: _ => None
  | Some a :: l => option_map (cons a) (all_some l)
  end.
Definition rotate90 (i : image) : option image :=
  option_map (mk_image (i_h i) (i_w i))
    (all_some (flat_map (fun x => map (fun y => vget (i_pixels i) (y * i_w i + x)%Z) (rev (zrange (i_h i)))) (zrange (i_w i)))).

Open Scope R_scope.
(* FloatComponentToUint8 and ToUint8Color, color.h:35-45 *)
Definition clamp01 (c : R) : R := if Rlt_dec 1 c then 1 else if Rlt_dec c 0 then 0 else c.
Definition component8 (c : R) : Z := lround (clamp01 c * 255).
Definition to_color8 (c : vec3 R) : color8 := (component8 (v0 c), component8 (v1 c), component8 (v2 c)).

(* a point: the index of its voxel after transform_, of which x is the direction of view, and its
   color (black if the batch has none) *)
Definition cell3 : Type := Z * (Z * Z).
Definition cell3_eqb (a b : cell3) : bool := (Z.eqb (fst a) (fst b) && (Z.eqb (fst (snd a)) (fst (snd b)) && Z.eqb (snd (snd a)) (snd (snd b))))%bool.
Definition column_eqb (a b : Z * Z) : bool := (Z.eqb (fst a) (fst b) && Z.eqb (snd a) (snd b))%bool.
Definition xpoint : Type := cell3 * vec3 R.
(* Aggregation, xray_points_processor.h:69-72: voxels (each once) and the sums of their columns *)
Record aggregation := mk_agg { a_voxels : list cell3; a_columns : list ((Z * Z) * (vec3 R * nat)) }.
Definition new_agg : aggregation := mk_agg [] [].
(* bounding_box_, without the direction of view: (min, max) *)
Definition box2 : Type := option ((Z * Z) * (Z * Z)).
Definition extend_box (b : box2) (c : Z * Z) : box2 :=
  match b with
  | None => Some (c, c)
  | Some (lo, hi) => Some ((Z.min (fst lo) (fst c), Z.min (snd lo) (snd c)), (Z.max (fst hi) (fst c), Z.max (snd hi) (snd c)))
  end.
Fixpoint add_column (l : list ((Z * Z) * (vec3 R * nat))) (c : Z * Z) (color : vec3 R) :=
  match l with
  | [] => [(c, (vadd (mk_vec3 0 0 0) color, 1%nat))]
  | (d, (s, n)) :: l => if column_eqb c d then (d, (vadd s color, S n)) :: l else (d, (s, n)) :: add_column l c color
  end.
(* one point of Insert, xr:221-239 *)
Definition insert_point (s : aggregation * box2) (p : xpoint) : aggregation * box2 :=
  let '(a, b) := s in
  (mk_agg (if existsb (cell3_eqb (fst p)) (a_voxels a) then a_voxels a else a_voxels a ++ [fst p])
          (add_column (a_columns a) (snd (fst p)) (snd p)),
   extend_box b (snd (fst p))).
Definition insert_batch (a : aggregation) (b : box2) (points : list xpoint) : aggregation * box2 := fold_left insert_point points (a, b).
(* ContainedIn, xr:106-114 *)
Definition contained_in (time : Z) (spans : list (Z * Z)) : bool := existsb (fun s => (Z.leb (fst s) time && Z.leb time (snd s))%bool) spans.
(* the constructor, xr:134-137, and Process, xr:241-254; floors are lists of time spans *)
Definition xstate : Type := list aggregation * box2.
Definition xinit (floors : list (list (Z * Z))) : xstate := (map (fun _ => new_agg) (match floors with [] => [[]] | _ => floors end), None).
Fixpoint process_floors (floors : list (list (Z * Z))) (aggs : list aggregation) (b : box2) (time : Z) (points : list xpoint) : option xstate :=
  match floors, aggs with
  | [], _ => Some (aggs, b)
  | _, [] => None
  | f :: floors, a :: aggs =>
    let '(a, b) := if contained_in time f then insert_batch a b points else (a, b) in
    match process_floors floors aggs b time points with None => None | Some (aggs, b) => Some (a :: aggs, b) end
  end.
Definition xprocess (floors : list (list (Z * Z))) (s : xstate) (batch : Z * list xpoint) : option xstate :=
  match floors with
  | [] => match fst s with [a] => let '(a, b) := insert_batch a (snd s) (snd batch) in Some ([a], b) | _ => None end
  | _ => process_floors floors (fst s) (snd s) (fst batch) (snd batch)
  end.

(* PixelDataMatrix, xr:38-63: the number of voxels and the mean color *)
Definition pixel_data : Type := nat * vec3 R.
Fixpoint find_column (l : list ((Z * Z) * (vec3 R * nat))) (c : Z * Z) : option (vec3 R * nat) :=
  match l with [] => None | (d, e) :: l => if column_eqb c d then Some e else find_column l c end.
(* the loop of WriteVoxels, xr:178-201 *)
Definition matrix_step (cols : list ((Z * Z) * (vec3 R * nat))) (hi : Z * Z) (w : Z) (m : option (list pixel_data)) (v : cell3) : option (list pixel_data) :=
  match m with
  | None => None
  | Some m =>
    let c := snd v in
    let i := (fst hi - fst c + (snd hi - snd c) * w)%Z in
    match vget m i, find_column cols c with
    | Some (n, _), Some (s, k) => vset m i (S n, vscale (/ INR k) s)
    | _, _ => None
    end
  end.
Definition matrix_of (a : aggregation) (lo hi : Z * Z) : option (list pixel_data) :=
  let w := (fst hi - fst lo + 1)%Z in let h := (snd hi - snd lo + 1)%Z in
  fold_left (matrix_step (a_columns a) hi w) (a_voxels a) (Some (repeat (0%nat, mk_vec3 0 0 0) (Z.to_nat (w * h)))).

(* Mix, xr:65-67, and IntoImage, xr:70-104.  Both loops go through the matrix in the order in which it,
   and the image, are stored, and each pixel is set once. *)
Definition mix (a b t : R) : R := a * (1 - t) + t * b.
Definition float_min : R := / 2 ^ 126.
Definition max_log (m : list pixel_data) : R :=
  fold_left (fun mx (p : pixel_data) => match fst p with O => mx | n => Rmax mx (ln (INR n)) end) m float_min.
Definition pixel_color (factor mx : R) (p : pixel_data) : color8 :=
  match fst p with
  | O => (255, 255, 255)%Z
  | n => let s := Rmin 1 (ln (INR n) / mx * factor) in
         to_color8 (mk_vec3 (mix 1 (v0 (snd p)) s) (mix 1 (v1 (snd p)) s) (mix 1 (v2 (snd p)) s))
  end.
Definition into_image (w h : Z) (m : list pixel_data) (factor : R) : image :=
  mk_image w h (map (fun p => to_cairo (pixel_color factor (max_log m) p)) m).
(* WriteVoxels, xr:170-219: None in the result if nothing is written *)
Definition write_voxels (a : aggregation) (b : box2) (factor : R) : option (option image) :=
  match b with
  | None => Some None
  | Some (lo, hi) =>
    match matrix_of a lo hi with
    | None => None
    | Some m => Some (Some (into_image (fst hi - fst lo + 1) (snd hi - snd lo + 1) m factor))
    end
  end.
(* the batches one after the other *)
Definition xrun (floors : list (list (Z * Z))) (batches : list (Z * list xpoint)) : option xstate :=
  fold_left (fun s b => match s with None => None | Some s => xprocess floors s b end) batches (Some (xinit floors)).
