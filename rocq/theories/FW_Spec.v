(* Readers of PLY and PCD files, written from the descriptions of the formats. *)
From Coq Require Import ZArith List Bool String.
From Verif Require Import FW_Model.
Import ListNotations.
Open Scope Z_scope.

Fixpoint same_bytes (a b : list Z) : bool :=
  match a, b with [], [] => true | x :: a, y :: b => (x =? y) && same_bytes a b | _, _ => false end.
(* what follows a prefix *)
Fixpoint after (prefix l : list Z) : option (list Z) :=
  match prefix, l with
  | [], _ => Some l
  | x :: p, y :: l => if x =? y then after p l else None
  | _, [] => None
  end.
(* the bytes before the first newline, and after it *)
Fixpoint take_line (l : list Z) : option (list Z * list Z) :=
  match l with
  | [] => None
  | x :: l => if x =? 10 then Some ([], l)
    else match take_line l with Some (a, b) => Some (x :: a, b) | None => None end
  end.
(* the lines up to one that is the last of the header, and the bytes after that *)
Fixpoint header_lines (fuel : nat) (last : list Z) (l : list Z) : option (list (list Z) * list Z) :=
  match fuel with
  | O => None
  | S fuel =>
    match take_line l with
    | None => None
    | Some (line, rest) =>
      if same_bytes line last then Some ([], rest)
      else match header_lines fuel last rest with Some (ls, body) => Some (line :: ls, body) | None => None end
    end
  end.
(* a decimal number *)
Fixpoint number_from (acc : Z) (l : list Z) : option Z :=
  match l with
  | [] => Some acc
  | d :: l => if (48 <=? d) && (d <=? 57) then number_from (10 * acc + (d - 48)) l else None
  end.
Definition number (l : list Z) : option Z := match l with [] => None | _ => number_from 0 l end.
(* words separated by single spaces *)
Fixpoint words (l : list Z) : list (list Z) :=
  match l with
  | [] => [[]]
  | x :: l => match words l with
    | w :: ws => if x =? 32 then [] :: w :: ws else (x :: w) :: ws
    | [] => [[x]]
    end
  end.
(* a little endian value *)
Fixpoint little (l : list Z) : Z := match l with [] => 0 | x :: l => x + 256 * little l end.
(* one row of values of the given sizes, and the rest *)
Fixpoint row (sizes : list Z) (l : list Z) : option (list Z * list Z) :=
  match sizes with
  | [] => Some ([], l)
  | s :: sizes =>
    if (List.length l <? Z.to_nat s)%nat then None
    else match row sizes (skipn (Z.to_nat s) l) with
      | Some (vs, rest) => Some (little (firstn (Z.to_nat s) l) :: vs, rest)
      | None => None
      end
  end.
(* exactly n rows *)
Fixpoint rows (n : nat) (sizes : list Z) (l : list Z) : option (list (list Z)) :=
  match n with
  | O => match l with [] => Some [] | _ => None end
  | S n => match row sizes l with
    | Some (vs, rest) => match rows n sizes rest with Some t => Some (vs :: t) | None => None end
    | None => None
    end
  end.

(* PLY: lines after the first two; count of vertices and properties with their sizes *)
Fixpoint ply_lines (ls : list (list Z)) : option (option Z * list (list Z * Z)) :=
  match ls with
  | [] => Some (None, [])
  | line :: ls =>
    match ply_lines ls with
    | None => None
    | Some (count, props) =>
      match after (text "comment ") line, after (text "element vertex ") line,
            after (text "property float ") line, after (text "property uchar ") line with
      | Some _, _, _, _ => Some (count, props)
      | _, Some d, _, _ => match number d, count with Some n, None => Some (Some n, props) | _, _ => None end
      | _, _, Some name, _ => Some (count, (name, 4) :: props)
      | _, _, _, Some name => Some (count, (name, 1) :: props)
      | _, _, _, _ => None
      end
    end
  end.
(* the names of the properties and the rows of values *)
Definition read_ply (l : list Z) : option (list (list Z) * list (list Z)) :=
  match header_lines (List.length l) (text "end_header") l with
  | Some (magic :: format :: ls, body) =>
    if same_bytes magic (text "ply") && same_bytes format (text "format binary_little_endian 1.0") then
      match ply_lines ls with
      | Some (Some n, props) =>
        match rows (Z.to_nat n) (map snd props) body with Some t => Some (map fst props, t) | None => None end
      | _ => None
      end
    else None
  | _ => None
  end.

(* PCD: the header has these lines in this order; COUNT is 1 for every field *)
Fixpoint numbers (l : list (list Z)) : option (list Z) :=
  match l with
  | [] => Some []
  | w :: l => match number w, numbers l with Some n, Some ns => Some (n :: ns) | _, _ => None end
  end.
Definition read_pcd (l : list Z) : option (list (list Z) * list (list Z) * list (list Z)) :=
  match header_lines (List.length l) (text "DATA binary") l with
  | Some ([comment; version; fields; size; type; count; width; height; viewpoint; points], body) =>
    match after (text "#") comment, after (text "VERSION ") version, after (text "FIELDS ") fields, after (text "SIZE ") size,
          after (text "TYPE ") type, after (text "COUNT ") count, after (text "WIDTH ") width, after (text "HEIGHT ") height,
          after (text "POINTS ") points with
    | Some _, Some _, Some f, Some s, Some t, Some c, Some w, Some h, Some p =>
      match numbers (words s), numbers (words c), number w, number h, number p with
      | Some sizes, Some counts, Some w, Some h, Some p =>
        if (w * h =? p) && forallb (Z.eqb 1) counts
           && (List.length (words f) =? List.length sizes)%nat && (List.length (words t) =? List.length sizes)%nat
           && (List.length counts =? List.length sizes)%nat then
          match rows (Z.to_nat p) sizes body with Some r => Some (words f, words t, r) | None => None end
        else None
      | _, _, _, _, _ => None
      end
    | _, _, _, _, _, _, _, _, _ => None
    end
  | _ => None
  end.

(* batches as they should come: the colours and intensities of the first batch with points decide *)
Section Batches.
Variable color : Type.
Variable to_uint8 : color -> Z * Z * Z.
Definition bits (v : Z) : Prop := 0 <= v < 2 ^ 32.
Definition byte (v : Z) : Prop := 0 <= v < 256.
Definition batch_bits (b : batch color) : Prop :=
  Forall (fun p => let '(x, y, z) := p in bits x /\ bits y /\ bits z) (b_points b) /\ Forall bits (b_intensities b).
Definition bytes_colors : Prop := forall c, let '(r, g, b) := to_uint8 c in byte r /\ byte g /\ byte b.
Definition first_batch (bs : list (batch color)) : option (batch color) :=
  find (fun b => match b_points b with [] => false | _ => true end) bs.
Definition some_of {A} (l : list A) : bool := match l with [] => false | _ => true end.
(* the row of the point number i of a batch *)
Definition ply_row (has_c has_i : bool) (b : batch color) (i : nat) : option (list Z) :=
  match nth_error (b_points b) i with
  | None => None
  | Some (x, y, z) =>
    match (if has_c then option_map (fun c => let '(r, g, b) := to_uint8 c in [r; g; b]) (nth_error (b_colors b) i) else Some []),
          (if has_i then option_map (fun v => [v]) (nth_error (b_intensities b) i) else Some []) with
    | Some c, Some v => Some ([x; y; z] ++ c ++ v)
    | _, _ => None
    end
  end.
Definition pcd_row (has_c : bool) (b : batch color) (i : nat) : option (list Z) :=
  match nth_error (b_points b) i with
  | None => None
  | Some (x, y, z) =>
    match (if has_c then option_map (fun c => let '(r, g, b) := to_uint8 c in [65536 * r + 256 * g + b]) (nth_error (b_colors b) i) else Some []) with
    | Some c => Some ([x; y; z] ++ c)
    | None => None
    end
  end.
(* the (batch, index) pairs of all points in order *)
Definition all_points (bs : list (batch color)) : list (batch color * nat) :=
  flat_map (fun b => map (fun i => (b, i)) (seq 0 (List.length (b_points b)))) bs.
Definition num_points (bs : list (batch color)) : Z := Z.of_nat (List.length (all_points bs)).
End Batches.
