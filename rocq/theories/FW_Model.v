(* Model of cartographer/io/file_writer.cc (fw), ply_writing_points_processor.cc (ply) and
   pcd_writing_points_processor.cc (pcd). A file is a list of bytes 0..255; a float is its 32 bits.
   Writing never fails, and next_ is left out, except that it must not restart the stream. *)
From Coq Require Import ZArith List Bool String Ascii.
Import ListNotations.
Open Scope Z_scope.

(* a string as bytes *)
Definition text (s : string) : list Z := map (fun a => Z.of_N (N_of_ascii a)) (list_ascii_of_string s).
Definition nl : list Z := [10].

(* operator<< of a nonnegative number with std::setw(15) and std::setfill('0') *)
Fixpoint decimal (fuel : nat) (n : Z) : list Z :=
  match fuel with
  | O => []
  | S fuel => if n <? 10 then [48 + n] else decimal fuel (n / 10) ++ [48 + n mod 10]
  end.
Definition digits (n : Z) : list Z := decimal (S (Z.to_nat (Z.log2 n))) n.
Definition padded (n : Z) : list Z :=
  let d := digits n in repeat 48 (15 - List.length d) ++ d.

(* StreamFileWriter, fw:22-50: the bytes and the position of an std::ofstream *)
Record file := mk_file { f_bytes : list Z; f_pos : nat }.
Definition file_new : file := mk_file [] 0.
Definition fwrite (f : file) (data : list Z) : file :=
  mk_file (firstn (f_pos f) (f_bytes f) ++ data ++ skipn (f_pos f + List.length data) (f_bytes f))
          (f_pos f + List.length data).
Definition write_header (f : file) (data : list Z) : file := fwrite (mk_file (f_bytes f) 0) data.

(* memcpy of a 32 bit value on a little endian machine *)
Definition le32 (v : Z) : list Z := [v mod 256; v / 256 mod 256; v / 65536 mod 256; v / 16777216 mod 256].

Section Writers.
(* FloatColor and ToUint8Color, io/color.{h,cc}; see C48 *)
Variable color : Type.
Variable to_uint8 : color -> Z * Z * Z.

(* the parts of PointsBatch that are written, points_batch.h:34-64 *)
Record batch := mk_batch { b_points : list (Z * Z * Z); b_intensities : list Z; b_colors : list color }.
Definition empty {A} (l : list A) : bool := match l with [] => true | _ => false end.

(* WriteBinaryPlyHeader, ply:33-60 *)
Definition ply_header (has_color has_intensities : bool) (comments : list (list Z)) (num_points : Z) : list Z :=
  let color_header := if negb has_color then []
    else text "property uchar red" ++ nl ++ text "property uchar green" ++ nl ++ text "property uchar blue" ++ nl in
  let intensity_header := if negb has_intensities then [] else text "property float intensity" ++ nl in
  text "ply" ++ nl ++ text "format binary_little_endian 1.0" ++ nl ++ text "comment generated by Cartographer" ++ nl
  ++ flat_map (fun c => text "comment " ++ c ++ nl) comments
  ++ text "element vertex " ++ padded num_points ++ nl
  ++ text "property float x" ++ nl ++ text "property float y" ++ nl ++ text "property float z" ++ nl
  ++ color_header ++ intensity_header ++ text "end_header" ++ nl.

(* WriteBinaryPlyPointCoordinate, ply:62-70; the same as in pcd:59-66 *)
Definition coordinates (p : Z * Z * Z) : list Z :=
  let '(x, y, z) := p in le32 x ++ le32 y ++ le32 z.
(* WriteBinaryPlyPointColor, ply:79-83 *)
Definition ply_color (c : Z * Z * Z) : list Z := let '(r, g, b) := c in [r; g; b].

(* PlyWritingPointsProcessor; the constructor, ply:97-104, does not set has_intensities_: None *)
Record ply := mk_ply { p_file : file; p_num : Z; p_colors : bool; p_intensities : option bool }.
Definition ply_init : ply := mk_ply file_new 0 false None.

(* the loop, ply:147-156; reading past the end of a vector is None *)
Fixpoint ply_loop (has_c has_i : bool) (points : list (Z * Z * Z)) (colors : list color) (ints : list Z)
    (f : file) (num : Z) : option (file * Z) :=
  match points with
  | [] => Some (f, num)
  | p :: points =>
    let f := fwrite f (coordinates p) in
    match (if has_c then match colors with [] => None | c :: _ => Some (fwrite f (ply_color (to_uint8 c))) end else Some f) with
    | None => None
    | Some f =>
      match (if has_i then match ints with [] => None | i :: _ => Some (fwrite f (le32 i)) end else Some f) with
      | None => None
      | Some f => ply_loop has_c has_i points (tl colors) (tl ints) f (num + 1)
      end
    end
  end.
(* Process, ply:122-158; a failed CHECK is None *)
Definition ply_process (comments : list (list Z)) (s : ply) (b : batch) : option ply :=
  if empty (b_points b) then Some s
  else
    let s := if p_num s =? 0 then
        let has_c := negb (empty (b_colors b)) in
        let has_i := negb (empty (b_intensities b)) in
        mk_ply (write_header (p_file s) (ply_header has_c has_i comments 0)) (p_num s) has_c (Some has_i)
      else s in
    match p_intensities s with
    | None => None
    | Some has_i =>
      if p_colors s && negb (List.length (b_points b) =? List.length (b_colors b))%nat then None
      else if has_i && negb (List.length (b_points b) =? List.length (b_intensities b))%nat then None
      else match ply_loop (p_colors s) has_i (b_points b) (b_colors b) (b_intensities b) (p_file s) (p_num s) with
        | None => None
        | Some (f, num) => Some (mk_ply f num (p_colors s) (Some has_i))
        end
    end.
(* Flush, ply:106-120: the bytes of the closed file; reading the unset has_intensities_ is None *)
Definition ply_flush (comments : list (list Z)) (s : ply) : option (list Z) :=
  match p_intensities s with
  | None => None
  | Some has_i => Some (f_bytes (write_header (p_file s) (ply_header (p_colors s) has_i comments (p_num s))))
  end.
Fixpoint ply_all (comments : list (list Z)) (s : ply) (bs : list batch) : option ply :=
  match bs with
  | [] => Some s
  | b :: bs => match ply_process comments s b with Some s => ply_all comments s bs | None => None end
  end.
Definition ply_write (comments : list (list Z)) (bs : list batch) : option (list Z) :=
  match ply_all comments ply_init bs with Some s => ply_flush comments s | None => None end.

(* WriteBinaryPcdHeader, pcd:33-57 *)
Definition pcd_header (has_color : bool) (num_points : Z) : list Z :=
  let opt s := if negb has_color then [] else text s in
  text "# generated by Cartographer" ++ nl ++ text "VERSION .7" ++ nl
  ++ text "FIELDS x y z" ++ opt " rgb"%string ++ nl ++ text "SIZE 4 4 4" ++ opt " 4"%string ++ nl
  ++ text "TYPE F F F" ++ opt " U"%string ++ nl ++ text "COUNT 1 1 1" ++ opt " 1"%string ++ nl
  ++ text "WIDTH " ++ padded num_points ++ nl ++ text "HEIGHT 1" ++ nl ++ text "VIEWPOINT 0 0 0 1 0 0 0" ++ nl
  ++ text "POINTS " ++ padded num_points ++ nl ++ text "DATA binary" ++ nl.
(* WriteBinaryPcdPointColor, pcd:68-76 *)
Definition pcd_color (c : Z * Z * Z) : list Z := let '(r, g, b) := c in [b; g; r; 0].

(* PcdWritingPointsProcessor, pcd:89-94 *)
Record pcd := mk_pcd { d_file : file; d_num : Z; d_colors : bool }.
Definition pcd_init : pcd := mk_pcd file_new 0 false.
(* the loop, pcd:121-129: has_c is !batch->colors.empty() *)
Fixpoint pcd_loop (has_c : bool) (points : list (Z * Z * Z)) (colors : list color) (f : file) (num : Z) : option (file * Z) :=
  match points with
  | [] => Some (f, num)
  | p :: points =>
    let f := fwrite f (coordinates p) in
    match (if has_c then match colors with [] => None | c :: _ => Some (fwrite f (pcd_color (to_uint8 c))) end else Some f) with
    | None => None
    | Some f => pcd_loop has_c points (tl colors) f (num + 1)
    end
  end.
(* Process, pcd:111-131 *)
Definition pcd_process (s : pcd) (b : batch) : option pcd :=
  if empty (b_points b) then Some s
  else
    let s := if d_num s =? 0 then
        let has_c := negb (empty (b_colors b)) in
        mk_pcd (write_header (d_file s) (pcd_header has_c 0)) (d_num s) has_c
      else s in
    match pcd_loop (negb (empty (b_colors b))) (b_points b) (b_colors b) (d_file s) (d_num s) with
    | None => None
    | Some (f, num) => Some (mk_pcd f num (d_colors s))
    end.
(* Flush, pcd:96-109 *)
Definition pcd_flush (s : pcd) : list Z := f_bytes (write_header (d_file s) (pcd_header (d_colors s) (d_num s))).
Fixpoint pcd_all (s : pcd) (bs : list batch) : option pcd :=
  match bs with
  | [] => Some s
  | b :: bs => match pcd_process s b with Some s => pcd_all s bs | None => None end
  end.
Definition pcd_write (bs : list batch) : option (list Z) := option_map pcd_flush (pcd_all pcd_init bs).
End Writers.
Arguments mk_batch {color}. Arguments b_points {color}. Arguments b_intensities {color}. Arguments b_colors {color}.
