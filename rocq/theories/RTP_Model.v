(* RayToPixelMask: cartographer/mapping/internal/2d/ray_to_pixel_mask.cc ("rtp"). *)
From Coq Require Import List ZArith Bool.
Import ListNotations.
Open Scope Z_scope.

Notation pixel := (Z * Z)%type (only parsing).

(* rtp:25-27 *)
Definition is_equal (a b : pixel) : bool :=
  Z.abs (fst a - fst b) + Z.abs (snd a - snd b) =? 0.

(* The vector pixel_mask is kept in reverse: its back() is the head of the list.
   `if (!isEqual(pixel_mask.back(), current)) pixel_mask.push_back(current);`
   None: back() of an empty vector. *)
Definition push (c : pixel) (l : list pixel) : option (list pixel) :=
  match l with
  | [] => None
  | b :: _ => if is_equal b c then Some l else Some (c :: l)
  end.

(* int64 range; an overflow (undefined behaviour) is None.  The int sub-expressions
   2 * subpixel_scale, first_pixel and last_pixel are covered by a hypothesis of the
   theorems (2 * subpixel_scale fits in an int). *)
Definition i64 (z : Z) : option Z :=
  if (- 2 ^ 63 <=? z) && (z <? 2 ^ 63) then Some z else None.

Definition bind {A B} (o : option A) (f : A -> option B) : option B :=
  match o with Some a => f a | None => None end.

(* rtp:51-62, the loop of the vertical case *)
Fixpoint vertical (fuel : nat) (x y end_y : Z) (l : list pixel) : option (list pixel) :=
  if y <=? end_y then
    match fuel with
    | O => None
    | S f => bind (push (x, y) l) (fun l => vertical f x (y + 1) end_y l)
    end
  else Some l.

(* rtp:104-108 and rtp:120-124: while (sub_y > denominator).  Result: y, sub_y, mask. *)
Fixpoint climb (fuel : nat) (den x y sub : Z) (l : list pixel) : option (Z * Z * list pixel) :=
  if den <? sub then
    match fuel with
    | O => None
    | S f => bind (push (x, y + 1) l) (fun l => climb f den x (y + 1) (sub - den) l)
    end
  else Some (y, sub, l).
Definition climb_fuel (den sub : Z) : nat := Z.to_nat (sub / den).

(* rtp:102-117; the state after break *)
Fixpoint columns_up (fuel : nat) (den step end_x x y sub : Z) (l : list pixel) :
    option (Z * Z * list pixel) :=
  match fuel with
  | O => None
  | S f =>
      bind (push (x, y) l) (fun l =>
      bind (climb (climb_fuel den sub) den x y sub l) (fun '(y, sub, l) =>
      let '(y, sub) := if sub =? den then (y + 1, sub - den) else (y, sub) in
      if x + 1 =? end_x then Some (y, sub, l)
      else bind (i64 (sub + step)) (fun sub => columns_up f den step end_x (x + 1) y sub l)))
  end.

(* rtp:134-138 and rtp:148-152: while (sub_y < 0) *)
Fixpoint descend (fuel : nat) (den x y sub : Z) (l : list pixel) : option (Z * Z * list pixel) :=
  if sub <? 0 then
    match fuel with
    | O => None
    | S f => bind (push (x, y - 1) l) (fun l => descend f den x (y - 1) (sub + den) l)
    end
  else Some (y, sub, l).
Definition descend_fuel (den sub : Z) : nat := Z.to_nat (- sub / den + 1).

(* rtp:132-146 *)
Fixpoint columns_down (fuel : nat) (den step end_x x y sub : Z) (l : list pixel) :
    option (Z * Z * list pixel) :=
  match fuel with
  | O => None
  | S f =>
      bind (push (x, y) l) (fun l =>
      bind (descend (descend_fuel den sub) den x y sub l) (fun '(y, sub, l) =>
      let '(y, sub) := if sub =? 0 then (y - 1, sub + den) else (y, sub) in
      if x + 1 =? end_x then Some (y, sub, l)
      else bind (i64 (sub + step)) (fun sub => columns_down f den step end_x (x + 1) y sub l)))
  end.

(* rtp:43-155, begin.x <= end.x.  C++ integer division truncates: Z.quot, Z.rem.
   subpixel_scale = 0 divides by zero. *)
Definition ray_ordered (b e : pixel) (s : Z) : option (list pixel) :=
  let (bx, by_) := b in let (ex, ey) := e in
  if s =? 0 then None
  else if negb ((0 <=? bx) && (0 <=? by_) && (0 <=? ey)) then None
  else if Z.quot bx s =? Z.quot ex s then
    let x := Z.quot bx s in
    let y := Z.quot (Z.min by_ ey) s in
    let end_y := Z.quot (Z.max by_ ey) s in
    vertical (Z.to_nat (end_y - y + 1)) x y end_y [(x, y)]
  else
    bind (i64 (ex - bx)) (fun dx =>
    bind (i64 (ey - by_)) (fun dy =>
    bind (i64 (2 * s * dx)) (fun den =>
    let x := Z.quot bx s in let y := Z.quot by_ s in
    let mask : list pixel := [(x, y)] in
    bind (i64 ((2 * Z.rem by_ s + 1) * dx)) (fun sub =>
    let first_pixel := 2 * s - 2 * Z.rem bx s - 1 in
    let last_pixel := 2 * Z.rem ex s + 1 in
    let end_x := Z.quot (Z.max bx ex) s in
    bind (i64 (dy * first_pixel)) (fun d1 =>
    bind (i64 (sub + d1)) (fun sub =>
    bind (i64 (dy * 2 * s)) (fun step =>
    bind (i64 (dy * last_pixel)) (fun d2 =>
    if 0 <? dy then
      bind (columns_up (Z.to_nat (end_x - x)) den step end_x x y sub mask) (fun '(y, sub, l) =>
      bind (i64 (sub + d2)) (fun sub =>
      bind (push (end_x, y) l) (fun l =>
      bind (climb (climb_fuel den sub) den end_x y sub l) (fun '(y, sub, l) =>
      if (sub =? den) || negb (y =? Z.quot ey s) then None else Some l))))
    else
      bind (columns_down (Z.to_nat (end_x - x)) den step end_x x y sub mask) (fun '(y, sub, l) =>
      bind (i64 (sub + d2)) (fun sub =>
      bind (push (end_x, y) l) (fun l =>
      bind (descend (descend_fuel den sub) den end_x y sub l) (fun '(y, sub, l) =>
      if (sub =? 0) || negb (y =? Z.quot ey s) then None else Some l)))))))))))).

(* rtp:34-41: order by x, then the above; the vector front to back *)
Definition ray_to_pixel_mask (b e : pixel) (s : Z) : option (list pixel) :=
  option_map (@rev pixel) (if fst e <? fst b then ray_ordered e b s else ray_ordered b e s).
