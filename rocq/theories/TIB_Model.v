(* Model of TransformInterpolationBuffer: cartographer/transform/transform_interpolation_buffer.cc
   (tb below).  Times are integers (ticks).  None: a CHECK fails. *)
From Coq Require Import List ZArith Bool.
Import ListNotations.
Open Scope Z_scope.

Section Buffer.
Variable P : Type.                                 (* Rigid3d *)
(* the pose computed in Interpolate from two stamped poses and a time,
   transform/timestamped_transform.cc:29-37; not modelled further *)
Variable blend : Z * P -> Z * P -> Z -> P.

(* Interpolate, transform/timestamped_transform.cc:23-38 *)
Definition interpolate (a b : Z * P) (t : Z) : option P :=
  if (fst a <=? t) && (t <=? fst b) then Some (blend a b t) else None.

(* the members, transform_interpolation_buffer.h:77-78; the default limit is the largest
   size_t *)
Record buffer := mk_buffer { items : list (Z * P); limit : Z }.
Definition buffer_new : buffer := mk_buffer [] (2 ^ 64 - 1).

(* RemoveOldTransformsIfNeeded, tb:77-81: each turn of the loop drops the first element *)
Fixpoint remove_old (l : list (Z * P)) (n : Z) : list (Z * P) :=
  match l with
  | [] => []
  | _ :: r => if n <? Z.of_nat (length l) then remove_old r n else l
  end.

(* earliest_time, latest_time, tb:83-91 *)
Definition earliest_time (b : buffer) : option Z := option_map fst (hd_error (items b)).
Definition latest_time (b : buffer) : option Z := option_map fst (hd_error (rev (items b))).

(* Push, tb:37-44 *)
Definition push (b : buffer) (t : Z) (p : P) : option buffer :=
  if match latest_time b with None => true | Some u => u <=? t end
  then Some (mk_buffer (remove_old (items b ++ [(t, p)]) (limit b)) (limit b))
  else None.

(* SetSizeLimit, tb:46-50 *)
Definition set_size_limit (b : buffer) (n : Z) : buffer := mk_buffer (remove_old (items b) n) n.

(* Clear, tb:52 *)
Definition clear_buffer (b : buffer) : buffer := mk_buffer [] (limit b).

(* Has, tb:54-59 *)
Definition has (b : buffer) (t : Z) : bool :=
  match earliest_time b, latest_time b with
  | Some e, Some l => (e <=? t) && (t <=? l)
  | _, _ => false
  end.

(* Lookup, tb:61-75: std::lower_bound on a deque sorted by time finds the first element not
   before t; prev is the element in front of it, an access outside the deque is None *)
Fixpoint lookup_from (prev : option (Z * P)) (l : list (Z * P)) (t : Z) : option P :=
  match l with
  | [] => None
  | a :: r => if fst a <? t then lookup_from (Some a) r t
              else if fst a =? t then Some (snd a)
              else match prev with
                   | None => None
                   | Some s => interpolate s a t
                   end
  end.
Definition lookup (b : buffer) (t : Z) : option P :=
  if has b t then lookup_from None (items b) t else None.

Inductive bop := Push (t : Z) (p : P) | SetSizeLimit (n : Z) | Clear.
Definition bstep (b : buffer) (o : bop) : option buffer :=
  match o with
  | Push t p => push b t p
  | SetSizeLimit n => Some (set_size_limit b n)
  | Clear => Some (clear_buffer b)
  end.
Fixpoint brun (b : buffer) (ops : list bop) : option buffer :=
  match ops with
  | [] => Some b
  | o :: r => match bstep b o with Some b' => brun b' r | None => None end
  end.

(* TransformInterpolationBuffer(trajectory), tb:29-35 *)
Definition from_trajectory (nodes : list (Z * P)) : option buffer :=
  brun buffer_new (map (fun n => Push (fst n) (snd n)) nodes).
End Buffer.
Arguments items {P}. Arguments limit {P}. Arguments Push {P}. Arguments SetSizeLimit {P}. Arguments Clear {P}.
Arguments buffer_new {P}. Arguments brun {P}. Arguments has {P}. Arguments lookup {P}. Arguments mk_buffer {P}.
Arguments bstep {P}. Arguments from_trajectory {P}. Arguments remove_old {P}. Arguments lookup_from {P}.
