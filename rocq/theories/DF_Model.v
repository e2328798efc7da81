(* Model of cartographer/mapping/detect_floors.cc (df). The arithmetic of double is left open: D is the type of
   the z values and lengths, and all it is used for are the operations below. A failed CHECK or an access out of
   bounds is None. *)
From Coq Require Import ZArith List Bool Arith.
Import ListNotations.

(* Span, df:42-52; z_values is sorted *)
Record span (D : Type) := mk_span { s_start : nat; s_end : nat; s_z : list D }.
Arguments mk_span {D}. Arguments s_start {D}. Arguments s_end {D}. Arguments s_z {D}.
(* Timespan and Floor, detect_floors.h:26-40 *)
Record floor (D : Type) := mk_floor { f_timespans : list (Z * Z); f_z : D }.
Arguments mk_floor {D}. Arguments f_timespans {D}. Arguments f_z {D}.

(* LevelFind, df:55-62. levels, a map with the keys 0, 1, ..., n-1, is a list; the recursion gets fuel *)
Fixpoint level_find (fuel i : nat) (levels : list nat) : option nat :=
  match fuel with
  | O => None
  | S fuel => match nth_error levels i with
    | None => None
    | Some p => if i =? p then Some p else level_find fuel p levels
    end
  end.
Definition find_level (i : nat) (levels : list nat) : option nat := level_find (S (List.length levels)) i levels.
Fixpoint set_nth (l : list nat) (i v : nat) : list nat :=
  match l, i with [], _ => [] | _ :: l, O => v :: l | x :: l, S i => x :: set_nth l i v end.
(* LevelUnion, df:64-68 *)
Definition level_union (i j : nat) (levels : list nat) : option (list nat) :=
  match find_level i levels, find_level j levels with
  | Some ri, Some rj => Some (set_nth levels ri rj)
  | _, _ => None
  end.

Section Floors.
Variable D : Type.
Variable lt : D -> D -> bool.            (* a < b *)
Variable apart : D -> D -> bool.         (* std::abs(a - b) > kLevelHeightMeters, df:39 *)
Variable close : D -> D -> bool.         (* std::abs(a - b) < kMinLevelSeparationMeters, df:40 *)
Variable add : D -> D -> D.
Variables zero limit : D.                (* 0. and kMaxShortSpanLengthMeters, df:38 *)
Variable dist : nat -> D.                (* (a - b).head<2>().norm() for the nodes i - 1 and i, df:102-105 *)
Notation span := (span D).
Notation floor := (floor D).

(* InsertSorted, df:70-72; std::upper_bound of a sorted vector *)
Fixpoint insert_sorted (v : D) (l : list D) : list D :=
  match l with [] => [v] | x :: r => if lt v x then v :: l else x :: insert_sorted v r end.
(* Median, df:74-77 *)
Definition median (l : list D) : option D :=
  match l with [] => None | _ => nth_error l (List.length l / 2) end.

(* SliceByAltitudeChange, df:81-96: the loop; cur is spans.back(), zs the z values of the nodes i, i+1, ... *)
Fixpoint slice_loop (i : nat) (zs : list D) (cur : span) : option (list span) :=
  match zs with
  | [] => Some [cur]
  | z :: zs =>
    match median (s_z cur) with
    | None => None
    | Some m =>
      if apart m z then option_map (cons cur) (slice_loop (S i) zs (mk_span i (S i) (insert_sorted z [])))
      else slice_loop (S i) zs (mk_span (s_start cur) (S i) (insert_sorted z (s_z cur)))
    end
  end.
Definition slice (zs : list D) : option (list span) :=
  match zs with [] => None | z :: zs => slice_loop 1 zs (mk_span 0 0 [z]) end.

(* SpanLength, df:99-108, and IsShort, df:112-114 *)
Definition span_length (s : span) : D :=
  fold_left (fun length i => add length (dist i)) (seq (s_start s + 1) (s_end s - (s_start s + 1))) zero.
Definition is_short (s : span) : bool := lt (span_length s) limit.

(* GroupSegmentsByAltitude, df:117-128 *)
Definition pairs (n : nat) : list (nat * nat) :=
  flat_map (fun i => map (fun j => (i, j)) (seq (i + 1) (n - (i + 1)))) (seq 0 n).
Fixpoint group (spans : list span) (ps : list (nat * nat)) (levels : list nat) : option (list nat) :=
  match ps with
  | [] => Some levels
  | (i, j) :: ps =>
    match nth_error spans i, nth_error spans j with
    | Some si, Some sj =>
      match median (s_z si), median (s_z sj) with
      | Some mi, Some mj =>
        if close mi mj
        then match level_union i j levels with Some levels => group spans ps levels | None => None end
        else group spans ps levels
      | _, _ => None
      end
    | _, _ => None
    end
  end.

(* level_spans of FindFloors, df:132: what is in the map under a key, the empty vector if nothing is;
   spans are kept as their indices *)
Definition level_spans := nat -> list nat.
Definition push (ls : level_spans) (level i : nat) : level_spans :=
  fun l => if l =? level then ls l ++ [i] else ls l.
(* df:135-140 *)
Fixpoint add_long (spans : list span) (levels : list nat) (is : list nat) (ls : level_spans) : option level_spans :=
  match is with
  | [] => Some ls
  | i :: is =>
    match nth_error spans i with
    | None => None
    | Some s =>
      if negb (is_short s)
      then match find_level i levels with Some l => add_long spans levels is (push ls l i) | None => None end
      else add_long spans levels is ls
    end
  end.
(* df:158-165: index is a size_t, so that 0 - 1 is not below spans.size() *)
Definition push_at (spans : list span) (levels : list nat) (ls : level_spans) (index : option nat) (i : nat) : option level_spans :=
  match index with
  | None => Some ls
  | Some k => if k <? List.length spans then option_map (fun l => push ls l i) (find_level k levels) else Some ls
  end.
(* df:142-166 *)
Fixpoint add_short (spans : list span) (levels : list nat) (is : list nat) (ls : level_spans) : option level_spans :=
  match is with
  | [] => Some ls
  | i :: is =>
    match nth_error spans i with
    | None => None
    | Some s =>
      if negb (is_short s) then add_short spans levels is ls
      else match find_level i levels with
        | None => None
        | Some level =>
          match ls level with
          | _ :: _ => add_short spans levels is (push ls level i)
          | [] =>
            match push_at spans levels ls (match i with O => None | S k => Some k end) i with
            | None => None
            | Some ls =>
              match push_at spans levels ls (Some (i + 1)) i with
              | None => None
              | Some ls => add_short spans levels is ls
              end
            end
          end
        end
    end
  end.

(* std::sort with Span::operator<, df:48-51 and 176 *)
Definition span_lt (spans : list span) (i j : nat) : bool :=
  match nth_error spans i, nth_error spans j with
  | Some a, Some b => (s_start a <? s_start b) || (s_start a =? s_start b) && (s_end a <? s_end b)
  | _, _ => false
  end.
Fixpoint insert_span (spans : list span) (i : nat) (l : list nat) : list nat :=
  match l with [] => [i] | j :: r => if span_lt spans i j then i :: l else j :: insert_span spans i r end.
Definition sort_spans (spans : list span) (l : list nat) : list nat := fold_right (insert_span spans) [] l.
Definition sort_values (l : list D) : list D := fold_right insert_sorted [] l.

(* the loop over the spans of a level, df:178-190: time spans and z values of the long ones *)
Fixpoint collect (spans : list span) (times : list Z) (l : list nat) : option (list (Z * Z) * list D) :=
  match l with
  | [] => Some ([], [])
  | i :: l =>
    match nth_error spans i with
    | None => None
    | Some s =>
      match nth_error times (s_start s), (match s_end s with O => None | S e => nth_error times e end), collect spans times l with
      | Some t0, Some t1, Some (ts, zs) => Some ((t0, t1) :: ts, (if negb (is_short s) then s_z s else []) ++ zs)
      | _, _, _ => None
      end
    end
  end.
(* df:170-198: the levels in the order of the map; those without z values are dropped *)
Fixpoint to_floors (spans : list span) (times : list Z) (ls : level_spans) (levels : list nat) : option (list floor) :=
  match levels with
  | [] => Some []
  | level :: levels =>
    match ls level with
    | [] => to_floors spans times ls levels
    | l =>
      match collect spans times (sort_spans spans l), to_floors spans times ls levels with
      | Some (ts, zs), Some floors =>
        match zs with
        | [] => Some floors
        | _ => option_map (fun m => mk_floor ts m :: floors) (median (sort_values zs))
        end
      | _, _ => None
      end
    end
  end.
(* FindFloors, df:129-200 *)
Definition find_floors (spans : list span) (times : list Z) (levels : list nat) : option (list floor) :=
  let all := seq 0 (List.length spans) in
  match add_long spans levels all (fun _ => []) with
  | None => None
  | Some ls =>
    match add_short spans levels all ls with
    | None => None
    | Some ls => to_floors spans times ls all
    end
  end.
(* std::sort by z, df:213-214; the order of floors with the same z, which std::sort leaves open, is one of those possible *)
Fixpoint insert_floor (f : floor) (l : list floor) : list floor :=
  match l with [] => [f] | g :: r => if lt (f_z f) (f_z g) then f :: l else g :: insert_floor f r end.
Definition sort_floors (l : list floor) : list floor := fold_right insert_floor [] l.
(* DetectFloors, df:204-216 *)
Definition detect (zs : list D) (times : list Z) : option (list floor) :=
  match slice zs with
  | None => None
  | Some spans =>
    match group spans (pairs (List.length spans)) (seq 0 (List.length spans)) with
    | None => None
    | Some levels => option_map sort_floors (find_floors spans times levels)
    end
  end.
End Floors.
