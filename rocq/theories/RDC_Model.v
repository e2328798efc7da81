(* RangeDataCollator, cartographer/mapping/internal/range_data_collator.cc.  Times are
   ticks, as integers without wrap-around.  Sensor ids are integers in the order of the
   strings. *)
From Coq Require Import ZArith List Bool.
From Verif Require Import ZMap.
Import ListNotations.
Open Scope Z_scope.

(* common::Time::min() and max(), the range of int64 ticks *)
Definition time_min : Z := - 2 ^ 63.
Definition time_max : Z := 2 ^ 63 - 1.

Section Collator.
(* positions of points, origins, intensities, and the binary32 point times *)
Variables P O I T : Type.
(* kDefaultIntensityValue, range_data_collator.h:56 *)
Variable zero_intensity : I.
(* common::FromSeconds of a point time *)
Variable ticks : T -> Z.
(* `time += static_cast<float>(common::ToSeconds(d))`, range_data_collator.cc:91-92
   and 103 *)
Variable shift : Z -> T -> T.
(* std::sort by point_time.time, range_data_collator.cc:123-127: some sorting function *)
Variable sort : list (P * T * I * nat) -> list (P * T * I * nat).

(* sensor::TimedPointCloudData, timed_point_cloud_data.h:27-33 *)
Record data := { time : Z; origin : O; ranges : list (P * T); intensities : list I }.
(* sensor::TimedPointCloudOriginData, timed_point_cloud_data.h:35-44; a measurement is
   position, time, intensity and index of the origin *)
Record merged := { m_time : Z; m_origins : list O; m_ranges : list (P * T * I * nat) }.

(* range_data_collator.h:49-54 *)
Record collator := { pending : list (Z * data); start : Z; end' : Z }.
Definition new : collator := {| pending := []; start := time_min; end' := time_min |}.

(* std::vector::resize *)
Definition resize (n : nat) (l : list I) : list I :=
  firstn n l ++ repeat zero_intensity (n - length l).

(* how many elements the loops of range_data_collator.cc:70-81 pass *)
Fixpoint count_while {A} (f : A -> bool) (l : list A) : nat :=
  match l with
  | [] => 0%nat
  | x :: r => if f x then S (count_while f r) else 0%nat
  end.
Definition overlap_begin (cs : Z) (d : data) : nat :=
  count_while (fun p => time d + ticks (snd p) <? cs) (ranges d).
Definition overlap_end (cs ce : Z) (d : data) : nat :=
  Nat.add (overlap_begin cs d)
    (count_while (fun p => time d + ticks (snd p) <=? ce) (skipn (overlap_begin cs d) (ranges d))).

(* the loop of range_data_collator.cc:96-106 over the overlap and the intensities beside
   it; reading an intensity past the end is None *)
Fixpoint measure (corr : Z) (idx : nat) (ps : list (P * T)) (is : list I)
    : option (list (P * T * I * nat)) :=
  match ps, is with
  | [], _ => Some []
  | (p, t) :: ps, i :: is =>
      match measure corr idx ps is with
      | Some r => Some ((p, shift corr t, i, idx) :: r)
      | None => None
      end
  | _ :: _, [] => None
  end.

(* the body of the loop, range_data_collator.cc:62-121, for one pending message: the
   result with the overlap appended, and what stays of the message.  The warning about
   dropped points is left out. *)
Definition crop (cs ce : Z) (d : data) (acc : list O * list (P * T * I * nat))
    : option ((list O * list (P * T * I * nat)) * option data) :=
  let b := overlap_begin cs d in
  let e := overlap_end cs ce d in
  let copied :=
    if (b <? e)%nat then
      match measure (time d - ce) (length (fst acc))
              (firstn (e - b) (skipn b (ranges d))) (skipn b (intensities d)) with
      | Some r => Some (fst acc ++ [origin d], snd acc ++ r)
      | None => None
      end
    else Some acc in
  match copied with
  | None => None
  | Some acc' =>
      Some (acc',
            if (e =? length (ranges d))%nat then None
            else if (e =? 0)%nat then Some d
            else Some {| time := time d; origin := origin d;
                         ranges := skipn e (ranges d); intensities := skipn e (intensities d) |})
  end.

Fixpoint crop_all (cs ce : Z) (m : list (Z * data)) (acc : list O * list (P * T * I * nat))
    : option ((list O * list (P * T * I * nat)) * list (Z * data)) :=
  match m with
  | [] => Some (acc, [])
  | (k, d) :: r =>
      match crop cs ce d acc with
      | None => None
      | Some (acc', rest) =>
          match crop_all cs ce r acc' with
          | None => None
          | Some (acc'', r') =>
              Some (acc'', match rest with Some d' => (k, d') :: r' | None => r' end)
          end
      end
  end.

(* CropAndMerge, range_data_collator.cc:59-129 *)
Definition crop_and_merge (c : collator) : option (merged * collator) :=
  match crop_all (start c) (end' c) (pending c) ([], []) with
  | None => None
  | Some ((os, ms), m') =>
      Some ({| m_time := end' c; m_origins := os; m_ranges := sort ms |},
            {| pending := m'; start := start c; end' := end' c |})
  end.

(* std::map::emplace: no effect if the key is there *)
Definition emplace (k : Z) (d : data) (m : list (Z * data)) : list (Z * data) :=
  match zfind k m with Some _ => m | None => zput k d m end.

(* the loop of range_data_collator.cc:50-53 *)
Definition oldest (m : list (Z * data)) : Z :=
  fold_left (fun t kd => Z.min t (time (snd kd))) m time_max.

(* AddRangeData, range_data_collator.cc:28-57.  `expected` is expected_sensor_ids_; an
   empty result is None. *)
Definition add (expected : list Z) (c : collator) (k : Z) (d : data)
    : option (option merged * collator) :=
  if existsb (Z.eqb k) expected then
    let d := {| time := time d; origin := origin d; ranges := ranges d;
                intensities := resize (length (ranges d)) (intensities d) |} in
    match zfind k (pending c) with
    | Some old =>
        match crop_and_merge {| pending := pending c; start := end' c; end' := time old |} with
        | Some (r, c') =>
            Some (Some r, {| pending := emplace k d (pending c'); start := start c'; end' := end' c' |})
        | None => None
        end
    | None =>
        let m := emplace k d (pending c) in
        if (length (nodup Z.eq_dec expected) =? length m)%nat then
          match crop_and_merge {| pending := m; start := end' c; end' := oldest m |} with
          | Some (r, c') => Some (Some r, c')
          | None => None
          end
        else Some (None, {| pending := m; start := start c; end' := end' c |})
    end
  else None.

(* a sequence of calls *)
Fixpoint run (expected : list Z) (c : collator) (ms : list (Z * data))
    : option (list (option merged) * collator) :=
  match ms with
  | [] => Some ([], c)
  | (k, d) :: r =>
      match add expected c k d with
      | None => None
      | Some (o, c') =>
          match run expected c' r with
          | Some (os, c'') => Some (o :: os, c'')
          | None => None
          end
      end
  end.
End Collator.
Arguments data P O I T : clear implicits.
Arguments merged P O I T : clear implicits.
Arguments collator P O I T : clear implicits.
Arguments time {P O I T}. Arguments origin {P O I T}. Arguments ranges {P O I T}.
Arguments intensities {P O I T}.
Arguments m_time {P O I T}. Arguments m_origins {P O I T}. Arguments m_ranges {P O I T}.
Arguments pending {P O I T}. Arguments start {P O I T}. Arguments end' {P O I T}.
Arguments new {P O I T}. Arguments resize {I}. Arguments overlap_begin {P O I T}.
Arguments overlap_end {P O I T}. Arguments measure {P I T}. Arguments crop {P O I T}.
Arguments crop_all {P O I T}. Arguments crop_and_merge {P O I T}. Arguments emplace {P O I T}.
Arguments oldest {P O I T}. Arguments add {P O I T}. Arguments run {P O I T}.
