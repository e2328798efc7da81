(* Model of cartographer/common/histogram.cc (hg below) and common/internal/rate_timer.h (rt). *)
From Coq Require Import ZArith Reals List Bool.
From Verif Require Import Float32.
Import ListNotations.

(* Histogram::ToString, hg:33-79.  The values are of a type with the comparisons and the bounds of the
   buckets as parameters, which are those of binary32 and of the reals below; the text is the list of
   its numbers.  The mean and the percentages are left out. *)
Section Histogram.
Context {T : Type}.
Variables (leb ltb eqb : T -> T -> bool) (upper : Z -> Z -> T -> T -> T).
(* one line: the bounds, the count, the length of the bar, and the count so far *)
Record row := mk_row { r_lower : T; r_upper : T; r_count : nat; r_bar : nat; r_total : nat }.
(* std::min_element and std::max_element: the first of the smallest or largest *)
Definition min_of (x : T) (l : list T) : T := fold_left (fun m v => if ltb v m then v else m) l x.
Definition max_of (x : T) (l : list T) : T := fold_left (fun m v => if ltb m v then v else m) l x.
(* hg:55-61 *)
Definition count_in (last : bool) (lower upper : T) (values : list T) : nat :=
  length (filter (fun v => leb lower v && if last then leb v upper else ltb v upper) values).
(* hg:66-67 *)
Definition bar_of (count n : nat) : nat := (count * 20 + n / 2) / n.
(* the loop, hg:50-77, with k buckets left *)
Fixpoint rows (k : nat) (buckets : Z) (values : list T) (mn mx lower : T) (total : nat) : list row :=
  match k with
  | O => []
  | S k' =>
    let i := (buckets - Z.of_nat k)%Z in
    let last := match k' with O => true | _ => false end in
    let up := if last then mx else upper buckets i mn mx in
    let count := count_in last lower up values in
    mk_row lower up count (bar_of count (length values)) (total + count)
      :: rows k' buckets values mn mx up (total + count)
  end.
(* None: a failed CHECK; the first result is the smallest and largest value *)
Definition histogram (buckets : nat) (values : list T) : option (option (T * T) * list row) :=
  match buckets, values with
  | O, _ => None
  | _, [] => Some (None, [])
  | _, x :: l =>
    let mn := min_of x l in let mx := max_of x l in
    if eqb mn mx then Some (Some (mn, mx), [])
    else if ltb mn mx then Some (Some (mn, mx), rows buckets (Z.of_nat buckets) values mn mx mn 0)
    else None
  end.
End Histogram.
(* the bounds, hg:51-54, in binary32 *)
Definition upper32 (buckets i : Z) (mn mx : f32) : f32 :=
  fadd (fdiv (fmul mx (f_of_Z (i + 1))) (f_of_Z buckets)) (fdiv (fmul mn (f_of_Z (buckets - i - 1))) (f_of_Z buckets)).
Definition histogram32 := histogram fleb fltb feqb upper32.
Open Scope R_scope.
(* and with real numbers *)
Definition upperR (buckets i : Z) (mn mx : R) : R := mx * IZR (i + 1) / IZR buckets + mn * IZR (buckets - i - 1) / IZR buckets.
Definition Rleb (a b : R) : bool := if Rle_dec a b then true else false.
Definition Rltb (a b : R) : bool := if Rlt_dec a b then true else false.
Definition Reqb (a b : R) : bool := if Req_EM_T a b then true else false.
Definition histogramR := histogram Rleb Rltb Reqb upperR.

(* RateTimer: events_ with their times in ticks of 100 ns, rt:92-95 and rt:128-129; the wall clock has the
   same ticks here (the steady clock has those of 1 ns, and std::chrono compares exactly) *)
Record event := mk_event { e_time : Z; e_wall : Z }.
Definition last_wall (d : event) (l : list event) : Z := e_wall (last l d).
(* the loop of Pulse, rt:72-76 *)
Fixpoint drop_old (window : Z) (l : list event) : list event :=
  match l with
  | e :: l' => if (Nat.ltb 2 (length l) && Z.ltb window (last_wall e l' - e_wall e))%bool then drop_old window l' else l
  | [] => []
  end.
(* Pulse, rt:70-77 *)
Definition pulse (window : Z) (l : list event) (e : event) : list event := drop_old window (l ++ [e]).
Definition pulses (window : Z) (ps : list event) : list event := fold_left (pulse window) ps [].
(* common::ToSeconds, common/time.cc:35-43, with real numbers *)
Definition seconds (d : Z) : R := IZR d / 10000000.
(* x / y in C++: no number if y is 0 *)
Definition quotient (x y : R) : option R := if Req_EM_T y 0 then None else Some (x / y).
(* ComputeRate, rt:49-55, and ComputeWallTimeRateRatio, rt:60-67 *)
Definition compute_rate (l : list event) : option R :=
  match l with
  | [] => Some 0
  | e :: l' => quotient (INR (length l')) (seconds (e_time (last l' e) - e_time e))
  end.
Definition compute_ratio (l : list event) : option R :=
  match l with
  | [] => Some 0
  | e :: l' => quotient (seconds (e_time (last l' e) - e_time e)) (seconds (last_wall e l' - e_wall e))
  end.
(* ComputeDeltasInSeconds, rt:98-108 *)
Fixpoint deltas (l : list event) : list R :=
  match l with e :: ((f :: _) as l') => seconds (e_time f - e_time e) :: deltas l' | _ => [] end.
(* DeltasDebugString, rt:111-126: mean and standard deviation *)
Definition sum_of (l : list R) : R := fold_left Rplus l 0.
Definition delta_statistics (l : list event) : option (option R * option R) :=
  if Nat.ltb 1 (length l) then
    let ds := deltas l in
    let mean := sum_of ds / INR (length ds) in
    let squares := sum_of (map (fun x => (x - mean) * (x - mean)) ds) in
    Some (Some mean, option_map sqrt (quotient squares (INR (length ds - 1))))
  else None.
