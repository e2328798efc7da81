(* Model of cartographer/mapping/probability_values.{h,cc} (pvh, pvc below),
   value_conversion_tables.cc and common/math.h Clamp, in binary32. *)
From Coq Require Import List ZArith SpecFloat.
From Verif Require Import Float32.
Import ListNotations.
Open Scope Z_scope.

(* common::Clamp, common/math.h:30-39 *)
Definition fclamp (v mn mx : f32) : f32 :=
  if fltb mx v then mx else if fltb v mn then mn else v.

(* BoundedFloatToValue, pvh:32-44; None: the lround result does not fit *)
Definition bounded_float_to_value (x lo hi : f32) : option Z :=
  match f_round_to_int (fmul (fsub (fclamp x lo hi) lo)
                             (fdiv (f_of_Z 32766) (fsub hi lo))) with
  | Some v => Some (v + 1)
  | None => None
  end.

(* Odds and ProbabilityFromOdds, pvh:48-54 *)
Definition f_one : f32 := f_of_Z 1.
Definition odds (p : f32) : f32 := fdiv p (fsub f_one p).
Definition probability_from_odds (o : f32) : f32 := fdiv o (fadd o f_one).
(* ProbabilityToCorrespondenceCost and back, pvh:56-62 *)
Definition one_minus (p : f32) : f32 := fsub f_one p.

(* constants, pvh:64-67; 0.1f is the binary32 number nearest to 1/10 *)
Definition kMinProbability : f32 := fdiv (f_of_Z 1) (f_of_Z 10).
Definition kMaxProbability : f32 := fsub f_one kMinProbability.
Definition kMinCost : f32 := fsub f_one kMaxProbability.
Definition kMaxCost : f32 := fsub f_one kMinProbability.

Definition kUnknown : Z := 0.                      (* pvh:80-81 *)
Definition kUpdateMarker : Z := 32768.             (* pvh:82 *)

Definition cost_to_value (c : f32) : option Z :=   (* pvh:85-88 *)
  bounded_float_to_value c kMinCost kMaxCost.
Definition prob_to_value (p : f32) : option Z :=   (* pvh:91-93 *)
  bounded_float_to_value p kMinProbability kMaxProbability.

(* SlowValueToBoundedFloat, pvc:29-37 (value_conversion_tables.cc:30-39 is the
   same function); the table (pvc:39-55) holds it for value mod 2^15 *)
Definition slow_value (unknown lo hi : f32) (v : Z) : f32 :=
  if v =? kUnknown then unknown
  else let scale := fdiv (fsub hi lo) (f_of_Z 32766) in
       fadd (fmul (f_of_Z v) scale) (fsub lo scale).
Definition table_value (unknown lo hi : f32) (v : Z) : f32 :=
  slow_value unknown lo hi (v mod 32768).

(* ValueToProbability, ValueToCorrespondenceCost, pvh:100-109, pvc:57-68 *)
Definition value_to_prob (v : Z) : f32 :=
  table_value kMinProbability kMinProbability kMaxProbability v.
Definition value_to_cost (v : Z) : f32 :=
  table_value kMaxCost kMinCost kMaxCost v.

(* ProbabilityValueToCorrespondenceCostValue, pvh:111-125 *)
Definition prob_value_to_cost_value (v : Z) : option Z :=
  if v =? kUnknown then Some kUnknown
  else
    let carry := kUpdateMarker <? v in
    let v' := if carry then v - kUpdateMarker else v in
    match cost_to_value (one_minus (value_to_prob v')) with
    | Some r => Some (if carry then r + kUpdateMarker else r)
    | None => None
    end.
(* CorrespondenceCostValueToProbabilityValue, pvh:127-140 *)
Definition cost_value_to_prob_value (v : Z) : option Z :=
  if v =? kUnknown then Some kUnknown
  else
    let carry := kUpdateMarker <? v in
    let v' := if carry then v - kUpdateMarker else v in
    match prob_to_value (one_minus (value_to_cost v')) with
    | Some r => Some (if carry then r + kUpdateMarker else r)
    | None => None
    end.

Definition mark (v : option Z) : option Z :=
  match v with Some r => Some (r + kUpdateMarker) | None => None end.

(* ComputeLookupTableToApplyOdds, pvc:76-87: entry of the table *)
Definition apply_odds (o : f32) (cell : Z) : option Z :=
  if cell =? 0 then mark (prob_to_value (probability_from_odds o))
  else mark (prob_to_value (probability_from_odds
               (fmul o (odds (value_to_prob cell))))).

(* ComputeLookupTableToApplyCorrespondenceCostOdds, pvc:89-105 *)
Definition apply_cost_odds (o : f32) (cell : Z) : option Z :=
  if cell =? 0 then mark (cost_to_value (one_minus (probability_from_odds o)))
  else mark (cost_to_value (one_minus (probability_from_odds
               (fmul o (odds (one_minus (value_to_cost cell))))))).
