(* Specification of the real time correlative scan matcher: the search window, the order
   in which it is searched, what a candidate's score should be, and what is assumed of
   std::exp. *)
From Coq Require Import List ZArith QArith Bool Reals SpecFloat.
From Verif Require Import Vec Float32 FloatR Float32_Proofs PV_Model G2_Model TSD_Model RT_Model.
Import ListNotations.
Open Scope Z_scope.

Definition in_window (num_linear num_angular : Z) (c : cand) : Prop :=
  0 <= c_scan c <= 2 * num_angular /\ - num_linear <= c_x c <= num_linear /\ - num_linear <= c_y c <= num_linear.

(* scan index first, then x, then y *)
Definition before (a b : cand) : Prop :=
  c_scan a < c_scan b \/
  (c_scan a = c_scan b /\ (c_x a < c_x b \/ (c_x a = c_x b /\ c_y a < c_y b))).

(* the mean probability of the cells hit by a scan *)
Definition prob_at (g : grid) (x y : Z) : R :=
  match get_probability g x y with Some p => fval p | None => 0%R end.
Definition prob_sum (g : grid) (dx dy : Z) (scan : dscan) : R :=
  fold_right (fun xy r => (prob_at g (fst xy + dx) (snd xy + dy) + r)%R) 0%R scan.

(* multiplying a score with exp(-d^2): not less than 0, not more than the score, and the
   score itself for the candidate in the middle, which has d = 0 *)
Definition discounting (num_angular : Z) (discount : cand -> f32 -> f32) : Prop :=
  (forall c s, SpecFloat.valid_binary 24 128 s = true -> fleb f_zero s = true -> fleb s (f_of_Z 1) = true ->
     SpecFloat.valid_binary 24 128 (discount c s) = true /\
     fleb f_zero (discount c s) = true /\ fleb (discount c s) s = true) /\
  (forall s, SpecFloat.valid_binary 24 128 s = true -> fleb f_zero s = true -> fleb s (f_of_Z 1) = true ->
     discount (mk_cand num_angular 0 0) s = s).
