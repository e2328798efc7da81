(* Model of cartographer/mapping/internal/optimization/cost_functions/
   spa_cost_function_2d.cc (spa), cost_helpers_impl.h (chi) and
   NormalizeAngleDifference of cartographer/common/math.h (mth), with real numbers instead
   of doubles and pi instead of M_PI.  The code is generic in its scalar: doubles, or
   ceres::Jet for automatic differentiation.  A loop that does not end is None. *)
From Coq Require Import ZArith Reals SpecFloat.
From Verif Require Import Float64.
Open Scope R_scope.

(* a scalar: what the template parameter T is used for; comparisons look at the value *)
Record scalar := mk_scalar {
  s_T : Type;
  s_val : s_T -> R;
  s_of : R -> s_T;
  s_add : s_T -> s_T -> s_T;
  s_sub : s_T -> s_T -> s_T;
  s_mul : s_T -> s_T -> s_T;
  s_neg : s_T -> s_T;
  s_cos : s_T -> s_T;
  s_sin : s_T -> s_T
}.

(* double *)
Definition real_scalar : scalar :=
  mk_scalar R (fun x => x) (fun x => x) Rplus Rminus Rmult Ropp cos sin.

(* ceres::Jet: a value and its partial derivatives; ceres/jet.h is not part of the
   repository, this is its documented arithmetic *)
Record jet := mk_jet { j_a : R; j_v : nat -> R }.
Definition jet_scalar : scalar :=
  mk_scalar jet j_a (fun r => mk_jet r (fun _ => 0))
    (fun x y => mk_jet (j_a x + j_a y) (fun i => j_v x i + j_v y i))
    (fun x y => mk_jet (j_a x - j_a y) (fun i => j_v x i - j_v y i))
    (fun x y => mk_jet (j_a x * j_a y) (fun i => j_a x * j_v y i + j_v x i * j_a y))
    (fun x => mk_jet (- j_a x) (fun i => - j_v x i))
    (fun x => mk_jet (cos (j_a x)) (fun i => - sin (j_a x) * j_v x i))
    (fun x => mk_jet (sin (j_a x)) (fun i => cos (j_a x) * j_v x i)).

Record vec3 (T : Type) := mk_vec3 { v0 : T; v1 : T; v2 : T }.
Arguments mk_vec3 {T}.
Arguments v0 {T}.
Arguments v1 {T}.
Arguments v2 {T}.

Section Generic.
Variable sc : scalar.
Let T := s_T sc.

(* NormalizeAngleDifference, mth:61-67: the two loops; the fuel is the size of the
   difference, which is more than the number of iterations *)
Fixpoint norm_down (fuel : nat) (d : T) : option T :=
  if Rlt_dec PI (s_val sc d)
  then match fuel with
       | O => None
       | S f => norm_down f (s_sub sc d (s_of sc (2 * PI)))
       end
  else Some d.
Fixpoint norm_up (fuel : nat) (d : T) : option T :=
  if Rlt_dec (s_val sc d) (- PI)
  then match fuel with
       | O => None
       | S f => norm_up f (s_add sc d (s_of sc (2 * PI)))
       end
  else Some d.
Definition normalize (d : T) : option T :=
  let fuel := Z.to_nat (up (Rabs (s_val sc d))) in
  match norm_down fuel d with
  | None => None
  | Some d' => norm_up fuel d'
  end.

(* ComputeUnscaledError in 2D, chi:28-43; the relative pose is given by translation and
   angle *)
Definition unscaled_error (rel : vec3 R) (start end_ : vec3 T) : option (vec3 T) :=
  let c := s_cos sc (v2 start) in
  let s := s_sin sc (v2 start) in
  let dx := s_sub sc (v0 end_) (v0 start) in
  let dy := s_sub sc (v1 end_) (v1 start) in
  let h0 := s_add sc (s_mul sc c dx) (s_mul sc s dy) in
  let h1 := s_add sc (s_mul sc (s_neg sc s) dx) (s_mul sc c dy) in
  let h2 := s_sub sc (v2 end_) (v2 start) in
  match normalize (s_sub sc (s_of sc (v2 rel)) h2) with
  | None => None
  | Some a => Some (mk_vec3 (s_sub sc (s_of sc (v0 rel)) h0) (s_sub sc (s_of sc (v1 rel)) h1) a)
  end.

(* ScaleError in 2D, chi:45-55 *)
Definition scale_error (e : vec3 T) (translation_weight rotation_weight : R) : vec3 T :=
  mk_vec3 (s_mul sc (v0 e) (s_of sc translation_weight))
          (s_mul sc (v1 e) (s_of sc translation_weight))
          (s_mul sc (v2 e) (s_of sc rotation_weight)).

(* SpaCostFunction2D::operator(), spa:40-51 *)
Definition spa_cost (rel : vec3 R) (tw rw : R) (start end_ : vec3 T) : option (vec3 T) :=
  match unscaled_error rel start end_ with
  | None => None
  | Some e => Some (scale_error e tw rw)
  end.
End Generic.

(* what ceres::AutoDiffCostFunction evaluates, spa:135-142: the parameters are seeded with
   the six unit derivatives, start pose first *)
Definition seed (x : R) (k : nat) : jet := mk_jet x (fun i => if Nat.eqb i k then 1 else 0).
Definition autodiff (rel : vec3 R) (tw rw : R) (start end_ : vec3 R) : option (vec3 jet) :=
  spa_cost jet_scalar rel tw rw
    (mk_vec3 (seed (v0 start) 0) (seed (v1 start) 1) (seed (v2 start) 2))
    (mk_vec3 (seed (v0 end_) 3) (seed (v1 end_) 4) (seed (v2 end_) 5)).

(* AnalyticalSpaCostFunction2D::Evaluate, spa:69-125: residuals and both Jacobians, in
   rows of three *)
Definition analytical_residuals (rel : vec3 R) (tw rw : R) (start end_ : vec3 R) : option (vec3 R) :=
  let c := cos (v2 start) in
  let s := sin (v2 start) in
  let dx := v0 end_ - v0 start in
  let dy := v1 end_ - v1 start in
  match normalize real_scalar (v2 rel - (v2 end_ - v2 start)) with
  | None => None
  | Some a => Some (mk_vec3 (tw * (v0 rel - (c * dx + s * dy)))
                            (tw * (v1 rel - (- s * dx + c * dy)))
                            (rw * a))
  end.
Definition jacobian0 (tw rw : R) (start end_ : vec3 R) : vec3 (vec3 R) :=
  let wc := tw * cos (v2 start) in
  let ws := tw * sin (v2 start) in
  let dx := v0 end_ - v0 start in
  let dy := v1 end_ - v1 start in
  mk_vec3 (mk_vec3 wc ws (ws * dx - wc * dy))
          (mk_vec3 (- ws) wc (wc * dx + ws * dy))
          (mk_vec3 0 0 rw).
Definition jacobian1 (tw rw : R) (start end_ : vec3 R) : vec3 (vec3 R) :=
  let wc := tw * cos (v2 start) in
  let ws := tw * sin (v2 start) in
  mk_vec3 (mk_vec3 (- wc) (- ws) 0)
          (mk_vec3 ws (- wc) 0)
          (mk_vec3 0 0 (- rw)).

(* NormalizeAngleDifference<double>, mth:61-67, in binary64, with any fuel *)
Definition d_pi : f64 := S754_finite false 7074237752028440 (-51).              (* M_PI *)
Definition d_2pi : f64 := dmul (d_of_Z 2) d_pi.
Fixpoint d_norm_down (fuel : nat) (d : f64) : option f64 :=
  if dltb d_pi d
  then match fuel with O => None | S f => d_norm_down f (dsub d d_2pi) end
  else Some d.
Fixpoint d_norm_up (fuel : nat) (d : f64) : option f64 :=
  if dltb d (SFopp d_pi)
  then match fuel with O => None | S f => d_norm_up f (dadd d d_2pi) end
  else Some d.
Definition d_normalize (fuel : nat) (d : f64) : option f64 :=
  match d_norm_down fuel d with None => None | Some d' => d_norm_up fuel d' end.
