(* Model of cartographer/mapping/internal/2d/normal_estimation_2d.cc (ne below), with real numbers
   instead of floats.  The returns before the current one are given in reverse order instead of by
   index. *)
From Coq Require Import Reals List Arith.
From Verif Require Import CF_Model RG_Model.
Import ListNotations.
Open Scope R_scope.

(* NormalTo2DAngle, ne:23-25 *)
Definition normal_to_angle (v : vec3 R) : R := atan2 (v1 v) (v0 v).

(* the normal of a sample, ne:45-58: nothing if the sample is too near *)
Definition min_normal_length : R := 1 / 1000000.
Definition sample_normal (origin point sample : vec3 R) : vec3 R :=
  let tangent := vsub point sample in
  let normal := mk_vec3 (- v1 tangent) (v0 tangent) 0 in
  if Rlt_dec (vnorm normal) min_normal_length then mk_vec3 0 0 0
  else
    let normal := if Rlt_dec (vdot normal (vsub origin point)) 0 then vscale (- 1) normal else normal in
    vscale (/ vnorm normal) normal.

(* EstimateNormal, ne:30-61: the samples in the window before and from the estimation point on (which
   is the first of from_here, and is skipped) *)
Definition mean_normal (origin point : vec3 R) (samples : list (vec3 R)) : vec3 R :=
  fold_left (fun sum s => vadd sum (sample_normal origin point s)) samples (mk_vec3 0 0 0).
Definition estimate_normal (origin point : vec3 R) (before from_here : list (vec3 R)) : R :=
  if Nat.ltb (length before + length from_here) 2 then normal_to_angle (vsub origin point)
  else normal_to_angle (mean_normal origin point (rev before ++ tl from_here)).

(* one of the loops for the window, ne:88-94 and ne:95-102: at most n returns nearer than the radius *)
Fixpoint window (radius : R) (hit : vec3 R) (n : nat) (returns : list (vec3 R)) : list (vec3 R) :=
  match n, returns with
  | S n, s :: returns => if Rlt_dec (vnorm (vsub hit s)) radius then s :: window radius hit n returns else []
  | _, _ => []
  end.

(* NormalEstimationOptions2D; num_normal_samples is converted to size_t *)
Record noptions := mk_noptions { n_samples : nat; n_radius : R }.

(* EstimateNormals, ne:78-109 *)
Fixpoint normals_from (o : noptions) (origin : vec3 R) (before rest : list (vec3 R)) : list R :=
  match rest with
  | [] => []
  | hit :: rest' =>
    estimate_normal origin hit (window (n_radius o) hit (n_samples o / 2) before)
                               (window (n_radius o) hit ((n_samples o + 1) / 2 + 1) rest)
    :: normals_from o origin (hit :: before) rest'
  end.
Definition estimate_normals2 (o : noptions) (origin : vec3 R) (returns : list (vec3 R)) : list R :=
  normals_from o origin [] returns.
