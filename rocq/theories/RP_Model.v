(* Model of cartographer/mapping/internal/3d/rotation_parameterization.h (rp below), with real numbers.
   ceres::QuaternionProduct is the product of quaternions. *)
From Coq Require Import Reals.
From Verif Require Import CF_Model RG_Model.
Open Scope R_scope.

(* common::Clamp, common/math.h:30-40 *)
Definition clampR (x lo hi : R) : R := if Rlt_dec hi x then hi else if Rlt_dec x lo then lo else x.
(* YawOnlyQuaternionPlus, rp:27-39 *)
Definition yaw_only_plus (x : quat) (delta : R) : quat :=
  let c := clampR delta (- (1 / 2)) (1 / 2) in qmul (mk_quat (sqrt (1 - c * c)) 0 0 c) x.
(* ConstantYawQuaternionPlus, rp:41-62 *)
Definition small_delta : R := 1 / 1000000.
Definition delta_quat (d0 d1 : R) : quat :=
  let n := sqrt (d0 * d0 + d1 * d1) in
  let s := if Rlt_dec n small_delta then 1 else sin n / n in
  mk_quat (if Rlt_dec n small_delta then 1 else cos n) (s * d0) (s * d1) 0.
Definition constant_yaw_plus (x : quat) (d0 d1 : R) : quat := qmul x (delta_quat d0 d1).
