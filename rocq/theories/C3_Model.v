(* Model of the cost functions of the 3D pose graph and scan matcher, over the reals:
   cartographer/mapping/internal/optimization/cost_functions/cost_helpers_impl.h (chi),
   spa_cost_function_3d.h (spa), rotation_cost_function_3d.h (rot),
   acceleration_cost_function_3d.h (acc), landmark_cost_function_3d.h (lm3),
   landmark_cost_function_2d.h (lm2); QuaternionProduct of cartographer/common/math.h (mth);
   cartographer/mapping/internal/3d/scan_matching/rotation_delta_cost_functor_3d.h (rd3),
   translation_delta_cost_functor_3d.h (td3) and
   cartographer/mapping/internal/2d/scan_matching/rotation_delta_cost_functor_2d.h (rd2),
   translation_delta_cost_functor_2d.h (td2).  Doubles are modelled by real numbers; only the
   values are modelled, not their automatic differentiation. *)
From Coq Require Import Reals.
From Verif Require Import CF_Model RG_Model.
Open Scope R_scope.

(* six residuals: translation, rotation *)
Definition err6 : Type := vec3 R * vec3 R.

(* ComputeUnscaledError in 3D, chi:57-86 *)
Definition unscaled_error3 (rel : rigid3) (start_rot : quat) (start_tr : vec3 R)
    (end_rot : quat) (end_tr : vec3 R) : err6 :=
  let r_i_inverse := mk_quat (qw start_rot) (- qx start_rot) (- qy start_rot) (- qz start_rot) in
  let delta := mk_vec3 (v0 end_tr - v0 start_tr) (v1 end_tr - v1 start_tr) (v2 end_tr - v2 start_tr) in
  let h_translation := qrot r_i_inverse delta in
  let h_rotation_inverse :=
    qmul (mk_quat (qw end_rot) (- qx end_rot) (- qy end_rot) (- qz end_rot)) start_rot in
  let difference := to_angle_axis (qmul h_rotation_inverse (rot rel)) in
  (mk_vec3 (v0 (trans rel) - v0 h_translation)
           (v1 (trans rel) - v1 h_translation)
           (v2 (trans rel) - v2 h_translation),
   difference).

(* ScaleError in 3D, chi:88-101 *)
Definition scale_error3 (e : err6) (tw rw : R) : err6 :=
  (mk_vec3 (v0 (fst e) * tw) (v1 (fst e) * tw) (v2 (fst e) * tw),
   mk_vec3 (v0 (snd e) * rw) (v1 (snd e) * rw) (v2 (snd e) * rw)).

(* SpaCostFunction3D::operator(), spa:46-56; a pose is given by its rotation and translation
   parameters *)
Definition spa_cost3 (zbar : rigid3) (tw rw : R) (c_i c_j : rigid3) : err6 :=
  scale_error3 (unscaled_error3 zbar (rot c_i) (trans c_i) (rot c_j) (trans c_j)) tw rw.

(* RotationCostFunction3D::operator(), rot:39-56 *)
Definition rotation_cost3 (scaling : R) (delta start end_ calibration : quat) : vec3 R :=
  let error := qmul (qmul (qmul (qmul (qconj end_) start) calibration) delta) (qconj calibration) in
  mk_vec3 (scaling * qx error) (scaling * qy error) (scaling * qz error).

(* AccelerationCostFunction3D::operator(), acc:45-73 *)
Definition acceleration_cost3 (scaling : R) (delta_velocity_imu : vec3 R) (dt1 dt2 : R)
    (middle_rotation : quat) (start middle end_ : vec3 R) (gravity : R) (calibration : quat) : vec3 R :=
  let imu_delta_velocity :=
    vsub (qrot (qmul middle_rotation calibration) delta_velocity_imu)
         (vscale gravity (mk_vec3 0 0 (1 / 2 * (dt1 + dt2)))) in
  let start_velocity := vscale (/ dt1) (vsub middle start) in
  let end_velocity := vscale (/ dt2) (vsub end_ middle) in
  let delta_velocity := vsub end_velocity start_velocity in
  vscale scaling (vsub imu_delta_velocity delta_velocity).

(* QuaternionProduct, mth:74-81, on quaternions instead of arrays *)
Definition quaternion_product (z w : quat) : quat :=
  mk_quat (qw z * qw w - qx z * qx w - qy z * qy w - qz z * qz w)
          (qw z * qx w + qx z * qw w + qy z * qz w - qz z * qy w)
          (qw z * qy w - qx z * qz w + qy z * qw w + qz z * qx w)
          (qw z * qz w + qx z * qy w - qy z * qx w + qz z * qw w).

(* RotationDeltaCostFunctor3D, rd3:43-54, constructor rd3:59-66 *)
Definition rotation_delta_cost3 (scaling : R) (target rotation : quat) : vec3 R :=
  let target_inverse := mk_quat (qw target) (- qx target) (- qy target) (- qz target) in
  let delta := quaternion_product target_inverse rotation in
  mk_vec3 (scaling * qx delta) (scaling * qy delta) (scaling * qz delta).

(* TranslationDeltaCostFunctor3D, td3:39-45 *)
Definition translation_delta_cost3 (scaling : R) (target translation : vec3 R) : vec3 R :=
  mk_vec3 (scaling * (v0 translation - v0 target)) (scaling * (v1 translation - v1 target))
          (scaling * (v2 translation - v2 target)).

(* TranslationDeltaCostFunctor2D, td2:39-44, and RotationDeltaCostFunctor2D, rd2:38-42 *)
Definition translation_delta_cost2 (scaling : R) (target : R * R) (pose : vec3 R) : R * R :=
  (scaling * (v0 pose - fst target), scaling * (v1 pose - snd target)).
Definition rotation_delta_cost2 (scaling target : R) (pose : vec3 R) : R :=
  scaling * (v2 pose - target).

(* SlerpQuaternions, chi:103-131 *)
Definition slerp (start end_ : quat) (factor : R) : quat :=
  let cos_theta := qw start * qw end_ + qx start * qx end_ + qy start * qy end_ + qz start * qz end_ in
  let abs_cos_theta := Rabs cos_theta in
  let apart := Rlt_dec abs_cos_theta (1 - 1 / 100000) in
  let theta := acos abs_cos_theta in
  let prev_scale := if apart then sin ((1 - factor) * theta) / sin theta else 1 - factor in
  let next_scale := if apart then sin (factor * theta) / sin theta else factor in
  let next_scale := if Rlt_dec cos_theta 0 then - next_scale else next_scale in
  mk_quat (prev_scale * qw start + next_scale * qw end_)
          (prev_scale * qx start + next_scale * qx end_)
          (prev_scale * qy start + next_scale * qy end_)
          (prev_scale * qz start + next_scale * qz end_).

(* InterpolateNodes3D, chi:133-153 *)
Definition interpolate3 (prev next : rigid3) (f : R) : rigid3 :=
  mk_rigid3
    (mk_vec3 (v0 (trans prev) + f * (v0 (trans next) - v0 (trans prev)))
             (v1 (trans prev) + f * (v1 (trans next) - v1 (trans prev)))
             (v2 (trans prev) + f * (v2 (trans next) - v2 (trans prev))))
    (slerp (rot prev) (rot next) f).

(* InterpolateNodes2D, chi:155-192 *)
Definition interpolate2 (prev : vec3 R) (prev_gravity : quat) (next : vec3 R) (next_gravity : quat) (f : R) : rigid3 :=
  let prev_quaternion := qnormalized (qmul (about_z (v2 prev)) prev_gravity) in
  let next_quaternion := qnormalized (qmul (about_z (v2 next)) next_gravity) in
  mk_rigid3
    (mk_vec3 (v0 prev + f * (v0 next - v0 prev)) (v1 prev + f * (v1 next - v1 prev)) 0)
    (slerp prev_quaternion next_quaternion f).

(* LandmarkCostFunction3D::operator(), lm3:55-75, and LandmarkCostFunction2D::operator(),
   lm2:53-70; the interpolation parameter is given *)
Definition landmark_cost3 (observation : rigid3) (tw rw f : R) (prev next landmark : rigid3) : err6 :=
  let i := interpolate3 prev next f in
  scale_error3 (unscaled_error3 observation (rot i) (trans i) (rot landmark) (trans landmark)) tw rw.
Definition landmark_cost2 (observation : rigid3) (tw rw f : R) (prev : vec3 R) (prev_gravity : quat)
    (next : vec3 R) (next_gravity : quat) (landmark : rigid3) : err6 :=
  let i := interpolate2 prev prev_gravity next next_gravity f in
  scale_error3 (unscaled_error3 observation (rot i) (trans i) (rot landmark) (trans landmark)) tw rw.
