(* Model of cartographer/transform/rigid_transform.{h,cc} (rth, rtc) and transform.h (tfh),
   with real numbers instead of floats and doubles, and of what they use of Eigen: the
   quaternion product, conjugate, normalized() and the rotation of a vector
   (Quaternion.h: _transformVector), which is a rotation for unit quaternions only. *)
From Coq Require Import Reals.
From Verif Require Import CF_Model.
Open Scope R_scope.

(* Eigen::Quaternion *)
Record quat := mk_quat { qw : R; qx : R; qy : R; qz : R }.
Definition q_one : quat := mk_quat 1 0 0 0.
Definition qmul (a b : quat) : quat :=
  mk_quat (qw a * qw b - qx a * qx b - qy a * qy b - qz a * qz b)
          (qw a * qx b + qx a * qw b + qy a * qz b - qz a * qy b)
          (qw a * qy b + qy a * qw b + qz a * qx b - qx a * qz b)
          (qw a * qz b + qz a * qw b + qx a * qy b - qy a * qx b).
Definition qconj (a : quat) : quat := mk_quat (qw a) (- qx a) (- qy a) (- qz a).
Definition qneg (a : quat) : quat := mk_quat (- qw a) (- qx a) (- qy a) (- qz a).
Definition qscale (s : R) (a : quat) : quat := mk_quat (s * qw a) (s * qx a) (s * qy a) (s * qz a).
Definition qnorm2 (a : quat) : R := qw a * qw a + qx a * qx a + qy a * qy a + qz a * qz a.
Definition qnorm (a : quat) : R := sqrt (qnorm2 a).
Definition qnormalized (a : quat) : quat :=
  if Rlt_dec 0 (qnorm2 a) then qscale (/ qnorm a) a else a.

(* Eigen::Matrix<T, 3, 1> *)
Definition vadd (a b : vec3 R) : vec3 R := mk_vec3 (v0 a + v0 b) (v1 a + v1 b) (v2 a + v2 b).
Definition vsub (a b : vec3 R) : vec3 R := mk_vec3 (v0 a - v0 b) (v1 a - v1 b) (v2 a - v2 b).
Definition vneg (a : vec3 R) : vec3 R := mk_vec3 (- v0 a) (- v1 a) (- v2 a).
Definition vscale (s : R) (a : vec3 R) : vec3 R := mk_vec3 (s * v0 a) (s * v1 a) (s * v2 a).
Definition vcross (a b : vec3 R) : vec3 R :=
  mk_vec3 (v1 a * v2 b - v2 a * v1 b) (v2 a * v0 b - v0 a * v2 b) (v0 a * v1 b - v1 a * v0 b).
Definition vdot (a b : vec3 R) : R := v0 a * v0 b + v1 a * v1 b + v2 a * v2 b.
Definition vnorm (a : vec3 R) : R := sqrt (vdot a a).
Definition v_zero : vec3 R := mk_vec3 0 0 0.
Definition qvec (q : quat) : vec3 R := mk_vec3 (qx q) (qy q) (qz q).
Definition qrot (q : quat) (p : vec3 R) : vec3 R :=
  let uv := vcross (qvec q) p in
  let uv2 := vadd uv uv in
  vadd (vadd p (vscale (qw q) uv2)) (vcross (qvec q) uv2).

(* std::atan2 *)
Definition atan2 (y x : R) : R :=
  if Rlt_dec 0 x then atan (y / x)
  else if Rlt_dec x 0 then (if Rle_dec 0 y then atan (y / x) + PI else atan (y / x) - PI)
  else if Rlt_dec 0 y then PI / 2
  else if Rlt_dec y 0 then - (PI / 2)
  else 0.

(* Rigid2, rth:34-87: x, y and the angle of the rotation; operator*, rth:90-103 *)
Definition r2_id : vec3 R := mk_vec3 0 0 0.
Definition r2_apply (a : vec3 R) (p : R * R) : R * R :=
  (cos (v2 a) * fst p - sin (v2 a) * snd p + v0 a, sin (v2 a) * fst p + cos (v2 a) * snd p + v1 a).
Definition r2_mul (a b : vec3 R) : vec3 R :=
  let t := r2_apply a (v0 b, v1 b) in mk_vec3 (fst t) (snd t) (v2 a + v2 b).
Definition r2_inv (a : vec3 R) : vec3 R :=
  let t := - v2 a in
  mk_vec3 (- (cos t * v0 a - sin t * v1 a)) (- (sin t * v0 a + cos t * v1 a)) t.

(* Rigid3, rth:117-180; operator*, rth:183-197; IsValid without the NaN checks *)
Record rigid3 := mk_rigid3 { trans : vec3 R; rot : quat }.
Definition r3_id : rigid3 := mk_rigid3 v_zero q_one.
Definition r3_apply (a : rigid3) (p : vec3 R) : vec3 R := vadd (qrot (rot a) p) (trans a).
Definition r3_mul (a b : rigid3) : rigid3 :=
  mk_rigid3 (vadd (qrot (rot a) (trans b)) (trans a)) (qnormalized (qmul (rot a) (rot b))).
Definition r3_inv (a : rigid3) : rigid3 :=
  let q := qconj (rot a) in mk_rigid3 (vneg (qrot q (trans a))) q.
Definition r3_valid (a : rigid3) : Prop := Rabs (1 - qnorm (rot a)) < 1 / 1000.

(* GetAngle, tfh:33-37 *)
Definition get_angle (a : rigid3) : R := 2 * atan2 (vnorm (qvec (rot a))) (Rabs (qw (rot a))).
(* GetYaw, tfh:42-47 *)
Definition get_yaw (q : quat) : R :=
  let d := qrot q (mk_vec3 1 0 0) in atan2 (v1 d) (v0 d).

(* RotationQuaternionToAngleAxisVector, tfh:59-80 *)
Definition to_angle_axis (q : quat) : vec3 R :=
  let n := qnormalized q in
  let n := if Rlt_dec (qw n) 0 then qneg n else n in
  let angle := 2 * atan2 (vnorm (qvec n)) (qw n) in
  let scale := if Rlt_dec angle (1 / 10000000) then 2 else angle / sin (angle / 2) in
  mk_vec3 (scale * qx n) (scale * qy n) (scale * qz n).

(* AngleAxisVectorToRotationQuaternion, tfh:85-99 *)
Definition of_angle_axis (v : vec3 R) : quat :=
  let big := Rlt_dec (1 / 100000000) (vdot v v) in
  let scale := if big then sin (vnorm v / 2) / vnorm v else 1 / 2 in
  let w := if big then cos (vnorm v / 2) else 1 in
  mk_quat w (scale * v0 v) (scale * v1 v) (scale * v2 v).

(* Eigen::AngleAxis about UnitX, UnitY, UnitZ, as a quaternion *)
Definition about_x (t : R) : quat := mk_quat (cos (t / 2)) (sin (t / 2)) 0 0.
Definition about_y (t : R) : quat := mk_quat (cos (t / 2)) 0 (sin (t / 2)) 0.
Definition about_z (t : R) : quat := mk_quat (cos (t / 2)) 0 0 (sin (t / 2)).

(* RollPitchYaw, rtc:40-46 *)
Definition roll_pitch_yaw (roll pitch yaw : R) : quat :=
  qmul (qmul (about_z yaw) (about_y pitch)) (about_x roll).

(* Project2D and Embed3D, tfh:102-115 *)
Definition project2d (a : rigid3) : vec3 R := mk_vec3 (v0 (trans a)) (v1 (trans a)) (get_yaw (rot a)).
Definition embed3d (a : vec3 R) : rigid3 := mk_rigid3 (mk_vec3 (v0 a) (v1 a) 0) (about_z (v2 a)).
