(* What the IMU tracker and the integration of IMU data are expected to do. *)
From Coq Require Import Reals ZArith.
From Verif Require Import CF_Model RG_Model RG_Spec IM_Model.
From Coq Require Import List.
Import ListNotations.
Open Scope R_scope.

(* what an SVD may return: a unit vector orthogonal to both rows *)
Definition svd_ok (svd : vec3 R -> vec3 R -> vec3 R) : Prop :=
  forall a b, dot (svd a b) (svd a b) = 1 /\ dot (svd a b) a = 0 /\ dot (svd a b) b = 0.
Definition null (v : vec3 R) : Prop := v0 v = 0 /\ v1 v = 0 /\ v2 v = 0.
Definition plus (a b : vec3 R) : vec3 R := mk_vec3 (v0 a + v0 b) (v1 a + v1 b) (v2 a + v2 b).
Definition minus (a b : vec3 R) : vec3 R := plus a (scaled (-1) b).
Definition seconds (d : Z) : R := IZR d / 10 ^ 7.
(* gravity as seen in the world frame *)
Definition world_gravity (k : tracker) : vec3 R := qrot (t_orientation k) (t_gravity k).
(* an angle vector that is not rounded by the small-angle branch: zero or longer than 10^-4 *)
Definition resolved (v : vec3 R) : Prop := null v \/ (1 / 10 ^ 4) * (1 / 10 ^ 4) < dot v v.

(* IMU data in strictly increasing order of time *)
Fixpoint ordered (data : list imu) : Prop :=
  match data with
  | [] => True
  | d :: rest => match rest with [] => True | n :: _ => (i_time d < i_time n)%Z end /\ ordered rest
  end.
(* the reading that holds at time t has index i *)
Definition holds_at (data : list imu) (i : nat) (t : Z) : Prop :=
  exists d, nth_error data i = Some d /\ (i_time d <= t)%Z /\
    forall j n, (i < j)%nat -> nth_error data j = Some n -> (t < i_time n)%Z.

(* every reading holds until the next one: the readings with the ticks of [s, e) they hold *)
Fixpoint pieces (data : list imu) (s e : Z) : list (imu * Z) :=
  match data with
  | [] => []
  | d :: rest =>
    let lo := Z.max s (i_time d) in
    let hi := match rest with [] => e | n :: _ => Z.min e (i_time n) end in
    (if (lo <? hi)%Z then [(d, (hi - lo)%Z)] else []) ++ pieces rest s e
  end.
Definition duration (ps : list (imu * Z)) : Z := fold_right (fun p t => (snd p + t)%Z) 0%Z ps.

(* moving first by a and then, seen from where a led, by b, which takes tb seconds *)
Definition then_move (a : motion) (tb : R) (b : motion) : motion :=
  mk_motion (plus (d_vel a) (qrot (d_rot a) (d_vel b)))
            (plus (plus (d_trans a) (scaled tb (d_vel a))) (qrot (d_rot a) (d_trans b)))
            (qmul (d_rot a) (d_rot b)).
Definition no_move : motion := mk_motion (mk_vec3 0 0 0) (mk_vec3 0 0 0) (mk_quat 1 0 0 0).
(* holding a rate and an acceleration for dt seconds: the acceleration acts along the final attitude *)
Definition held (ca cw : vec3 R -> vec3 R) (p : imu * Z) : motion :=
  let dt := seconds (snd p) in
  let q := of_angle_axis (scaled dt (cw (i_omega (fst p)))) in
  let v := scaled dt (qrot q (ca (i_acc (fst p)))) in
  mk_motion v (scaled dt v) q.
Fixpoint travel (ca cw : vec3 R -> vec3 R) (ps : list (imu * Z)) : motion :=
  match ps with
  | [] => no_move
  | p :: rest => then_move (held ca cw p) (seconds (duration rest)) (travel ca cw rest)
  end.
Definition all_resolved (cw : vec3 R -> vec3 R) (ps : list (imu * Z)) : Prop :=
  Forall (fun p => resolved (scaled (seconds (snd p)) (cw (i_omega (fst p))))) ps.
(* the sum of the squared lengths of the pieces *)
Definition squares (ps : list (imu * Z)) : R := fold_right (fun p t => seconds (snd p) * seconds (snd p) + t) 0 ps.
