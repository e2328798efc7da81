(* Model of cartographer/mapping/internal/3d/scan_matching/rotational_scan_matcher.cc (rs), with
   real numbers instead of floats.  Histograms are lists of bins; None is an access outside a
   histogram, a loop that does not end within the fuel, or a failed CHECK. *)
From Coq Require Import ZArith Reals List Bool.
From Verif Require Import CF_Model RG_Model IG_Model Vec.
Import ListNotations.
Open Scope R_scope.

(* kMinDistance, kMaxDistance, kSliceHeight, rs:31-33 *)
Definition k_min_distance : R := 2 / 10.
Definition k_max_distance : R := 9 / 10.
Definition k_slice_height : R := 2 / 10.

(* common::Clamp, common/math.h:31-39 *)
Definition clamp_int (value lo hi : Z) : Z :=
  if (hi <? value)%Z then hi else if (value <? lo)%Z then lo else value.

(* AddValueToHistogram, rs:35-50; the loops run at most fuel times *)
Fixpoint angle_down (fuel : nat) (angle : R) : option R :=
  if Rlt_dec PI angle then match fuel with O => None | S f => angle_down f (angle - PI) end else Some angle.
Fixpoint angle_up (fuel : nat) (angle : R) : option R :=
  if Rlt_dec angle 0 then match fuel with O => None | S f => angle_up f (angle + PI) end else Some angle.
Definition wrapped (fuel : nat) (angle : R) : option R :=
  match angle_down fuel angle with None => None | Some a => angle_up fuel a end.
Definition bucket_of (size : Z) (angle : R) : Z :=
  clamp_int (lround (IZR size * (angle / PI) - 1 / 2)) 0 (size - 1).
Definition add_value (fuel : nat) (angle value : R) (h : list R) : option (list R) :=
  match wrapped fuel angle with
  | None => None
  | Some a =>
      let b := bucket_of (vsize h) a in
      match vget h b with None => None | Some old => vset h b (old + value) end
  end.

Definition point := vec3 R.
(* head<2>().norm() of a difference *)
Definition norm2 (d : R * R) : R := sqrt (fst d * fst d + snd d * snd d).
Definition head2 (p q : point) : R * R := (v0 p - v0 q, v1 p - v1 q).

(* ComputeCentroid, rs:52-59 *)
Definition centroid (slice : list point) : option point :=
  match slice with
  | [] => None
  | _ => Some (vscale (/ INR (length slice)) (fold_left vadd slice v_zero))
  end.

(* the loop of AddPointCloudSliceToHistogram, rs:72-88: last_point_position and the histogram;
   normalized() of vectors that are not zero *)
Definition slice_value (delta direction : R * R) : R :=
  Rmax 0 (1 - Rabs (fst delta / norm2 delta * (fst direction / norm2 direction)
                    + snd delta / norm2 delta * (snd direction / norm2 direction))).
Definition slice_step (fuel : nat) (c : point) (s : option (point * list R)) (p : point) : option (point * list R) :=
  match s with
  | None => None
  | Some (last, h) =>
      let delta := head2 p last in
      let direction := head2 p c in
      if Rlt_dec (norm2 delta) k_min_distance then Some (last, h)
      else if Rlt_dec (norm2 direction) k_min_distance then Some (last, h)
      else if Rlt_dec k_max_distance (norm2 delta) then Some (p, h)
      else match add_value fuel (atan2 (snd delta) (fst delta)) (slice_value delta direction) h with
           | None => None
           | Some h' => Some (last, h')
           end
  end.
(* AddPointCloudSliceToHistogram, rs:61-89 *)
Definition add_slice (fuel : nat) (slice : list point) (h : list R) : option (list R) :=
  match slice with
  | [] => Some h
  | first :: _ =>
      match centroid slice with
      | None => None
      | Some c => match fold_left (slice_step fuel c) slice (Some (first, h)) with
                  | None => None
                  | Some (_, h') => Some h'
                  end
      end
  end.

(* SortSlice, rs:94-119; std::sort leaves the order of equal angles open, here the one of the
   slice is kept *)
Definition angle_around (c p : point) : R := let d := head2 p c in atan2 (snd d) (fst d).
Fixpoint insert_by (key : point -> R) (p : point) (l : list point) : list point :=
  match l with
  | [] => [p]
  | q :: l' => if Rle_dec (key p) (key q) then p :: l else q :: insert_by key p l'
  end.
Definition sort_slice (slice : list point) : option (list point) :=
  match centroid slice with
  | None => None
  | Some c =>
      let kept := filter (fun p => if Rlt_dec (norm2 (head2 p c)) k_min_distance then false else true) slice in
      Some (fold_right (insert_by (angle_around c)) [] kept)
  end.

(* ComputeHistogram, rs:164-176; the std::map of slices is the list of its keys in order and for
   each key the points with that key *)
Definition slice_key (p : point) : Z := lround (v2 p / k_slice_height).
Fixpoint insert_key (k : Z) (l : list Z) : list Z :=
  match l with
  | [] => [k]
  | m :: l' => if (k <? m)%Z then k :: l else if (k =? m)%Z then l else m :: insert_key k l'
  end.
Definition slice_keys (cloud : list point) : list Z := fold_left (fun l p => insert_key (slice_key p) l) cloud [].
Definition slices (cloud : list point) : list (list point) :=
  map (fun k => filter (fun p => (slice_key p =? k)%Z) cloud) (slice_keys cloud).
Definition compute_step (fuel : nat) (h : option (list R)) (slice : list point) : option (list R) :=
  match h, sort_slice slice with
  | Some h, Some s => add_slice fuel s h
  | _, _ => None
  end.
Definition compute_histogram (fuel : nat) (cloud : list point) (size : nat) : option (list R) :=
  fold_left (compute_step fuel) (slices cloud) (Some (repeat 0 size)).

(* RotateHistogram, rs:141-162; the loop that adds the size until full_buckets is not negative
   is the remainder *)
Definition bin (h : list R) (k : Z) : R := nth (Z.to_nat k) h 0.
Definition rotate_histogram (h : list R) (angle : R) : list R :=
  match h with
  | [] => h
  | _ =>
      let n := vsize h in
      let by_buckets := - angle * IZR n / PI in
      let full := lround (by_buckets - 1 / 2) in
      let fraction := by_buckets - IZR full in
      let full' := if (full <? 0)%Z then (full mod n)%Z else full in
      map (fun i => fraction * bin h ((i + 1 + full') mod n) + (1 - fraction) * bin h ((i + full') mod n)) (zrange n)
  end.

(* MatchHistograms, rs:121-133, and Match, rs:178-190 *)
Definition hdot (a b : list R) : R := fold_right Rplus 0 (map (fun p => fst p * snd p) (combine a b)).
Definition hnorm (a : list R) : R := sqrt (hdot a a).
Definition match_histograms (submap scan : list R) : R :=
  let normalization := hnorm scan * hnorm submap in
  if Rlt_dec normalization (1 / 1000) then 1 else hdot submap scan / normalization.
Definition match_angles (submap scan : list R) (initial : R) (angles : list R) : list R :=
  map (fun a => match_histograms submap (rotate_histogram scan (initial + a))) angles.
