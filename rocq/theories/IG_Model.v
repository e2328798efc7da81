(* Model of cartographer/mapping/internal/3d/scan_matching/interpolated_grid.h (ig),
   occupied_space_cost_function_3d.h (occ), intensity_cost_function_3d.h and .cc (int), of
   GetCellIndex, GetCenterOfCell and IntensityHybridGrid of
   cartographer/mapping/3d/hybrid_grid.h (hg) and RoundToInt of cartographer/common/port.h,
   with real numbers instead of floats and doubles.  The interpolation is generic in its
   scalar, as in CF_Model: doubles or ceres::Jet. *)
From Coq Require Import ZArith Reals List.
From Verif Require Import CF_Model RG_Model.
Import ListNotations.
Open Scope R_scope.

(* RoundToInt = std::lround, port.h:40-42: halfway cases away from zero *)
Definition lround (x : R) : Z :=
  if Rle_dec 0 x then Int_part (x + 1 / 2) else (- Int_part (- x + 1 / 2))%Z.

(* one coordinate of HybridGridBase::GetCellIndex, hg:428-433, and GetCenterOfCell, hg:444-446 *)
Definition cell_index (resolution x : R) : Z := lround (x / resolution).
Definition center_of_cell (resolution : R) (i : Z) : R := IZR i * resolution.

(* one coordinate of CenterOfLowerVoxel, ig:124-140 *)
Definition center_of_lower (resolution x : R) : R :=
  let center := center_of_cell resolution (cell_index resolution x) in
  if Rlt_dec x center then center - resolution else center.

(* the grid: the value of every voxel.  HybridGridBase::value() is total, voxels that were
   never written have the default value *)
Definition voxels := Z -> Z -> Z -> R.

Section Generic.
Variable sc : scalar.
Let T := s_T sc.

(* (A - B) * t^3 * 2. + (B - A) * t^2 * 3. + A, ig:90-103, the scheme used seven times; at
   ig:90-97 A and B are doubles, here constants *)
Definition cubic (a b tt ttt : T) : T :=
  s_add sc (s_add sc (s_mul sc (s_mul sc (s_sub sc a b) ttt) (s_of sc 2))
                     (s_mul sc (s_mul sc (s_sub sc b a) tt) (s_of sc 3))) a.

(* GetInterpolatedValue, ig:51-104, with ComputeInterpolationDataPoints, ig:107-119: the
   scalar part selects the voxels.  Division by a double is multiplication by its inverse *)
Definition interpolated (g : voxels) (resolution : R) (x y z : T) : T :=
  let x1 := center_of_lower resolution (s_val sc x) in
  let y1 := center_of_lower resolution (s_val sc y) in
  let z1 := center_of_lower resolution (s_val sc z) in
  let x2 := x1 + resolution in
  let y2 := y1 + resolution in
  let z2 := z1 + resolution in
  let i := cell_index resolution x1 in
  let j := cell_index resolution y1 in
  let k := cell_index resolution z1 in
  let q111 := s_of sc (g i j k) in
  let q112 := s_of sc (g i j (k + 1)%Z) in
  let q121 := s_of sc (g i (j + 1)%Z k) in
  let q122 := s_of sc (g i (j + 1)%Z (k + 1)%Z) in
  let q211 := s_of sc (g (i + 1)%Z j k) in
  let q212 := s_of sc (g (i + 1)%Z j (k + 1)%Z) in
  let q221 := s_of sc (g (i + 1)%Z (j + 1)%Z k) in
  let q222 := s_of sc (g (i + 1)%Z (j + 1)%Z (k + 1)%Z) in
  let nx := s_mul sc (s_sub sc x (s_of sc x1)) (s_of sc (/ (x2 - x1))) in
  let ny := s_mul sc (s_sub sc y (s_of sc y1)) (s_of sc (/ (y2 - y1))) in
  let nz := s_mul sc (s_sub sc z (s_of sc z1)) (s_of sc (/ (z2 - z1))) in
  let nxx := s_mul sc nx nx in
  let nxxx := s_mul sc nx nxx in
  let nyy := s_mul sc ny ny in
  let nyyy := s_mul sc ny nyy in
  let nzz := s_mul sc nz nz in
  let nzzz := s_mul sc nz nzz in
  let q11 := cubic q111 q112 nzz nzzz in
  let q12 := cubic q121 q122 nzz nzzz in
  let q21 := cubic q211 q212 nzz nzzz in
  let q22 := cubic q221 q222 nzz nzzz in
  let q1 := cubic q11 q12 nyy nyyy in
  let q2 := cubic q21 q22 nyy nyyy in
  cubic q1 q2 nxx nxxx.

(* transform * point, occ:50-54 and 73-74: a Rigid3<T> made of three parameters for the
   translation and four, w x y z, for the rotation; rigid_transform.h:191-197 and Eigen's
   rotation of a vector by a quaternion as in RG_Model *)
Definition g_add (a b : vec3 T) : vec3 T :=
  mk_vec3 (s_add sc (v0 a) (v0 b)) (s_add sc (v1 a) (v1 b)) (s_add sc (v2 a) (v2 b)).
Definition g_scale (s : T) (a : vec3 T) : vec3 T :=
  mk_vec3 (s_mul sc s (v0 a)) (s_mul sc s (v1 a)) (s_mul sc s (v2 a)).
Definition g_cross (a b : vec3 T) : vec3 T :=
  mk_vec3 (s_sub sc (s_mul sc (v1 a) (v2 b)) (s_mul sc (v2 a) (v1 b)))
          (s_sub sc (s_mul sc (v2 a) (v0 b)) (s_mul sc (v0 a) (v2 b)))
          (s_sub sc (s_mul sc (v0 a) (v1 b)) (s_mul sc (v1 a) (v0 b))).
Definition world_of (params : nat -> T) (point : vec3 R) : vec3 T :=
  let p := mk_vec3 (s_of sc (v0 point)) (s_of sc (v1 point)) (s_of sc (v2 point)) in
  let u := mk_vec3 (params 4%nat) (params 5%nat) (params 6%nat) in
  let uv := g_cross u p in
  let uv2 := g_add uv uv in
  g_add (g_add (g_add p (g_scale (params 3%nat) uv2)) (g_cross u uv2))
        (mk_vec3 (params 0%nat) (params 1%nat) (params 2%nat)).

(* OccupiedSpaceCostFunction3D::Evaluate, occ:69-80: one residual *)
Definition occupied_residual (scaling : R) (g : voxels) (resolution : R) (params : nat -> T)
    (point : vec3 R) : T :=
  let world := world_of params point in
  let probability := interpolated g resolution (v0 world) (v1 world) (v2 world) in
  s_mul sc (s_of sc scaling) (s_sub sc (s_of sc 1) probability).

(* IntensityCostFunction3D::Evaluate, int.h:67-85: one residual *)
Definition intensity_residual (scaling threshold : R) (g : voxels) (resolution : R) (params : nat -> T)
    (point : vec3 R) (intensity : R) : T :=
  if Rlt_dec threshold intensity then s_of sc 0
  else
    let world := world_of params point in
    let interpolated_intensity := interpolated g resolution (v0 world) (v1 world) (v2 world) in
    s_mul sc (s_of sc scaling) (s_sub sc interpolated_intensity (s_of sc intensity)).
End Generic.

(* the seven parameters of a pose, translation first, and all residuals of a point cloud *)
Definition pose_params (pose : rigid3) (n : nat) : R :=
  match n with
  | 0%nat => v0 (trans pose) | 1%nat => v1 (trans pose) | 2%nat => v2 (trans pose)
  | 3%nat => qw (rot pose) | 4%nat => qx (rot pose) | 5%nat => qy (rot pose) | _ => qz (rot pose)
  end.
Definition occupied_space_cost (scaling : R) (g : voxels) (resolution : R) (pose : rigid3)
    (points : list (vec3 R)) : list R :=
  map (occupied_residual real_scalar scaling g resolution (pose_params pose)) points.

(* IntensityHybridGrid, hg:548-571: sum and count per voxel *)
Definition intensity_cell : Type := R * Z.
Definition empty_cell : intensity_cell := (0, 0%Z).
Definition add_intensity (c : intensity_cell) (intensity : R) : intensity_cell :=
  (fst c + intensity, (snd c + 1)%Z).
Definition get_intensity (c : intensity_cell) : R :=
  if Z.eq_dec (snd c) 0 then 0 else fst c / IZR (snd c).

(* IntensityCostFunction3D: CreateAutoDiffCostFunction, int.cc:10-21, and the loop of
   Evaluate, int.h:70-83; None is the failed CHECK or a read past the end of the intensities *)
Fixpoint intensity_residuals (scaling threshold : R) (g : voxels) (resolution : R)
    (pose : rigid3) (points : list (vec3 R)) (intensities : list R) : option (list R) :=
  match points with
  | [] => Some []
  | p :: ps =>
      match intensities with
      | [] => None
      | intensity :: is =>
          match intensity_residuals scaling threshold g resolution pose ps is with
          | None => None
          | Some rs =>
              Some (intensity_residual real_scalar scaling threshold g resolution (pose_params pose) p intensity
                    :: rs)
          end
      end
  end.
Definition intensity_cost (scaling threshold : R) (g : voxels) (resolution : R)
    (pose : rigid3) (points : list (vec3 R)) (intensities : list R) : option (list R) :=
  match intensities with
  | [] => None
  | _ => intensity_residuals scaling threshold g resolution pose points intensities
  end.
