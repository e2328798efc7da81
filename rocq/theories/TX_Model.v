(* Model of the submap textures and of how they are painted, with real numbers instead of floats and
   doubles: cartographer/mapping/submaps.h (sm), cartographer/mapping/2d/probability_grid.cc (pg),
   cartographer/mapping/internal/2d/tsdf_2d.cc (td), cartographer/mapping/3d/submap_3d.cc (s3) and
   cartographer/io/submap_painter.cc (sp).  Bytes are integers in 0..255.  Textures are not
   compressed (common::FastGzipString).  None: a CHECK fails or the behaviour is undefined. *)
From Coq Require Import ZArith Reals List Bool Qreals.
From Verif Require Import Vec G2_Model CF_Model RG_Model IG_Model.
From Verif Require SW_Model.
Import ListNotations.
Open Scope Z_scope.

(* ---- texels *)

(* Logit, sm:37-39; kMinProbability and kMaxProbability, probability_values.h:64-65, are 0.1f and
   1.f - 0.1f *)
Definition logit (p : R) : R := ln (p / (1 - p))%R.
Definition k_min_probability : R := (1 / 10)%R.
Definition k_max_probability : R := (9 / 10)%R.
(* ProbabilityToLogOddsInteger, sm:46-53 *)
Definition log_odds_integer (p : R) : option Z :=
  let lo := logit k_min_probability in
  let hi := logit k_max_probability in
  let value := lround ((logit p - lo) * 254 / (hi - lo))%R + 1 in
  if (1 <=? value) && (value <=? 255) then Some value else None.
(* value and alpha for a delta, pg:131-134, td:164-167 and s3:138-141; uint8 conversions wrap *)
Definition texel (delta : Z) : Z * Z :=
  let alpha := if 0 <? delta then 0 else (- delta) mod 256 in
  let value := if 0 <? delta then delta mod 256 else 0 in
  (value, if (value =? 0) && (alpha =? 0) then 1 else alpha).
(* pg:129-134 *)
Definition probability_texel (p : R) : option (Z * Z) :=
  match log_odds_integer p with None => None | Some v => Some (texel (128 - v)) end.
(* td:157-167; std::pow(., 0.5f) is the square root and std::round rounds like std::lround *)
Definition tsdf_delta (tsd max_tsd weight max_weight : R) : Z :=
  lround (weight / max_weight * (sqrt (Rabs tsd / max_tsd) * 255 - 128))%R.
Definition tsdf_texel (tsd max_tsd weight max_weight : R) : option (Z * Z) :=
  Some (texel (tsdf_delta tsd max_tsd weight max_weight)).

(* ---- textures of 2D grids *)

(* SubmapQuery::Response::SubmapTexture *)
Record texture := mk_texture { x_cells : list Z; x_width : Z; x_height : Z; x_res : R; x_pose : rigid3 }.

(* the loops pg:117-135 and td:145-168 over the cells, with the texel of a known cell *)
Fixpoint texels (g : grid) (color : Z -> Z -> option (Z * Z)) (ox oy : Z) (xys : list (Z * Z)) : option (list Z) :=
  match xys with
  | [] => Some []
  | (x, y) :: r =>
      match (if is_known g (x + ox) (y + oy) then color (x + ox) (y + oy) else Some (0, 0)) with
      | None => None
      | Some (value, alpha) =>
          match texels g color ox oy r with
          | None => None
          | Some l => Some (value :: alpha :: l)
          end
      end
  end.
(* ProbabilityGrid::DrawToSubmapTexture, pg:109-149, and TSDF2D::DrawToSubmapTexture, td:137-182;
   'color' is what they do with a known cell *)
Definition draw_texture (g : grid) (color : Z -> Z -> option (Z * Z)) (local_pose : rigid3) : option texture :=
  let '(ox, oy, nx, ny) := cropped_limits g in
  match texels g color ox oy (xy_range nx ny) with
  | None => None
  | Some cells =>
      let res := Q2R (l_res (g_lim g)) in
      let max_x := (Q2R (l_mx (g_lim g)) - res * IZR oy)%R in
      let max_y := (Q2R (l_my (g_lim g)) - res * IZR ox)%R in
      Some (mk_texture cells nx ny res
              (r3_mul (r3_inv local_pose) (mk_rigid3 (mk_vec3 max_x max_y 0%R) q_one)))
  end.
(* GetProbability, and GetTSD and GetWeight, as real functions of the cell *)
Definition probability_texture (g : grid) (p : Z -> Z -> R) (local_pose : rigid3) : option texture :=
  draw_texture g (fun x y => probability_texel (p x y)) local_pose.
Definition tsdf_texture (g : grid) (tsd weight : Z -> Z -> R) (max_tsd max_weight : R) (local_pose : rigid3) : option texture :=
  draw_texture g (fun x y => tsdf_texel (tsd x y) max_tsd (weight x y) max_weight) local_pose.

(* ---- painting *)

(* a vector built by push_back of elements read from another one *)
Fixpoint gather (cells : list Z) (l : list Z) : option (list Z) :=
  match l with
  | [] => Some []
  | i :: r => match vget cells i, gather cells r with
              | Some v, Some s => Some (v :: s)
              | _, _ => None
              end
  end.
(* UnpackTextureData, sp:177-193: i over the rows, j over the columns *)
Definition unpack (cells : list Z) (width height : Z) : option (list Z * list Z) :=
  if vsize cells =? 2 * (width * height) then
    let ks := map (fun ij => fst ij * width + snd ij) (list_prod (zrange height) (zrange width)) in
    match gather cells (map (fun k => k * 2) ks), gather cells (map (fun k => k * 2 + 1) ks) with
    | Some intensity, Some alpha => Some (intensity, alpha)
    | _, _ => None
    end
  else None.
(* DrawTexture, sp:195-222: the pixels given to Cairo; the CHECKs of the stride and of the status of
   the surface are Cairo's *)
Definition cairo_word (intensity alpha : Z) : Z :=
  let observed := if (intensity =? 0) && (alpha =? 0) then 0 else 255 in
  Z.lor (Z.lor (Z.lor (Z.shiftl alpha 24) (Z.shiftl intensity 16)) (Z.shiftl observed 8)) 0.
Fixpoint cairo_words (intensity alpha : list Z) : option (list Z) :=
  match intensity, alpha with
  | [], _ => Some []
  | i :: r, a :: s => match cairo_words r s with Some l => Some (cairo_word i a :: l) | None => None end
  | _ :: _, [] => None
  end.

(* cairo_matrix_t, and the effect of cairo_transform, cairo_scale, cairo_translate and
   cairo_user_to_device as Cairo documents them *)
Record matrix := mk_matrix { m_xx : R; m_yx : R; m_xy : R; m_yy : R; m_x0 : R; m_y0 : R }.
Definition m_apply (m : matrix) (p : R * R) : R * R :=
  (m_xx m * fst p + m_xy m * snd p + m_x0 m, m_yx m * fst p + m_yy m * snd p + m_y0 m)%R.
Definition m_transform (c m : matrix) : matrix :=
  mk_matrix (m_xx c * m_xx m + m_xy c * m_yx m) (m_yx c * m_xx m + m_yy c * m_yx m)
            (m_xx c * m_xy m + m_xy c * m_yy m) (m_yx c * m_xy m + m_yy c * m_yy m)
            (m_xx c * m_x0 m + m_xy c * m_y0 m + m_x0 c) (m_yx c * m_x0 m + m_yy c * m_y0 m + m_y0 c).
Definition m_scale (c : matrix) (s : R) : matrix := m_transform c (mk_matrix s 0 0 s 0 0).
Definition m_translate (c : matrix) (x y : R) : matrix := m_transform c (mk_matrix 1 0 0 1 x y).
Definition m_identity : matrix := mk_matrix 1 0 0 1 0 0.

(* SubmapSlice, submap_painter.h:42-59; s_drawn: the surface is not null *)
Record slice := mk_slice { s_width : Z; s_height : Z; s_res : R; s_slice_pose : rigid3; s_pose : rigid3; s_drawn : bool }.
(* sp:41-47: the entries of the matrix of a rigid transform are the coordinates of the images of the
   unit vectors and of the translation *)
Definition slice_matrix (s : slice) : matrix :=
  let h := r3_mul (s_pose s) (s_slice_pose s) in
  let h_x := qrot (rot h) (mk_vec3 1 0 0)%R in
  let h_y := qrot (rot h) (mk_vec3 0 1 0)%R in
  mk_matrix (v1 h_x) (v0 h_x) (- v1 h_y) (- v0 h_y) (v0 (trans h)) (- v1 (trans h)).
(* CairoPaintSubmapSlices, sp:30-58: the slices given to the callback, each with the matrix at the
   time; cairo_save and cairo_restore keep the matrix *)
Fixpoint paint_loop (c : matrix) (slices : list slice) : list (slice * matrix) :=
  match slices with
  | [] => []
  | s :: r =>
      if s_drawn s then (s, m_scale (m_transform c (slice_matrix s)) (s_res s)) :: paint_loop c r
      else []
  end.
Definition paint (c : matrix) (scale : R) (slices : list slice) : list (slice * matrix) :=
  paint_loop (m_scale c scale) slices.
(* update_bounding_box, sp:80-83, on min and max; None: empty *)
Definition extend (b : option (R * R * (R * R))) (p : R * R) : option (R * R * (R * R)) :=
  match b with
  | None => Some (p, p)
  | Some ((lx, ly), (hx, hy)) =>
      Some ((Rmin lx (fst p), Rmin ly (snd p)), (Rmax hx (fst p), Rmax hy (snd p)))
  end.
Definition corners (s : slice) : list (R * R) :=
  [(0, 0); (IZR (s_width s), 0); (0, IZR (s_height s)); (IZR (s_width s), IZR (s_height s))]%R.
Definition bounding_box (painted : list (slice * matrix)) : option (R * R * (R * R)) :=
  fold_left (fun b sm => fold_left (fun b p => extend b (m_apply (snd sm) p)) (corners (fst sm)) b) painted None.
(* PaintSubmapSlices, sp:72-118: size, origin, and what is painted with which matrix.  An empty
   bounding box has sizes minus infinity, whose conversion to int is undefined. *)
Record painting := mk_painting { i_width : Z; i_height : Z; i_origin : R * R; i_painted : list (slice * matrix) }.
Definition k_padding : Z := 5.
Definition paint_slices (slices : list slice) (resolution : R) : option painting :=
  match bounding_box (paint m_identity (1 / resolution) slices) with
  | None => None
  | Some ((lx, ly), (hx, hy)) =>
      let ox := (- lx + IZR k_padding)%R in
      let oy := (- ly + IZR k_padding)%R in
      Some (mk_painting (SW_Model.ceil (hx - lx) + 2 * k_padding) (SW_Model.ceil (hy - ly) + 2 * k_padding)
              (ox, oy) (paint (m_translate m_identity ox oy) (1 / resolution) slices))
  end.
(* FillSubmapSlice, sp:120-150, from the texture of the submap *)
Definition fill_slice (global_pose : rigid3) (t : texture) : option (slice * list Z) :=
  match unpack (x_cells t) (x_width t) (x_height t) with
  | None => None
  | Some (intensity, alpha) =>
      match cairo_words intensity alpha with
      | None => None
      | Some words => Some (mk_slice (x_width t) (x_height t) (x_res t) (x_pose t) global_pose true, words)
      end
  end.

(* ---- textures of 3D grids *)

Definition int_max : Z := 2147483647.
Definition int_min : Z := -2147483648.
Definition is_int (z : Z) : bool := (int_min <=? z) && (z <=? int_max).

(* a voxel: cell index and value, as HybridGrid::Iterator gives them and as s3:98-102 collects them *)
Record voxel := mk_voxel { w_x : Z; w_y : Z; w_z : Z; w_value : Z }.
(* s3:96-102; the cell centre is index times resolution, hybrid_grid.h:444-446 *)
Definition voxel_center (res : R) (v : voxel) : vec3 R :=
  mk_vec3 (IZR (w_x v) * res)%R (IZR (w_y v) * res)%R (IZR (w_z v) * res)%R.
Definition project_voxel (res : R) (pose : rigid3) (v : voxel) : voxel :=
  let c := r3_apply pose (voxel_center res v) in
  mk_voxel (lround (v0 c * (1 / res))%R) (lround (v1 c * (1 / res))%R) (lround (v2 c * (1 / res))%R) (w_value v).
Definition k_obstructed : R := (501 / 1000)%R.
(* ExtractVoxelData, s3:80-110, with ValueToProbability as a real function: the voxels, min_index and
   max_index *)
Fixpoint extract (p : Z -> R) (res : R) (pose : rigid3) (cells : list voxel) (lo hi : Z * Z) : option (list voxel * (Z * Z) * (Z * Z)) :=
  match cells with
  | [] => Some ([], lo, hi)
  | v :: r =>
      if Rlt_dec (p (w_value v)) k_obstructed then extract p res pose r lo hi
      else
        let q := project_voxel res pose v in
        if is_int (w_x q) && is_int (w_y q) && is_int (w_z q) then
          match extract p res pose r (Z.min (fst lo) (w_x q), Z.min (snd lo) (w_y q))
                        (Z.max (fst hi) (w_x q), Z.max (snd hi) (w_y q)) with
          | Some (l, lo', hi') => Some (q :: l, lo', hi')
          | None => None
          end
        else None
  end.
(* PixelData, s3:31-37 *)
Record pixel := mk_pixel { p_min_z : Z; p_max_z : Z; p_count : Z; p_sum : R; p_max : R }.
Definition no_pixel : pixel := mk_pixel int_max int_min 0 0%R (1 / 2)%R.
(* s3:65-72 *)
Definition add_voxel (p : Z -> R) (d : pixel) (v : voxel) : pixel :=
  mk_pixel (Z.min (p_min_z d) (w_z v)) (Z.max (p_max_z d) (w_z v)) (p_count d + 1)
           (p_sum d + p (w_value v))%R (Rmax (p_max d) (p (w_value v))).
(* AccumulatePixelData, s3:51-75 *)
Definition accumulate_step (p : Z -> R) (width : Z) (lo hi : Z * Z) (s : option (list pixel)) (v : voxel) : option (list pixel) :=
  match s with
  | None => None
  | Some l =>
      if (w_x v <? fst lo) || (w_y v <? snd lo) || (fst hi <? w_x v) || (snd hi <? w_y v) then Some l
      else
        let i := (fst hi - w_x v) * width + (snd hi - w_y v) in
        match vget l i with
        | None => None
        | Some d => vset l i (add_voxel p d v)
        end
  end.
Definition accumulate (p : Z -> R) (width height : Z) (lo hi : Z * Z) (voxels : list voxel) : option (list pixel) :=
  fold_left (accumulate_step p width lo hi) voxels (Some (repeat no_pixel (Z.to_nat (width * height)))).
(* ClampProbability, probability_values.h:70-72 *)
Definition clamp_probability (p : R) : R :=
  if Rlt_dec k_max_probability p then k_max_probability
  else if Rlt_dec p k_min_probability then k_min_probability else p.
(* ComputePixelValues, s3:114-144 *)
Definition average_probability (d : pixel) : R :=
  let z_difference := IZR (p_max_z d - p_min_z d) in
  let free_space_weight := (15 / 100 * Rmax (z_difference - IZR (p_count d)) 0)%R in
  ((p_sum d + (1 - p_max d) * free_space_weight) / (IZR (p_count d) + free_space_weight))%R.
Definition pixel_texel (d : pixel) : option (Z * Z) :=
  let z_difference := if 0 <? p_count d then p_max_z d - p_min_z d else 0 in
  if negb (is_int z_difference) then None
  else if z_difference <? 3 then Some (0, 0)
  else probability_texel (clamp_probability (average_probability d)).
Fixpoint pixel_values (l : list pixel) : option (list Z) :=
  match l with
  | [] => Some []
  | d :: r => match pixel_texel d, pixel_values r with
              | Some (v, a), Some s => Some (v :: a :: s)
              | _, _ => None
              end
  end.
(* AddToTextureProto, s3:146-176 *)
Definition texture3 (p : Z -> R) (res : R) (pose : rigid3) (cells : list voxel) : option texture :=
  match extract p res pose cells (int_max, int_max) (int_min, int_min) with
  | None => None
  | Some (voxels, lo, hi) =>
      let width := snd hi - snd lo + 1 in
      let height := fst hi - fst lo + 1 in
      if is_int (snd hi - snd lo) && is_int width && is_int (fst hi - fst lo) && is_int height && is_int (width * height) then
        match accumulate p width height lo hi voxels with
        | None => None
        | Some l =>
            match pixel_values l with
            | None => None
            | Some cells =>
                Some (mk_texture cells width height res
                        (r3_mul (r3_inv pose)
                                (mk_rigid3 (mk_vec3 (IZR (fst hi) * res) (IZR (snd hi) * res) (v2 (trans pose)))%R q_one)))
            end
        end
      else None
  end.
