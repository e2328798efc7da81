(* Model of RangeDataInserter3D: cartographer/mapping/3d/range_data_inserter_3d.cc (i3 below)
   and of IntensityHybridGrid, mapping/3d/hybrid_grid.h (hg below).
   Points are binary32.  None: a CHECK fails, int overflows or lround has no int result. *)
From Coq Require Import List ZArith Bool SpecFloat.
From Verif Require Import Vec Float32 PV_Model G2_Model HG_Model.
Import ListNotations.
Open Scope Z_scope.

Notation F3 := (f32 * f32 * f32)%type (only parsing).

(* HybridGridBase::GetCellIndex, hg:428-433 *)
Definition cell_index3 (res : f32) (p : F3) : option Z3 :=
  let '(x, y, z) := p in
  match f_round_to_int (fdiv x res), f_round_to_int (fdiv y res), f_round_to_int (fdiv z res) with
  | Some a, Some b, Some c => Some (a, b, c)
  | _, _, _ => None
  end.

(* HybridGridBase::GetCenterOfCell, hg:444-446 *)
Definition center3 (res : f32) (i : Z3) : F3 :=
  (fmul (f_of_Z (vx i)) res, fmul (f_of_Z (vy i)) res, fmul (f_of_Z (vz i)) res).

(* delta.cwiseAbs().maxCoeff(), i3:37 *)
Definition max_abs (d : Z3) : Z := Z.max (Z.max (Z.abs (vx d)) (Z.abs (vy d))) (Z.abs (vz d)).

(* origin_cell + delta * position / num_samples, i3:47-48; division of ints truncates *)
Definition miss_cell (o d : Z3) (k n : Z) : Z3 := zip3 (fun o d => o + Z.quot (d * k) n) o d.

(* the inner loop over positions, i3:45-50 *)
Fixpoint apply_misses (h : hybrid) (t : list Z) (o d : Z3) (n : Z) (ks : list Z) : option hybrid :=
  match ks with
  | [] => Some h
  | k :: r => match hy_apply h (miss_cell o d k n) t with
              | Some (h', _) => apply_misses h' t o d n r
              | None => None
              end
  end.

(* the positions, i3:45-46 *)
Definition positions (n free : Z) : list Z :=
  let k0 := Z.max 0 (n - free) in zfrom k0 (Z.to_nat (n - k0)).

(* InsertMissesIntoGrid, i3:27-52.  Differences are exact: if one overflows int, it is also
   not below 2^15. *)
Fixpoint insert_misses (h : hybrid) (t : list Z) (o : Z3) (hits : list F3) (free : Z) : option hybrid :=
  match hits with
  | [] => Some h
  | p :: r =>
      match cell_index3 (h_res h) p with
      | None => None
      | Some hc =>
          let d := zip3 Z.sub hc o in
          let n := max_abs d in
          if (n <? 2 ^ 15) && int_range (n - free) then
            match apply_misses h t o d n (positions n free) with
            | Some h' => insert_misses h' t o r free
            | None => None
            end
          else None
      end
  end.

(* the loop over hits, i3:100-103 *)
Fixpoint insert_hits (h : hybrid) (t : list Z) (hits : list F3) : option hybrid :=
  match hits with
  | [] => Some h
  | p :: r =>
      match cell_index3 (h_res h) p with
      | None => None
      | Some hc => match hy_apply h hc t with
                   | Some (h', _) => insert_hits h' t r
                   | None => None
                   end
      end
  end.

(* AverageIntensityData, hg:547-550 *)
Notation avg := (f32 * Z)%type (only parsing).
Definition avg0 : avg := (S754_zero false, 0).
(* operator== does not exist for AverageIntensityData and iterators over such grids are not
   used; this is what IsDefaultValue would be *)
Definition avg_is0 (a : avg) : bool :=
  (snd a =? 0) && match fst a with S754_zero false => true | _ => false end.
Definition int_ops := grid_ops avg avg0 avg_is0.
Definition inode : Type := list (option (list avg)).

(* IntensityHybridGrid, hg:552-571 *)
Record ihybrid := mk_ihybrid { ih_res : f32; ih_grid : dynamic inode }.
Definition ih_new (r : f32) : ihybrid := mk_ihybrid r dyn_new.
Definition add_intensity (g : ihybrid) (i : Z3) (x : f32) : option ihybrid :=
  match dyn_modify int_ops grow_fuel
          (fun a => if snd a + 1 <? 2 ^ 31 then Some (tt, (fadd (fst a) x, snd a + 1)) else None)
          (ih_grid g) i with
  | Done (_, d) => Some (mk_ihybrid (ih_res g) d)
  | _ => None
  end.
Definition get_intensity (g : ihybrid) (i : Z3) : option f32 :=
  match dyn_value avg0 int_ops (ih_grid g) i with
  | None => None
  | Some (s, c) => Some (if c =? 0 then S754_zero false else fdiv s (f_of_Z c))
  end.

(* InsertIntensitiesIntoGrid, i3:54-67 *)
Fixpoint insert_intensities_loop (g : ihybrid) (threshold : f32) (pts : list F3) (ints : list f32)
  : option ihybrid :=
  match pts, ints with
  | [], _ => Some g
  | _ :: _, [] => None
  | p :: ps, x :: xs =>
      if fltb threshold x then insert_intensities_loop g threshold ps xs
      else match cell_index3 (ih_res g) p with
           | None => None
           | Some c => match add_intensity g c x with
                       | Some g' => insert_intensities_loop g' threshold ps xs
                       | None => None
                       end
           end
  end.
Definition insert_intensities (g : ihybrid) (threshold : f32) (pts : list F3) (ints : list f32)
  : option ihybrid :=
  match ints with [] => Some g | _ => insert_intensities_loop g threshold pts ints end.

(* sensor::RangeData, sensor/range_data.h:32-36; misses are not used in 3D *)
Record range_data3 := mk_range_data3 {
  r3_origin : F3;
  r3_returns : list F3;
  r3_intensities : list f32
}.

(* RangeDataInserter3D::Insert, i3:95-114 *)
Definition insert3 (hit_table miss_table : list Z) (free : Z) (threshold : f32)
  (rd : range_data3) (h : hybrid) (ig : option ihybrid) : option (hybrid * option ihybrid) :=
  match insert_hits h hit_table (r3_returns rd) with
  | None => None
  | Some h1 =>
      match cell_index3 (h_res h1) (r3_origin rd) with
      | None => None
      | Some o =>
          match insert_misses h1 miss_table o (r3_returns rd) free with
          | None => None
          | Some h2 =>
              match (match ig with
                     | None => Some None
                     | Some g => option_map Some (insert_intensities g threshold (r3_returns rd) (r3_intensities rd))
                     end) with
              | None => None
              | Some ig' => match hy_finish h2 with
                            | Some h3 => Some (h3, ig')
                            | None => None
                            end
              end
          end
      end
  end.
