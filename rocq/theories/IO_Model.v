(* Model of cartographer/io: points_batch.cc (pb below), the point processors that filter,
   sample and count points, outlier_removing_points_processor.cc (or below), and color.h. *)
From Coq Require Import List ZArith Bool SpecFloat.
From Verif Require Import Float32 PV_Model FRS_Model Float64.
Import ListNotations.
Open Scope Z_scope.

(* FloatComponentToUint8, color.h:35-38; None: lround of NaN is unspecified *)
Definition float_component_to_uint8 (c : f32) : option Z :=
  match f_round_to_int (fmul (fclamp c (f_of_Z 0) (f_of_Z 1)) (f_of_Z 255)) with
  | Some v => Some (v mod 256)
  | None => None
  end.
(* Uint8ComponentToFloat, color.h:40 *)
Definition uint8_component_to_float (c : Z) : f32 := fdiv (f_of_Z c) (f_of_Z 255).

Section Batch.
(* M: the members start_time, origin, frame_id and trajectory_id that no processor below
   changes; P, I, C: the element types of points, intensities and colors *)
Variables M P I C : Type.

(* PointsBatch, points_batch.h:35-67 *)
Record batch := mk_batch
  { meta : M; points : list P; intensities : list I; colors : list C }.

(* the push_back of the element i of an optional parallel vector, pb:42-47: nothing if the
   vector is empty; None: i is out of bounds *)
Definition pick {A} (v : list A) (i : nat) : option (list A) :=
  match v with
  | [] => Some []
  | _ => match nth_error v i with Some a => Some [a] | None => None end
  end.

(* the loop of RemovePoints, pb:36-48, from index i on *)
Fixpoint remove_loop (rem : list nat) (ints : list I) (cols : list C) (i : nat) (ps : list P)
  : option (list P * list I * list C) :=
  match ps with
  | [] => Some ([], [], [])
  | p :: r =>
      if existsb (Nat.eqb i) rem then remove_loop rem ints cols (S i) r
      else match pick cols i, pick ints i, remove_loop rem ints cols (S i) r with
           | Some c, Some n, Some (ps', is', cs') => Some (p :: ps', n ++ is', c ++ cs')
           | _, _, _ => None
           end
  end.

(* RemovePoints, pb:22-52; rem: the elements of the set. None: reserve is called with a
   negative number (converted to a huge size_t, so it throws), pb:23-25, or a read out of
   bounds. *)
Definition remove_points (rem : list nat) (b : batch) : option batch :=
  if Z.of_nat (length (points b)) - Z.of_nat (length rem) <? 0 then None
  else match remove_loop rem (intensities b) (colors b) 0 (points b) with
       | Some (ps, is, cs) => Some (mk_batch (meta b) ps is cs)
       | None => None
       end.

(* V: voxel indices *)
Variable V : Type.
Variable veq : V -> V -> bool.
Variable cell : P -> V.          (* voxels_.GetCellIndex(position) *)
Variable ray : M -> P -> list V. (* the cells sampled on the way from the origin, or:105-109 *)
(* voxel.rays < miss_per_hit_limit_ * voxel.hits, or:123, as a function of hits and rays *)
Variable few_rays : Z -> Z -> bool.

(* State, or.h:60-64 *)
Inductive phase := Phase1 | Phase2 | Phase3.

(* the processors in front of the sink, first one first. Simplification: hits and rays are
   unbounded integers, and voxels_ (a HybridGridBase, for which see HG_Model) is a total
   function from cells. *)
Inductive stage :=
| Keep (keep : M -> P -> bool)     (* min_max_range_filtering, vertical_range_filtering *)
| Frame (keep : M -> bool)         (* frame_id_filtering *)
| Sample (r : f64) (s : sampler)   (* fixed_ratio_sampling *)
| Count (n : Z)                    (* counting *)
| Outlier (ph : phase) (hits rays : V -> Z).

(* a fresh fixed_ratio_sampling processor, fixed_ratio_sampling_points_processor.cc:36-41 *)
Definition new_sample (r : f64) : option stage :=
  match sampler_new r with Some s => Some (Sample r s) | None => None end.
(* a fresh outlier_removing processor, or:42-51 *)
Definition new_outlier : stage := Outlier Phase1 (fun _ => 0) (fun _ => 0).

(* the loops that fill to_remove: min_max_range_filtering_points_processor.cc:44-51,
   vertical_range_filtering_points_processor.cc:44-49, or:120-126 *)
Fixpoint to_remove (keep : P -> bool) (i : nat) (ps : list P) : list nat :=
  match ps with
  | [] => []
  | p :: r => if keep p then to_remove keep (S i) r else i :: to_remove keep (S i) r
  end.
(* the same with the sampler, fixed_ratio_sampling_points_processor.cc:46-50 *)
Fixpoint sample_loop (s : sampler) (i : nat) (ps : list P) : option (sampler * list nat) :=
  match ps with
  | [] => Some (s, [])
  | _ :: r => match pulse s with
              | None => None
              | Some (s1, yes) => match sample_loop s1 (S i) r with
                                  | None => None
                                  | Some (s2, rem) => Some (s2, if yes then rem else i :: rem)
                                  end
              end
  end.

Definition bump (f : V -> Z) (v : V) : V -> Z := fun w => if veq v w then f w + 1 else f w.
(* ProcessInPhaseOne, or:91-97 *)
Definition count_hits (hits : V -> Z) (b : batch) : V -> Z :=
  fold_left (fun h p => bump h (cell p)) (points b) hits.
(* ProcessInPhaseTwo, or:99-115 *)
Definition count_rays (hits rays : V -> Z) (b : batch) : V -> Z :=
  fold_left (fun r p => fold_left (fun r v => if 0 <? hits v then bump r v else r)
                                  (ray (meta b) p) r) (points b) rays.

(* Process of one stage: the new stage and the batch given to next_, if any. None: abort.
   min_max..:41-54, vertical..:41-52, frame_id_filtering_points_processor.cc:57-63,
   fixed_ratio..:43-53, counting_points_processor.cc:35-38, or:53-68 *)
Definition stage_process (st : stage) (b : batch) : option (stage * option batch) :=
  match st with
  | Keep keep =>
      match remove_points (to_remove (keep (meta b)) 0 (points b)) b with
      | Some b' => Some (st, Some b')
      | None => None
      end
  | Frame keep => Some (st, if keep (meta b) then Some b else None)
  | Sample r s =>
      match sample_loop s 0 (points b) with
      | None => None
      | Some (s', rem) => match remove_points rem b with
                          | Some b' => Some (Sample r s', Some b')
                          | None => None
                          end
      end
  | Count n => Some (Count (n + Z.of_nat (length (points b))), Some b)
  | Outlier Phase1 hits rays => Some (Outlier Phase1 (count_hits hits b) rays, None)
  | Outlier Phase2 hits rays => Some (Outlier Phase2 hits (count_rays hits rays b), None)
  | Outlier Phase3 hits rays =>
      match remove_points
              (to_remove (fun p => few_rays (hits (cell p)) (rays (cell p))) 0 (points b)) b with
      | Some b' => Some (st, Some b')
      | None => None
      end
  end.

(* Process of the first processor of a pipeline; the batches that reach the sink *)
Fixpoint process (sts : list stage) (b : batch) : option (list stage * list batch) :=
  match sts with
  | [] => Some ([], [b])
  | st :: r =>
      match stage_process st b with
      | None => None
      | Some (st', None) => Some (st' :: r, [])
      | Some (st', Some b') => match process r b' with
                               | None => None
                               | Some (r', out) => Some (st' :: r', out)
                               end
      end
  end.

(* Flush of the first processor of a pipeline; the result is true for kRestartStream. The
   sink (null_points_processor.h:33) answers kFinished. None: abort (or:83, the sampler's
   CHECK). min_max..:56-58, vertical..:54-56, frame_id..:65-67, fixed_ratio..:55-65,
   counting..:40-52, or:70-89 *)
Fixpoint flush (sts : list stage) : option (list stage * bool) :=
  match sts with
  | [] => Some ([], false)
  | st :: r =>
      match st with
      | Outlier Phase1 h m => Some (Outlier Phase2 h m :: r, true)
      | Outlier Phase2 h m => Some (Outlier Phase3 h m :: r, true)
      | _ =>
          match flush r with
          | None => None
          | Some (r', restart) =>
              match st with
              | Keep _ | Frame _ => Some (st :: r', restart)
              | Sample q _ =>
                  if restart
                  then match new_sample q with Some st' => Some (st' :: r', true) | None => None end
                  else Some (st :: r', false)
              | Count _ => Some ((if restart then Count 0 else st) :: r', restart)
              | Outlier _ _ _ => if restart then None else Some (st :: r', false)
              end
          end
      end
  end.

(* all batches of the stream, one after the other *)
Fixpoint feed (sts : list stage) (bs : list batch) : option (list stage * list batch) :=
  match bs with
  | [] => Some (sts, [])
  | b :: r => match process sts b with
              | None => None
              | Some (sts', out) => match feed sts' r with
                                    | None => None
                                    | Some (sts'', out') => Some (sts'', out ++ out')
                                    end
              end
  end.

(* the use of a pipeline documented in points_processor.h:26-47: the stream is fed and Flush
   called, again for as long as Flush answers kRestartStream; n bounds the number of passes.
   Some (passes made, final stages, everything the sink received). *)
Inductive run_result :=
| Finished (passes : nat) (sts : list stage) (out : list batch)
| Aborted
| MorePasses.
Fixpoint run (n : nat) (sts : list stage) (bs : list batch) : run_result :=
  match n with
  | O => MorePasses
  | S k => match feed sts bs with
           | None => Aborted
           | Some (sts1, out) =>
               match flush sts1 with
               | None => Aborted
               | Some (sts2, false) => Finished 1 sts2 out
               | Some (sts2, true) => match run k sts2 bs with
                                      | Finished m sts3 out' => Finished (S m) sts3 (out ++ out')
                                      | x => x
                                      end
               end
           end
  end.
End Batch.

Arguments mk_batch {M P I C}.
Arguments meta {M P I C}.
Arguments points {M P I C}.
Arguments intensities {M P I C}.
Arguments colors {M P I C}.
Arguments pick {A}.
Arguments remove_loop {P I C}.
Arguments remove_points {M P I C}.
Arguments Keep {M P V}.
Arguments Frame {M P V}.
Arguments Sample {M P V}.
Arguments Count {M P V}.
Arguments Outlier {M P V}.
Arguments new_sample {M P V}.
Arguments new_outlier {M P V}.
Arguments to_remove {P}.
Arguments sample_loop {P}.
Arguments bump {V}.
Arguments Finished {M P I C V}.
Arguments Aborted {M P I C V}.
Arguments MorePasses {M P I C V}.
Arguments flush {M P V}.
