(* What the point processors of IO_Model are meant to do, on whole streams. *)
From Coq Require Import List ZArith Bool.
From Verif Require Import Float64 FRS_Model IO_Model.
Import ListNotations.
Open Scope Z_scope.

Section Spec.
Variables M P I C V : Type.
Variable veq : V -> V -> bool.
Variable cell : P -> V.
Variable ray : M -> P -> list V.
Variable few_rays : Z -> Z -> bool.
Notation batch := (batch M P I C).
Notation stage := (stage M P V).

(* intensities and colors are absent or there is one for each point *)
Definition wf (b : batch) : Prop :=
  (intensities b = [] \/ length (intensities b) = length (points b)) /\
  (colors b = [] \/ length (colors b) = length (points b)).

Definition select {A} (flags : list bool) (l : list A) : list A :=
  map snd (filter fst (combine flags l)).
(* the rows (point with its intensity and color) marked true *)
Definition keep_rows (flags : list bool) (b : batch) : batch :=
  mk_batch (meta b) (select flags (points b)) (select flags (intensities b))
           (select flags (colors b)).

Definition total (bs : list batch) : nat := length (flat_map points bs).
Definition occurrences (v : V) (l : list V) : Z := Z.of_nat (length (filter (veq v) l)).
(* points of the stream in the voxel v; samples on rays of the stream in the voxel v *)
Definition hits_of (bs : list batch) (v : V) : Z :=
  occurrences v (map cell (flat_map points bs)).
Definition rays_of (bs : list batch) (v : V) : Z :=
  occurrences v (flat_map (fun b => flat_map (ray (meta b)) (points b)) bs).

(* flags for all points of a stream, dealt out to the batches *)
Fixpoint deal (flags : list bool) (bs : list batch) : list batch :=
  match bs with
  | [] => []
  | b :: r => keep_rows (firstn (length (points b)) flags) b ::
              deal (skipn (length (points b)) flags) r
  end.

(* one stage as a function on streams *)
Definition spec_stage (st : stage) (bs : list batch) : option (list batch) :=
  match st with
  | Keep keep => Some (map (fun b => keep_rows (map (keep (meta b)) (points b)) b) bs)
  | Frame keep => Some (filter (fun b => keep (meta b)) bs)
  | Sample r _ => match sampler_new r with
                  | None => None
                  | Some s => match pulse_n (total bs) s with
                              | Some (_, flags) => Some (deal flags bs)
                              | None => None
                              end
                  end
  | Count _ => Some bs
  | Outlier _ _ _ =>
      Some (map (fun b => keep_rows (map (fun p => few_rays (hits_of bs (cell p))
                                                            (rays_of bs (cell p))) (points b)) b)
                bs)
  end.

(* a pipeline: what the sink receives, and the numbers the counting stages report *)
Fixpoint spec_run (sts : list stage) (bs : list batch) : option (list batch * list Z) :=
  match sts with
  | [] => Some (bs, [])
  | st :: r =>
      match spec_stage st bs with
      | None => None
      | Some bs' =>
          match spec_run r bs' with
          | None => None
          | Some (out, ns) =>
              Some (out, match st with Count _ => Z.of_nat (total bs) :: ns | _ => ns end)
          end
      end
  end.

(* stages as constructed *)
Definition fresh (st : stage) : Prop :=
  match st with
  | Keep _ | Frame _ => True
  | Sample r s => sampler_new r = Some s
  | Count n => n = 0
  | Outlier ph h m => ph = Phase1 /\ (forall v, h v = 0) /\ (forall v, m v = 0)
  end.
Definition is_outlier (st : stage) : bool := match st with Outlier _ _ _ => true | _ => false end.
Definition outliers (sts : list stage) : nat := length (filter is_outlier sts).
(* the numbers reported by the counting stages *)
Definition counts (sts : list stage) : list Z :=
  flat_map (fun st => match st with Count n => [n] | _ => [] end) sts.
End Spec.
Arguments wf {M P I C}.
Arguments select {A}.
Arguments keep_rows {M P I C}.
Arguments total {M P I C}.
Arguments deal {M P I C}.
Arguments fresh {M P V}.
Arguments is_outlier {M P V}.
Arguments outliers {M P V}.
Arguments counts {M P V}.
