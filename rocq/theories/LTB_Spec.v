(* What the local trajectory builder should do with a stream of messages. *)
From Coq Require Import ZArith List Bool Permutation Sorted.
From Verif Require Import RDC_Model RDC_Spec PE_Model LTB_Model.
Import ListNotations.
Open Scope Z_scope.

Section Spec.
Context {K : kit} {F : parts K}.
Notation pose := (Vec K * Rot K)%type.
Notation merge := (merged (Pnt F) (Org F) (Int F) (Tim F)).

(* Point times as sent and as merged: shifting a time to that of the merge does not make it
   positive, times not after 0 pass the check, and ticks go with the order. *)
Definition clock_ok (tlt : Tim F -> Tim F -> bool) (sent shifted : Tim F -> Prop) : Prop :=
  (forall d t, sent t -> - 2 ^ 64 <= d <= 2 ^ 64 -> d + tick_of F t <= 0 -> shifted (shift_by F d t)) /\
  (forall t, shifted t -> past F t = true) /\
  (forall t, shifted t -> tick_of F t <= 0) /\
  (forall a b, shifted a -> shifted b -> tlt b a = false -> tick_of F a <= tick_of F b).
(* std::sort *)
Definition sorts (tlt : Tim F -> Tim F -> bool) : Prop :=
  (forall l, Permutation (sort_by F l) l) /\
  (forall l, StronglySorted (fun a b => tlt (snd (fst (fst b))) (snd (fst (fst a))) = false) (sort_by F l)).

Definition message_time (m : message F) : Z :=
  match m with MRange _ d => time d | MImu r => fst r | MOdometry o => fst o end.
(* what is asked of a message *)
Definition acceptable (opt : options) (sent : Tim F -> Prop) (m : message F) : Prop :=
  match m with
  | MRange k d => In k (expected opt) /\ message_ok (tick_of F) d /\ Forall (fun p => sent (snd p)) (ranges d)
  | MImu _ => use_imu opt = true
  | MOdometry _ => True
  end.
Definition stream (opt : options) (sent : Tim F -> Prop) (ms : list (message F)) : Prop :=
  Forall (acceptable opt sent) ms /\ StronglySorted Z.le (time_min :: map message_time ms).
(* the last point of range data is at the time of the message *)
Definition ends_at_its_time (m : message F) : Prop :=
  match m with
  | MRange _ d => exists l p t, ranges d = l ++ [(p, t)] /\ tick_of F t = 0
  | _ => True
  end.
(* the times of merged points, but not before the last prediction *)
Definition point_times (m : merge) (predicted : Z) : list Z :=
  map (fun q => match q with (_, t, _, _) => Z.max (m_time m + tick_of F t) predicted end) (m_ranges m).

(* the results in a list of events *)
Definition result_of (e : event F) : option (result F) :=
  match e with EPlaced _ _ (Some (_, _, r)) => r | _ => None end.
Definition results (es : list (event F)) : list (result F) :=
  flat_map (fun e => match result_of e with Some r => [r] | None => [] end) es.

(* the points of merged range data with their poses, sorted out: true for returns *)
Definition hits (m : merge) (ps : list pose) : list (bool * Hit F) :=
  flat_map (fun e => match e with (q, _, _, n, p) =>
      match nth_error (m_origins m) n with
      | Some o => match place F p o q with Some h => [h] | None => [] end
      | None => []
      end end) (combine (m_ranges m) ps).
Definition of_kind (k : bool) (l : list (bool * Hit F)) : list (Hit F) :=
  map snd (filter (fun h => Bool.eqb (fst h) k) l).

(* Each scan consists of the hits of the merges placed since the scan before, n of them (or one). *)
Fixpoint grouped (n : Z) (open : list (list (bool * Hit F))) (es : list (event F)) : Prop :=
  match es with
  | [] => True
  | EPlaced m ps s :: r =>
      length ps = length (m_ranges m) /\
      let open := open ++ [hits m ps] in
      if Z.of_nat (length open) <? n then s = None /\ grouped n open r
      else (exists res, s = Some (of_kind true (concat open), of_kind false (concat open), res)) /\ grouped n [] r
  | _ :: r => grouped n open r
  end.

(* the latest result that was inserted *)
Definition last_inserted (rs : list (result F)) : option (result F) :=
  find r_inserted (rev rs).
End Spec.
