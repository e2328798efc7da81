(* What an uplink server has of the submaps of a trajectory. *)
From Coq Require Import List ZArith Bool Arith.
From Verif Require Import ASM_Model ASM_Spec SC_Model.
Import ListNotations.
Open Scope nat_scope.

(* a selection of the messages, by their numbers from 1 on *)
Fixpoint increasing (l : list nat) : Prop :=
  match l with a :: ((b :: _) as r) => a < b /\ increasing r | _ => True end.
Definition selection {A} (all : list A) (ks : list nat) (some : list A) : Prop :=
  Forall2 (fun k m => 1 <= k /\ nth_error all (k - 1) = Some m) ks some.
Definition among (k : nat) (ks : list nat) : bool := existsb (Nat.eqb k) ks.
(* the nodes that arrive, with the numbers of the submaps they are in: of the active submaps those whose first
   message, number j N + 1, has arrived *)
Definition arriving {D} (N : nat) (ds : list D) (ks : list nat) : list (D * list nat) :=
  flat_map (fun k => match nth_error ds (k - 1), filter (fun j => among (j * N + 1) ks) (active N k) with
                     | Some d, (_ :: _) as js => [(d, js)]
                     | _, _ => []
                     end) ks.
Section Object.
Variables D C P G : Type.
Variable create : D -> C.
Variable insert : C -> D -> option C.
Variable finish : C -> option C.
Variables (pose : C -> P) (grid : C -> G).
(* an object which stands for submap j: it has its pose, and if it was finished its grid *)
Definition stands_for (N : nat) (ds : list D) (finished : Prop) (j : nat) (o : rsub P G) : Prop :=
  (exists d, nth_error ds (j * N) = Some d /\ r_pose o = pose (create d)) /\
  (finished -> exists s, submap_of D C create insert finish N ds j = Some s /\ s_fin s = true /\
     r_fin o = true /\ r_num o = s_num s /\ r_grid o = Some (grid (s_content s))) /\
  (~ finished -> r_fin o = false /\ (0 <= r_num o <= 1)%Z /\ r_grid o = None).
End Object.
Arguments stands_for {D C P G}.
