(* The two-submap protocol in closed form. *)
From Coq Require Import List ZArith Bool Arith.
From Verif Require Import ASM_Model.
Import ListNotations.
Open Scope nat_scope.

(* the data at positions a .. a + n - 1 *)
Definition slice {D} (a n : nat) (ds : list D) : list D := firstn n (skipn a ds).

Section Spec.
Variables D C : Type.
Variable create : D -> C.
Variable insert : C -> D -> option C.
Variable finish : C -> option C.

Fixpoint feed (c : C) (ds : list D) : option C :=
  match ds with
  | [] => Some c
  | d :: r => match insert c d with Some c' => feed c' r | None => None end
  end.

(* Submap j is created for the data at position j * N and receives the data at positions
   j * N .. (j + 2) * N - 1; it is finished when it has all of them. *)
Definition submap_of (N : nat) (ds : list D) (j : nat) : option (submap C) :=
  let data := slice (j * N) (2 * N) ds in
  match data with
  | [] => None
  | d :: _ =>
      match feed (create d) data with
      | None => None
      | Some c =>
          if Nat.eqb (length data) (2 * N)
          then match finish c with
               | Some c' => Some (mk_submap c' (Z.of_nat (length data)) true)
               | None => None
               end
          else Some (mk_submap c (Z.of_nat (length data)) false)
      end
  end.
End Spec.

(* the active submaps after k insertions: the newest and the one before *)
Definition active (N k : nat) : list nat :=
  match k with
  | O => []
  | S k' => match (k' / N)%nat with O => [O] | S j => [j; S j] end
  end.
