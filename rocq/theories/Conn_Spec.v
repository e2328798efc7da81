(* What trajectory connectivity means, in terms of the calls made only. *)
From Coq Require Import List ZArith Relations.
From Verif Require Import Conn_Model.
Import ListNotations.
Open Scope Z_scope.

(* trajectory t was named by an Add or Connect call *)
Definition tracked (os : list ccop) (t : Z) : Prop :=
  In (CAdd t) os \/ exists u, In (CConnect t u) os \/ In (CConnect u t) os.

(* a chain of recorded connections, in either direction, joins a and b *)
Definition linked (os : list ccop) : Z -> Z -> Prop :=
  clos_refl_sym_trans Z (fun a b => In (CConnect a b) os).

(* number of Connect calls for the unordered pair *)
Definition is_pair (a b : Z) (o : ccop) : bool :=
  match o with
  | CConnect x y => ((x =? a) && (y =? b) || (x =? b) && (y =? a))%bool
  | _ => false
  end.
Definition times_connected (os : list ccop) (a b : Z) : Z :=
  Z.of_nat (length (filter (is_pair a b) os)).

(* GetComponent is only asked for tracked trajectories *)
Fixpoint legal (seen os : list ccop) : Prop :=
  match os with
  | [] => True
  | o :: r =>
      match o with CComponent t => tracked seen t | _ => True end
      /\ legal (seen ++ [o]) r
  end.

(* the connectivity calls inside a trajectory connectivity history *)
Definition cc_of (o : tcsop) : ccop :=
  match o with
  | TAdd t => CAdd t
  | TConnect a b _ => CConnect a b
  | TConnected a b => CConnected a b
  | _ => CComponents
  end.

(* Connect is only called for tracked trajectories (or one with itself) *)
Fixpoint tlegal (seen os : list tcsop) : Prop :=
  match os with
  | [] => True
  | o :: r =>
      match o with
      | TConnect a b _ => a = b \/ (tracked (map cc_of seen) a /\ tracked (map cc_of seen) b)
      | _ => True
      end
      /\ tlegal (seen ++ [o]) r
  end.
