(** Specification vocabulary for the ordered multi queue: the client's view of
    a call history, legality of a history, and the expected deliveries. *)
From Coq Require Import List ZArith Bool.
From Verif Require Import OMQ_Model.
Import ListNotations.
Local Open Scope Z_scope.

(** What a client knows from its own calls: registered queues, finished queues,
    the data added to registered queues, and whether a queue was registered
    after the first data had been added. *)
Record view : Type := mkView {
  v_reg : list key; v_fin : list key; v_added : list (key * item);
  v_late : bool }.

Definition view0 : view := mkView [] [] [] false.

Definition keq_dec : forall a b : key, {a = b} + {a <> b}.
Proof. decide equality; apply Z.eq_dec. Defined.

Definition view_step (v : view) (o : op) : view :=
  match o with
  | OAddQueue k =>
      mkView (v_reg v ++ [k]) (v_fin v) (v_added v)
             (match v_added v with [] => v_late v | _ => true end)
  | OAdd k d =>
      if in_dec keq_dec k (v_reg v)
      then mkView (v_reg v) (v_fin v) (v_added v ++ [(k, d)]) (v_late v)
      else v
  | OFinish k => mkView (v_reg v) (k :: v_fin v) (v_added v) (v_late v)
  | OFlush => mkView (v_reg v) (v_reg v) (v_added v) (v_late v)
  end.

Definition view_of (h : list op) : view := fold_left view_step h view0.

(** The items with key [k] in a list of keyed items. *)
Definition items_of (k : key) (l : list (key * item)) : list item :=
  map snd (filter (fun e => if keq_dec (fst e) k then true else false) l).

Definition added (v : view) (k : key) : list item := items_of k (v_added v).

(** Delivered (resp. dropped) data in order. *)
Definition delivered (tr : list event) : list (key * item) :=
  flat_map (fun e => match e with Deliver k d => [(k, d)] | _ => [] end) tr.
Definition dropped (tr : list event) : list (key * item) :=
  flat_map (fun e => match e with Drop k d => [(k, d)] | _ => [] end) tr.

Fixpoint lastopt {A} (l : list A) : option A :=
  match l with [] => None | [x] => Some x | _ :: r => lastopt r end.

(** Client obligations for the next call, given the calls and callbacks so far:
    fresh queue keys; per queue sorted data, the first item of a queue not
    older than what has already been delivered; no data after finishing; finish
    only registered unfinished queues. *)
Definition legal_op (v : view) (tr : list event) (o : op) : Prop :=
  match o with
  | OAddQueue k => ~ In k (v_reg v)
  | OAdd k d =>
      time_min <= it_time d /\
      (In k (v_reg v) ->
       ~ In k (v_fin v) /\
       match lastopt (added v k) with
       | Some d0 => it_time d0 <= it_time d
       | None => v_late v = true ->
                 forall e, In e (delivered tr) ->
                           it_time (snd e) <= it_time d
       end)
  | OFinish k => In k (v_reg v) /\ ~ In k (v_fin v)
  | OFlush => True
  end.

(** A history is legal if every call is legal in the situation in which it is
    made. *)
Fixpoint legal_from (v : view) (tr : list event) (s : state) (h : list op)
  : Prop :=
  match h with
  | [] => True
  | o :: rest =>
      legal_op v tr o /\
      (forall s' evs, exec o s = ROk (s', evs) ->
                      legal_from (view_step v o) (tr ++ evs) s' rest)
  end.
Definition legal (h : list op) : Prop := legal_from view0 [] init h.

(** Data kept by fast-forwarding one queue to the common start time [c]: an
    item is skipped if it is older than [c] and its successor is not newer
    than [c]. *)
Fixpoint fast_forward (c : Z) (l : list item) : list item :=
  match l with
  | d :: ((d2 :: _) as r) =>
      if (it_time d <? c) && (it_time d2 <=? c) then fast_forward c r else l
  | _ => l
  end.

(** [c] is the latest first-item time over the queues of trajectory [t]. *)
Definition is_common_start (v : view) (t c : Z) : Prop :=
  (exists k d r, In k (v_reg v) /\ fst k = t /\ added v k = d :: r /\
                 it_time d = c) /\
  (forall k d r, In k (v_reg v) -> fst k = t -> added v k = d :: r ->
                 it_time d <= c).

(** Order by time, ties by queue key. *)
Definition lex_le (a b : key * item) : Prop :=
  it_time (snd a) < it_time (snd b) \/
  (it_time (snd a) = it_time (snd b) /\
   (fst (fst a) < fst (fst b) \/
    (fst (fst a) = fst (fst b) /\ snd (fst a) <= snd (fst b)))).

Definition time_le (a b : key * item) : Prop :=
  it_time (snd a) <= it_time (snd b).

(** Data still held back for queue [k]. *)
Definition pending (s : state) (k : key) : list item :=
  match lookup k (queues s) with Some q => q_data q | None => [] end.

(** Legality that can be judged from the calls alone: all queues are registered
    before any data arrives. *)
Fixpoint legal_static (v : view) (h : list op) : Prop :=
  match h with
  | [] => True
  | o :: rest =>
      match o with
      | OAddQueue k => ~ In k (v_reg v) /\ v_added v = []
      | OAdd k d =>
          time_min <= it_time d /\
          (In k (v_reg v) -> ~ In k (v_fin v) /\
             match lastopt (added v k) with
             | Some d0 => it_time d0 <= it_time d
             | None => True
             end)
      | OFinish k => In k (v_reg v) /\ ~ In k (v_fin v)
      | OFlush => True
      end /\ legal_static (view_step v o) rest
  end.


(** The trajectory an event belongs to. *)
Definition ev_traj (e : event) : Z :=
  match e with Deliver k _ | Drop k _ | Ignore k _ => fst k end.

(** The calls addressed to trajectory [t] (Flush concerns all trajectories). *)
Definition concerns (t : Z) (o : cop) : bool :=
  match o with
  | CAddTrajectory t' _ | CAddData t' _ _ | CFinish t' => t' =? t
  | CFlush => true
  end.

Definition events_of (t : Z) (tr : list event) : list event :=
  filter (fun e => ev_traj e =? t) tr.
