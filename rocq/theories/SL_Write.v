(* What WritePbStream writes and LoadState makes of it: proofs. *)
From Coq Require Import List ZArith Bool Lia Sorted.
From Verif Require Import ZMap MapById_Model MapById_Spec MapById_Proofs PG_Model PG_Maps PG_Spec
  PG_Proofs PG_Session_Handle SL_Model SL_Spec SL_Run.
Import ListNotations.
Open Scope Z_scope.

Definition ids_of {D} (m : mbi D) : list id := map fst (entries m).
Lemma ids_In {D} (m : mbi D) x : wf m -> In x (ids_of m) <-> stored x m.
Proof.
  intros W. unfold ids_of, stored. fold (get x m). rewrite in_map_iff. split.
  - intros ([y v] & <- & I). apply entries_In in I; [cbn; congruence | exact W].
  - intros N. destruct (get x m) as [v|] eqn:G; [|congruence]. exists (x, v). split; [reflexivity|]. now apply entries_In.
Qed.
Lemma stored_pos {D} (m : mbi D) x : wf m -> stored x m -> 0 <= snd x.
Proof.
  intros W. unfold stored, mbi_at. destruct (zfind (fst x) m) as [[c d]|] eqn:E; [|congruence].
  intros N. destruct (zfind (snd x) d) as [v|] eqn:F; [|congruence].
  apply zfind_In in E, F. pose proof (wf_idx _ W (fst x) c d (snd x) v E F) as Q. exact Q.
Qed.

(* ---- the messages of the trajectories ---- *)
Definition look (t : Z) (l : list traj_proto) : traj_proto :=
  match find (fun q => tp_id q =? t) l with Some q => q | None => mk_tp t [] [] end.
Lemma at_ids t f l : (forall q, tp_id (f q) = tp_id q) ->
  NoDup (map tp_id l) ->
  NoDup (map tp_id (at_traj t f l)) /\ forall u, In u (map tp_id (at_traj t f l)) <-> u = t \/ In u (map tp_id l).
Proof.
  intros F. induction l as [|q l IH]; cbn; intros N.
  - rewrite F. cbn. split; [repeat constructor; auto|]. intros u. intuition.
  - apply NoDup_cons_iff in N as [N1 N]. destruct (Z.eqb_spec (tp_id q) t) as [E|E]; cbn.
    + rewrite F. split; [now constructor|]. intros u. intuition.
    + destruct (IH N) as [A B]. split.
      * constructor; [|exact A]. rewrite B. intuition.
      * intros u. rewrite B. intuition.
Qed.
Lemma at_look t f l u : (forall q, tp_id (f q) = tp_id q) ->
  look u (at_traj t f l) = if u =? t then f (look u l) else look u l.
Proof.
  intros F. induction l as [|q l IH]; unfold look in *; cbn.
  - rewrite F. cbn. rewrite (Z.eqb_sym u t). destruct (Z.eqb_spec t u) as [->|]; reflexivity.
  - destruct (Z.eqb_spec (tp_id q) t) as [E|E]; cbn.
    + rewrite F. rewrite E. rewrite (Z.eqb_sym u t). destruct (Z.eqb_spec t u) as [->|]; reflexivity.
    + destruct (Z.eqb_spec (tp_id q) u) as [E2|]; [|exact IH]. destruct (Z.eqb_spec u t); [congruence|reflexivity].
Qed.
Lemma look_In l q : NoDup (map tp_id l) -> In q l -> look (tp_id q) l = q.
Proof.
  unfold look. induction l as [|a l IH]; cbn; [contradiction|]. intros N [-> | I].
  - now rewrite Z.eqb_refl.
  - apply NoDup_cons_iff in N as [N1 N]. destruct (Z.eqb_spec (tp_id a) (tp_id q)) as [E|]; [|auto].
    elim N1. rewrite E. now apply in_map.
Qed.

Section F.
Context {A : Type} (k : A -> Z) (f : A -> traj_proto -> traj_proto).
Hypothesis Hf : forall e q, tp_id (f e q) = tp_id q.
Definition folded l ts := fold_left (fun ts e => at_traj (k e) (f e) ts) l ts.
Lemma folded_ids l : forall ts, NoDup (map tp_id ts) ->
  NoDup (map tp_id (folded l ts)) /\
  forall u, In u (map tp_id (folded l ts)) <-> In u (map k l) \/ In u (map tp_id ts).
Proof.
  induction l as [|e l IH]; intros ts N; cbn.
  - split; [exact N|]. intuition.
  - destruct (at_ids (k e) (f e) ts (Hf e) N) as [A1 B]. destruct (IH _ A1) as [A2 B2]. split; [exact A2|].
    intros u. unfold folded in B2. rewrite B2, B. intuition.
Qed.
Lemma folded_look u l : forall ts,
  look u (folded l ts) = fold_left (fun q e => if u =? k e then f e q else q) l (look u ts).
Proof.
  induction l as [|e l IH]; intros ts; cbn; [reflexivity|]. unfold folded in IH. rewrite IH, at_look by auto. reflexivity.
Qed.
End F.

Definition sub_entry (p : pay) (s : id) : Z * val := (snd s, s_pose (sp p s)).
Definition node_entry (p : pay) (n : id) : Z * val := (snd n, n_pose (np p n)).

Lemma fold_subs {D} incl p u (l : list (id * D)) : forall q,
  fold_left (fun q e => if u =? fst (fst e) then (if written incl p (fst e) then add_sub (snd (fst e)) (s_pose (sp p (fst e))) q else q) else q) l q =
  mk_tp (tp_id q) (tp_subs q ++ map (sub_entry p) (filter (fun s => fst s =? u) (filter (written incl p) (map fst l)))) (tp_nodes q).
Proof.
  induction l as [|[s d] l IH]; intros q; cbn [fold_left map filter fst].
  - cbn. rewrite app_nil_r. now destruct q.
  - rewrite IH. rewrite (Z.eqb_sym u (fst s)). destruct (written incl p s) eqn:W; cbn [filter];
      destruct (Z.eqb_spec (fst s) u); cbn; rewrite <- ?app_assoc; reflexivity.
Qed.
Lemma fold_nodes {D} p u (l : list (id * D)) : forall q,
  fold_left (fun q e => if u =? fst (fst e) then add_node (snd (fst e)) (n_pose (np p (fst e))) q else q) l q =
  mk_tp (tp_id q) (tp_subs q) (tp_nodes q ++ map (node_entry p) (filter (fun s => fst s =? u) (map fst l))).
Proof.
  induction l as [|[s d] l IH]; intros q; cbn [fold_left map filter fst].
  - cbn. rewrite app_nil_r. now destruct q.
  - rewrite IH. rewrite (Z.eqb_sym u (fst s)). destruct (Z.eqb_spec (fst s) u); cbn; rewrite <- ?app_assoc; reflexivity.
Qed.

Section W.
Variables (incl : bool) (g : graph) (p : pay).
Hypothesis Ws : wf (subs g).
Hypothesis Wn : wf (nodes g).
Definition W := filter (written incl p) (ids_of (subs g)).
Definition N := ids_of (nodes g).
Lemma W_NoDup : NoDup W.
Proof. apply NoDup_filter, entries_NoDup, Ws. Qed.
Lemma N_NoDup : NoDup N.
Proof. apply entries_NoDup, Wn. Qed.
Lemma W_In x : In x W <-> stored x (subs g) /\ (incl = true \/ s_finished (sp p x) = true).
Proof. unfold W. rewrite filter_In, ids_In by exact Ws. unfold written. now rewrite orb_true_iff. Qed.
Lemma N_In x : In x N <-> stored x (nodes g).
Proof. apply ids_In, Wn. Qed.

Record proto_ok (gp : graph_proto) : Prop := {
  po_nodup : NoDup (map tp_id (gp_trajs gp));
  po_ids : forall t, In t (map tp_id (gp_trajs gp)) <-> mentioned g t;
  po_subs : forall q, In q (gp_trajs gp) -> tp_subs q = map (sub_entry p) (filter (fun s => fst s =? tp_id q) W);
  po_nodes : forall q, In q (gp_trajs gp) -> tp_nodes q = map (node_entry p) (filter (fun s => fst s =? tp_id q) N);
  po_cons : gp_cons gp = filter (fun c => written incl p (c_sub (fst c))) (cons_vals p);
  po_land : gp_landmarks gp = flat_map (fun e => match l_pose (snd e) with Some v => [(fst e, v)] | None => [] end) (landmarks p)
}.
Definition trajs1 := folded (fun e : id * sub => fst (fst e))
  (fun e q => if written incl p (fst e) then add_sub (snd (fst e)) (s_pose (sp p (fst e))) q else q) (entries (subs g)) [].
Definition trajs2 := folded (fun e : id * unit => fst (fst e))
  (fun e => add_node (snd (fst e)) (n_pose (np p (fst e)))) (entries (nodes g)) trajs1.
Lemma to_proto_ok gp : integrity g -> map fst (cons_vals p) = constraints g ->
  to_proto incl g p = Some gp -> proto_ok gp /\ gp_trajs gp = trajs2.
Proof.
  intros [In1 _] Ec E. unfold to_proto in E. destruct (submap_data_ok g); [|discriminate]. cbn [bind] in E.
  destruct (forallb _ (constraints g)); [|discriminate]. injection E as <-. split; [|reflexivity].
  set (fs := fun (e : id * sub) q => if written incl p (fst e) then add_sub (snd (fst e)) (s_pose (sp p (fst e))) q else q).
  assert (Hs : forall e q, tp_id (fs e q) = tp_id q) by (intros e q; unfold fs; destruct (written incl p (fst e)); reflexivity).
  destruct (folded_ids (fun e : id * sub => fst (fst e)) fs Hs (entries (subs g)) [] (NoDup_nil _)) as [N1 I1].
  fold trajs1 in *.
  set (fn := fun (e : id * unit) => add_node (snd (fst e)) (n_pose (np p (fst e)))).
  assert (Hn : forall e q, tp_id (fn e q) = tp_id q) by (intros e q; reflexivity).
  destruct (folded_ids (fun e : id * unit => fst (fst e)) fn Hn (entries (nodes g)) _ N1) as [N2 I2].
  assert (L : forall q, In q trajs2 -> q = mk_tp (tp_id q)
     (map (sub_entry p) (filter (fun s => fst s =? tp_id q) W)) (map (node_entry p) (filter (fun s => fst s =? tp_id q) N))).
  { intros q I. rewrite <- (look_In _ _ N2 I) at 1. rewrite (folded_look _ _ Hn).
    unfold fn. rewrite fold_nodes. unfold trajs1. rewrite (folded_look _ _ Hs). unfold fs. rewrite fold_subs. reflexivity. }
  split; cbn [gp_trajs gp_cons gp_landmarks].
  - exact N2.
  - intros t. etransitivity; [exact (I2 t)|]. rewrite I1. unfold mentioned. cbn.
    assert (M : forall D (m : mbi D), wf m -> In t (map (fun e : id * D => fst (fst e)) (entries m)) <-> exists j, stored (t, j) m).
    { intros D m Wm. rewrite in_map_iff. split.
      - intros ([[a b] v] & <- & I). exists b. apply ids_In; [exact Wm|]. apply in_map_iff. exists ((a, b), v). auto.
      - intros (j & St). apply ids_In in St; [|exact Wm]. apply in_map_iff in St as (e & E & I). exists e. rewrite E. auto. }
    rewrite !M by assumption. firstorder.
  - intros q I. now rewrite (L q I) at 1.
  - intros q I. now rewrite (L q I) at 1.
  - clear L. assert (Cs : forall e, In e (cons_vals p) -> In (c_sub (fst e)) (ids_of (subs g))).
    { intros e I. apply ids_In; [exact Ws|]. apply In1. rewrite <- Ec. now apply in_map. }
    clear Ec. induction (cons_vals p) as [|e l IH]; [reflexivity|]. cbn [filter].
    assert (H : incl || negb (mem (c_sub (fst e)) (filter (fun s => negb (written incl p s)) (map fst (entries (subs g))))) =
                written incl p (c_sub (fst e))).
    { unfold written. destruct incl; [reflexivity|]. cbn [orb]. destruct (s_finished (sp p (c_sub (fst e)))) eqn:Fi.
      - assert (Mf : mem (c_sub (fst e)) (filter (fun s => negb (s_finished (sp p s))) (map fst (entries (subs g)))) = false).
        { apply mem_false. intros I. apply filter_In in I as [_ I]. rewrite Fi in I. discriminate. }
        now rewrite Mf.
      - assert (Mt : mem (c_sub (fst e)) (filter (fun s => negb (s_finished (sp p s))) (map fst (entries (subs g)))) = true).
        { apply mem_spec. apply filter_In. split; [apply Cs; now left|]. now rewrite Fi. }
        now rewrite Mt. }
    rewrite H. rewrite IH; [reflexivity|]. intros e' I. apply Cs. now right.
  - reflexivity.
Qed.
End W.
