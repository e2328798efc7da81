From Coq Require Import List ZArith Bool Lia.
From Verif Require Import ZMap MapById_Model MapById_Spec MapById_Proofs PG_Model PG_Maps PG_Spec.
Import ListNotations.
Open Scope Z_scope.

Ltac ob H :=
  match type of H with
  | bind ?e _ = Some _ => let E := fresh "E" in destruct e eqn:E; [cbn [bind] in H | discriminate H]
  | (if ?b then _ else None) = Some _ => let E := fresh "E" in destruct b eqn:E; [| discriminate H]
  | (let _ := _ in _) = Some _ => cbv zeta in H
  | Some _ = Some _ => injection H as H
  end.

Record wfg (g : graph) : Prop := {
  w_subs : wf (subs g); w_nodes : wf (nodes g); w_osubs : wf (osubs g);
  w_onodes : wf (onodes g); w_gposes : wf (gposes g) }.
Record inv (g : graph) : Prop := {
  i_wf : wfg g;
  i_int : integrity g;
  i_search : forall s n, In (s, n) (searches g) -> stored s (subs g) /\ stored n (nodes g) }.

Lemma has_stored {D} x (m : mbi D) : has x m = true <-> stored x m.
Proof. apply has_get_ne. Qed.
Lemma get_stored {D} x (m : mbi D) v : get x m = Some v -> stored x m.
Proof. unfold stored, get. congruence. Qed.

(* changes that keep what is stored *)
Definition keeps {D} (m m' : mbi D) : Prop := forall x, stored x m -> stored x m'.
Lemma keeps_refl {D} (m : mbi D) : keeps m m.
Proof. intros x; auto. Qed.
Lemma keeps_put {D} (m m' : mbi D) x v :
  (forall y, get y m' = if id_eqb y x then Some v else get y m) -> keeps m m'.
Proof.
  intros H y. unfold stored. fold (get y m). fold (get y m'). rewrite H.
  destruct (id_eqb y x); [discriminate | auto].
Qed.

(* a step that keeps what is stored and adds recorded nodes, constraints and searches only for
   stored ones *)
Lemma inv_grow g g' : inv g -> wfg g' -> keeps (subs g) (subs g') -> keeps (nodes g) (nodes g') ->
  (forall c, In c (constraints g') -> In c (constraints g) \/
     (stored (c_node c) (nodes g') /\ stored (c_sub c) (subs g'))) ->
  (forall s n, recorded g' s n -> recorded g s n \/ stored n (nodes g')) ->
  (forall s n, In (s, n) (searches g') -> In (s, n) (searches g) \/
     (stored s (subs g') /\ stored n (nodes g'))) -> inv g'.
Proof.
  intros [W [IC IN] IS] W' Ks Kn Hc Hr Hs. split; [exact W'| split |].
  - intros c I. destruct (Hc c I) as [I'|]; [|assumption]. destruct (IC c I'). auto.
  - intros s n R. destruct (Hr s n R) as [R'|]; [|assumption]. apply Kn. eauto.
  - intros s n I. destruct (Hs s n I) as [I'|]; [|assumption]. destruct (IS s n I'). auto.
Qed.

Lemma recorded_same g g' : subs g' = subs g -> forall s n, recorded g' s n -> recorded g s n.
Proof. intros E s n. unfold recorded. now rewrite E. Qed.

Ltac grow I := apply (inv_grow _ _ I); cbn;
  [ destruct (i_wf _ I); constructor; cbn; auto | try apply keeps_refl | try apply keeps_refl
  | auto | try (now left) | auto].

Lemma inv_trajs g v : inv g -> inv (set_trajs v g).
Proof. intros I. now grow I. Qed.
Lemma inv_added g v : inv g -> inv (set_added v g).
Proof. intros I. now grow I. Qed.
Lemma inv_initial g v : inv g -> inv (set_initial v g).
Proof. intros I. now grow I. Qed.
Lemma inv_trimmers g v : inv g -> inv (set_trimmers v g).
Proof. intros I. now grow I. Qed.
Lemma inv_counts g a b c : inv g -> inv (set_since a (set_num_finished b (set_num_nodes c g))).
Proof. intros I. now grow I. Qed.
Lemma inv_osubs g v : inv g -> wf v -> inv (set_osubs v g).
Proof. intros I W. now grow I. Qed.
Lemma inv_onodes g v : inv g -> wf v -> inv (set_onodes v g).
Proof. intros I W. now grow I. Qed.
Lemma inv_gposes g v : inv g -> wf v -> inv (set_gposes v g).
Proof. intros I W. now grow I. Qed.
Lemma inv_nodes g v : inv g -> wf v -> keeps (nodes g) v -> inv (set_nodes v g).
Proof. intros I W K. grow I. exact K. Qed.
Lemma inv_constraint g c : inv g -> stored (c_node c) (nodes g) -> stored (c_sub c) (subs g) ->
  inv (set_constraints (constraints g ++ [c]) g).
Proof.
  intros I A B. grow I. intros c' J. apply in_app_or in J as [J | [<- | []]]; auto.
Qed.
Lemma inv_constraints g l : inv g ->
  (forall c, In c l -> stored (c_node c) (nodes g) /\ stored (c_sub c) (subs g)) ->
  inv (set_constraints (constraints g ++ l) g).
Proof. intros I A. grow I. intros c' J. apply in_app_or in J as [J | J]; auto. Qed.
Lemma inv_search g s n : inv g -> stored s (subs g) -> stored n (nodes g) ->
  inv (set_searches (searches g ++ [(s, n)]) g).
Proof.
  intros I A B. grow I. intros a b J. apply in_app_or in J as [J | [[= <- <-] | []]]; auto.
Qed.
Lemma inv_no_searches g : inv g -> inv (set_searches [] g).
Proof. intros I. grow I. contradiction. Qed.

(* a new or changed submap *)
Lemma inv_sub g v x d : inv g -> wf v ->
  (forall y, get y v = if id_eqb y x then Some d else get y (subs g)) ->
  (forall n, In n (nids d) -> recorded g x n \/ stored n (nodes g)) ->
  inv (set_subs v g).
Proof.
  intros I W G R. grow I; [now apply keeps_put with (1 := G)|].
  intros s n (d' & E & J). cbn in E. fold (get s v) in E. rewrite G in E.
  destruct (id_eqb_spec s x) as [-> | N].
  - injection E as <-. destruct (R n J); auto.
  - left. exists d'. auto.
Qed.

Lemma inv_add_trajectory g t g' : inv g -> add_trajectory t g = Some g' ->
  inv g' /\ subs g' = subs g /\ nodes g' = nodes g.
Proof.
  intros I. unfold add_trajectory. destruct (traj_state t g) as [[] []]; try discriminate;
    intros [= <-]; (split; [now apply inv_added, inv_trajs | auto]).
Qed.

Lemma inv_append_node g t objs n g' : inv g -> append_node t objs g = Some (n, g') ->
  inv g' /\ stored n (nodes g').
Proof.
  intros I H. unfold append_node in H. destruct (rev objs) as [|o l]; [discriminate|].
  ob H. ob H. ob H. cbv zeta in H. rename g0 into g1.
  destruct (inv_add_trajectory _ _ _ I E) as (I1 & _ & _).
  destruct p as [x m]. cbn [fst snd] in H.
  pose proof (append_get (nodes g1) t tt (w_nodes _ (i_wf _ I1))) as A. rewrite E1 in A.
  destruct A as (Wm & _ & _ & _ & G & _).
  set (g2 := set_num_nodes (num_nodes g1 + 1) (set_nodes m g1)) in *.
  assert (I2 : inv g2).
  { change g2 with (set_since (since_closure g1) (set_num_finished (num_finished g1) g2)).
    apply inv_counts. apply inv_nodes; auto. now apply keeps_put with (1 := G). }
  assert (S : stored x (nodes g2)).
  { unfold stored. cbn. fold (get x m). rewrite G, id_eqb_refl. discriminate. }
  match type of H with (if ?b then _ else _) = _ => destruct b end.
  - ob H. injection H as <- <-. destruct p as [y ms]. cbn [snd].
    pose proof (append_get (subs g2) t (mk_sub o false []) (w_subs _ (i_wf _ I2))) as B.
    rewrite E2 in B. destruct B as (Wms & _ & _ & _ & Gs & _). split; [|exact S].
    eapply inv_sub; [exact I2 | exact Wms | exact Gs | contradiction].
  - injection H as <- <-. auto.
Qed.

Lemma inv_call g c g' its : inv g -> do_call c g = Some (g', its) -> inv g'.
Proof.
  intros I H. destruct c; cbn [do_call] in H.
  - ob H. ob H. injection H as <- <-. destruct p as [x gx]. cbn.
    now apply (inv_append_node _ _ _ _ _ I E0).
  - now injection H as <- <-.
  - destruct (zfind t (trajs g)) as [[s ds]|]; injection H as <- <-; auto using inv_trajs.
  - now injection H as <- <-.
  - injection H as <- <-. now apply inv_added.
  - ob H. ob H. ob H. ob H. injection H as <- <-. rename g0 into g1.
    destruct (inv_add_trajectory _ _ _ I E) as (I1 & _ & _).
    pose proof (insert_get (subs g1) (fst s) (snd s) (mk_sub o false []) (w_subs _ (i_wf _ I1))) as A.
    rewrite E1 in A. destruct A as (Wm & _ & _ & _ & G & _). rewrite <- surjective_pairing in G.
    pose proof (insert_get (gposes g1) (fst s) (snd s) tt (w_gposes _ (i_wf _ I1))) as B.
    rewrite E2 in B. destruct B as (Wp & _).
    apply inv_gposes; [|exact Wp]. eapply inv_sub; [exact I1 | exact Wm | exact G | contradiction].
  - ob H. ob H. ob H. injection H as <- <-. rename g0 into g1.
    destruct (inv_add_trajectory _ _ _ I E) as (I1 & _ & _).
    pose proof (insert_get (nodes g1) (fst n) (snd n) tt (w_nodes _ (i_wf _ I1))) as A.
    rewrite E1 in A. destruct A as (Wm & _ & _ & _ & G & _). apply inv_nodes; auto.
    now apply keeps_put with (1 := G).
  - now injection H as <- <-.
  - now injection H as <- <-.
  - destruct tr; [ob H|]; now injection H as <- <-.
  - now injection H as <- <-.
  - now injection H as <- <-.
  - injection H as <- <-. now apply inv_initial.
  - ob H. now injection H as <- <-.
  - ob H. now injection H as <- <-.
Qed.

Lemma inv_compute v n s g g' : inv g -> compute_constraint v n s g = Some g' ->
  inv g' /\ subs g' = subs g /\ nodes g' = nodes g /\ onodes g' = onodes g.
Proof.
  intros I H. unfold compute_constraint in H. destruct (get s (subs g)) as [d|] eqn:G; [|discriminate].
  ob H. destruct (v_skip v); [injection H as <-; auto|]. ob H. ob H. injection H as <-.
  unfold latest_ok in E0. apply andb_true_iff in E0 as [Hn _]. apply has_stored in Hn.
  destruct (v_search v); [|auto]. split; [|auto]. apply inv_search; auto. eapply get_stored; eauto.
Qed.
Lemma inv_compute_all o l : forall g g', inv g -> compute_all o l g = Some g' ->
  inv g' /\ subs g' = subs g /\ nodes g' = nodes g /\ onodes g' = onodes g.
Proof.
  induction l as [|[n s] l IH]; intros g g' I H; cbn in H; [injection H as <-; auto|].
  ob H. destruct (inv_compute _ _ _ _ _ I E) as (I1 & A & B & C).
  destruct (IH _ _ I1 H) as (I2 & A2 & B2 & C2). split; [exact I2|]. repeat split; congruence.
Qed.

Lemma inv_initialize t objs g ss g' : inv g -> initialize_poses t objs g = Some (ss, g') ->
  inv g' /\ subs g' = subs g /\ nodes g' = nodes g.
Proof.
  intros I H. unfold initialize_poses in H. destruct objs as [|o1 [|o2 [|o3 l]]]; try discriminate.
  - ob H. ob H. ob H. ob H. injection H as <- <-. destruct (mbi_traj_size t (osubs g) =? 0)%nat.
    + ob E. ob E. ob E. injection E as <-. split; [|auto].
      pose proof (append_get (osubs g) t tt (w_osubs _ (i_wf _ I))) as A. rewrite E5 in A.
      destruct p as [x m]. now apply inv_osubs.
    + injection E as <-. auto.
  - destruct (last_id t (osubs g)) as [last|]; [|discriminate]. ob H. destruct b.
    + ob H. injection H as <- <-. split; [|auto].
      pose proof (append_get (osubs g) t tt (w_osubs _ (i_wf _ I))) as A. rewrite E0 in A.
      destruct p as [x m]. now apply inv_osubs.
    + ob H. ob H. ob H. ob H. injection H as <- <-. auto.
Qed.

Lemma recorded_iff g s n : recorded g s n <-> exists d, get s (subs g) = Some d /\ In n (nids d).
Proof. reflexivity. Qed.

Lemma inv_insert n ss : forall g g', inv g -> stored n (nodes g) -> insert_node n ss g = Some g' ->
  inv g' /\ nodes g' = nodes g.
Proof.
  induction ss as [|s ss IH]; intros g g' I S H; cbn [insert_node] in H; [injection H as <-; auto|].
  ob H. ob H. ob H.
  pose proof (upd_get (subs g) s (fun d => mk_sub (obj d) (fin d) (set_add n (nids d)))
                (w_subs _ (i_wf _ I))) as U. rewrite E1 in U.
  destruct U as (Wm & (v & Gv & G) & _).
  assert (I1 : inv (set_subs m g)).
  { eapply inv_sub; [exact I | exact Wm | exact G|]. cbn. intros k J. apply set_add_In in J as [-> | J]; auto.
    left. exists v. auto. }
  apply IH in H; [exact H | |exact S].
  change (constraints g) with (constraints (set_subs m g)). apply inv_constraint; auto.
  cbn. unfold stored. fold (get s m). rewrite G, id_eqb_refl. discriminate.
Qed.

Lemma inv_node every_n o n objs newly g g' b : inv g ->
  node_item every_n o n objs newly g = Some (g', b) -> inv g'.
Proof.
  intros I H. unfold node_item in H. ob H. ob H. cbv zeta in H. destruct p as [ss g1]. cbn [fst snd] in H.
  destruct (inv_initialize _ _ _ _ _ I E0) as (I1 & A1 & B1).
  destruct ss as [|front ss]; [discriminate|]. ob H. ob H. ob H. rename g0 into g2.
  destruct p as [x mo]. cbn [snd] in E3.
  pose proof (append_get (onodes g1) (fst front) tt (w_onodes _ (i_wf _ I1))) as A.
  rewrite E2 in A. destruct A as (Wo & _).
  destruct (inv_insert n (front :: ss) _ _ (inv_onodes _ _ I1 Wo)
              ltac:(cbn; rewrite B1; now apply has_stored) E3) as (I2 & B2).
  cbv zeta in H. ob H. ob H. destruct p as [g3 ids]. cbn [fst snd] in H.
  assert (I3 : inv g3).
  { destruct newly; [|now injection E5 as <- <-]. ob E5. ob E5. ob E5. injection E5 as <- <-.
    pose proof (upd_get (subs g2) front (fun d => mk_sub (obj d) true (nids d))
                  (w_subs _ (i_wf _ I2))) as U. rewrite E8 in U.
    destruct U as (Wm & (v & Gv & G) & _).
    eapply inv_sub; [exact I2 | exact Wm | exact G |]. cbn. intros k J. left. exists v. auto. }
  ob H. ob H. injection H as <- <-.
  destruct (inv_compute_all _ _ _ _ I3 E6) as (I4 & _).
  assert (I5 : inv g4).
  { destruct newly; [|now injection E7 as <-]. now apply (inv_compute_all _ _ _ _ I4 E7). }
  change (inv (set_since (since_closure g4 + 1) (set_num_finished (num_finished g4 + 1)
                 (set_num_nodes (num_nodes g4) g4)))). now apply inv_counts.
Qed.

Lemma inv_add_constraints l : forall g g', inv g -> add_constraints l g = Some g' -> inv g'.
Proof.
  induction l as [|c l IH]; intros g g' I H; cbn [add_constraints] in H; [now injection H as <-|].
  ob H. ob H. ob H. rename g0 into g1.
  assert (K : inv g1 /\ nodes g1 = nodes g /\ stored (c_sub c) (subs g1)).
  { apply get_stored in E0. destruct (c_inter c).
    - ob E1. ob E1. injection E1 as <-. auto.
    - ob E1. ob E1. injection E1 as <-. cbn.
      pose proof (upd_get (subs g) (c_sub c) (fun d => mk_sub (obj d) (fin d) (set_add (c_node c) (nids d)))
                    (w_subs _ (i_wf _ I))) as U. rewrite E3 in U.
      destruct U as (Wm & (v & Gv & G) & _). split; [|split; [reflexivity|]].
      + eapply inv_sub; [exact I | exact Wm | exact G |]. cbn. intros k J.
        apply set_add_In in J as [-> | J]; [right; now apply has_stored|]. left. exists v. auto.
      + unfold stored. fold (get (c_sub c) m). rewrite G, id_eqb_refl. discriminate. }
  destruct K as (I1 & N & S). eapply IH; [|exact H]. apply inv_constraint; auto.
  rewrite N. now apply has_stored.
Qed.

Lemma inv_exec every_n o i g g' b : inv g ->
  (match i with INodeToSubmap n _ => stored n (nodes g) | _ => True end) ->
  exec every_n o i g = Some (g', b) -> inv g'.
Proof.
  intros I T H. destruct i; cbn [exec] in H.
  - eapply inv_node; eauto.
  - ob H. now injection H as <- <-.
  - destruct (zfind t (trajs g)) as [[[] []]|]; try discriminate; injection H as <- <-; now apply inv_trajs.
  - ob H. injection H as <- <-.
    destruct (finish_submaps_get (subs g) t (w_subs _ (i_wf _ I))) as (W & G & _).
    pose proof (inv_trajs _ (zput t (Finished, snd (traj_state t g)) (trajs g)) I) as I1.
    apply (inv_grow _ _ I1); cbn; auto using keeps_refl.
    + destruct (i_wf _ I). constructor; auto.
    + intros y. unfold stored. fold (get y (subs g)). fold (get y (finish_submaps t (subs g))).
      rewrite G. destruct (fst y =? t); [|auto]. destruct (get y (subs g)); [discriminate | auto].
    + intros s n (d & E1 & J). cbn in E1. fold (get s (finish_submaps t (subs g))) in E1. rewrite G in E1.
      left. destruct (fst s =? t); [|exists d; auto].
      destruct (get s (subs g)) as [d0|] eqn:Q; [|discriminate]. injection E1 as <-. exists d0. auto.
  - ob H. ob H. injection H as <- <-. now apply inv_trajs.
  - ob H. ob H. injection H as <- <-.
    pose proof (upd_get (subs g) s (fun d => mk_sub (obj d) true (nids d)) (w_subs _ (i_wf _ I))) as U.
    rewrite E in U. destruct U as (Wm & (v & Gv & G) & _).
    pose proof (insert_get (osubs g) (fst s) (snd s) tt (w_osubs _ (i_wf _ I))) as B. rewrite E0 in B.
    destruct B as (Wp & _). apply inv_osubs; [|exact Wp].
    eapply inv_sub; [exact I | exact Wm | exact G |]. cbn. intros k J. left. exists v. auto.
  - ob H. ob H. injection H as <- <-.
    pose proof (insert_get (onodes g) (fst n) (snd n) tt (w_onodes _ (i_wf _ I))) as B. rewrite E0 in B.
    destruct B as (Wp & _). now apply inv_onodes.
  - ob H. ob H. injection H as <- <-.
    pose proof (upd_get (subs g) s (fun d => mk_sub (obj d) (fin d) (set_add n (nids d)))
                  (w_subs _ (i_wf _ I))) as U. rewrite E0 in U.
    destruct U as (Wm & (v & Gv & G) & _).
    eapply inv_sub; [exact I | exact Wm | exact G |]. cbn. intros k J.
    apply set_add_In in J as [-> | J]; auto. left. exists v. auto.
  - ob H. injection H as <- <-. eapply inv_add_constraints; eauto.
  - injection H as <- <-. now apply inv_trimmers.
  - now injection H as <- <-.
  - now injection H as <- <-.
Qed.

Lemma inv_optimize g g' : inv g -> run_optimization g = Some g' -> inv g'.
Proof.
  intros I H. unfold run_optimization in H. destruct (entries (osubs g)); [now injection H as <-|].
  ob H. ob H. ob H. injection H as <-. apply inv_gposes; [exact I | apply (w_osubs _ (i_wf _ I))].
Qed.
