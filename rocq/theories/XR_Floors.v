From Coq Require Import ZArith Reals List Bool Lra Lia Permutation.
From Verif Require Import CF_Model RG_Model IG_Model IG_Proofs Vec MG_Spec XR_Model XR_Spec XR_Proofs XR_Xray.
Import ListNotations.
Open Scope R_scope.

Definition kept (floors : list (list (Z * Z))) (k : nat) (b : Z * list xpoint) : bool :=
  match floors with [] => true | _ => match nth_error floors k with Some f => contained_in (fst b) f | None => false end end.
Lemma contained_ok t f : contained_in t f = true <-> exists s, In s f /\ (fst s <= t <= snd s)%Z.
Proof.
  unfold contained_in. rewrite existsb_exists. split; intros [s [I K]]; exists s; split; try exact I.
  - apply andb_true_iff in K. rewrite !Z.leb_le in K. lia.
  - apply andb_true_iff. rewrite !Z.leb_le. lia.
Qed.
Lemma kept_ok floors k b : kept floors k b = true <-> on_floor floors k (fst b).
Proof.
  unfold kept, on_floor. destruct floors as [|f0 floors]; [tauto|]. assert (NE : f0 :: floors <> []) by discriminate. set (fl := f0 :: floors) in *. clearbody fl.
  destruct (nth_error fl k) as [f|] eqn:E.
  - rewrite contained_ok. split.
    + intros [s [I K]]. right. exists f, s. auto.
    + intros [H | [f' [s [[= <-] [I K]]]]]; [congruence|]. exists s. auto.
  - split; [discriminate|]. intros [H | [f' [s [H _]]]]; [congruence | discriminate].
Qed.
Definition kept_points floors k batches : list xpoint := flat_map (fun b => if kept floors k b then snd b else []) batches.
Lemma shown_kept floors k batches pts : shown floors k batches pts <-> pts = kept_points floors k batches.
Proof.
  split.
  - intros [keep [K ->]]. unfold kept_points. apply flat_map_ext. intros b. replace (keep b) with (kept floors k b); [reflexivity|]. apply eq_true_iff_eq. now rewrite kept_ok, K.
  - intros ->. exists (kept floors k). split; [intros b; apply kept_ok | reflexivity].
Qed.
Lemma kept_snoc floors k batches b : kept_points floors k (batches ++ [b]) = kept_points floors k batches ++ (if kept floors k b then snd b else []).
Proof. unfold kept_points. rewrite flat_map_app. cbn [flat_map]. now rewrite app_nil_r. Qed.

Definition cols_of (pts : list xpoint) : list (Z * Z) := map (fun p => snd (fst p)) pts.
Lemma floors_ok t pts : forall floors aggs b, length floors = length aggs -> exists aggs' b', process_floors floors aggs b t pts = Some (aggs', b') /\
  length aggs' = length aggs /\
  (forall k f a, nth_error floors k = Some f -> nth_error aggs k = Some a -> nth_error aggs' k = Some (if contained_in t f then fold_left add_point pts a else a)) /\
  forall P, box_ok b P -> box_ok b' (fun c => P c \/ exists k f, nth_error floors k = Some f /\ contained_in t f = true /\ In c (cols_of pts)).
Proof.
  induction floors as [|f floors IH]; intros [|a aggs] b L; try discriminate.
  - exists [], b. split; [reflexivity|]. split; [reflexivity|]. split; [intros [|k]; discriminate|]. intros P. apply box_iff. intros c. split; [tauto|]. intros [H | [[|k] [f [H _]]]]; [exact H | discriminate | discriminate].
  - cbn [process_floors]. unfold insert_batch.
    assert (Q : exists b1, (if contained_in t f then fold_left insert_point pts (a, b) else (a, b)) = (if contained_in t f then fold_left add_point pts a else a, b1) /\
      forall P, box_ok b P -> box_ok b1 (fun c => P c \/ contained_in t f = true /\ In c (cols_of pts))).
    { destruct (contained_in t f).
      - rewrite insert_split. eexists. split; [reflexivity|]. intros P H. eapply box_iff; [|exact (extend_all (cols_of pts) _ _ H)]. intros c. cbn beta. tauto.
      - exists b. split; [reflexivity|]. intros P. apply box_iff. intros c. split; [tauto|]. intros [H | [H _]]; [exact H | discriminate]. }
    destruct Q as [b1 [-> B1]]. destruct (IH aggs b1 ltac:(now injection L)) as [aggs' [b' [E [L' [G B]]]]]. rewrite E. exists ((if contained_in t f then fold_left add_point pts a else a) :: aggs'), b'.
    split; [reflexivity|]. split; [cbn [length]; congruence|]. split.
    + intros [|k] g x; cbn [nth_error]; [intros [= <-] [= <-]; reflexivity | apply G].
    + intros P H. eapply box_iff; [|exact (B _ (B1 P H))]. intros c. cbn beta. split.
      * intros [[H' | [H1 H2]] | [k [g [H1 H2]]]]; [now left | right; now exists 0%nat, f | right; now exists (S k), g].
      * intros [H' | [[|k] [g [H1 H2]]]]; [tauto | injection H1 as <-; left; right; exact H2 | right; now exists k, g].
Qed.
Definition pictures (floors : list (list (Z * Z))) : nat := match floors with [] => 1 | _ => length floors end.
Lemma run_ok floors batches : exists aggs box, xrun floors batches = Some (aggs, box) /\ length aggs = pictures floors /\
  (forall k, (k < pictures floors)%nat -> nth_error aggs k = Some (gathered (kept_points floors k batches))) /\
  box_ok box (fun c => exists k, (k < pictures floors)%nat /\ In c (cols_of (kept_points floors k batches))).
Proof.
  induction batches as [|b batches IH] using rev_ind.
  - unfold xrun. cbn [fold_left]. unfold xinit. eexists _, _. split; [reflexivity|]. split; [rewrite map_length; destruct floors; reflexivity|]. split.
    + intros k K. rewrite nth_error_map. assert (K' : (k < length (match floors with [] => [[]] | _ => floors end))%nat) by (destruct floors; exact K).
      destruct (nth_error _ k) as [f|] eqn:E; [reflexivity|]. apply nth_error_None in E. lia.
    + intros c [k [_ []]].
  - destruct IH as [aggs [box [E [L [G B]]]]]. unfold xrun in *. rewrite fold_left_app, E. cbn [fold_left]. unfold xprocess. cbn [fst snd]. destruct floors as [|f0 floors].
    + cbn [pictures] in *. destruct aggs as [|a [|? ?]]; try discriminate L. specialize (G 0%nat ltac:(lia)). injection G as ->. unfold insert_batch. rewrite insert_split.
      eexists _, _. split; [reflexivity|]. split; [reflexivity|]. split.
      * intros [|k] K; [|lia]. cbn [nth_error]. rewrite kept_snoc. cbn [kept]. unfold gathered. now rewrite fold_left_app.
      * eapply box_iff; [|exact (extend_all (cols_of (snd b)) _ _ B)]. intros c. cbn beta. split.
        -- intros [[k [K I]] | I]; exists 0%nat; (split; [lia|]); rewrite kept_snoc; cbn [kept]; unfold cols_of; rewrite map_app, in_app_iff; [left; now replace 0%nat with k by lia | now right].
        -- intros [k [K I]]. rewrite kept_snoc in I. cbn [kept] in I. unfold cols_of in I. rewrite map_app, in_app_iff in I. destruct I as [I | I]; [left; now exists k | now right].
    + set (fl := f0 :: floors) in *. change (pictures fl) with (length fl) in *. destruct (floors_ok (fst b) (snd b) fl aggs box ltac:(congruence)) as [aggs' [b' [E' [L' [G' B']]]]].
      rewrite E'. exists aggs', b'. split; [reflexivity|]. split; [congruence|].
      assert (KP : forall k f, nth_error fl k = Some f -> kept fl k b = contained_in (fst b) f) by (intros k f F; unfold kept, fl in *; now rewrite F).
      split.
      * intros k K. destruct (nth_error fl k) as [f|] eqn:F; [|apply nth_error_None in F; lia]. rewrite (G' k f _ F (G k K)), kept_snoc, (KP k f F). f_equal.
        unfold gathered. destruct (contained_in (fst b) f); [now rewrite fold_left_app | now rewrite app_nil_r].
      * eapply box_iff; [|exact (B' _ B)]. intros c. cbn beta. split.
        -- intros [[k [K I]] | [k [f [F [C I]]]]]; exists k.
           ++ split; [exact K|]. rewrite kept_snoc. unfold cols_of. rewrite map_app, in_app_iff. now left.
           ++ split; [apply nth_error_Some; congruence|]. rewrite kept_snoc, (KP k f F), C. unfold cols_of. rewrite map_app, in_app_iff. now right.
        -- intros [k [K I]]. rewrite kept_snoc in I. unfold cols_of in I. rewrite map_app, in_app_iff in I. destruct I as [I | I]; [left; now exists k|].
           destruct (nth_error fl k) as [f|] eqn:F; [|apply nth_error_None in F; lia]. rewrite (KP k f F) in I. destruct (contained_in (fst b) f) eqn:C; [|destruct I]. right. now exists k, f.
Qed.
