From Coq Require Import ZArith Reals List Bool Lra Lia Permutation.
From Verif Require Import CF_Model RG_Model IG_Model IG_Proofs Vec MG_Spec XR_Model XR_Spec XR_Proofs.
Import ListNotations.
Open Scope R_scope.

Lemma column_eqb_eq a b : column_eqb a b = true <-> a = b.
Proof. destruct a, b. unfold column_eqb. cbn [fst snd]. rewrite andb_true_iff, !Z.eqb_eq. split; [intros [-> ->]; reflexivity | intros [= -> ->]; auto]. Qed.
Lemma cell3_eqb_eq a b : cell3_eqb a b = true <-> a = b.
Proof. destruct a as [a1 [a2 a3]], b as [b1 [b2 b3]]. unfold cell3_eqb. cbn [fst snd]. rewrite !andb_true_iff, !Z.eqb_eq. split; [intros [-> [-> ->]]; reflexivity | intros [= -> -> ->]; auto]. Qed.
Lemma column_eqb_refl a : column_eqb a a = true.
Proof. now apply column_eqb_eq. Qed.

(* insertion *)
Definition add_point (a : aggregation) (p : xpoint) : aggregation := fst (insert_point (a, None) p).
Definition gathered (pts : list xpoint) : aggregation := fold_left add_point pts new_agg.
Lemma insert_split pts : forall a b, fold_left insert_point pts (a, b) = (fold_left add_point pts a, fold_left extend_box (map (fun p => snd (fst p)) pts) b).
Proof. induction pts as [|p pts IH]; intros a b; [reflexivity|]. cbn [fold_left map]. unfold insert_point at 2. rewrite IH. reflexivity. Qed.
Lemma gathered_snoc pts p : gathered (pts ++ [p]) = add_point (gathered pts) p.
Proof. unfold gathered. now rewrite fold_left_app. Qed.
Lemma gathered_voxels pts : NoDup (a_voxels (gathered pts)) /\ forall v, In v (a_voxels (gathered pts)) <-> In v (map fst pts).
Proof.
  induction pts as [|p pts [N I]] using rev_ind; [split; [constructor | intros v; reflexivity]|]. rewrite gathered_snoc. unfold add_point. cbn [insert_point fst a_voxels].
  destruct (existsb (cell3_eqb (fst p)) (a_voxels (gathered pts))) eqn:E.
  - split; [exact N|]. intros v. rewrite map_app, in_app_iff, I. cbn [map In]. split; [tauto|]. intros [H | [<- | []]]; [exact H|].
    apply existsb_exists in E. destruct E as [u [U Q]]. apply cell3_eqb_eq in Q. subst u. now apply I.
  - assert (X : ~ In (fst p) (a_voxels (gathered pts))) by (intros X; assert (Y : existsb (cell3_eqb (fst p)) (a_voxels (gathered pts)) = true) by (apply existsb_exists; exists (fst p); split; [exact X | now apply cell3_eqb_eq]); congruence).
    split; [apply (Permutation_NoDup (l := fst p :: a_voxels (gathered pts))); [apply Permutation_cons_append | now constructor]|].
    intros v. rewrite map_app, !in_app_iff, I. cbn [map In]. reflexivity.
Qed.
Lemma find_add l c color d : find_column (add_column l c color) d =
  if column_eqb d c then Some (match find_column l c with None => (vadd (mk_vec3 0 0 0) color, 1%nat) | Some (s, n) => (vadd s color, S n) end) else find_column l d.
Proof.
  induction l as [|[e [s n]] l IH]; cbn [add_column find_column]; [destruct (column_eqb d c); reflexivity|].
  destruct (column_eqb c e) eqn:E; cbn [find_column].
  - apply column_eqb_eq in E. subst e. destruct (column_eqb d c); reflexivity.
  - rewrite IH. destruct (column_eqb d e) eqn:D; [|reflexivity]. apply column_eqb_eq in D. subst e. destruct (column_eqb d c) eqn:Q; [|reflexivity].
    apply column_eqb_eq in Q. subst d. now rewrite column_eqb_refl in E.
Qed.
Definition sum_color (pts : list xpoint) : vec3 R := mk_vec3 (total (fun p => v0 (snd p)) pts) (total (fun p => v1 (snd p)) pts) (total (fun p => v2 (snd p)) pts).
Lemma total_app {A} (f : A -> R) l r : total f (l ++ r) = total f l + total f r.
Proof. induction l as [|a l IH]; cbn [app total]; lra. Qed.
Lemma column_snoc c pts p : column c (pts ++ [p]) = if column_eqb (snd (fst p)) c then column c pts ++ [p] else column c pts.
Proof. unfold column. rewrite filter_app. cbn [filter]. destruct (column_eqb _ _); [reflexivity | apply app_nil_r]. Qed.
Lemma gathered_columns pts c : find_column (a_columns (gathered pts)) c = match column c pts with [] => None | l => Some (sum_color l, length l) end.
Proof.
  revert c. induction pts as [|p pts IH] using rev_ind; intros c; [reflexivity|]. rewrite gathered_snoc. unfold add_point. cbn [insert_point fst a_columns].
  rewrite find_add, column_snoc. replace (column_eqb (snd (fst p)) c) with (column_eqb c (snd (fst p))) by (apply eq_true_iff_eq; rewrite !column_eqb_eq; split; congruence).
  destruct (column_eqb c (snd (fst p))) eqn:E; [|apply IH]. apply column_eqb_eq in E. rewrite <- E, IH. destruct (column c pts) as [|q l] eqn:C; cbn [app].
  - f_equal. f_equal. unfold sum_color, vadd. cbn [total v0 v1 v2]. f_equal; lra.
  - f_equal. f_equal; [|cbn [length]; rewrite app_length; cbn [length]; lia]. unfold sum_color, vadd. cbn [total v0 v1 v2]. rewrite !total_app. cbn [total]. f_equal; lra.
Qed.
Lemma thickness_voxels pts c : length (filter (fun v : cell3 => column_eqb (snd v) c) (a_voxels (gathered pts))) = thickness c pts.
Proof.
  destruct (gathered_voxels pts) as [N I]. unfold thickness. apply Permutation_length, NoDup_Permutation; [now apply NoDup_filter | apply NoDup_nodup|].
  intros v. rewrite filter_In, nodup_In, I, !in_map_iff. unfold column. split.
  - intros [[p [<- P]] E]. exists p. split; [reflexivity|]. now apply filter_In.
  - intros [p [<- P]]. apply filter_In in P. destruct P as [P E]. split; [now exists p | exact E].
Qed.
Lemma thickness_zero pts c : thickness c pts = 0%nat <-> column c pts = [].
Proof.
  unfold thickness. split; [|intros ->; reflexivity]. intros L. apply length_zero_iff_nil in L. destruct (column c pts) as [|p l] eqn:C; [reflexivity|]. exfalso.
  assert (In (fst p) (nodup cell3_dec (map fst (p :: l)))) by (apply nodup_In; now left). rewrite L in H. destruct H.
Qed.

(* the box *)
Lemma box_iff b P Q : (forall c, P c <-> Q c) -> box_ok b P -> box_ok b Q.
Proof.
  intros E. destruct b as [[lo hi]|]; cbn [box_ok]; [|intros H c K; apply (H c); now apply E].
  intros [A [[c1 [B1 C1]] [[c2 [B2 C2]] [[c3 [B3 C3]] [c4 [B4 C4]]]]]]. split; [intros c K; apply A; now apply E|]. rewrite E in B1, B2, B3, B4. repeat split; [exists c1 | exists c2 | exists c3 | exists c4]; auto.
Qed.
Lemma extend_ok b P c : box_ok b P -> box_ok (extend_box b c) (fun d => P d \/ d = c).
Proof.
  destruct b as [[lo hi]|]; cbn [box_ok extend_box].
  - intros [A [[c1 [B1 C1]] [[c2 [B2 C2]] [[c3 [B3 C3]] [c4 [B4 C4]]]]]]. cbn [fst snd]. split; [intros d [K | ->]; [specialize (A d K)|]; lia|].
    repeat split.
    + destruct (Z.min_spec (fst lo) (fst c)) as [[_ ->] | [_ ->]]; eauto.
    + destruct (Z.min_spec (snd lo) (snd c)) as [[_ ->] | [_ ->]]; eauto.
    + destruct (Z.max_spec (fst hi) (fst c)) as [[_ ->] | [_ ->]]; eauto.
    + destruct (Z.max_spec (snd hi) (snd c)) as [[_ ->] | [_ ->]]; eauto.
  - intros A. split; [intros d [K | ->]; [destruct (A d K) | lia]|]. repeat split; exists c; auto.
Qed.
Lemma extend_all l : forall b P, box_ok b P -> box_ok (fold_left extend_box l b) (fun d => P d \/ In d l).
Proof.
  induction l as [|c l IH]; intros b P H; cbn [fold_left]; [eapply box_iff; [|exact H]; intros d; cbn [In]; tauto|].
  eapply box_iff; [|exact (IH _ _ (extend_ok _ _ c H))]. intros d. cbn [In]. split; [intros [[? | ->] | ?]; auto | intros [? | [<- | ?]]; auto].
Qed.

(* the matrix *)
Section Matrix.
Variables (pts : list xpoint) (lo hi : Z * Z).
Let w := (fst hi - fst lo + 1)%Z.
Let h := (snd hi - snd lo + 1)%Z.
Hypothesis covered : forall p, In p pts -> in_box lo hi (snd (fst p)).
Hypothesis sane : (fst lo <= fst hi /\ snd lo <= snd hi)%Z.
Definition index_of (c : Z * Z) : Z := (fst hi - fst c + (snd hi - snd c) * w)%Z.
Lemma index_range c : in_box lo hi c -> (0 <= index_of c < w * h)%Z.
Proof. unfold in_box, index_of. intros [A B]. assert (0 <= (snd hi - snd c) * w + (fst hi - fst c) < w * h)%Z by (apply pixel_index; unfold w, h; lia). lia. Qed.
Lemma index_eq c d : in_box lo hi c -> in_box lo hi d -> index_of c = index_of d -> c = d.
Proof.
  unfold in_box, index_of. intros [A B] [A' B'] E. destruct (pixel_inj w (fst hi - fst c) (snd hi - snd c) (fst hi - fst d) (snd hi - snd d)) as [X Y]; try (unfold w; lia).
  destruct c, d. cbn [fst snd] in *. f_equal; lia.
Qed.
Lemma index_onto k : (0 <= k < w * h)%Z -> exists c, in_box lo hi c /\ index_of c = k.
Proof.
  intros K. assert (0 < w)%Z by (unfold w; lia). pose proof (Z.mod_pos_bound k w ltac:(lia)) as MB. pose proof (Z.div_mod k w ltac:(lia)) as D.
  assert (0 <= k / w < h)%Z by (split; [apply Z.div_pos; lia | apply Z.div_lt_upper_bound; lia]).
  exists (fst hi - k mod w, snd hi - k / w)%Z. unfold in_box, index_of. cbn [fst snd]. unfold h in *. split; [unfold w in *; lia | lia].
Qed.
Definition mean_color (l : list xpoint) : vec3 R := mk_vec3 (mean v0 l) (mean v1 l) (mean v2 l).
Lemma mean_sum l : l <> [] -> vscale (/ INR (length l)) (sum_color l) = mean_color l.
Proof. intros _. unfold vscale, sum_color, mean_color, mean, Rdiv. cbn [v0 v1 v2]. f_equal; ring. Qed.

Lemma matrix_ok vs : (forall v, In v vs -> In v (map fst pts)) -> exists m,
  fold_left (matrix_step (a_columns (gathered pts)) hi w) vs (Some (repeat (0%nat, mk_vec3 0 0 0) (Z.to_nat (w * h)))) = Some m /\ vsize m = (w * h)%Z /\
  forall c, in_box lo hi c -> exists col, vget m (index_of c) = Some (length (filter (fun v : cell3 => column_eqb (snd v) c) vs), col) /\
    (filter (fun v : cell3 => column_eqb (snd v) c) vs <> [] -> col = mean_color (column c pts)).
Proof.
  induction vs as [|v vs IH] using rev_ind; intros S.
  - assert (V : vsize (repeat (0%nat, mk_vec3 0 0 0) (Z.to_nat (w * h))) = (w * h)%Z) by (unfold vsize; rewrite repeat_length; unfold w, h in *; nia).
    exists (repeat (0%nat, mk_vec3 0 0 0) (Z.to_nat (w * h))). split; [reflexivity|]. split; [exact V|]. intros c C. exists (mk_vec3 0 0 0). split; [|intros K; now destruct K].
    pose proof (index_range c C) as K. cbn [filter length]. rewrite <- V in K. destruct (vget_some _ _ K) as [x X]. unfold pixel_data. rewrite X. f_equal. unfold vget in X. destruct (0 <=? index_of c)%Z; [|discriminate].
    apply nth_error_In in X. now apply repeat_spec in X.
  - destruct IH as [m [E [V G]]]; [intros u U; apply S; apply in_or_app; now left|]. rewrite fold_left_app, E. cbn [fold_left matrix_step].
    assert (SV : In v (map fst pts)) by (apply S; apply in_or_app; right; now left). apply in_map_iff in SV. destruct SV as [p [<- P]].
    assert (CB := covered p P). fold (index_of (snd (fst p))). destruct (G _ CB) as [col [X _]]. rewrite X, gathered_columns.
    assert (IC : In p (column (snd (fst p)) pts)) by (apply filter_In; split; [exact P | apply column_eqb_refl]).
    destruct (column (snd (fst p)) pts) as [|q l] eqn:C; [destruct IC|]. cbv zeta iota beta.
    match goal with |- context [vset _ _ ?a] => destruct (vset_ok m (index_of (snd (fst p))) a) as [m' [E' [V' G']]]; [rewrite V; now apply index_range|] end.
    exists m'. split; [exact E'|]. split; [congruence|]. intros c CI. rewrite G', filter_app. cbn [filter]. destruct (Z.eqb_spec (index_of c) (index_of (snd (fst p)))) as [Q | Q].
    + apply index_eq in Q; [|exact CI | exact CB]. subst c. rewrite column_eqb_refl. eexists. split; [rewrite app_length; cbn [length]; rewrite Nat.add_1_r; reflexivity|].
      intros _. rewrite C. apply (mean_sum (q :: l)). discriminate.
    + destruct (column_eqb (snd (fst p)) c) eqn:K; [apply column_eqb_eq in K; congruence|]. rewrite app_nil_r. exact (G c CI).
Qed.

Lemma max_log_ok m : forall mx0, let mx := fold_left (fun mx (p : pixel_data) => match fst p with O => mx | n => Rmax mx (ln (INR n)) end) m mx0 in
  mx0 <= mx /\ (forall p, In p m -> fst p <> 0%nat -> ln (INR (fst p)) <= mx) /\ (mx = mx0 \/ exists p, In p m /\ fst p <> 0%nat /\ mx = ln (INR (fst p))).
Proof.
  induction m as [|p m IH]; intros mx0; cbn [fold_left]; [split; [lra|]; split; [intros q [] | now left]|].
  set (mx1 := match fst p with O => mx0 | n => Rmax mx0 (ln (INR n)) end). destruct (IH mx1) as [A [B C]].
  assert (M : mx0 <= mx1 /\ (fst p <> 0%nat -> ln (INR (fst p)) <= mx1) /\ (mx1 = mx0 \/ fst p <> 0%nat /\ mx1 = ln (INR (fst p)))).
  { unfold mx1. destruct (fst p) as [|n]; [split; [lra|]; split; [congruence | now left]|]. split; [apply Rmax_l|]. split; [intros _; apply Rmax_r|].
    unfold Rmax. destruct (Rle_dec _ _); [right; split; [discriminate | reflexivity] | now left]. }
  destruct M as [M1 [M2 M3]]. split; [lra|]. split.
  - intros q [<- | Q] NZ; [specialize (M2 NZ); lra | now apply B].
  - destruct C as [-> | [q [Q [NZ ->]]]]; [|right; exists q; repeat split; auto; now right]. destruct M3 as [-> | [NZ ->]]; [now left|]. right. exists p. repeat split; auto. now left.
Qed.

Theorem picture_ok factor : exists img mx, write_voxels (gathered pts) (Some (lo, hi)) factor = Some (Some img) /\ largest pts mx /\
  i_w img = w /\ i_h img = h /\ proper img /\
  forall c, in_box lo hi c -> exists out, get_pixel img (fst hi - fst c) (snd hi - snd c) = Some out /\ wanted_color pts factor mx c out.
Proof.
  destruct (gathered_voxels pts) as [N I]. destruct (matrix_ok (a_voxels (gathered pts)) (fun v V => proj1 (I v) V)) as [m [E [V G]]].
  unfold write_voxels, matrix_of. fold w h. rewrite E. exists (into_image w h m factor), (max_log m). split; [reflexivity|].
  assert (OUT : forall c, ~ in_box lo hi c -> column c pts = []).
  { intros c NB. destruct (column c pts) as [|p l] eqn:C; [reflexivity|]. exfalso. apply NB. assert (P : In p (column c pts)) by (rewrite C; now left).
    apply filter_In in P. destruct P as [P K]. apply column_eqb_eq in K. subst c. now apply covered. }
  assert (DEC : forall c, in_box lo hi c \/ ~ in_box lo hi c) by (intros c; unfold in_box; lia).
  split.
  { destruct (max_log_ok m float_min) as [A [B C]]. split; [exact A|]. split.
    - intros c NE. destruct (DEC c) as [CB | CB]; [|now apply OUT in CB]. destruct (G c CB) as [col [X _]]. rewrite thickness_voxels in X. unfold vget in X. destruct (0 <=? index_of c)%Z; [|discriminate].
      apply nth_error_In in X. apply (B _ X). cbn [fst]. rewrite thickness_zero. exact NE.
    - destruct C as [C | [p [P [NZ C]]]]; [now left|]. right. apply In_nth_error in P. destruct P as [k K]. assert (k < length m)%nat by (apply nth_error_Some; congruence).
      destruct (index_onto (Z.of_nat k)) as [c [CB Q]]; [unfold vsize in V; lia|]. destruct (G c CB) as [col [X _]]. rewrite thickness_voxels, Q in X. unfold vget in X. destruct (Z.leb_spec 0 (Z.of_nat k)); [|lia].
      rewrite Nat2Z.id, K in X. injection X as ->. exists c. cbn [fst] in *. split; [now rewrite <- thickness_zero | exact C]. }
  cbn [i_w i_h]. split; [reflexivity|]. split; [reflexivity|]. split.
  { split; cbn [i_w i_h i_pixels into_image]; [unfold w, h; lia|]. rewrite map_length. exact V. }
  intros c CB. destruct (G c CB) as [col [X Y]]. rewrite thickness_voxels in X.
  unfold get_pixel, into_image. cbn [i_pixels i_w]. exists (pixel_color factor (max_log m) (thickness c pts, col)). split.
  - replace ((snd hi - snd c) * w + (fst hi - fst c))%Z with (index_of c) by (unfold index_of; lia). unfold vget in *. destruct (0 <=? index_of c)%Z; [|discriminate].
    rewrite nth_error_map, X. cbn [option_map]. f_equal. apply cairo_back. unfold pixel_color. cbn [fst snd]. destruct (thickness c pts); [cbn; lia|].
    unfold to_color8, byte_color. pose proof component_byte. auto.
  - unfold wanted_color, pixel_color. cbn [fst snd]. split.
    + intros C. apply thickness_zero in C. now rewrite C.
    + intros C. assert (T : thickness c pts <> 0%nat) by (now rewrite thickness_zero). destruct (thickness c pts) as [|n] eqn:TE; [congruence|].
      rewrite Y by (intros F; rewrite <- thickness_voxels, F in TE; discriminate). unfold mix, faded, mean_color. cbn [v0 v1 v2]. do 2 f_equal; ring.
Qed.
End Matrix.
