(* Proofs about the model of the point processors in IO_Model. *)
From Coq Require Import List ZArith Bool Lia.
From Verif Require Import Float64 FRS_Model IO_Model IO_Spec.
Import ListNotations.
Open Scope nat_scope.

Section Proofs.
Variables M P I C V : Type.
Notation batch := (batch M P I C).

Lemma select_nil A flags : @select A flags [] = [].
Proof. unfold select. destruct flags; reflexivity. Qed.

Lemma skipn_nth A (l : list A) i x : nth_error l i = Some x -> skipn i l = x :: skipn (S i) l.
Proof.
  revert i. induction l as [|a l IH]; intros [|i] H; try discriminate.
  - cbn in H. injection H as <-. reflexivity.
  - cbn in H |- *. apply IH in H. rewrite H. reflexivity.
Qed.

Lemma pick_ok A (v : list A) i m : v = [] \/ length v = i + S m ->
  exists h, pick v i = Some h /\ skipn i v = h ++ skipn (S i) v /\
            forall f fs, select (f :: fs) (skipn i v) =
                         (if f : bool then h else []) ++ select fs (skipn (S i) v).
Proof.
  intros [-> | L].
  - exists []. rewrite !skipn_nil. repeat split. intros [] fs; now rewrite !select_nil.
  - destruct (nth_error v i) as [x|] eqn:E.
    2:{ apply nth_error_None in E. lia. }
    exists [x]. rewrite (skipn_nth _ _ _ _ E). unfold pick. rewrite E.
    destruct v; [destruct i; discriminate|]. repeat split.
    intros [] fs; reflexivity.
Qed.

Lemma remove_loop_ok rem (ints : list I) (cols : list C) (ps : list P) flags : forall i,
  length flags = length ps ->
  ints = [] \/ length ints = i + length ps ->
  cols = [] \/ length cols = i + length ps ->
  (forall k, k < length ps -> existsb (Nat.eqb (i + k)) rem = negb (nth k flags true)) ->
  remove_loop rem ints cols i ps =
  Some (select flags ps, select flags (skipn i ints), select flags (skipn i cols)).
Proof.
  revert flags. induction ps as [|p ps IH]; intros flags i L HI HC H.
  - destruct flags; [|discriminate]. reflexivity.
  - destruct flags as [|f fs]; [discriminate|]. injection L as L.
    cbn [length] in HI, HC.
    destruct (pick_ok _ _ _ _ HI) as (hi & Ei & _ & Si).
    destruct (pick_ok _ _ _ _ HC) as (hc & Ec & _ & Sc).
    specialize (IH fs (S i) L).
    assert (R : remove_loop rem ints cols (S i) ps =
                Some (select fs ps, select fs (skipn (S i) ints), select fs (skipn (S i) cols))).
    { apply IH.
      - destruct HI; [now left | right; lia].
      - destruct HC; [now left | right; lia].
      - intros k Hk. specialize (H (S k)). cbn [nth length] in H.
        rewrite <- H by lia. do 2 f_equal. lia. }
    cbn [remove_loop]. rewrite R, Ei, Ec, Si, Sc.
    specialize (H 0). cbn [nth length] in H. rewrite Nat.add_0_r in H. rewrite H by lia.
    destruct f; reflexivity.
Qed.

(* C47 *)
Lemma select_nth A (l : list A) (g : nat -> bool) : forall i,
  map Some (select (map g (seq i (length l))) l) =
  map (fun k => nth_error l (k - i)) (filter g (seq i (length l))).
Proof.
  induction l as [|a l IH]; intros i; [reflexivity|].
  specialize (IH (S i)). cbn [length seq map].
  replace (select (g i :: map g (seq (S i) (length l))) (a :: l)) with
    ((if g i then [a] else []) ++ select (map g (seq (S i) (length l))) l)
    by (unfold select; cbn; destruct (g i); reflexivity).
  rewrite map_app, IH. cbn [filter].
  assert (E : map (fun k => nth_error l (k - S i)) (filter g (seq (S i) (length l))) =
              map (fun k => nth_error (a :: l) (k - i)) (filter g (seq (S i) (length l)))).
  { apply map_ext_in. intros k Hk. apply filter_In in Hk as [Hk _]. apply in_seq in Hk.
    replace (k - i) with (S (k - S i)) by lia. reflexivity. }
  rewrite E. destruct (g i); cbn [map app]; [rewrite Nat.sub_diag|]; reflexivity.
Qed.

Lemma remove_points_ok (rem : list nat) (b : batch) : wf b -> NoDup rem ->
  (forall i, In i rem -> i < length (points b)) ->
  remove_points rem b =
  Some (keep_rows (map (fun i => negb (existsb (Nat.eqb i) rem)) (seq 0 (length (points b)))) b).
Proof.
  intros [W1 W2] ND B. unfold remove_points.
  assert (L : length rem <= length (points b)).
  { rewrite <- (seq_length (length (points b)) 0). apply NoDup_incl_length; [exact ND|].
    intros i Hi. apply in_seq. specialize (B i Hi). lia. }
  destruct (Z.ltb_spec (Z.of_nat (length (points b)) - Z.of_nat (length rem)) 0); [lia|].
  rewrite (remove_loop_ok rem _ _ (points b)
             (map (fun i => negb (existsb (Nat.eqb i) rem)) (seq 0 (length (points b)))) 0).
  - reflexivity.
  - now rewrite map_length, seq_length.
  - exact W1.
  - exact W2.
  - intros k Hk. cbn [Nat.add].
    rewrite (nth_indep _ true (negb (existsb (Nat.eqb 0) rem)))
      by now rewrite map_length, seq_length.
    rewrite (map_nth (fun i => negb (existsb (Nat.eqb i) rem))), seq_nth by exact Hk.
    now rewrite negb_involutive.
Qed.

(* index sets of the false flags *)
Fixpoint holes (i : nat) (flags : list bool) : list nat :=
  match flags with
  | [] => []
  | f :: r => if f then holes (S i) r else i :: holes (S i) r
  end.

Lemma holes_range flags : forall i x, In x (holes i flags) -> i <= x < i + length flags.
Proof.
  induction flags as [|f r IH]; intros i x H; [contradiction|]. cbn in *.
  destruct f; [apply IH in H; lia|]. destruct H as [<-|H]; [lia|apply IH in H; lia].
Qed.

Lemma holes_nodup flags : forall i, NoDup (holes i flags).
Proof.
  induction flags as [|f r IH]; intros i; cbn; [constructor|].
  destruct f; [apply IH|]. constructor; [|apply IH]. intros H. apply holes_range in H. lia.
Qed.

Lemma holes_mem flags : forall i k, k < length flags ->
  existsb (Nat.eqb (i + k)) (holes i flags) = negb (nth k flags true).
Proof.
  induction flags as [|f r IH]; intros i k H; [cbn in H; lia|]. cbn in H.
  destruct k as [|k].
  - rewrite Nat.add_0_r. destruct f; cbn.
    + apply not_true_is_false. intros E. apply existsb_exists in E as (x & Hx & E).
      apply Nat.eqb_eq in E. apply holes_range in Hx. lia.
    + now rewrite Nat.eqb_refl.
  - replace (i + S k) with (S i + k) by lia. cbn [nth holes]. destruct f.
    + apply IH. lia.
    + cbn [existsb]. rewrite IH by lia.
      destruct (Nat.eqb_spec (S i + k) i); [lia|]. reflexivity.
Qed.

Lemma holes_flags flags : forall n, length flags = n ->
  map (fun i => negb (existsb (Nat.eqb i) (holes 0 flags))) (seq 0 n) = flags.
Proof.
  intros n L. apply nth_ext with (d := true) (d' := true).
  - now rewrite map_length, seq_length.
  - intros k Hk. rewrite map_length, seq_length in Hk.
    rewrite (nth_indep _ true (negb (existsb (Nat.eqb 0) (holes 0 flags))))
      by now rewrite map_length, seq_length.
    rewrite (map_nth (fun i => negb (existsb (Nat.eqb i) (holes 0 flags)))), seq_nth by exact Hk.
    change (0 + k) with k. pose proof (holes_mem flags 0 k) as E. cbn [Nat.add] in E.
    rewrite E by lia. apply negb_involutive.
Qed.

Lemma remove_holes flags (b : batch) : wf b -> length flags = length (points b) ->
  remove_points (holes 0 flags) b = Some (keep_rows flags b).
Proof.
  intros W L. rewrite remove_points_ok.
  - now rewrite holes_flags.
  - exact W.
  - apply holes_nodup.
  - intros i Hi. apply holes_range in Hi. lia.
Qed.

Lemma to_remove_holes keep (ps : list P) : forall i, to_remove keep i ps = holes i (map keep ps).
Proof. induction ps as [|p ps IH]; intros i; [reflexivity|]. cbn. rewrite IH. reflexivity. Qed.

Lemma sample_loop_holes (ps : list P) : forall s i,
  sample_loop s i ps = match pulse_n (length ps) s with
                       | Some (s', flags) => Some (s', holes i flags)
                       | None => None
                       end.
Proof.
  induction ps as [|p ps IH]; intros s i; [reflexivity|]. cbn.
  destruct (pulse s) as [[s1 y]|]; [|reflexivity]. rewrite IH.
  destruct (pulse_n (length ps) s1) as [[s2 fl]|]; [|reflexivity]. destruct y; reflexivity.
Qed.

Lemma pulse_n_len n : forall s s' fl, pulse_n n s = Some (s', fl) -> length fl = n.
Proof.
  induction n as [|n IH]; intros s s' fl H; cbn in H.
  - injection H as _ <-. reflexivity.
  - destruct (pulse s) as [[s1 y]|]; [|discriminate].
    destruct (pulse_n n s1) as [[s2 f]|] eqn:E; [|discriminate]. injection H as _ <-.
    cbn. now rewrite (IH _ _ _ E).
Qed.

Lemma pulse_n_app n m : forall s,
  pulse_n (n + m) s = match pulse_n n s with
                      | None => None
                      | Some (s1, f1) => match pulse_n m s1 with
                                         | None => None
                                         | Some (s2, f2) => Some (s2, f1 ++ f2)
                                         end
                      end.
Proof.
  induction n as [|n IH]; intros s; cbn.
  - destruct (pulse_n m s) as [[? ?]|]; reflexivity.
  - destruct (pulse s) as [[s1 y]|]; [|reflexivity]. rewrite IH.
    destruct (pulse_n n s1) as [[s2 f]|]; [|reflexivity].
    destruct (pulse_n m s2) as [[s3 f3]|]; reflexivity.
Qed.

Lemma pulse_n_total n : forall s, (num_pulses s + Z.of_nat n < 2 ^ 63)%Z ->
  exists s' fl, pulse_n n s = Some (s', fl).
Proof.
  induction n as [|n IH]; intros s H; cbn [pulse_n]; [eauto|].
  assert (E : exists s1 y, pulse s = Some (s1, y) /\ num_pulses s1 = (num_pulses s + 1)%Z).
  { unfold pulse. destruct (Z.ltb_spec (num_pulses s + 1) (2 ^ 63)) as [L|L]; [|lia].
    destruct (dltb _ _); eexists _, _; (split; [reflexivity|]); reflexivity. }
  destruct E as (s1 & y & -> & N). destruct (IH s1) as (s2 & fl & ->); [lia|]. eauto.
Qed.

Lemma select_length A flags (l : list A) : length (select flags l) <= length l.
Proof.
  unfold select. revert l. induction flags as [|f r IH]; intros [|a l]; cbn; try lia.
  specialize (IH l). destruct f; cbn; lia.
Qed.

Lemma select_same A B flags (l : list A) (m : list B) : length l = length m ->
  length (select flags l) = length (select flags m).
Proof.
  unfold select. revert l m. induction flags as [|f r IH]; intros [|a l] [|b m] L; try discriminate;
    try reflexivity. cbn. injection L as L. specialize (IH l m L). destruct f; cbn; lia.
Qed.

Lemma keep_wf flags (b : batch) : wf b -> wf (keep_rows flags b).
Proof.
  intros [W1 W2]. split; cbn.
  - destruct W1 as [-> | L]; [left; apply select_nil | right; now apply select_same].
  - destruct W2 as [-> | L]; [left; apply select_nil | right; now apply select_same].
Qed.

Variable veq : V -> V -> bool.
Variable cell : P -> V.
Variable ray : M -> P -> list V.
Variable few_rays : Z -> Z -> bool.
Hypothesis veq_ok : forall a b, veq a b = true <-> a = b.
Notation stage := (stage M P V).
Notation stage_process := (stage_process M P I C V veq cell ray few_rays).
Notation process := (process M P I C V veq cell ray few_rays).
Notation feed := (feed M P I C V veq cell ray few_rays).
Notation run := (run M P I C V veq cell ray few_rays).
Notation spec_stage := (spec_stage M P I C V veq cell ray few_rays).
Notation spec_run := (spec_run M P I C V veq cell ray few_rays).

(* one stage over a stream *)
Fixpoint feed_stage (st : stage) (bs : list batch) : option (stage * list batch) :=
  match bs with
  | [] => Some (st, [])
  | b :: r => match stage_process st b with
              | None => None
              | Some (st1, o) =>
                  match feed_stage st1 r with
                  | None => None
                  | Some (st2, bs') => Some (st2, match o with Some b' => b' :: bs' | None => bs' end)
                  end
              end
  end.

Lemma feed_nil bs : feed [] bs = Some ([], bs).
Proof. induction bs as [|b bs IH]; [reflexivity|]. cbn. rewrite IH. reflexivity. Qed.

Lemma feed_cons bs : forall st r,
  feed (st :: r) bs =
  match feed_stage st bs with
  | None => None
  | Some (st', bs') => match feed r bs' with
                       | None => None
                       | Some (r', out) => Some (st' :: r', out)
                       end
  end.
Proof.
  induction bs as [|b bs IH]; intros st r; [reflexivity|].
  cbn [feed_stage IO_Model.feed IO_Model.process].
  destruct (stage_process st b) as [[st1 [b'|]]|]; [| |reflexivity].
  - destruct (process r b') as [[r1 o1]|] eqn:E.
    + rewrite IH. destruct (feed_stage st1 bs) as [[st2 bs2]|]; [|reflexivity].
      cbn [IO_Model.feed]. rewrite E. destruct (feed r1 bs2) as [[r2 o2]|]; reflexivity.
    + destruct (feed_stage st1 bs) as [[st2 bs2]|]; [|reflexivity].
      cbn [IO_Model.feed]. rewrite E. reflexivity.
  - rewrite IH. destruct (feed_stage st1 bs) as [[st2 bs2]|]; [|reflexivity].
    destruct (feed r bs2) as [[r2 o2]|]; reflexivity.
Qed.

(* the stages *)
Lemma feed_keep keep bs : Forall wf bs ->
  feed_stage (Keep keep) bs =
  Some (Keep keep, map (fun b => keep_rows (map (keep (meta b)) (points b)) b) bs).
Proof.
  induction 1 as [|b bs W _ IH]; [reflexivity|]. cbn [feed_stage IO_Model.stage_process].
  rewrite to_remove_holes, remove_holes by (rewrite ?map_length; auto). rewrite IH. reflexivity.
Qed.

Lemma feed_frame keep bs :
  feed_stage (Frame keep) bs = Some (Frame keep, filter (fun b => keep (meta b)) bs).
Proof.
  induction bs as [|b bs IH]; [reflexivity|]. cbn. rewrite IH. destruct (keep (meta b)); reflexivity.
Qed.

Lemma feed_sample r bs : Forall wf bs -> forall s,
  feed_stage (Sample r s) bs =
  match pulse_n (total bs) s with
  | Some (s', flags) => Some (Sample r s', deal flags bs)
  | None => None
  end.
Proof.
  induction 1 as [|b bs W _ IH]; intros s; [reflexivity|].
  cbn [feed_stage IO_Model.stage_process deal]. unfold total. cbn [flat_map].
  rewrite app_length, pulse_n_app, sample_loop_holes.
  destruct (pulse_n (length (points b)) s) as [[s1 f1]|] eqn:E; [|reflexivity].
  pose proof (pulse_n_len _ _ _ _ E) as L.
  rewrite remove_holes by auto. rewrite IH. fold (total bs).
  destruct (pulse_n (total bs) s1) as [[s2 f2]|]; [|reflexivity].
  rewrite <- L, firstn_app, skipn_app, Nat.sub_diag, firstn_all, skipn_all, firstn_O, skipn_O,
    app_nil_r. reflexivity.
Qed.

Lemma feed_count bs : forall n,
  feed_stage (Count n) bs = Some (Count (n + Z.of_nat (total bs)), bs).
Proof.
  induction bs as [|b bs IH]; intros n; [cbn; now rewrite Z.add_0_r|].
  cbn [feed_stage IO_Model.stage_process]. rewrite IH. unfold total. cbn [flat_map].
  rewrite app_length, Nat2Z.inj_add, Z.add_assoc. reflexivity.
Qed.

Lemma veq_refl v : veq v v = true.
Proof. now apply veq_ok. Qed.
Lemma veq_sym a b : veq a b = veq b a.
Proof.
  destruct (veq a b) eqn:E, (veq b a) eqn:F; try reflexivity.
  - apply veq_ok in E. subst. rewrite veq_refl in F. discriminate.
  - apply veq_ok in F. subst. rewrite veq_refl in E. discriminate.
Qed.

Notation occ := (occurrences V veq).
Lemma occ_app v l m : occ v (l ++ m) = (occ v l + occ v m)%Z.
Proof. unfold occurrences. rewrite filter_app, app_length. lia. Qed.
Lemma occ_cons v x l : occ v (x :: l) = ((if veq v x then 1 else 0) + occ v l)%Z.
Proof. unfold occurrences. cbn. destruct (veq v x); cbn [length]; lia. Qed.

Lemma count_hits_ok b hits v :
  IO_Model.count_hits M P I C V veq cell hits b v = (hits v + occ v (map cell (points b)))%Z.
Proof.
  unfold count_hits. revert hits. induction (points b) as [|p ps IH]; intros hits; cbn [fold_left map].
  - unfold occurrences. cbn. lia.
  - rewrite IH, occ_cons. unfold bump. rewrite (veq_sym v). destruct (veq (cell p) v); lia.
Qed.

Lemma feed_phase1 bs : forall hits rays, exists h,
  feed_stage (Outlier Phase1 hits rays) bs = Some (Outlier Phase1 h rays, []) /\
  forall v, h v = (hits v + hits_of M P I C V veq cell bs v)%Z.
Proof.
  induction bs as [|b bs IH]; intros hits rays.
  - exists hits. split; [reflexivity|]. intros v. unfold hits_of, occurrences. cbn. lia.
  - cbn [feed_stage IO_Model.stage_process].
    destruct (IH (IO_Model.count_hits M P I C V veq cell hits b) rays) as (h & -> & H).
    exists h. split; [reflexivity|]. intros v. rewrite H, count_hits_ok. unfold hits_of.
    cbn [flat_map]. rewrite map_app, occ_app. lia.
Qed.

Lemma count_rays_ok hits b rays v : (0 < hits v)%Z ->
  IO_Model.count_rays M P I C V veq ray hits rays b v =
  (rays v + occ v (flat_map (ray (meta b)) (points b)))%Z.
Proof.
  intros Hv. unfold count_rays. revert rays.
  induction (points b) as [|p ps IH]; intros rays; cbn [fold_left flat_map].
  - unfold occurrences. cbn. lia.
  - rewrite IH, occ_app.
    enough (E : forall l r, fold_left (fun r v0 => if (0 <? hits v0)%Z then bump veq r v0 else r) l r v
                            = (r v + occ v l)%Z) by (rewrite E; lia).
    induction l as [|x l IHl]; intros r; cbn [fold_left]; [unfold occurrences; cbn; lia|].
    rewrite IHl, occ_cons. unfold bump.
    destruct (veq v x) eqn:E.
    + apply veq_ok in E. subst x. destruct (Z.ltb_spec 0 (hits v)); [|lia].
      rewrite veq_refl. lia.
    + destruct (0 <? hits x)%Z; [|lia]. rewrite (veq_sym x v), E. lia.
Qed.

Lemma feed_phase2 bs hits : forall rays, exists m,
  feed_stage (Outlier Phase2 hits rays) bs = Some (Outlier Phase2 hits m, []) /\
  forall v, (0 < hits v)%Z -> m v = (rays v + rays_of M P I C V veq ray bs v)%Z.
Proof.
  induction bs as [|b bs IH]; intros rays.
  - exists rays. split; [reflexivity|]. intros v _. unfold rays_of, occurrences. cbn. lia.
  - cbn [feed_stage IO_Model.stage_process].
    destruct (IH (IO_Model.count_rays M P I C V veq ray hits rays b)) as (m & -> & H).
    exists m. split; [reflexivity|]. intros v Hv. rewrite H, count_rays_ok by exact Hv.
    unfold rays_of. cbn [flat_map]. rewrite occ_app. lia.
Qed.

Lemma feed_phase3 hits rays bs : Forall wf bs ->
  feed_stage (Outlier Phase3 hits rays) bs =
  Some (Outlier Phase3 hits rays,
        map (fun b => keep_rows (map (fun p => few_rays (hits (cell p)) (rays (cell p))) (points b)) b) bs).
Proof.
  induction 1 as [|b bs W _ IH]; [reflexivity|]. cbn [feed_stage IO_Model.stage_process].
  rewrite to_remove_holes, remove_holes by (rewrite ?map_length; auto). rewrite IH. reflexivity.
Qed.

Lemma hits_pos bs b p : In b bs -> In p (points b) ->
  (0 < hits_of M P I C V veq cell bs (cell p))%Z.
Proof.
  intros Hb Hp. unfold hits_of, occurrences.
  assert (In (cell p) (filter (veq (cell p)) (map cell (flat_map points bs)))).
  { apply filter_In. split; [|apply veq_refl]. apply in_map, in_flat_map. eauto. }
  destruct (filter _ _); [contradiction|]. cbn. lia.
Qed.

(* spec_stage keeps well-formedness and does not add points *)
Lemma deal_wf (bs : list batch) : forall fl, Forall wf bs -> Forall wf (deal fl bs).
Proof.
  induction bs as [|b bs IH]; intros fl W; [constructor|]. inversion_clear W.
  constructor; [now apply keep_wf | now apply IH].
Qed.

Lemma spec_stage_wf st bs bs' : Forall wf bs -> spec_stage st bs = Some bs' -> Forall wf bs'.
Proof.
  intros W H. assert (K : forall f, Forall wf (map (fun b => keep_rows (f b) b) bs)).
  { intros f. clear H. induction W; constructor; [now apply keep_wf | assumption]. }
  destruct st as [k|k|r s|n|ph h m]; cbn in H.
  - injection H as <-. apply (K (fun b => map (k (meta b)) (points b))).
  - injection H as <-. clear K. induction W; cbn; [constructor|]. destruct (k (meta x)); auto.
  - destruct (sampler_new r); [|discriminate].
    destruct (pulse_n (total bs) s0) as [[s1 fl]|]; [|discriminate]. injection H as <-.
    now apply deal_wf.
  - now injection H as <-.
  - injection H as <-.
    apply (K (fun b => map (fun p => few_rays (hits_of M P I C V veq cell bs (cell p))
                                              (rays_of M P I C V veq ray bs (cell p))) (points b))).
Qed.

Lemma total_cons b bs : total (b :: bs) = length (points b) + @total M P I C bs.
Proof. unfold total. cbn [flat_map]. now rewrite app_length. Qed.

Lemma total_keep (f : batch -> list bool) bs :
  total (map (fun b => keep_rows (f b) b) bs) <= total bs.
Proof.
  induction bs as [|b bs IH]; [reflexivity|]. cbn [map]. rewrite !total_cons.
  cbn [keep_rows points]. pose proof (select_length _ (f b) (points b)). lia.
Qed.

Lemma total_deal bs : forall fl, total (deal fl bs) <= @total M P I C bs.
Proof.
  induction bs as [|b bs IH]; intros fl; [reflexivity|]. cbn [deal]. rewrite !total_cons.
  cbn [keep_rows points]. pose proof (select_length _ (firstn (length (points b)) fl) (points b)).
  specialize (IH (skipn (length (points b)) fl)). lia.
Qed.

Lemma spec_stage_total st bs bs' : spec_stage st bs = Some bs' -> total bs' <= total bs.
Proof.
  intros H. destruct st as [k|k|r s|n|ph h m]; cbn in H.
  - injection H as <-. apply (total_keep (fun b => map (k (meta b)) (points b))).
  - injection H as <-. induction bs as [|b bs IH]; [reflexivity|]. cbn [filter].
    destruct (k (meta b)); rewrite ?total_cons in *; lia.
  - destruct (sampler_new r); [|discriminate].
    destruct (pulse_n (total bs) s0) as [[s1 fl]|]; [|discriminate]. injection H as <-.
    apply total_deal.
  - now injection H as <-.
  - injection H as <-.
    apply (total_keep (fun b => map (fun p => few_rays (hits_of M P I C V veq cell bs (cell p))
                                              (rays_of M P I C V veq ray bs (cell p))) (points b))).
Qed.

Lemma new_pulses r s : sampler_new r = Some s -> num_pulses s = 0%Z.
Proof. unfold sampler_new. destruct (_ && _); [|discriminate]. now intros [= <-]. Qed.

Lemma spec_stage_some st bs : fresh st -> (Z.of_nat (total bs) < 2 ^ 63)%Z ->
  exists bs', spec_stage st bs = Some bs'.
Proof.
  intros F L. destruct st as [k|k|r s|n|ph h m]; cbn; eauto.
  cbn in F. rewrite F. destruct (pulse_n_total (total bs) s) as (s' & fl & ->).
  - rewrite (new_pulses _ _ F). lia.
  - eauto.
Qed.

Lemma spec_run_some sts : forall bs, Forall fresh sts -> (Z.of_nat (total bs) < 2 ^ 63)%Z ->
  exists out ns, spec_run sts bs = Some (out, ns).
Proof.
  induction sts as [|st sts IH]; intros bs F L; cbn [IO_Spec.spec_run]; [eauto|].
  inversion_clear F. destruct (spec_stage_some st bs) as (bs' & E); auto. rewrite E.
  destruct (IH bs') as (out & ns & ->); auto.
  { pose proof (spec_stage_total _ _ _ E). lia. }
  eauto.
Qed.

(* a fresh single-pass stage *)
Lemma feed_single st bs bs' : is_outlier st = false -> fresh st -> Forall wf bs ->
  spec_stage st bs = Some bs' ->
  exists st', feed_stage st bs = Some (st', bs') /\ is_outlier st' = false /\
    counts [st'] = match st with Count _ => [Z.of_nat (total bs)] | _ => [] end /\
    (forall r r', flush r = Some (r', false) -> flush (st' :: r) = Some (st' :: r', false)) /\
    (forall r r', flush r = Some (r', true) -> flush (st' :: r) = Some (st :: r', true)) /\
    (forall r, flush r = None -> flush (st' :: r) = None).
Proof.
  intros O F W H. destruct st as [k|k|r s|n|ph h m]; cbn in H.
  - rewrite feed_keep by exact W. injection H as <-. eexists. split; [reflexivity|].
    repeat split; intros; cbn; now rewrite H.
  - rewrite feed_frame. injection H as <-. eexists. split; [reflexivity|].
    repeat split; intros; cbn; now rewrite H.
  - cbn in F. rewrite feed_sample by exact W. rewrite F in H.
    destruct (pulse_n (total bs) s) as [[s1 fl]|]; [|discriminate]. injection H as <-.
    eexists. split; [reflexivity|].
    repeat split; intros; cbn; rewrite H; [reflexivity | | reflexivity].
    unfold new_sample. now rewrite F.
  - rewrite feed_count. injection H as <-. cbn in F. subst n. eexists. split; [reflexivity|].
    repeat split; intros; cbn; now rewrite H.
  - discriminate.
Qed.

(* pre: single-pass stages in front of the pipeline x *)
Fixpoint through (pre : list stage) (bs : list batch) : option (list batch) :=
  match pre with
  | [] => Some bs
  | st :: r => match spec_stage st bs with Some bs' => through r bs' | None => None end
  end.

Lemma pass pre : forall bs bs', Forall fresh pre -> forallb (fun st => negb (is_outlier st)) pre = true ->
  Forall wf bs -> through pre bs = Some bs' ->
  exists pre' ns,
    (forall x, feed (pre ++ x) bs = match feed x bs' with
                                    | Some (x', out) => Some (pre' ++ x', out)
                                    | None => None
                                    end) /\
    counts pre' = ns /\
    (forall x out ms, spec_run x bs' = Some (out, ms) -> spec_run (pre ++ x) bs = Some (out, ns ++ ms)) /\
    (forall r r', flush r = Some (r', false) -> flush (pre' ++ r) = Some (pre' ++ r', false)) /\
    (forall r r', flush r = Some (r', true) -> flush (pre' ++ r) = Some (pre ++ r', true)) /\
    (forall r, flush r = None -> flush (pre' ++ r) = None).
Proof.
  induction pre as [|st pre IH]; intros bs bs' F O W H.
  - injection H as <-. exists [], []. cbn. repeat split; auto. intros x.
    destruct (feed x bs) as [[? ?]|]; reflexivity.
  - cbn in H. destruct (spec_stage st bs) as [b1|] eqn:E; [|discriminate].
    inversion_clear F. cbn in O. apply andb_prop in O as [O1 O2]. apply negb_true_iff in O1.
    destruct (feed_single st bs b1 O1 H0 W E) as (st' & Ef & Ot & Ec & F1 & F2 & F3).
    destruct (IH b1 bs' H1 O2 (spec_stage_wf _ _ _ W E) H) as (pre' & ns & P1 & P2 & P3 & P4 & P5 & P6).
    exists (st' :: pre'), (counts [st'] ++ ns). split; [|split; [|split; [|split; [|split]]]].
    + intros x. cbn [app]. rewrite feed_cons, Ef, P1.
      destruct (feed x bs') as [[x' out]|]; reflexivity.
    + change (st' :: pre') with ([st'] ++ pre'). unfold counts at 1. rewrite flat_map_app.
      fold (@counts M P V [st']). fold (@counts M P V pre'). now rewrite P2.
    + intros x out ms Hx. cbn [app IO_Spec.spec_run]. rewrite E, (P3 _ _ _ Hx), Ec.
      destruct st; reflexivity.
    + intros r r' Hr. cbn [app]. apply F1. now apply P4.
    + intros r r' Hr. cbn [app]. apply F2. now apply P5.
    + intros r Hr. cbn [app]. apply F3. now apply P6.
Qed.

Lemma through_some pre : forall bs, Forall fresh pre -> (Z.of_nat (total bs) < 2 ^ 63)%Z ->
  exists bs', through pre bs = Some bs' /\ total bs' <= total bs.
Proof.
  induction pre as [|st pre IH]; intros bs F L; cbn; [eauto|].
  inversion_clear F. destruct (spec_stage_some st bs) as (b1 & E); auto. rewrite E.
  pose proof (spec_stage_total _ _ _ E).
  destruct (IH b1) as (b2 & E2 & T); auto; [lia|]. exists b2. split; [exact E2 | lia].
Qed.

Lemma through_wf pre : forall bs bs', Forall wf bs -> through pre bs = Some bs' -> Forall wf bs'.
Proof.
  induction pre as [|st pre IH]; intros bs bs' W H; cbn in H; [now injection H as <-|].
  destruct (spec_stage st bs) as [b1|] eqn:E; [|discriminate].
  eapply IH; [|exact H]. eapply spec_stage_wf; eauto.
Qed.

(* the whole stream through a pipeline without multi-pass stages *)
Lemma single_pass sts bs : Forall fresh sts -> forallb (fun st => negb (is_outlier st)) sts = true ->
  Forall wf bs -> (Z.of_nat (total bs) < 2 ^ 63)%Z ->
  exists sts' out ns, feed sts bs = Some (sts', out) /\ flush sts' = Some (sts', false) /\
    counts sts' = ns /\ spec_run sts bs = Some (out, ns).
Proof.
  intros F O W L. destruct (through_some sts bs F L) as (bs' & E & _).
  destruct (pass sts bs bs' F O W E) as (pre' & ns & P1 & P2 & P3 & P4 & _).
  exists pre', bs', ns. specialize (P1 []). rewrite feed_nil, !app_nil_r in P1.
  specialize (P3 [] bs' [] eq_refl). rewrite !app_nil_r in P3.
  specialize (P4 [] [] eq_refl). rewrite !app_nil_r in P4.
  split; [exact P1|]. split; [exact P4|]. split; [exact P2 | exact P3].
Qed.

(* the outlier stage after two passes *)
Lemma outlier_third bs h m : Forall wf bs ->
  (forall v, h v = hits_of M P I C V veq cell bs v) ->
  (forall v, (0 < h v)%Z -> m v = rays_of M P I C V veq ray bs v) ->
  exists bs', spec_stage (Outlier Phase1 (fun _ => 0%Z) (fun _ => 0%Z)) bs = Some bs' /\
    feed_stage (Outlier Phase3 h m) bs = Some (Outlier Phase3 h m, bs').
Proof.
  intros W Hh Hm. eexists. split; [reflexivity|]. rewrite feed_phase3 by exact W.
  do 2 f_equal. apply map_ext_in. intros b Hb. f_equal. apply map_ext_in. intros p Hp.
  rewrite Hm by (rewrite Hh; eapply hits_pos; eauto). now rewrite Hh.
Qed.

(* pre, an outlier stage, post: the first two passes *)
Lemma two_passes pre post h0 m0 bs : Forall fresh pre ->
  forallb (fun st => negb (is_outlier st)) pre = true ->
  (forall v, h0 v = 0%Z) -> (forall v, m0 v = 0%Z) ->
  Forall wf bs -> (Z.of_nat (total bs) < 2 ^ 63)%Z ->
  exists bs1 h m, through pre bs = Some bs1 /\ Forall wf bs1 /\ total bs1 <= total bs /\
    (forall v, h v = hits_of M P I C V veq cell bs1 v) /\
    (forall v, (0 < h v)%Z -> m v = rays_of M P I C V veq ray bs1 v) /\
    forall n, run (S (S n)) (pre ++ Outlier Phase1 h0 m0 :: post) bs =
              match run n (pre ++ Outlier Phase3 h m :: post) bs with
              | Finished k sts out => Finished (S (S k)) sts out
              | x => x
              end.
Proof.
  intros F O H0 M0 W L. destruct (through_some pre bs F L) as (bs1 & E & T).
  pose proof (through_wf _ _ _ W E) as W1.
  destruct (pass pre bs bs1 F O W E) as (pre' & ns & P1 & P2 & P3 & P4 & P5 & P6).
  destruct (feed_phase1 bs1 h0 m0) as (h & Fh & Hh).
  destruct (feed_phase2 bs1 h m0) as (m & Fm & Hm).
  exists bs1, h, m. split; [exact E|]. split; [exact W1|]. split; [exact T|].
  split; [intros v; rewrite Hh, H0; lia|].
  split; [intros v Hv; rewrite (Hm v Hv), M0; lia|].
  intros n. cbn [IO_Model.run].
  assert (Z0 : forall x, feed x [] = Some (x, [])) by reflexivity.
  rewrite P1, feed_cons, Fh, Z0.
  rewrite (P5 _ (Outlier Phase2 h m0 :: post)) by reflexivity.
  rewrite P1, feed_cons, Fm, Z0.
  rewrite (P5 _ (Outlier Phase3 h m :: post)) by reflexivity.
  destruct (run n _ bs); reflexivity.
Qed.

Lemma split_outlier sts : outliers sts <> 0 -> exists pre ph h m post,
  sts = pre ++ @Outlier M P V ph h m :: post /\ forallb (fun st => negb (is_outlier st)) pre = true /\
  outliers sts = S (outliers post).
Proof.
  induction sts as [|st sts IH]; intros H; [now elim H|].
  destruct (is_outlier st) eqn:E.
  - destruct st; try discriminate. exists [], ph, hits, rays, sts. repeat split.
  - unfold outliers in *. cbn in H |- *. rewrite E in H |- *.
    destruct (IH H) as (pre & ph & h & m & post & -> & O & N).
    exists (st :: pre), ph, h, m, post. split; [reflexivity|]. split; [cbn; now rewrite E|]. exact N.
Qed.

Lemma no_outlier (sts : list stage) : outliers sts = 0 -> forallb (fun st => negb (is_outlier st)) sts = true.
Proof.
  induction sts as [|st sts IH]; intros H; [reflexivity|]. unfold outliers in *. cbn in *.
  destruct (is_outlier st); [discriminate|]. now apply IH.
Qed.

Theorem run_ok sts bs : Forall fresh sts -> outliers sts <= 1 -> Forall wf bs ->
  (Z.of_nat (total bs) < 2 ^ 63)%Z ->
  exists sts' out ns,
    spec_run sts bs = Some (out, ns) /\ counts sts' = ns /\
    forall n, 2 * outliers sts < n ->
      run n sts bs = Finished (S (2 * outliers sts)) sts' out.
Proof.
  intros F O W L. destruct (outliers sts) as [|k] eqn:EO.
  - destruct (single_pass sts bs F (no_outlier _ EO) W L) as (sts' & out & ns & A & B & D & E).
    exists sts', out, ns. repeat split; auto. intros [|n] Hn; [lia|]. cbn [IO_Model.run].
    now rewrite A, B.
  - destruct (split_outlier sts) as (pre & ph & h0 & m0 & post & -> & OP & N); [congruence|].
    assert (k = 0) by lia. subst k. rewrite EO in N. injection N as N. symmetry in N.
    apply Forall_app in F as [Fp F]. inversion_clear F as [|? ? Fo Fq]. destruct Fo as (-> & H0 & M0).
    destruct (two_passes pre post h0 m0 bs Fp OP H0 M0 W L)
      as (bs1 & h & m & E & W1 & T1 & Hh & Hm & R).
    destruct (pass pre bs bs1 Fp OP W E) as (pre' & ns & P1 & P2 & P3 & P4 & P5 & P6).
    destruct (outlier_third bs1 h m W1 Hh Hm) as (bs2 & S2 & F3).
    assert (S2' : spec_stage (Outlier Phase1 h0 m0) bs1 = Some bs2) by exact S2.
    pose proof (spec_stage_wf _ _ _ W1 S2) as W2. pose proof (spec_stage_total _ _ _ S2) as T2.
    destruct (single_pass post bs2 Fq (no_outlier _ N) W2) as (post' & out & ms & A & B & D & G); [lia|].
    exists (pre' ++ Outlier Phase3 h m :: post'), out, (ns ++ ms). split; [|split].
    + apply P3. cbn [IO_Spec.spec_run]. now rewrite S2', G.
    + unfold counts in *. rewrite flat_map_app. cbn [flat_map app]. congruence.
    + intros [|[|[|n]]] Hn; try lia. rewrite R. cbn [IO_Model.run].
      rewrite P1, feed_cons, F3, A.
      rewrite (P4 _ (Outlier Phase3 h m :: post')); [reflexivity|].
      cbn. now rewrite B.
Qed.

(* two multi-pass stages *)
Theorem run_two sts bs : Forall fresh sts -> 2 <= outliers sts -> Forall wf bs ->
  (Z.of_nat (total bs) < 2 ^ 63)%Z -> forall n, 3 <= n -> run n sts bs = Aborted.
Proof.
  intros F O W L [|[|[|n]]] Hn; try lia.
  destruct (split_outlier sts) as (pre & ph & h0 & m0 & post & -> & OP & N); [lia|].
  rewrite N in O.
  apply Forall_app in F as [Fp F]. inversion_clear F as [|? ? Fo Fq]. destruct Fo as (-> & H0 & M0).
  destruct (two_passes pre post h0 m0 bs Fp OP H0 M0 W L)
    as (bs1 & h & m & E & W1 & T1 & Hh & Hm & R).
  destruct (pass pre bs bs1 Fp OP W E) as (pre' & ns & P1 & P2 & P3 & P4 & P5 & P6).
  destruct (outlier_third bs1 h m W1 Hh Hm) as (bs2 & S2 & F3).
  pose proof (spec_stage_wf _ _ _ W1 S2) as W2. pose proof (spec_stage_total _ _ _ S2) as T2.
  destruct (split_outlier post) as (mid & ph' & h2 & m2 & last & -> & OM & N2); [lia|].
  apply Forall_app in Fq as [Fm Fq]. inversion_clear Fq as [|? ? Fo Fl]. destruct Fo as (-> & _ & _).
  destruct (through_some mid bs2 Fm) as (bs3 & E3 & _); [lia|].
  destruct (pass mid bs2 bs3 Fm OM W2 E3) as (mid' & ns2 & Q1 & _ & _ & _ & Q5 & _).
  destruct (feed_phase1 bs3 h2 m2) as (h3 & F1 & _).
  rewrite R. cbn [IO_Model.run]. rewrite P1, feed_cons, F3, Q1, feed_cons, F1.
  cbn [IO_Model.feed].
  rewrite P6; [reflexivity|]. cbn [flush].
  rewrite (Q5 _ (Outlier Phase2 h3 m2 :: last)) by reflexivity. reflexivity.
Qed.
End Proofs.
