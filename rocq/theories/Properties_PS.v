(* Property theorems for the proto stream file format (C37). *)
From Coq Require Import List ZArith Bool Lia.
From Verif Require Import PS_Model PS_Proofs.
Import ListNotations.
Open Scope Z_scope.

Section C37.
Variable msg : Type.
Variable serialize : msg -> list Z.
Variable parse : list Z -> option msg.
Variable gzip : list Z -> list Z.
Variable gunzip : list Z -> option (list Z).
Hypothesis parse_serialize : forall m, parse (serialize m) = Some m.
Hypothesis gunzip_gzip : forall d, gunzip (gzip d) = Some d.
Notation file := (file_of msg serialize gzip).
Notation reads := (read_n msg parse gunzip).
(* every compressed message is shorter than 2^64 bytes *)
Notation ok := (Forall (fun m => Z.of_nat (length (gzip (serialize m))) < 2 ^ 64)).

(* Reading back a complete file: the first reads return the messages in order,
   every further read returns false, and only then is eof() true. *)
Theorem C37_roundtrip ms : ok ms ->
  exists s, open_reader (file ms) = Some s /\
    forall n, snd (reads n s) = map RTrue (firstn n ms) ++ repeat RFalse (n - length ms) /\
      at_eof (fst (reads n s)) = (length ms <? n)%nat.
Proof.
  intros F. eexists. split; [apply open_ok|]. intros n.
  destruct (rdn_ok msg serialize parse gzip gunzip parse_serialize gunzip_gzip ms n
              (flat_map (record_of msg serialize gzip) ms) [] F)
    as (k & K1 & K2 & K3 & K4 & K5 & K6); [now rewrite app_nil_r|].
  assert (k = length ms) by auto. subst k.
  rewrite K4. unfold expected. rewrite firstn_all. split; auto.
  destruct (length ms <? n)%nat eqn:L.
  - apply Nat.ltb_lt in L. now rewrite K5.
  - apply Nat.ltb_ge in L. specialize (K6 L).
    (* a successful read leaves the eof bit clear *)
    clear - K6. revert K6. generalize (flat_map (record_of msg serialize gzip) ms).
    intros l. remember (good_at l) as s. intros H.
    assert (G : forall n s, at_eof s = false -> failed (fst (reads n s)) = false ->
              at_eof (fst (reads n s)) = false).
    { clear. induction n as [|n IH]; intros s Hs Hf; [exact Hs|].
      cbn [read_n] in *. destruct (read_proto msg parse gunzip s) as [s1 r] eqn:E.
      specialize (IH s1). destruct (reads n s1) as [s2 rs] eqn:E2. simpl in *.
      apply IH; auto.
      assert (Q : at_eof s1 = true -> failed s1 = true).
      { clear - E Hs. unfold read_proto in E.
        assert (GQ : forall s, (at_eof s = true -> failed s = true) ->
                  at_eof (fst (get s)) = true -> failed (fst (get s)) = true).
        { intros t Ht. unfold get. destruct (failed t || at_eof t); simpl; auto.
          destruct (rest t); simpl; auto. }
        assert (GR : forall k s v, (at_eof s = true -> failed s = true) ->
                  at_eof (fst (read_le k s v)) = true -> failed (fst (read_le k s v)) = true).
        { induction k as [|k IHk]; intros t v Ht; [exact Ht|]. cbn [read_le].
          specialize (GQ t Ht). destruct (get t) as [t' b]. apply IHk. exact GQ. }
        unfold read_size in E. specialize (GR 8%nat s 0 ltac:(congruence)).
        destruct (read_le 8 s 0) as [t v]. simpl in GR.
        destruct (failed t) eqn:Ft; [injection E as <- <-; auto|].
        unfold read_bytes in E. rewrite Ft in E.
        destruct (at_eof t) eqn:At; [specialize (GR eq_refl); discriminate|]. simpl in E.
        destruct (_ <? v); [injection E as <- <-; auto|].
        destruct (gunzip _); [destruct (parse _)|]; injection E as <- <-; simpl; auto. }
      destruct (at_eof s1) eqn:A; auto. exfalso. specialize (Q eq_refl).
      (* once failed, always failed *)
      assert (St : forall n t, failed t = true -> failed (fst (reads n t)) = true).
      { clear. induction n as [|n IH]; intros t Ht; auto. cbn [read_n].
        destruct (read_proto msg parse gunzip t) as [t1 r] eqn:E.
        specialize (IH t1). destruct (reads n t1) as [t2 rs]. simpl in *. apply IH.
        unfold read_proto in E.
        assert (GR : forall k s v, failed s = true -> failed (fst (read_le k s v)) = true).
        { induction k as [|k IHk]; intros u v Hu; [exact Hu|]. cbn [read_le].
          unfold get. rewrite Hu. cbn [orb]. apply IHk. reflexivity. }
        unfold read_size in E. specialize (GR 8%nat t 0 Ht).
        destruct (read_le 8 t 0) as [u v]. simpl in GR. rewrite GR in E.
        injection E as <- <-. auto. }
      specialize (St n s1 Q). rewrite E2 in St. simpl in St. congruence. }
    apply G; auto. subst s. reflexivity.
Qed.

(* Reading any prefix of a file (as left by a crash): an incomplete magic number
   makes the constructor abort; otherwise exactly the k messages whose records
   are complete are returned, then every read returns false with eof() true.
   No read throws and none returns a wrong message. *)
Theorem C37_prefix ms p q : ok ms -> file ms = p ++ q ->
  ((length p < 8)%nat -> open_reader p = None) /\
  ((8 <= length p)%nat -> exists s k, open_reader p = Some s /\ (k <= length ms)%nat /\
     (length (file (firstn k ms)) <= length p)%nat /\
     ((k < length ms)%nat -> (length p < length (file (firstn (S k) ms)))%nat) /\
     forall n, snd (reads n s) = map RTrue (firstn n (firstn k ms)) ++ repeat RFalse (n - k) /\
       ((k < n)%nat -> at_eof (fst (reads n s)) = true)).
Proof.
  intros F E. split; [apply open_short|]. intros L.
  assert (W : length (write_size kMagic) = 8%nat) by reflexivity.
  assert (X : exists p', p = write_size kMagic ++ p' /\
                flat_map (record_of msg serialize gzip) ms = p' ++ q).
  { exists (skipn 8 p).
    assert (Y : p = write_size kMagic ++ skipn 8 p).
    { rewrite <- (firstn_skipn 8 p) at 1. f_equal.
      assert (Y : firstn 8 (file ms) = firstn 8 p).
      { rewrite E, firstn_app. replace (8 - length p)%nat with O by lia.
        rewrite firstn_O. apply app_nil_r. }
      rewrite <- Y. unfold file_of. rewrite firstn_app, W, Nat.sub_diag, firstn_O, app_nil_r.
      rewrite <- W at 1. apply firstn_all. }
    split; auto. unfold file_of in E. rewrite Y in E at 1. rewrite <- app_assoc in E.
    now apply app_inv_head in E. }
  destruct X as (p' & -> & E').
  exists (good_at p').
  destruct (rdn_ok msg serialize parse gzip gunzip parse_serialize gunzip_gzip ms 0 p' q F E')
    as (k & K1 & (t & T1 & T2) & _).
  exists k. split; [apply open_ok|]. split; auto.
  assert (LF : forall l, length (file l) = (8 + length (flat_map (record_of msg serialize gzip) l))%nat).
  { intros l. unfold file_of. rewrite app_length, W. reflexivity. }
  rewrite !LF, app_length, W. split; [rewrite T1, app_length; lia|]. split.
  - intros Hk. destruct (nth_error ms k) as [m|] eqn:Nk.
    2:{ apply nth_error_None in Nk. lia. }
    specialize (T2 m eq_refl).
    assert (S1 : firstn (S k) ms = firstn k ms ++ [m]).
    { clear - Nk. revert ms Nk. induction k as [|k IH]; intros [|a ms] H; simpl in *; try discriminate.
      - injection H as ->. reflexivity.
      - f_equal. rewrite <- (IH ms H). reflexivity. }
    rewrite S1, flat_map_app, T1. cbn [flat_map]. rewrite app_nil_r, !app_length. lia.
  - intros n.
    destruct (rdn_ok msg serialize parse gzip gunzip parse_serialize gunzip_gzip ms n p' q F E')
      as (k' & K1' & (t' & T1' & T2') & K3 & K4 & K5 & K6).
    assert (KK : k' = k).
    { assert (Hlt : forall a b ta tb, (a < b)%nat -> (b <= length ms)%nat ->
        p' = flat_map (record_of msg serialize gzip) (firstn a ms) ++ ta ->
        p' = flat_map (record_of msg serialize gzip) (firstn b ms) ++ tb ->
        (forall m, nth_error ms a = Some m -> (length ta < length (record_of msg serialize gzip m))%nat) -> False).
      { intros a b ta tb Hab Hb Ea Eb Ha.
        destruct (nth_error ms a) as [m|] eqn:Nk.
        2:{ apply nth_error_None in Nk. lia. }
        specialize (Ha m eq_refl).
        assert (S1 : exists r, firstn b ms = firstn a ms ++ m :: r).
        { clear - Hab Nk. revert b ms Hab Nk. induction a as [|a IH]; intros [|b] [|x ms] Hab H;
            simpl in *; try discriminate; try lia.
          - injection H as ->. eauto.
          - destruct (IH b ms ltac:(lia) H) as [r ->]. eauto. }
        destruct S1 as [r Sr]. rewrite Sr, flat_map_app in Eb. rewrite Ea, <- app_assoc in Eb.
        apply app_inv_head in Eb. rewrite Eb in Ha. cbn [flat_map] in Ha. rewrite !app_length in Ha. lia. }
      destruct (Nat.lt_trichotomy k' k) as [C|[C|C]]; auto; exfalso; eauto. }
    subst k'. rewrite K4. unfold expected. rewrite firstn_length, Nat.min_l by lia.
    split; auto. intros C. now rewrite K5.
Qed.

(* Consequence (finding): a file cut at a record boundary reads exactly like a
   complete file with fewer messages; the reader cannot tell. *)
Theorem C37_truncation_undetected ms ms' : ok (ms ++ ms') ->
  exists p, file (ms ++ ms') = p ++ flat_map (record_of msg serialize gzip) ms' /\
    exists s, open_reader p = Some s /\ open_reader (file ms) = Some s.
Proof.
  intros F. exists (file ms). unfold file_of at 1 2. rewrite flat_map_app, app_assoc.
  split; auto. eexists. split; apply open_ok.
Qed.
End C37.

(* Concrete case with trivial codecs: messages are byte lists. *)
Definition ex_file : list Z := file_of (list Z) (fun m => m) (fun d => d) [[7; 8]; []; [255]].

Example C37_example :
  option_map (fun s => snd (read_n (list Z) Some Some 5 s)) (open_reader ex_file)
  = Some [RTrue [7; 8]; RTrue []; RTrue [255]; RFalse; RFalse].
Proof. vm_compute. reflexivity. Qed.

Example C37_example_cut :
  option_map (fun s => snd (read_n (list Z) Some Some 3 s)) (open_reader (firstn 30 ex_file))
  = Some [RTrue [7; 8]; RTrue []; RFalse].
Proof. vm_compute. reflexivity. Qed.

Example C37_example_magic : firstn 8 ex_file = [219; 1; 245; 91; 123; 31; 29; 123].
Proof. vm_compute. reflexivity. Qed.

Print Assumptions C37_roundtrip.
Print Assumptions C37_prefix.
Print Assumptions C37_truncation_undetected.
