(* C81: the PLY and PCD files that are written can be read back. *)
From Coq Require Import ZArith List Bool Lia String.
From Verif Require Import FW_Model FW_Spec FW_Proofs.
Import ListNotations.
Open Scope Z_scope.

Section Colors.
Variable color : Type.
Variable to_uint8 : color -> Z * Z * Z.

(* Read as a PLY file, the file has the points of all batches in order, with the columns that the first batch with points has. *)
Theorem C81_ply : bytes_colors color to_uint8 -> forall comments bs b0,
  Forall (batch_bits color) bs -> Forall (fun c => ~ In 10 c) comments -> num_points color bs < 10 ^ 15 ->
  first_batch color bs = Some b0 ->
  Forall (fun b => b_points b = [] \/
    (b_colors b0 <> [] -> List.length (b_colors b) = List.length (b_points b)) /\
    (b_intensities b0 <> [] -> List.length (b_intensities b) = List.length (b_points b))) bs ->
  exists bytes t, ply_write color to_uint8 comments bs = Some bytes /\
    read_ply bytes = Some ([text "x"; text "y"; text "z"] ++ (if some_of (b_colors b0) then [text "red"; text "green"; text "blue"] else [])
      ++ (if some_of (b_intensities b0) then [text "intensity"] else []), t) /\
    map Some t = map (fun p => ply_row color to_uint8 (some_of (b_colors b0)) (some_of (b_intensities b0)) (fst p) (snd p)) (all_points color bs).
Proof.
  intros COL comments bs b0 B C N F0 F. pose proof (ply_runs color to_uint8 COL comments bs B) as R. rewrite F0 in R. cbv zeta in R.
  destruct R as [R _]. destruct R as (t & E & [R1 R2]).
  - eapply Forall_impl; [|exact F]. intros b [H|[H1 H2]]; [now left|]. right. split; intros X.
    + apply H1. intros Y. rewrite Y in X. discriminate.
    + apply H2. intros Y. rewrite Y in X. discriminate.
  - destruct (ply_read (some_of (b_colors b0)) (some_of (b_intensities b0)) comments t) as (bytes & E1 & E2).
    + apply (f_equal (@List.length _)) in R1. rewrite !map_length in R1. unfold num_points in N. rewrite R1. exact N.
    + eapply Forall_impl; [|exact C]. intros c H. apply forallb_forall. intros x X. destruct (Z.eqb_spec x 10); [subst; contradiction | reflexivity].
    + exact R2.
    + exists bytes, t. unfold ply_write. rewrite E. split; [exact E1|]. split; [exact E2 | exact R1].
Qed.

(* Writing aborts or reads the unset has_intensities_ just when a later batch has not as many colours or intensities as points, though
   the first has them, or when there are no points at all. *)
Theorem C81_ply_abort : bytes_colors color to_uint8 -> forall comments bs, Forall (batch_bits color) bs ->
  (ply_write color to_uint8 comments bs = None <->
   match first_batch color bs with
   | None => True
   | Some b0 => exists b, In b bs /\ b_points b <> [] /\
      (b_colors b0 <> [] /\ List.length (b_colors b) <> List.length (b_points b) \/
       b_intensities b0 <> [] /\ List.length (b_intensities b) <> List.length (b_points b))
   end).
Proof.
  intros COL comments bs B. pose proof (ply_runs color to_uint8 COL comments bs B) as R. unfold ply_write.
  destruct (first_batch color bs) as [b0|] eqn:F0.
  2:{ rewrite R. cbn. tauto. }
  cbv zeta in R. destruct R as [R1 R2].
  assert (U : forall b, (b_points b <> [] /\ (b_colors b0 <> [] /\ List.length (b_colors b) <> List.length (b_points b) \/
       b_intensities b0 <> [] /\ List.length (b_intensities b) <> List.length (b_points b))) <-> ~ ply_fits color (some_of (b_colors b0)) (some_of (b_intensities b0)) b).
  { intros b. unfold ply_fits. assert (SC : some_of (b_colors b0) = true <-> b_colors b0 <> []) by (destruct (b_colors b0); cbn; split; congruence).
    assert (SI : some_of (b_intensities b0) = true <-> b_intensities b0 <> []) by (destruct (b_intensities b0); cbn; split; congruence).
    assert (DP : b_points b = [] \/ b_points b <> []) by (destruct (b_points b); [now left | right; discriminate]).
    assert (DC : b_colors b0 = [] \/ b_colors b0 <> []) by (destruct (b_colors b0); [now left | right; discriminate]).
    assert (DI : b_intensities b0 = [] \/ b_intensities b0 <> []) by (destruct (b_intensities b0); [now left | right; discriminate]).
    destruct (Nat.eq_dec (List.length (b_colors b)) (List.length (b_points b))), (Nat.eq_dec (List.length (b_intensities b)) (List.length (b_points b))); tauto. }
  split.
  - intros E. destruct (Exists_dec (fun b => ~ ply_fits color (some_of (b_colors b0)) (some_of (b_intensities b0)) b) bs) as [X|X].
    { intros b. destruct (b_points b) as [|p ps] eqn:EP; [right; intros Y; apply Y; now left|].
      destruct (Nat.eq_dec (List.length (b_colors b)) (List.length (b_points b))) as [A|A]; destruct (Nat.eq_dec (List.length (b_intensities b)) (List.length (b_points b))) as [D|D];
      destruct (some_of (b_colors b0)), (some_of (b_intensities b0));
        solve [right; intros Y; apply Y; right; split; intros; solve [assumption | discriminate] | left; intros [Y|[Y1 Y2]]; [congruence | auto]]. }
    + apply Exists_exists in X. destruct X as (b & I & X). exists b. split; [exact I | now apply U].
    + exfalso. rewrite <- Forall_Exists_neg in X. destruct R1 as (t & E1 & _).
      * eapply Forall_impl; [|exact X]. intros b NN. destruct (fits_dec color (some_of (b_colors b0)) (some_of (b_intensities b0)) b); [assumption | contradiction].
      * rewrite E1 in E. discriminate.
  - intros (b & I & X). rewrite R2; [reflexivity|]. apply Exists_exists. exists b. split; [exact I | now apply U].
Qed.

(* As a PCD file. A batch without points changes nothing; without any points the file is read as an empty one. *)
Theorem C81_pcd : bytes_colors color to_uint8 -> forall bs has_c,
  Forall (batch_bits color) bs -> num_points color bs < 10 ^ 15 ->
  has_c = match first_batch color bs with Some b0 => some_of (b_colors b0) | None => false end ->
  Forall (fun b => b_points b = [] \/
    (if has_c then b_colors b <> [] /\ (List.length (b_points b) <= List.length (b_colors b))%nat else b_colors b = [])) bs ->
  exists bytes t, pcd_write color to_uint8 bs = Some bytes /\
    read_pcd bytes = Some ([text "x"; text "y"; text "z"] ++ (if has_c then [text "rgb"] else []),
      [text "F"; text "F"; text "F"] ++ (if has_c then [text "U"] else []), t) /\
    map Some t = map (fun p => pcd_row color to_uint8 has_c (fst p) (snd p)) (all_points color bs).
Proof.
  intros COL bs has_c B N E F. destruct (pcd_runs color to_uint8 COL bs B) as (s & t & ES & [R1 R2] & S); rewrite <- E in *.
  - eapply Forall_impl; [|exact F]. intros b [H|H]; [now left|]. right. destruct has_c.
    + destruct H as [H1 H2]. split; [destruct (b_colors b); [congruence | reflexivity] | auto].
    + rewrite H. split; [reflexivity | discriminate].
  - assert (NT : Z.of_nat (List.length t) < 10 ^ 15).
    { apply (f_equal (@List.length _)) in R1. rewrite !map_length in R1. unfold num_points in N. rewrite R1. exact N. }
    exists (pcd_flush s), t. unfold pcd_write. rewrite ES. split; [reflexivity|]. split; [|exact R1].
    destruct S as [-> | (-> & -> & ->)].
    + rewrite pcd_flush_ok by exact NT. apply pcd_read; assumption.
    + rewrite pcd_flush_init. pose proof (pcd_read false [] NT R2) as P. rewrite app_nil_r in P. exact P.
Qed.
(* Process reads past the end of the colours when there are some, but fewer than points. *)
Theorem C81_pcd_short : forall bs b, In b bs -> b_colors b <> [] -> (List.length (b_colors b) < List.length (b_points b))%nat ->
  pcd_write color to_uint8 bs = None.
Proof.
  intros bs b I N L. unfold pcd_write. generalize pcd_init. induction bs as [|b' bs IH]; intros s; [destruct I|]. cbn [pcd_all].
  destruct I as [->|I].
  - unfold pcd_process. destruct (b_points b) as [|p ps] eqn:EP; [cbn in L; lia|]. cbn [empty].
    replace (negb (empty (b_colors b))) with true by (destruct (b_colors b); [congruence | reflexivity]).
    rewrite pcd_loop_short by exact L. reflexivity.
  - destruct (pcd_process color to_uint8 s b'); [now apply IH | reflexivity].
Qed.
End Colors.

(* The rows: the point, then red, green and blue, then the intensity. *)
Example C81_ply_example :
  let red := (255, 0, 0) in let green := (0, 255, 0) in
  let b1 := mk_batch [(1, 2, 3)] [7] [red] in let b2 := mk_batch [(4, 5, 2 ^ 32 - 1); (8, 9, 10)] [11; 12] [green; red] in
  match ply_write (Z * Z * Z) (fun c => c) [text "a map"] [mk_batch [] [] []; b1; b2] with
  | Some bytes => option_map snd (read_ply bytes)
  | None => None
  end = Some [[1; 2; 3; 255; 0; 0; 7]; [4; 5; 4294967295; 0; 255; 0; 11]; [8; 9; 10; 255; 0; 0; 12]].
Proof. vm_compute. reflexivity. Qed.
Example C81_pcd_example :
  match pcd_write (Z * Z * Z) (fun c => c) [mk_batch [(1, 2, 3)] [] [(1, 2, 3)]; mk_batch [(4, 5, 6)] [] [(255, 0, 0)]] with
  | Some bytes => option_map snd (read_pcd bytes)
  | None => None
  end = Some [[1; 2; 3; 66051]; [4; 5; 6; 16711680]].
Proof. vm_compute. reflexivity. Qed.

(* A PCD file is not readable when the first batch has no colours and a later one has. *)
Theorem C81_pcd_mixed_refuted : exists bs, Forall (batch_bits (Z * Z * Z)) bs /\
  Forall (fun b => b_colors b = [] \/ List.length (b_colors b) = List.length (b_points b)) bs /\
  exists bytes, pcd_write (Z * Z * Z) (fun c => c) bs = Some bytes /\ read_pcd bytes = None.
Proof.
  exists [mk_batch [(1, 2, 3)] [] []; mk_batch [(4, 5, 6)] [] [(255, 0, 0)]]. split; [|split].
  - repeat first [apply Forall_cons | apply Forall_nil | split]; try (vm_compute; congruence).
  - repeat (apply Forall_cons; [solve [left; reflexivity | right; reflexivity]|]). apply Forall_nil.
  - eexists. split; [vm_compute; reflexivity | vm_compute; reflexivity].
Qed.
(* A PLY file is not written at all when there are no points: Flush reads has_intensities_ that nothing has set. *)
Theorem C81_ply_empty_refuted : exists bs : list (batch (Z * Z * Z)), bs <> [] /\ Forall (batch_bits (Z * Z * Z)) bs /\
  Forall (fun b => List.length (b_colors b) = List.length (b_points b) /\ List.length (b_intensities b) = List.length (b_points b)) bs /\
  ply_write (Z * Z * Z) (fun c => c) [] bs = None.
Proof. exists [mk_batch [] [] []]. split; [discriminate|]. repeat split; repeat constructor. Qed.
(* A newline in a comment of a PLY file breaks its header. *)
Theorem C81_comment_refuted : exists comments bs, Forall (batch_bits (Z * Z * Z)) bs /\
  exists bytes, ply_write (Z * Z * Z) (fun c => c) comments bs = Some bytes /\ read_ply bytes = None.
Proof.
  exists [text "a" ++ nl ++ text "b"], [mk_batch [(1, 2, 3)] [] []]. split.
  - repeat first [apply Forall_cons | apply Forall_nil | split]; try (vm_compute; congruence).
  - eexists. split; [vm_compute; reflexivity | vm_compute; reflexivity].
Qed.

Print Assumptions C81_ply.
Print Assumptions C81_ply_abort.
Print Assumptions C81_pcd.
Print Assumptions C81_pcd_short.
Print Assumptions C81_pcd_mixed_refuted.
Print Assumptions C81_ply_empty_refuted.
Print Assumptions C81_comment_refuted.
