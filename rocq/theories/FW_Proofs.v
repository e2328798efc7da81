(* PLY and PCD files can be read back. *)
From Coq Require Import ZArith List Bool Lia String.
From Verif Require Import FW_Model FW_Spec.
Import ListNotations.
Open Scope Z_scope.

(* numbers *)
Lemma number_app l1 : forall acc l2, number_from acc (l1 ++ l2) =
  match number_from acc l1 with Some a => number_from a l2 | None => None end.
Proof.
  induction l1 as [|d l1 IH]; intros acc l2; [reflexivity|]. cbn [app number_from].
  destruct ((48 <=? d) && (d <=? 57)); [apply IH | reflexivity].
Qed.
Lemma digit d : 0 <= d < 10 -> (48 <=? 48 + d) && (48 + d <=? 57) = true.
Proof. intros H. destruct (Z.leb_spec 48 (48 + d)); [|lia]. destruct (Z.leb_spec (48 + d) 57); [reflexivity | lia]. Qed.
Lemma decimal_number fuel : forall n acc, 0 <= n < 2 ^ Z.of_nat fuel -> (0 < fuel)%nat ->
  exists k, number_from acc (decimal fuel n) = Some (acc * 10 ^ k + n) /\ k = Z.of_nat (List.length (decimal fuel n)) /\
    Forall (fun d => 48 <= d <= 57) (decimal fuel n).
Proof.
  induction fuel as [|fuel IH]; intros n acc H P; [lia|]. cbn [decimal].
  destruct (Z.ltb_spec n 10) as [L|L].
  - exists 1. cbn [number_from List.length]. rewrite digit by lia. repeat split; [f_equal; lia|]. constructor; [lia | constructor].
  - assert (H2 : 0 <= n / 10 < 2 ^ Z.of_nat fuel).
    { rewrite Nat2Z.inj_succ, Z.pow_succ_r in H by lia. split; [apply Z.div_pos; lia|].
      apply Z.div_lt_upper_bound; lia. }
    assert (0 < fuel)%nat.
    { destruct fuel; [|lia]. change (2 ^ Z.of_nat 0) with 1 in H2. assert (1 <= n / 10) by (apply Z.div_le_lower_bound; lia). lia. }
    destruct (IH (n / 10) acc H2 H0) as (k & E & K & F). exists (k + 1).
    pose proof (Z.mod_pos_bound n 10 ltac:(lia)) as M. pose proof (Z.div_mod n 10 ltac:(lia)) as D.
    rewrite number_app, E. cbn [number_from]. rewrite digit by lia. rewrite app_length. cbn [List.length].
    split; [|split; [lia|]].
    + f_equal. rewrite Z.pow_add_r by lia. lia.
    + apply Forall_app. split; [exact F|]. constructor; [lia | constructor].
Qed.
Lemma decimal_length fuel : forall n k, 0 <= n < 10 ^ Z.of_nat k -> (0 < k)%nat -> (List.length (decimal fuel n) <= k)%nat.
Proof.
  induction fuel as [|fuel IH]; intros n k H K; cbn [decimal]; [cbn; lia|].
  destruct (Z.ltb_spec n 10); [cbn; lia|]. rewrite app_length. cbn [List.length].
  destruct k as [|k]; [lia|]. rewrite Nat2Z.inj_succ, Z.pow_succ_r in H by lia.
  assert (H2 : 0 <= n / 10 < 10 ^ Z.of_nat k) by (split; [apply Z.div_pos; lia | apply Z.div_lt_upper_bound; lia]).
  assert (0 < k)%nat.
  { destruct k; [|lia]. change (10 ^ Z.of_nat 0) with 1 in H2. assert (1 <= n / 10) by (apply Z.div_le_lower_bound; lia). lia. }
  specialize (IH (n / 10) k H2 H1). lia.
Qed.
Lemma padded_ok n : 0 <= n < 10 ^ 15 -> number (padded n) = Some n /\ List.length (padded n) = 15%nat /\ Forall (fun d => 48 <= d <= 57) (padded n).
Proof.
  intros H. unfold padded.
  assert (F : 0 <= n < 2 ^ Z.of_nat (S (Z.to_nat (Z.log2 n)))).
  { rewrite Nat2Z.inj_succ, Z2Nat.id by apply Z.log2_nonneg. split; [lia|].
    destruct (Z.eq_dec n 0) as [->|N]; [reflexivity|]. apply Z.log2_spec. lia. }
  destruct (decimal_number _ n 0 F ltac:(lia)) as (k & E & _ & G). fold (digits n) in E, G |- *.
  pose proof (decimal_length (S (Z.to_nat (Z.log2 n))) n 15 ltac:(exact H) ltac:(lia)) as L. fold (digits n) in L.
  assert (Z0 : forall m, number_from 0 (repeat 48 m ++ digits n) = Some n).
  { induction m as [|m IH]; [cbn [repeat app]; rewrite E; f_equal; lia | cbn; exact IH]. }
  assert (LE : List.length (repeat 48 (15 - List.length (digits n)) ++ digits n) = 15%nat) by (rewrite app_length, repeat_length; lia).
  split; [|split; [exact LE|]].
  - unfold number. specialize (Z0 (15 - List.length (digits n))%nat).
    destruct (repeat 48 (15 - List.length (digits n)) ++ digits n); [cbn in LE; lia | exact Z0].
  - apply Forall_app. split; [|exact G]. apply Forall_forall. intros x X. apply repeat_spec in X. lia.
Qed.

(* lines *)
Definition no_nl (l : list Z) : bool := forallb (fun x => negb (x =? 10)) l.
Definition unlines (ls : list (list Z)) : list Z := flat_map (fun l => l ++ nl) ls.
Lemma take_line_ok l rest : no_nl l = true -> take_line (l ++ nl ++ rest) = Some (l, rest).
Proof.
  induction l as [|x l IH]; intros H; [reflexivity|]. cbn in H. apply andb_prop in H. destruct H as [A B].
  cbn [app take_line]. destruct (x =? 10); [discriminate|]. now rewrite (IH B).
Qed.
Lemma header_ok last ls : forall fuel body, no_nl last = true -> same_bytes last last = true ->
  Forall (fun l => no_nl l = true /\ same_bytes l last = false) ls -> (List.length ls < fuel)%nat ->
  header_lines fuel last (unlines ls ++ last ++ nl ++ body) = Some (ls, body).
Proof.
  induction ls as [|l ls IH]; intros fuel body NL S F L; (destruct fuel as [|fuel]; [cbn in L; lia|]); cbn [header_lines].
  - cbn [unlines flat_map app]. rewrite take_line_ok by exact NL. now rewrite S.
  - inversion F as [|? ? [A B] F']; subst. unfold unlines. cbn [flat_map]. fold (unlines ls).
    rewrite <- !app_assoc. rewrite take_line_ok by exact A. rewrite B.
    rewrite IH; [reflexivity | exact NL | exact S | exact F' | cbn in L; lia].
Qed.
Lemma unlines_length ls : (List.length ls <= List.length (unlines ls))%nat.
Proof.
  induction ls as [|l ls IH]; [cbn; lia|]. unfold unlines. cbn [flat_map]. fold (unlines ls). rewrite !app_length. cbn. lia.
Qed.
Lemma unlines_app a b : unlines (a ++ b) = unlines a ++ unlines b.
Proof. apply flat_map_app. Qed.
Lemma no_nl_app a b : no_nl (a ++ b) = no_nl a && no_nl b.
Proof. apply forallb_app. Qed.
Lemma no_nl_digits l : Forall (fun d => 48 <= d <= 57) l -> no_nl l = true.
Proof.
  intros F. apply forallb_forall. intros x X. rewrite Forall_forall in F. specialize (F x X). cbn in F.
  destruct (Z.eqb_spec x 10); [lia | reflexivity].
Qed.

(* rows *)
Definition encode1 (s v : Z) : list Z := if s =? 4 then le32 v else [v].
Fixpoint encode (sizes vs : list Z) : list Z :=
  match sizes, vs with s :: ss, v :: vs => encode1 s v ++ encode ss vs | _, _ => [] end.
Definition fits_size (s v : Z) : Prop := s = 4 /\ bits v \/ s = 1 /\ byte v.
Lemma little_le32 v : bits v -> little (le32 v) = v.
Proof.
  unfold bits, le32. intros H. cbn [little].
  pose proof (Z.div_mod v 256 ltac:(lia)). pose proof (Z.div_mod (v / 256) 256 ltac:(lia)).
  pose proof (Z.div_mod (v / 65536) 256 ltac:(lia)).
  replace (v / 256 / 256) with (v / 65536) in * by (rewrite Z.div_div by lia; reflexivity).
  replace (v / 65536 / 256) with (v / 16777216) in * by (rewrite Z.div_div by lia; reflexivity).
  rewrite (Z.mod_small (v / 16777216)); [lia|]. split; [apply Z.div_pos; lia | apply Z.div_lt_upper_bound; lia].
Qed.
Lemma row_encode sizes vs rest : Forall2 fits_size sizes vs -> row sizes (encode sizes vs ++ rest) = Some (vs, rest).
Proof.
  induction 1 as [|s v ss vs F _ IH]; [reflexivity|]. cbn [encode row]. rewrite <- app_assoc.
  destruct F as [[-> B]|[-> B]].
  - change (Z.to_nat 4) with 4%nat. unfold encode1. cbn [Z.eqb Pos.eqb].
    assert (L : List.length (le32 v) = 4%nat) by reflexivity.
    destruct (Nat.ltb_spec (List.length (le32 v ++ encode ss vs ++ rest)) 4) as [X|X]; [rewrite app_length in X; lia|].
    rewrite firstn_app, skipn_app, L. rewrite firstn_all2, skipn_all2 by lia.
    replace (4 - 4)%nat with 0%nat by lia. cbn [firstn skipn app]. rewrite app_nil_r, IH, little_le32 by exact B. reflexivity.
  - change (Z.to_nat 1) with 1%nat. unfold encode1. cbn [Z.eqb Pos.eqb app List.length Nat.ltb Nat.leb skipn firstn].
    rewrite IH. cbn [little]. now rewrite Z.add_0_r.
Qed.
Lemma rows_encode sizes t : Forall (Forall2 fits_size sizes) t -> rows (List.length t) sizes (flat_map (encode sizes) t) = Some t.
Proof.
  induction 1 as [|vs t F _ IH]; [reflexivity|]. cbn [List.length flat_map rows]. rewrite row_encode by exact F. now rewrite IH.
Qed.

(* writing at the end *)
Definition at_end (l : list Z) : file := mk_file l (List.length l).
Lemma fwrite_end l d : fwrite (at_end l) d = at_end (l ++ d).
Proof.
  unfold fwrite, at_end. cbn [f_bytes f_pos]. rewrite firstn_all, skipn_all2, app_nil_r, app_length by lia. reflexivity.
Qed.
Lemma header_new d : write_header file_new d = at_end d.
Proof. unfold write_header, fwrite, file_new, at_end. cbn [f_bytes f_pos firstn app]. rewrite skipn_nil, app_nil_r. reflexivity. Qed.
Lemma header_again h0 h body : List.length h = List.length h0 -> f_bytes (write_header (at_end (h0 ++ body)) h) = h ++ body.
Proof.
  intros L. unfold write_header, fwrite, at_end. cbn [f_bytes f_pos firstn app]. rewrite L. cbn [Nat.add].
  rewrite skipn_app, skipn_all2, Nat.sub_diag by lia. reflexivity.
Qed.

Section Writers.
Variable color : Type.
Variable to_uint8 : color -> Z * Z * Z.
Hypothesis COLORS : bytes_colors color to_uint8.
Notation batch := (batch color).

Lemma seq_S n : seq 0 (S n) = 0%nat :: map S (seq 0 n).
Proof. cbn. f_equal. symmetry. apply seq_shift. Qed.

(* PLY *)
Definition ply_sizes (has_c has_i : bool) : list Z := [4; 4; 4] ++ (if has_c then [1; 1; 1] else []) ++ (if has_i then [4] else []).
Definition enough (has : bool) (n m : nat) : Prop := has = true -> (n <= m)%nat.

Lemma ply_loop_ok has_c has_i points : forall colors ints l num,
  enough has_c (List.length points) (List.length colors) -> enough has_i (List.length points) (List.length ints) ->
  batch_bits color (mk_batch points ints colors) ->
  exists t, ply_loop color to_uint8 has_c has_i points colors ints (at_end l) num =
      Some (at_end (l ++ flat_map (encode (ply_sizes has_c has_i)) t), num + Z.of_nat (List.length t)) /\
    map Some t = map (ply_row color to_uint8 has_c has_i (mk_batch points ints colors)) (seq 0 (List.length points)) /\
    Forall (Forall2 fits_size (ply_sizes has_c has_i)) t.
Proof.
  induction points as [|p points IH]; intros colors ints l num HC HI HB.
  - exists []. cbn [ply_loop List.length seq map flat_map]. rewrite app_nil_r, Z.add_0_r. repeat split. constructor.
  - destruct HB as [HP HJ]. cbn [b_points b_intensities] in HP, HJ. inversion HP as [|? ? HP1 HP2]; subst.
    destruct p as [[x y] z]. destruct HP1 as (BX & BY & BZ).
    cbn [ply_loop]. rewrite fwrite_end.
    assert (C1 : exists cv, (if has_c then match colors with [] => None | c :: _ => Some (fwrite (at_end (l ++ coordinates (x, y, z))) (ply_color (to_uint8 c))) end
        else Some (at_end (l ++ coordinates (x, y, z)))) = Some (at_end ((l ++ coordinates (x, y, z)) ++ encode (if has_c then [1; 1; 1] else []) cv)) /\
        (if has_c then option_map (fun c => let '(r, g, b) := to_uint8 c in [r; g; b]) (nth_error colors 0) else Some []) = Some cv /\
        Forall2 fits_size (if has_c then [1; 1; 1] else []) cv).
    { destruct has_c.
      - destruct colors as [|c colors]; [specialize (HC eq_refl); cbn in HC; lia|]. pose proof (COLORS c) as B. cbn [nth_error option_map].
        destruct (to_uint8 c) as [[r g] b]. exists [r; g; b]. rewrite fwrite_end. destruct B as (B1 & B2 & B3).
        split; [reflexivity|]. split; [reflexivity|]. repeat (apply Forall2_cons; [right; auto|]); apply Forall2_nil.
      - exists []. cbn [encode]. rewrite app_nil_r. repeat split. constructor. }
    destruct C1 as (cv & -> & EC & FC). set (l1 := (l ++ coordinates (x, y, z)) ++ encode (if has_c then [1; 1; 1] else []) cv).
    assert (C2 : exists iv, (if has_i then match ints with [] => None | i :: _ => Some (fwrite (at_end l1) (le32 i)) end else Some (at_end l1)) =
        Some (at_end (l1 ++ encode (if has_i then [4] else []) iv)) /\
        (if has_i then option_map (fun v => [v]) (nth_error ints 0) else Some []) = Some iv /\ Forall2 fits_size (if has_i then [4] else []) iv).
    { destruct has_i.
      - destruct ints as [|i ints]; [specialize (HI eq_refl); cbn in HI; lia|]. exists [i]. rewrite fwrite_end.
        inversion HJ; subst. split; [cbn [encode]; rewrite app_nil_r; reflexivity|]. split; [reflexivity|]. apply Forall2_cons; [left; auto | apply Forall2_nil].
      - exists []. cbn [encode]. rewrite app_nil_r. repeat split. constructor. }
    destruct C2 as (iv & -> & EI & FI).
    destruct (IH (tl colors) (tl ints) (l1 ++ encode (if has_i then [4] else []) iv) (num + 1)) as (t & E & R & F).
    + intros H. specialize (HC H). destruct colors; cbn in *; lia.
    + intros H. specialize (HI H). destruct ints; cbn in *; lia.
    + split; [exact HP2|]. cbn [b_intensities]. destruct HJ; [constructor | assumption].
    + exists (([x; y; z] ++ cv ++ iv) :: t).
      assert (FF : Forall2 fits_size (ply_sizes has_c has_i) ([x; y; z] ++ cv ++ iv)).
      { apply Forall2_app; [repeat (apply Forall2_cons; [left; auto|]); apply Forall2_nil|]. apply Forall2_app; assumption. }
      assert (EE : encode (ply_sizes has_c has_i) ([x; y; z] ++ cv ++ iv) =
        coordinates (x, y, z) ++ encode (if has_c then [1; 1; 1] else []) cv ++ encode (if has_i then [4] else []) iv).
      { unfold ply_sizes, coordinates. cbn [app encode]. unfold encode1 at 1 2 3. cbn [Z.eqb Pos.eqb].
        rewrite <- !app_assoc. do 3 f_equal. clear - FC FI. revert FC FI. generalize (if has_c then [1; 1; 1] else []).
        intros ss. revert cv. induction ss as [|s ss IH]; intros cv FC FI; inversion FC; subst; [reflexivity|].
        cbn [app encode]. rewrite <- app_assoc. f_equal. now apply IH. }
      rewrite E. split; [|split].
      * f_equal. f_equal.
        -- cbn [flat_map]. rewrite EE. unfold l1. rewrite <- !app_assoc. reflexivity.
        -- cbn [List.length]. lia.
      * cbn [List.length]. rewrite seq_S. cbn [map]. f_equal.
        -- unfold ply_row. cbn [b_points b_colors b_intensities]. change (nth_error ((x, y, z) :: points) 0) with (Some (x, y, z)). cbv beta iota. rewrite EC, EI. reflexivity.
        -- rewrite R, map_map. apply map_ext. intros i. unfold ply_row. cbn [b_points b_colors b_intensities]. change (nth_error ((x, y, z) :: points) (S i)) with (nth_error points i).
           destruct (nth_error points i) as [[[x' y'] z']|]; [|reflexivity].
           replace (nth_error (tl colors) i) with (nth_error colors (S i)) by (destruct colors; [destruct i; reflexivity | reflexivity]).
           replace (nth_error (tl ints) i) with (nth_error ints (S i)) by (destruct ints; [destruct i; reflexivity | reflexivity]).
           reflexivity.
      * constructor; assumption.
Qed.

Definition ply_fits (has_c has_i : bool) (b : batch) : Prop := b_points b = [] \/
  (has_c = true -> List.length (b_colors b) = List.length (b_points b)) /\
  (has_i = true -> List.length (b_intensities b) = List.length (b_points b)).
Lemma fits_dec has_c has_i b : ply_fits has_c has_i b \/ ~ ply_fits has_c has_i b.
Proof.
  unfold ply_fits. destruct (b_points b) as [|p ps] eqn:E; [left; now left|].
  destruct (Nat.eq_dec (List.length (b_colors b)) (List.length (p :: ps))) as [A|A];
  destruct (Nat.eq_dec (List.length (b_intensities b)) (List.length (p :: ps))) as [B|B]; destruct has_c, has_i;
    try (left; right; split; intros; solve [assumption | discriminate]);
    right; intros [X|[X Y]]; try discriminate; auto.
Qed.

(* a state in which the header and the rows t have been written *)
Definition ply_at (comments : list (list Z)) (has_c has_i : bool) (t : list (list Z)) : ply :=
  mk_ply (at_end (ply_header has_c has_i comments 0 ++ flat_map (encode (ply_sizes has_c has_i)) t)) (Z.of_nat (List.length t)) has_c (Some has_i).
Definition rows_of has_c has_i (bs : list batch) (t : list (list Z)) : Prop :=
  map Some t = map (fun p => ply_row color to_uint8 has_c has_i (fst p) (snd p)) (all_points color bs) /\
  Forall (Forall2 fits_size (ply_sizes has_c has_i)) t.
Lemma all_points_cons b bs : all_points color (b :: bs) = map (fun i => (b, i)) (seq 0 (List.length (b_points b))) ++ all_points color bs.
Proof. reflexivity. Qed.
Lemma batch_eta (b : batch) : mk_batch (b_points b) (b_intensities b) (b_colors b) = b.
Proof. destruct b. reflexivity. Qed.

Lemma ply_step comments has_c has_i t b : t <> [] -> batch_bits color b -> ply_fits has_c has_i b ->
  exists t', ply_process color to_uint8 comments (ply_at comments has_c has_i t) b = Some (ply_at comments has_c has_i (t ++ t')) /\ rows_of has_c has_i [b] t'.
Proof.
  intros N B F. unfold ply_process. destruct (b_points b) as [|p ps] eqn:EP.
  - exists []. cbn [empty]. rewrite app_nil_r. split; [reflexivity|]. split; [|constructor]. rewrite all_points_cons, EP. reflexivity.
  - cbn [empty]. destruct F as [F|[FC FI]]; [congruence|].
    remember (ply_at comments has_c has_i t) as s eqn:ES.
    assert (S1 : p_num s = Z.of_nat (List.length t)) by now rewrite ES. assert (S2 : p_colors s = has_c) by now rewrite ES.
    assert (S3 : p_intensities s = Some has_i) by now rewrite ES.
    assert (S4 : p_file s = at_end (ply_header has_c has_i comments 0 ++ flat_map (encode (ply_sizes has_c has_i)) t)) by now rewrite ES.
    clear ES. rewrite S1.
    destruct (Z.eqb_spec (Z.of_nat (List.length t)) 0) as [Z0|Z0]; [destruct t; [congruence | cbn in Z0; lia]|].
    rewrite S1, S2, S3, S4.
    rewrite EP in FC, FI.
    replace (has_c && negb (List.length (p :: ps) =? List.length (b_colors b))%nat) with false.
    2:{ destruct has_c; [|reflexivity]. rewrite (FC eq_refl), Nat.eqb_refl. reflexivity. }
    replace (has_i && negb (List.length (p :: ps) =? List.length (b_intensities b))%nat) with false.
    2:{ destruct has_i; [|reflexivity]. rewrite (FI eq_refl), Nat.eqb_refl. reflexivity. }
    destruct (ply_loop_ok has_c has_i (p :: ps) (b_colors b) (b_intensities b)
      (ply_header has_c has_i comments 0 ++ flat_map (encode (ply_sizes has_c has_i)) t) (Z.of_nat (List.length t))) as (t' & E & R & G).
    + intros H. rewrite (FC H). lia.
    + intros H. rewrite (FI H). lia.
    + rewrite <- EP, batch_eta. exact B.
    + rewrite E. exists t'. split.
      * unfold ply_at. f_equal. f_equal; [|rewrite app_length; lia]. rewrite flat_map_app, app_assoc. reflexivity.
      * split; [|exact G]. rewrite R, all_points_cons, EP. cbn [all_points flat_map]. rewrite app_nil_r, map_map.
        apply map_ext. intros i. cbn [fst snd]. rewrite <- EP, batch_eta. reflexivity.
Qed.
Lemma ply_first comments b : b_points b <> [] -> batch_bits color b ->
  let has_c := some_of (b_colors b) in let has_i := some_of (b_intensities b) in ply_fits has_c has_i b ->
  exists t', ply_process color to_uint8 comments ply_init b = Some (ply_at comments has_c has_i t') /\ rows_of has_c has_i [b] t' /\ t' <> [].
Proof.
  intros N B has_c has_i F. unfold ply_process. destruct (b_points b) as [|p ps] eqn:EP; [congruence|].
  cbn [empty]. destruct F as [F|[FC FI]]; [congruence|]. unfold ply_init. cbn [p_num p_file p_colors p_intensities Z.eqb].
  rewrite header_new.
  replace (negb (empty (b_colors b))) with has_c by (unfold has_c; destruct (b_colors b); reflexivity).
  replace (negb (empty (b_intensities b))) with has_i by (unfold has_i; destruct (b_intensities b); reflexivity).
  rewrite EP in FC, FI.
  replace (has_c && negb (List.length (p :: ps) =? List.length (b_colors b))%nat) with false.
  2:{ destruct has_c; [|reflexivity]. rewrite (FC eq_refl), Nat.eqb_refl. reflexivity. }
  replace (has_i && negb (List.length (p :: ps) =? List.length (b_intensities b))%nat) with false.
  2:{ destruct has_i; [|reflexivity]. rewrite (FI eq_refl), Nat.eqb_refl. reflexivity. }
  destruct (ply_loop_ok has_c has_i (p :: ps) (b_colors b) (b_intensities b) (ply_header has_c has_i comments 0) 0) as (t' & E & R & G).
  + intros H. rewrite (FC H). lia.
  + intros H. rewrite (FI H). lia.
  + rewrite <- EP, batch_eta. exact B.
  + rewrite E. exists t'. split; [|split].
    * unfold ply_at. f_equal.
    * split; [|exact G]. rewrite R, all_points_cons, EP. cbn [all_points flat_map]. rewrite app_nil_r, map_map.
      apply map_ext. intros i. cbn [fst snd]. rewrite <- EP, batch_eta. reflexivity.
    * intros ->. apply (f_equal (@List.length _)) in R. rewrite !map_length, seq_length in R. cbn in R. lia.
Qed.
Lemma ply_unfit comments has_c has_i t b : t <> [] -> ~ ply_fits has_c has_i b ->
  ply_process color to_uint8 comments (ply_at comments has_c has_i t) b = None.
Proof.
  intros N F. unfold ply_process. destruct (b_points b) as [|p ps] eqn:EP; [elim F; now left|].
  cbn [empty]. unfold ply_at. cbn [p_num p_file p_colors p_intensities].
  destruct (Z.eqb_spec (Z.of_nat (List.length t)) 0) as [Z0|Z0]; [destruct t; [congruence | cbn in Z0; lia]|]. cbn [p_num p_file p_colors p_intensities].
  destruct (has_c && negb (List.length (p :: ps) =? List.length (b_colors b))%nat) eqn:C; [reflexivity|].
  destruct (has_i && negb (List.length (p :: ps) =? List.length (b_intensities b))%nat) eqn:I; [reflexivity|].
  elim F. right. rewrite EP. split; intros ->; cbn [andb] in C, I.
  - apply negb_false_iff, Nat.eqb_eq in C. congruence.
  - apply negb_false_iff, Nat.eqb_eq in I. congruence.
Qed.
Lemma ply_first_unfit comments b : b_points b <> [] -> ~ ply_fits (some_of (b_colors b)) (some_of (b_intensities b)) b ->
  ply_process color to_uint8 comments ply_init b = None.
Proof.
  intros N F. unfold ply_process. destruct (b_points b) as [|p ps] eqn:EP; [congruence|].
  cbn [empty]. unfold ply_init. cbn [p_num p_file p_colors p_intensities Z.eqb].
  replace (negb (empty (b_colors b))) with (some_of (b_colors b)) by (destruct (b_colors b); reflexivity).
  replace (negb (empty (b_intensities b))) with (some_of (b_intensities b)) by (destruct (b_intensities b); reflexivity).
  destruct (some_of (b_colors b) && negb (List.length (p :: ps) =? List.length (b_colors b))%nat) eqn:C; [reflexivity|].
  destruct (some_of (b_intensities b) && negb (List.length (p :: ps) =? List.length (b_intensities b))%nat) eqn:I; [reflexivity|].
  elim F. right. rewrite EP. split; intros X; rewrite X in *; cbn [andb] in C, I.
  - apply negb_false_iff, Nat.eqb_eq in C. congruence.
  - apply negb_false_iff, Nat.eqb_eq in I. congruence.
Qed.

Lemma rows_join has_c has_i b bs t t' : rows_of has_c has_i [b] t -> rows_of has_c has_i bs t' -> rows_of has_c has_i (b :: bs) (t ++ t').
Proof.
  intros [A B] [C D]. split; [|apply Forall_app; auto]. rewrite all_points_cons, !map_app, A, C.
  rewrite all_points_cons. cbn [all_points flat_map]. rewrite app_nil_r. reflexivity.
Qed.
Lemma ply_run comments has_c has_i bs : forall t, t <> [] -> Forall (batch_bits color) bs ->
  (Forall (ply_fits has_c has_i) bs -> exists t', ply_all color to_uint8 comments (ply_at comments has_c has_i t) bs = Some (ply_at comments has_c has_i (t ++ t')) /\ rows_of has_c has_i bs t') /\
  (Exists (fun b => ~ ply_fits has_c has_i b) bs -> ply_all color to_uint8 comments (ply_at comments has_c has_i t) bs = None).
Proof.
  induction bs as [|b bs IH]; intros t N B.
  - split; [|intros X; inversion X]. intros _. exists []. rewrite app_nil_r. repeat split. constructor.
  - inversion B as [|? ? B1 B2]; subst. split.
    + intros F. inversion F as [|? ? F1 F2]; subst. destruct (ply_step comments has_c has_i t b N B1 F1) as (t1 & E1 & R1).
      destruct (IH (t ++ t1)) as [X _]; [destruct t; [congruence | discriminate] | exact B2|].
      destruct (X F2) as (t2 & E2 & R2). exists (t1 ++ t2). cbn [ply_all]. rewrite E1, E2, app_assoc. split; [reflexivity|].
      now apply rows_join.
    + intros X. cbn [ply_all]. destruct (fits_dec has_c has_i b) as [F|F].
      * destruct (ply_step comments has_c has_i t b N B1 F) as (t1 & E1 & R1). rewrite E1.
        apply IH; [destruct t; [congruence | discriminate] | exact B2|]. inversion X; subst; [contradiction | assumption].
      * now rewrite (ply_unfit comments has_c has_i t b N F).
Qed.
Lemma ply_runs comments bs : Forall (batch_bits color) bs ->
  match first_batch color bs with
  | None => ply_all color to_uint8 comments ply_init bs = Some ply_init
  | Some b0 => let has_c := some_of (b_colors b0) in let has_i := some_of (b_intensities b0) in
    (Forall (ply_fits has_c has_i) bs -> exists t, ply_all color to_uint8 comments ply_init bs = Some (ply_at comments has_c has_i t) /\ rows_of has_c has_i bs t) /\
    (Exists (fun b => ~ ply_fits has_c has_i b) bs -> ply_all color to_uint8 comments ply_init bs = None)
  end.
Proof.
  induction bs as [|b bs IH]; intros B; [reflexivity|]. inversion B as [|? ? B1 B2]; subst.
  unfold first_batch. cbn [find]. fold (first_batch color bs). destruct (b_points b) as [|p ps] eqn:EP.
  - specialize (IH B2). assert (E : ply_process color to_uint8 comments ply_init b = Some ply_init) by (unfold ply_process; rewrite EP; reflexivity).
    destruct (first_batch color bs) as [b0|]; cbn [ply_all]; rewrite E; [|exact IH]. destruct IH as [A C]. split.
    + intros F. inversion F; subst. destruct A as (t & E1 & [R1 R2]); [assumption|]. exists t. split; [exact E1|]. split; [|exact R2].
      rewrite R1, all_points_cons, EP. reflexivity.
    + intros X. apply C. inversion X as [? ? H|]; subst; [|assumption]. elim H. now left.
  - cbv zeta. assert (NP : b_points b <> []) by (rewrite EP; discriminate). cbn [ply_all]. split.
    + intros F. inversion F as [|? ? F1 F2]; subst. destruct (ply_first comments b NP B1 F1) as (t1 & -> & R1 & N1).
      destruct (ply_run comments (some_of (b_colors b)) (some_of (b_intensities b)) bs t1 N1 B2) as [X _].
      destruct (X F2) as (t2 & E2 & R2). exists (t1 ++ t2). split; [exact E2 | now apply rows_join].
    + intros X. destruct (fits_dec (some_of (b_colors b)) (some_of (b_intensities b)) b) as [F|F].
      * destruct (ply_first comments b NP B1 F) as (t1 & -> & R1 & N1).
        apply (ply_run comments _ _ bs t1 N1 B2). inversion X; subst; [contradiction | assumption].
      * now rewrite (ply_first_unfit comments b NP F).
Qed.

(* the header *)
Definition ply_names (has_c has_i : bool) : list (list Z) :=
  [text "x"; text "y"; text "z"] ++ (if has_c then [text "red"; text "green"; text "blue"] else []) ++ (if has_i then [text "intensity"] else []).
Definition ply_ls (has_c has_i : bool) (comments : list (list Z)) (n : Z) : list (list Z) :=
  [text "ply"; text "format binary_little_endian 1.0"; text "comment generated by Cartographer"]
  ++ map (fun c => text "comment " ++ c) comments
  ++ [text "element vertex " ++ padded n; text "property float x"; text "property float y"; text "property float z"]
  ++ (if has_c then [text "property uchar red"; text "property uchar green"; text "property uchar blue"] else [])
  ++ (if has_i then [text "property float intensity"] else []).
Lemma unlines_comments comments : unlines (map (fun c => text "comment " ++ c) comments) = flat_map (fun c => text "comment " ++ c ++ nl) comments.
Proof. unfold unlines. induction comments as [|c cs IH]; [reflexivity|]. cbn [map flat_map]. rewrite IH, <- !app_assoc. reflexivity. Qed.
Lemma ply_header_lines has_c has_i comments n : ply_header has_c has_i comments n = unlines (ply_ls has_c has_i comments n) ++ text "end_header" ++ nl.
Proof.
  unfold ply_header, ply_ls. rewrite !unlines_app, unlines_comments.
  destruct has_c, has_i; unfold unlines at 1 2; cbn [flat_map negb]; rewrite ?app_nil_r, <- !app_assoc; repeat f_equal;
    unfold unlines; cbn [flat_map app]; rewrite <- ?app_assoc; reflexivity.
Qed.
Lemma ply_header_length has_c has_i comments n m : 0 <= n < 10 ^ 15 -> 0 <= m < 10 ^ 15 ->
  List.length (ply_header has_c has_i comments n) = List.length (ply_header has_c has_i comments m).
Proof.
  intros N M. unfold ply_header. rewrite !app_length. destruct (padded_ok n N) as (_ & -> & _), (padded_ok m M) as (_ & -> & _). reflexivity.
Qed.
Lemma ply_lines_ok has_c has_i comments n : 0 <= n < 10 ^ 15 ->
  ply_lines (tl (tl (ply_ls has_c has_i comments n))) = Some (Some n, combine (ply_names has_c has_i) (ply_sizes has_c has_i)).
Proof.
  intros N. destruct (padded_ok n N) as (E & _ & _). unfold ply_ls.
  assert (A : forall cs rest r, ply_lines rest = Some r -> ply_lines (map (fun c => text "comment " ++ c) cs ++ rest) = Some r).
  { induction cs as [|c cs IH]; intros rest r R; [exact R|]. cbn [map app ply_lines]. rewrite (IH rest r R). destruct r as [q ps].
    assert (X : after (text "comment ") (text "comment " ++ c) = Some c) by reflexivity. now rewrite X. }
  cbn [app tl]. cbn [ply_lines]. rewrite A with (r := (Some n, combine (ply_names has_c has_i) (ply_sizes has_c has_i))); [reflexivity|].
  cbn [app ply_lines].
  assert (X : after (text "comment ") (text "element vertex " ++ padded n) = None) by reflexivity.
  assert (Y : after (text "element vertex ") (text "element vertex " ++ padded n) = Some (padded n)) by reflexivity.
  rewrite X, Y, E. destruct has_c, has_i; reflexivity.
Qed.
Lemma ply_lines_plain has_c has_i comments n : 0 <= n < 10 ^ 15 -> Forall (fun c => no_nl c = true) comments ->
  Forall (fun l => no_nl l = true /\ same_bytes l (text "end_header") = false) (ply_ls has_c has_i comments n).
Proof.
  intros N C. destruct (padded_ok n N) as (_ & _ & D). apply no_nl_digits in D.
  unfold ply_ls. repeat (apply Forall_app; split).
  - repeat (constructor; [split; reflexivity|]). constructor.
  - apply Forall_forall. intros l L. apply in_map_iff in L. destruct L as (c & <- & L). rewrite Forall_forall in C.
    split; [rewrite no_nl_app, (C c L); reflexivity | reflexivity].
  - constructor; [split; [rewrite no_nl_app, D; reflexivity | reflexivity]|]. repeat (constructor; [split; reflexivity|]). constructor.
  - destruct has_c; repeat (constructor; [split; reflexivity|]); constructor.
  - destruct has_i; repeat (constructor; [split; reflexivity|]); constructor.
Qed.

Lemma ply_read has_c has_i comments t : Z.of_nat (List.length t) < 10 ^ 15 -> Forall (fun c => no_nl c = true) comments ->
  Forall (Forall2 fits_size (ply_sizes has_c has_i)) t ->
  exists bytes, ply_flush comments (ply_at comments has_c has_i t) = Some bytes /\ read_ply bytes = Some (ply_names has_c has_i, t).
Proof.
  intros N C F. unfold ply_flush, ply_at. cbn [p_intensities p_file p_colors p_num]. set (n := Z.of_nat (List.length t)).
  assert (N' : 0 <= n < 10 ^ 15) by (unfold n; lia).
  eexists. split; [reflexivity|]. rewrite header_again by (apply ply_header_length; [exact N' | lia]).
  rewrite ply_header_lines, <- !app_assoc. unfold read_ply. rewrite header_ok.
  - assert (Q : ply_ls has_c has_i comments n = text "ply" :: text "format binary_little_endian 1.0" :: tl (tl (ply_ls has_c has_i comments n))) by reflexivity.
    rewrite Q. change (same_bytes (text "ply") (text "ply") && same_bytes (text "format binary_little_endian 1.0") (text "format binary_little_endian 1.0")) with true.
    cbv iota. rewrite ply_lines_ok by exact N'.
    replace (map snd (combine (ply_names has_c has_i) (ply_sizes has_c has_i))) with (ply_sizes has_c has_i) by (destruct has_c, has_i; reflexivity).
    replace (map fst (combine (ply_names has_c has_i) (ply_sizes has_c has_i))) with (ply_names has_c has_i) by (destruct has_c, has_i; reflexivity).
    unfold n. rewrite Nat2Z.id, rows_encode by exact F. reflexivity.
  - reflexivity.
  - reflexivity.
  - apply ply_lines_plain; [exact N' | exact C].
  - rewrite !app_length. pose proof (unlines_length (ply_ls has_c has_i comments n)).
    assert (List.length (text "end_header") = 10%nat) by reflexivity. lia.
Qed.

(* PCD *)
Definition pcd_sizes (has_c : bool) : list Z := [4; 4; 4] ++ (if has_c then [4] else []).
Lemma pcd_color_le r g b : byte r -> byte g -> byte b -> pcd_color (r, g, b) = le32 (65536 * r + 256 * g + b) /\ bits (65536 * r + 256 * g + b).
Proof.
  unfold byte, bits. intros R G B. split; [|change (2 ^ 32) with 4294967296; lia]. unfold pcd_color, le32.
  assert (E1 : (65536 * r + 256 * g + b) / 256 = 256 * r + g).
  { symmetry. apply (Z.div_unique _ _ _ b); lia. }
  assert (E2 : (65536 * r + 256 * g + b) / 65536 = r) by (symmetry; apply (Z.div_unique _ _ _ (256 * g + b)); lia).
  assert (E3 : (65536 * r + 256 * g + b) / 16777216 = 0) by (apply Z.div_small; lia).
  rewrite E1, E2, E3. f_equal; [|f_equal; [|f_equal]].
  - apply (Z.mod_unique _ _ (256 * r + g)); lia.
  - apply (Z.mod_unique _ _ r); lia.
  - symmetry. apply Z.mod_small. lia.
Qed.
Lemma pcd_loop_ok has_c points : forall colors ints l num,
  enough has_c (List.length points) (List.length colors) -> batch_bits color (mk_batch points ints colors) ->
  exists t, pcd_loop color to_uint8 has_c points colors (at_end l) num =
      Some (at_end (l ++ flat_map (encode (pcd_sizes has_c)) t), num + Z.of_nat (List.length t)) /\
    map Some t = map (pcd_row color to_uint8 has_c (mk_batch points ints colors)) (seq 0 (List.length points)) /\
    Forall (Forall2 fits_size (pcd_sizes has_c)) t.
Proof.
  induction points as [|p points IH]; intros colors ints l num HC HB.
  - exists []. cbn [pcd_loop List.length seq map flat_map]. rewrite app_nil_r, Z.add_0_r. repeat split. constructor.
  - destruct HB as [HP HJ]. cbn [b_points b_intensities] in HP, HJ. inversion HP as [|? ? HP1 HP2]; subst.
    destruct p as [[x y] z]. destruct HP1 as (BX & BY & BZ).
    cbn [pcd_loop]. rewrite fwrite_end.
    assert (C1 : exists cv, (if has_c then match colors with [] => None | c :: _ => Some (fwrite (at_end (l ++ coordinates (x, y, z))) (pcd_color (to_uint8 c))) end
        else Some (at_end (l ++ coordinates (x, y, z)))) = Some (at_end ((l ++ coordinates (x, y, z)) ++ encode (if has_c then [4] else []) cv)) /\
        (if has_c then option_map (fun c => let '(r, g, b) := to_uint8 c in [65536 * r + 256 * g + b]) (nth_error colors 0) else Some []) = Some cv /\
        Forall2 fits_size (if has_c then [4] else []) cv).
    { destruct has_c.
      - destruct colors as [|c colors]; [specialize (HC eq_refl); cbn in HC; lia|]. pose proof (COLORS c) as B. cbn [nth_error option_map].
        destruct (to_uint8 c) as [[r g] b]. destruct B as (B1 & B2 & B3). destruct (pcd_color_le r g b B1 B2 B3) as [E V].
        exists [65536 * r + 256 * g + b]. rewrite fwrite_end, E.
        split; [cbn [encode]; rewrite app_nil_r; reflexivity|]. split; [reflexivity|]. apply Forall2_cons; [left; auto | apply Forall2_nil].
      - exists []. cbn [encode]. rewrite app_nil_r. repeat split. constructor. }
    destruct C1 as (cv & -> & EC & FC).
    destruct (IH (tl colors) ints ((l ++ coordinates (x, y, z)) ++ encode (if has_c then [4] else []) cv) (num + 1)) as (t & E & R & F).
    + intros H. specialize (HC H). destruct colors; cbn in *; lia.
    + split; [exact HP2 | exact HJ].
    + exists (([x; y; z] ++ cv) :: t).
      assert (FF : Forall2 fits_size (pcd_sizes has_c) ([x; y; z] ++ cv)).
      { apply Forall2_app; [repeat (apply Forall2_cons; [left; auto|]); apply Forall2_nil | exact FC]. }
      assert (EE : encode (pcd_sizes has_c) ([x; y; z] ++ cv) = coordinates (x, y, z) ++ encode (if has_c then [4] else []) cv).
      { unfold pcd_sizes, coordinates. cbn [app encode]. unfold encode1 at 1 2 3. cbn [Z.eqb Pos.eqb]. rewrite <- !app_assoc. reflexivity. }
      rewrite E. split; [|split].
      * f_equal. f_equal.
        -- cbn [flat_map]. rewrite EE. rewrite <- !app_assoc. reflexivity.
        -- cbn [List.length]. lia.
      * cbn [List.length]. rewrite seq_S. cbn [map]. f_equal.
        -- unfold pcd_row. cbn [b_points b_colors]. change (nth_error ((x, y, z) :: points) 0) with (Some (x, y, z)). cbv beta iota. rewrite EC. reflexivity.
        -- rewrite R, map_map. apply map_ext. intros i. unfold pcd_row. cbn [b_points b_colors]. change (nth_error ((x, y, z) :: points) (S i)) with (nth_error points i).
           destruct (nth_error points i) as [[[x' y'] z']|]; [|reflexivity].
           replace (nth_error (tl colors) i) with (nth_error colors (S i)) by (destruct colors; [destruct i; reflexivity | reflexivity]).
           reflexivity.
      * constructor; assumption.
Qed.
Lemma pcd_loop_short points : forall colors f num, (List.length colors < List.length points)%nat ->
  pcd_loop color to_uint8 true points colors f num = None.
Proof.
  induction points as [|p points IH]; intros colors f num L; [cbn in L; lia|]. cbn [pcd_loop].
  destruct colors as [|c colors]; [reflexivity|]. apply IH. cbn in *. lia.
Qed.

Definition pcd_fits (has_c : bool) (b : batch) : Prop := b_points b = [] \/
  some_of (b_colors b) = has_c /\ (has_c = true -> (List.length (b_points b) <= List.length (b_colors b))%nat).
Definition pcd_at (has_c : bool) (t : list (list Z)) : pcd :=
  mk_pcd (at_end (pcd_header has_c 0 ++ flat_map (encode (pcd_sizes has_c)) t)) (Z.of_nat (List.length t)) has_c.
Definition pcd_rows_of has_c (bs : list batch) (t : list (list Z)) : Prop :=
  map Some t = map (fun p => pcd_row color to_uint8 has_c (fst p) (snd p)) (all_points color bs) /\
  Forall (Forall2 fits_size (pcd_sizes has_c)) t.
Lemma pcd_rows_join has_c b bs t t' : pcd_rows_of has_c [b] t -> pcd_rows_of has_c bs t' -> pcd_rows_of has_c (b :: bs) (t ++ t').
Proof.
  intros [A B] [C D]. split; [|apply Forall_app; auto]. rewrite all_points_cons, !map_app, A, C.
  rewrite all_points_cons. cbn [all_points flat_map]. rewrite app_nil_r. reflexivity.
Qed.
Lemma pcd_batch has_c l num b : batch_bits color b -> b_points b <> [] -> pcd_fits has_c b ->
  exists t', pcd_loop color to_uint8 (negb (empty (b_colors b))) (b_points b) (b_colors b) (at_end l) num =
      Some (at_end (l ++ flat_map (encode (pcd_sizes has_c)) t'), num + Z.of_nat (List.length t')) /\ pcd_rows_of has_c [b] t'.
Proof.
  intros B N [F|[FC FL]]; [congruence|].
  replace (negb (empty (b_colors b))) with has_c by (rewrite <- FC; destruct (b_colors b); reflexivity).
  destruct (pcd_loop_ok has_c (b_points b) (b_colors b) (b_intensities b) l num) as (t' & E & R & G).
  - exact FL.
  - rewrite batch_eta. exact B.
  - exists t'. split; [exact E|]. split; [|exact G]. rewrite R, all_points_cons. cbn [all_points flat_map]. rewrite app_nil_r, map_map.
    apply map_ext. intros i. cbn [fst snd]. rewrite batch_eta. reflexivity.
Qed.
Lemma pcd_run has_c bs : forall t, t <> [] -> Forall (batch_bits color) bs -> Forall (pcd_fits has_c) bs ->
  exists t', pcd_all color to_uint8 (pcd_at has_c t) bs = Some (pcd_at has_c (t ++ t')) /\ pcd_rows_of has_c bs t'.
Proof.
  induction bs as [|b bs IH]; intros t N B F.
  - exists []. rewrite app_nil_r. repeat split. constructor.
  - inversion B as [|? ? B1 B2]; inversion F as [|? ? F1 F2]; subst. cbn [pcd_all]. unfold pcd_process.
    destruct (b_points b) as [|p ps] eqn:EP.
    + destruct (IH t N B2 F2) as (t' & E & [R1 R2]). exists t'. cbn [empty]. split; [exact E|]. split; [|exact R2].
      rewrite R1, all_points_cons, EP. reflexivity.
    + cbn [empty]. remember (pcd_at has_c t) as s eqn:ES. assert (S1 : d_num s = Z.of_nat (List.length t)) by now rewrite ES. assert (S2 : d_colors s = has_c) by now rewrite ES.
      assert (S3 : d_file s = at_end (pcd_header has_c 0 ++ flat_map (encode (pcd_sizes has_c)) t)) by now rewrite ES. clear ES. rewrite S1.
      destruct (Z.eqb_spec (Z.of_nat (List.length t)) 0) as [Z0|Z0]; [destruct t; [congruence | cbn in Z0; lia]|]. rewrite S1, S2, S3.
      destruct (pcd_batch has_c (pcd_header has_c 0 ++ flat_map (encode (pcd_sizes has_c)) t) (Z.of_nat (List.length t)) b B1) as (t1 & E1 & R1).
      * rewrite EP. discriminate.
      * exact F1.
      * rewrite <- EP, E1. destruct (IH (t ++ t1)) as (t2 & E2 & R2); [destruct t; [congruence | discriminate] | exact B2 | exact F2|].
        exists (t1 ++ t2). split; [|now apply pcd_rows_join].
        rewrite app_assoc, <- E2. f_equal. unfold pcd_at. rewrite flat_map_app, <- app_assoc. f_equal. rewrite app_length. lia.
Qed.
Lemma pcd_runs bs : Forall (batch_bits color) bs ->
  let has_c := match first_batch color bs with Some b0 => some_of (b_colors b0) | None => false end in
  Forall (pcd_fits has_c) bs ->
  exists s t, pcd_all color to_uint8 pcd_init bs = Some s /\ pcd_rows_of has_c bs t /\ (s = pcd_at has_c t \/ s = pcd_init /\ t = [] /\ has_c = false).
Proof.
  induction bs as [|b bs IH]; intros B.
  - cbn. intros _. exists pcd_init, []. repeat split; [constructor | now right].
  - inversion B as [|? ? B1 B2]; subst. unfold first_batch. cbn [find]. fold (first_batch color bs). cbn [pcd_all]. unfold pcd_process.
    destruct (b_points b) as [|p ps] eqn:EP.
    + cbn [empty]. cbv zeta in *. intros F. inversion F; subst. destruct (IH B2) as (s & t & E & [R1 R2] & S); [assumption|].
      exists s, t. split; [exact E|]. split; [|exact S]. split; [|exact R2]. rewrite R1, all_points_cons, EP. reflexivity.
    + cbn [empty]. cbv zeta. set (has_c := some_of (b_colors b)). intros F. inversion F as [|? ? F1 F2]; subst. unfold pcd_init. cbn [d_num d_file d_colors Z.eqb].
      rewrite header_new.
      assert (EH : negb (empty (b_colors b)) = has_c) by (unfold has_c; destruct (b_colors b); reflexivity).
      rewrite EH. cbn [d_num d_file d_colors].
      destruct (pcd_batch has_c (pcd_header has_c 0) 0 b B1) as (t1 & E1 & R1); [rewrite EP; discriminate | exact F1|].
      rewrite EH, EP in E1. rewrite E1.
      assert (N1 : t1 <> []).
      { intros ->. destruct R1 as [R1 _]. rewrite all_points_cons, EP in R1. cbn in R1. discriminate. }
      destruct (pcd_run has_c bs t1 N1 B2 F2) as (t2 & E2 & R2).
      exists (pcd_at has_c (t1 ++ t2)), (t1 ++ t2). split; [exact E2|]. split; [now apply pcd_rows_join | now left].
Qed.

Definition pcd_names (has_c : bool) : list (list Z) := [text "x"; text "y"; text "z"] ++ (if has_c then [text "rgb"] else []).
Definition pcd_types (has_c : bool) : list (list Z) := [text "F"; text "F"; text "F"] ++ (if has_c then [text "U"] else []).
Definition pcd_ls (has_c : bool) (n : Z) : list (list Z) :=
  [text "# generated by Cartographer"; text "VERSION .7";
   text (if has_c then "FIELDS x y z rgb" else "FIELDS x y z"); text (if has_c then "SIZE 4 4 4 4" else "SIZE 4 4 4");
   text (if has_c then "TYPE F F F U" else "TYPE F F F"); text (if has_c then "COUNT 1 1 1 1" else "COUNT 1 1 1");
   text "WIDTH " ++ padded n; text "HEIGHT 1"; text "VIEWPOINT 0 0 0 1 0 0 0"; text "POINTS " ++ padded n].
Lemma pcd_header_lines has_c n : pcd_header has_c n = unlines (pcd_ls has_c n) ++ text "DATA binary" ++ nl.
Proof.
  unfold pcd_header, pcd_ls. generalize (padded n). intros d. unfold unlines. cbn [flat_map].
  destruct has_c; cbn [negb]; rewrite ?app_nil_r, <- !app_assoc; reflexivity.
Qed.
Lemma pcd_header_length has_c n m : 0 <= n < 10 ^ 15 -> 0 <= m < 10 ^ 15 ->
  List.length (pcd_header has_c n) = List.length (pcd_header has_c m).
Proof.
  intros N M. unfold pcd_header. rewrite !app_length. destruct (padded_ok n N) as (_ & -> & _), (padded_ok m M) as (_ & -> & _). reflexivity.
Qed.
Lemma pcd_read has_c t : Z.of_nat (List.length t) < 10 ^ 15 -> Forall (Forall2 fits_size (pcd_sizes has_c)) t ->
  read_pcd (pcd_header has_c (Z.of_nat (List.length t)) ++ flat_map (encode (pcd_sizes has_c)) t) = Some (pcd_names has_c, pcd_types has_c, t).
Proof.
  intros N F. set (n := Z.of_nat (List.length t)). assert (N' : 0 <= n < 10 ^ 15) by (unfold n; lia).
  destruct (padded_ok n N') as (E & _ & D). apply no_nl_digits in D.
  rewrite pcd_header_lines, <- !app_assoc. unfold read_pcd. rewrite header_ok.
  - unfold pcd_ls. cbv beta iota.
    change (after (text "#") (text "# generated by Cartographer")) with (Some (text " generated by Cartographer")).
    change (after (text "VERSION ") (text "VERSION .7")) with (Some (text ".7")).
    replace (after (text "FIELDS ") (text (if has_c then "FIELDS x y z rgb" else "FIELDS x y z"))) with (Some (text (if has_c then "x y z rgb" else "x y z"))) by (destruct has_c; reflexivity).
    replace (after (text "SIZE ") (text (if has_c then "SIZE 4 4 4 4" else "SIZE 4 4 4"))) with (Some (text (if has_c then "4 4 4 4" else "4 4 4"))) by (destruct has_c; reflexivity).
    replace (after (text "TYPE ") (text (if has_c then "TYPE F F F U" else "TYPE F F F"))) with (Some (text (if has_c then "F F F U" else "F F F"))) by (destruct has_c; reflexivity).
    replace (after (text "COUNT ") (text (if has_c then "COUNT 1 1 1 1" else "COUNT 1 1 1"))) with (Some (text (if has_c then "1 1 1 1" else "1 1 1"))) by (destruct has_c; reflexivity).
    change (after (text "WIDTH ") (text "WIDTH " ++ padded n)) with (Some (padded n)).
    change (after (text "HEIGHT ") (text "HEIGHT 1")) with (Some (text "1")).
    change (after (text "POINTS ") (text "POINTS " ++ padded n)) with (Some (padded n)).
    cbv beta iota. rewrite E. change (number (text "1")) with (Some 1).
    replace (numbers (words (text (if has_c then "4 4 4 4" else "4 4 4")))) with (Some (pcd_sizes has_c)) by (destruct has_c; reflexivity).
    replace (numbers (words (text (if has_c then "1 1 1 1" else "1 1 1")))) with (Some (if has_c then [1; 1; 1; 1] else [1; 1; 1])) by (destruct has_c; reflexivity).
    cbv beta iota. rewrite Z.mul_1_r, Z.eqb_refl.
    replace (words (text (if has_c then "x y z rgb" else "x y z"))) with (pcd_names has_c) by (destruct has_c; reflexivity).
    replace (words (text (if has_c then "F F F U" else "F F F"))) with (pcd_types has_c) by (destruct has_c; reflexivity).
    unfold n. rewrite Nat2Z.id, rows_encode by exact F. destruct has_c; reflexivity.
  - reflexivity.
  - reflexivity.
  - unfold pcd_ls. repeat (constructor; [split; [rewrite ?no_nl_app, ?D; destruct has_c; reflexivity | destruct has_c; reflexivity]|]). constructor.
  - rewrite !app_length. pose proof (unlines_length (pcd_ls has_c n)).
    assert (List.length (text "DATA binary") = 11%nat) by reflexivity. lia.
Qed.
Lemma pcd_flush_ok has_c t : Z.of_nat (List.length t) < 10 ^ 15 ->
  pcd_flush (pcd_at has_c t) = pcd_header has_c (Z.of_nat (List.length t)) ++ flat_map (encode (pcd_sizes has_c)) t.
Proof.
  intros N. unfold pcd_flush, pcd_at. cbn [d_file d_num d_colors]. apply header_again. apply pcd_header_length; lia.
Qed.
Lemma pcd_flush_init : pcd_flush pcd_init = pcd_header false 0.
Proof. unfold pcd_flush, pcd_init. cbn [d_file d_num d_colors]. rewrite header_new. reflexivity. Qed.
End Writers.
