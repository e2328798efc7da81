From Coq Require Import ZArith Reals Lra Lia List Bool.
From Verif Require Import CF_Model RG_Model IG_Model IG_Spec IG_Proofs IG_Smooth IG_Curve IG_Jet I2_Model I2_Spec.
Import ListNotations.
Open Scope R_scope.

(* one coordinate *)
Lemma lower_1 r m x : 0 < r ->
  let k := lround ((m - x) / r - 1 / 2) in
  let c := m - r * (IZR k + 1 / 2) in
  exists i, (if Rlt_dec x c then c - r else c) = m - r * (IZR i + 1 / 2) /\
    m - r * (IZR i + 1 / 2) <= x < m - r * (IZR i + 1 / 2) + r.
Proof.
  intros H k c. pose proof (lround_near ((m - x) / r - 1 / 2)) as N. fold k in N.
  assert (E : (m - x) / r * r = m - x) by (field; lra). set (q := (m - x) / r) in *.
  assert (X : x = m - q * r) by lra.
  destruct (Rlt_dec x c) as [L | L].
  - exists (k + 1)%Z. rewrite plus_IZR. unfold c in *. split; [lra|]. rewrite X in L |- *.
    assert (IZR k + 1 / 2 < q) by (apply Rmult_lt_reg_r with r; lra). nra.
  - exists k. unfold c in *. split; [reflexivity|]. rewrite X in L |- *.
    assert (q <= IZR k + 1 / 2) by (apply Rmult_le_reg_r with r; lra). nra.
Qed.
Lemma lround_center r m i : 0 < r -> lround ((m - (m - r * (IZR i + 1 / 2))) / r - 1 / 2) = i.
Proof. intros H. replace ((m - (m - r * (IZR i + 1 / 2))) / r - 1 / 2) with (IZR i) by (field; lra). apply lround_Z. Qed.
Lemma center_unique r m x i j : 0 < r -> m - r * (IZR i + 1 / 2) <= x < m - r * (IZR i + 1 / 2) + r ->
  m - r * (IZR j + 1 / 2) <= x < m - r * (IZR j + 1 / 2) + r -> i = j.
Proof.
  intros H A B.
  assert (IZR i < IZR j + 1) by (apply Rmult_lt_reg_r with r; lra).
  assert (IZR j < IZR i + 1) by (apply Rmult_lt_reg_r with r; lra).
  rewrite <- plus_IZR in *. apply lt_IZR in H0, H1. lia.
Qed.
Lemma lower2 l x y : 0 < l_res l -> exists i j, center_of_lower2 l x y = cell_center2 l (i, j) /\ lower_left l x y i j.
Proof.
  intros H. unfold center_of_lower2, cell_center2, cell_index2, lower_left. cbn [fst snd].
  destruct (lower_1 (l_res l) (l_max_x l) x H) as [j [Ej Bj]].
  destruct (lower_1 (l_res l) (l_max_y l) y H) as [i [Ei Bi]]. cbn zeta in *.
  exists i, j. rewrite Ei, Ej. unfold cell_center2. cbn [fst snd]. auto.
Qed.
Lemma index_center2 l i j : 0 < l_res l ->
  cell_index2 l (fst (cell_center2 l (i, j))) (snd (cell_center2 l (i, j))) = (i, j).
Proof. intros H. unfold cell_index2, cell_center2. cbn [fst snd]. now rewrite !lround_center by exact H. Qed.
Lemma lower_left_unique l x y i j i' j' : 0 < l_res l -> lower_left l x y i j -> lower_left l x y i' j' -> i = i' /\ j = j'.
Proof.
  unfold lower_left, cell_center2. cbn [fst snd]. intros H [A B] [C D].
  split; eapply center_unique; eauto.
Qed.
Lemma lower2_at l x y i j : 0 < l_res l -> lower_left l x y i j -> center_of_lower2 l x y = cell_center2 l (i, j).
Proof.
  intros H L. destruct (lower2 l x y H) as [i' [j' [E L']]].
  destruct (lower_left_unique l x y i j i' j' H L L') as [-> ->]. exact E.
Qed.

(* bilinear interpolation *)
Definition blend (s t q11 q12 q21 q22 : R) : R :=
  (1 - s) * ((1 - t) * q11 + t * q12) + s * ((1 - t) * q21 + t * q22).
Definition nx_of (l : limits2) (x : R) (j : Z) : R := (x - (l_max_x l - l_res l * (IZR j + 1 / 2))) / l_res l.
Definition ny_of (l : limits2) (y : R) (i : Z) : R := (y - (l_max_y l - l_res l * (IZR i + 1 / 2))) / l_res l.
Definition blend_at (l : limits2) (f : Z -> Z -> R) (x y : R) (i j : Z) : R :=
  blend (nx_of l x j) (ny_of l y i) (f i j) (f (i - 1)%Z j) (f i (j - 1)%Z) (f (i - 1)%Z (j - 1)%Z).
Lemma n_range r m x i : 0 < r -> m - r * (IZR i + 1 / 2) <= x < m - r * (IZR i + 1 / 2) + r ->
  0 <= (x - (m - r * (IZR i + 1 / 2))) / r < 1.
Proof.
  intros H B. split.
  - apply Rmult_le_pos; [lra|]. left. now apply Rinv_0_lt_compat.
  - apply Rmult_lt_reg_r with r; [exact H|]. unfold Rdiv. rewrite Rmult_assoc, Rinv_l by lra. lra.
Qed.
Lemma lower_left_n l x y i j : 0 < l_res l -> lower_left l x y i j -> 0 <= nx_of l x j < 1 /\ 0 <= ny_of l y i < 1.
Proof.
  unfold lower_left, cell_center2. cbn [fst snd]. intros H [A B]. split; now apply n_range.
Qed.
Lemma weight_form t x y i j : 0 < l_res (t_lim t) -> lower_left (t_lim t) x y i j ->
  weight_at real_scalar t x y = blend_at (t_lim t) (get_weight2 t) x y i j.
Proof.
  intros H L. unfold weight_at. cbn [real_scalar s_val]. rewrite (lower2_at _ _ _ _ _ H L).
  pose proof (index_center2 (t_lim t) i j H) as E. unfold cell_center2 in *. cbn [fst snd] in *. rewrite E.
  unfold bilinear. cbn [real_scalar s_mul s_sub s_add s_of]. unfold blend_at, blend, nx_of, ny_of.
  match goal with |- @eq _ ?a ?b => change (@eq R a b) end. field. lra.
Qed.
Lemma cost_form t x y i j : 0 < l_res (t_lim t) -> lower_left (t_lim t) x y i j ->
  (all_known t i j -> cost_at real_scalar t x y = blend_at (t_lim t) (get_cost2 t) x y i j) /\
  (~ all_known t i j -> cost_at real_scalar t x y = t_max t).
Proof.
  intros H L. unfold cost_at. cbn [real_scalar s_val]. rewrite (lower2_at _ _ _ _ _ H L).
  pose proof (index_center2 (t_lim t) i j H) as E. unfold cell_center2 in *. cbn [fst snd] in *. rewrite E.
  assert (K : all_known t i j <-> get_weight2 t i j <> 0 /\ get_weight2 t (i - 1) j <> 0 /\
    get_weight2 t i (j - 1) <> 0 /\ get_weight2 t (i - 1) (j - 1) <> 0).
  { unfold all_known, corners. split.
    - intros A. repeat split.
      + apply (A (i, j)). cbn. auto.
      + apply (A (i - 1, j)%Z). cbn. auto.
      + apply (A (i, j - 1)%Z). cbn. auto.
      + apply (A (i - 1, j - 1)%Z). cbn. auto.
    - intros [A [B [C D]]] c Hc. cbn in Hc. destruct Hc as [<- | [<- | [<- | [<- | []]]]]; assumption. }
  rewrite K. clear K.
  destruct (Req_EM_T (get_weight2 t i j) 0); [split; [tauto | reflexivity]|].
  destruct (Req_EM_T (get_weight2 t (i - 1) j) 0); [split; [tauto | reflexivity]|].
  destruct (Req_EM_T (get_weight2 t i (j - 1)) 0); [split; [tauto | reflexivity]|].
  destruct (Req_EM_T (get_weight2 t (i - 1) (j - 1)) 0); [split; [tauto | reflexivity]|].
  split; [intros _ | tauto].
  unfold bilinear. cbn [real_scalar s_mul s_sub s_add s_of]. unfold blend_at, blend, nx_of, ny_of.
  match goal with |- @eq _ ?a ?b => change (@eq R a b) end. field. lra.
Qed.
Lemma blend_bounds s t a b c d lo hi : 0 <= s <= 1 -> 0 <= t <= 1 -> lo <= a <= hi -> lo <= b <= hi ->
  lo <= c <= hi -> lo <= d <= hi -> lo <= blend s t a b c d <= hi.
Proof.
  intros S T A B C D. unfold blend.
  assert (lo <= (1 - t) * a + t * b <= hi) by (split; nra).
  assert (lo <= (1 - t) * c + t * d <= hi) by (split; nra).
  set (p := (1 - t) * a + t * b) in *. set (q := (1 - t) * c + t * d) in *. clearbody p q. split; nra.
Qed.
Lemma blend_at_bounds l f x y i j lo hi : 0 < l_res l -> lower_left l x y i j ->
  (forall c, In c (corners i j) -> lo <= f (fst c) (snd c) <= hi) -> lo <= blend_at l f x y i j <= hi.
Proof.
  intros H L B. destruct (lower_left_n l x y i j H L). unfold blend_at. apply blend_bounds; try lra.
  - apply (B (i, j)). cbn. auto.
  - apply (B (i - 1, j)%Z). cbn. auto.
  - apply (B (i, j - 1)%Z). cbn. auto.
  - apply (B (i - 1, j - 1)%Z). cbn. auto.
Qed.
Lemma center_lower_left l i j : 0 < l_res l ->
  lower_left l (fst (cell_center2 l (i, j))) (snd (cell_center2 l (i, j))) i j.
Proof. intros H. unfold lower_left, cell_center2. cbn [fst snd]. lra. Qed.
Lemma blend_at_center l f i j : 0 < l_res l ->
  blend_at l f (fst (cell_center2 l (i, j))) (snd (cell_center2 l (i, j))) i j = f i j.
Proof.
  intros H. unfold blend_at, nx_of, ny_of, cell_center2. cbn [fst snd].
  rewrite !Rminus_diag_eq by reflexivity. unfold Rdiv. rewrite !Rmult_0_l. unfold blend. ring.
Qed.

(* jets *)
Lemma follows_local t i F G j d : 0 < d -> (forall s, Rabs (s - t) < d -> F s = G s) -> follows t i G j -> follows t i F j.
Proof.
  intros Hd E [A V]. split.
  - rewrite E; [exact A|]. rewrite Rminus_diag_eq, Rabs_R0 by reflexivity. exact Hd.
  - intros e He. destruct (V e He) as [d' D]. assert (M : 0 < Rmin d d') by (apply Rmin_pos; [exact Hd | apply (cond_pos d')]).
    exists (mkposreal _ M). cbn [pos]. intros h N B. pose proof (Rmin_l d d'). pose proof (Rmin_r d d').
    rewrite !E.
    + apply D; [exact N | lra].
    + rewrite Rminus_diag_eq, Rabs_R0 by reflexivity. exact Hd.
    + replace (t + h - t) with h by ring. lra.
Qed.
Lemma follows_near t i F j a b : follows t i F j -> a < F t < b -> exists d, 0 < d /\ forall s, Rabs (s - t) < d -> a < F s < b.
Proof.
  intros [_ V] B. assert (m : 0 < Rmin (F t - a) (b - F t) / 2).
  { apply Rdiv_lt_0_compat; [apply Rmin_pos; lra | lra]. }
  destruct (deriv_bound F t _ V _ m) as [h0 [P Q]]. exists h0. split; [exact P|]. intros s Hs.
  pose proof (Rmin_l (F t - a) (b - F t)). pose proof (Rmin_r (F t - a) (b - F t)).
  destruct (Req_dec s t) as [-> | N]; [exact B|].
  destruct (Q (s - t)) as [_ C]; [lra | exact Hs |]. replace (t + (s - t)) with s in C by ring.
  unfold Rabs in C. destruct (Rcase_abs (F s - F t)); lra.
Qed.
Lemma inside_lower l x y i j : strictly_inside l x y i j -> lower_left l x y i j.
Proof. unfold strictly_inside, lower_left, cell_center2. cbn [fst snd]. lra. Qed.
Lemma blend_jet l t i X Y x y f a b : 0 < l_res l -> follows t i X x -> follows t i Y y ->
  follows t i (fun s => blend_at l f (X s) (Y s) a b)
    (bilinear jet_scalar x y (l_max_x l - l_res l * (IZR b + 1 / 2)) (l_max_y l - l_res l * (IZR a + 1 / 2))
       (l_max_x l - l_res l * (IZR b + 1 / 2) + l_res l) (l_max_y l - l_res l * (IZR a + 1 / 2) + l_res l)
       (f a b) (f (a - 1)%Z b) (f a (b - 1)%Z) (f (a - 1)%Z (b - 1)%Z)).
Proof.
  intros H FX FY. eapply follows_local with (d := 1) (G := fun s => _); [lra | | ].
  2:{ unfold bilinear. repeat first [ exact FX | exact FY | apply follows_add | apply follows_sub | apply follows_mul | apply follows_of ]. }
  intros s _. cbn beta. unfold blend_at, blend, nx_of, ny_of. field. lra.
Qed.
Lemma follows_weight tt t i X Y x y a b : 0 < l_res (t_lim tt) -> follows t i X x -> follows t i Y y ->
  strictly_inside (t_lim tt) (X t) (Y t) a b ->
  follows t i (fun s => weight_at real_scalar tt (X s) (Y s)) (weight_at jet_scalar tt x y).
Proof.
  intros H FX FY I. pose proof (inside_lower _ _ _ _ _ I) as L.
  unfold strictly_inside, cell_center2 in I. cbn [fst snd] in I. destruct I as [I1 I2].
  destruct (follows_near t i X x _ _ FX I1) as [d1 [D1 E1]]. destruct (follows_near t i Y y _ _ FY I2) as [d2 [D2 E2]].
  assert (M : 0 < Rmin d1 d2) by now apply Rmin_pos.
  apply follows_local with (G := fun s => blend_at (t_lim tt) (get_weight2 tt) (X s) (Y s) a b) (d := Rmin d1 d2); [exact M | |].
  - intros s S. pose proof (Rmin_l d1 d2). pose proof (Rmin_r d1 d2). apply weight_form; [exact H|].
    unfold lower_left, cell_center2. cbn [fst snd]. pose proof (E1 s ltac:(lra)). pose proof (E2 s ltac:(lra)). lra.
  - pose proof (blend_jet (t_lim tt) t i X Y x y (get_weight2 tt) a b H FX FY) as B.
    unfold weight_at. cbn [jet_scalar s_val]. destruct FX as [Xa _], FY as [Ya _]. rewrite <- Xa, <- Ya.
    rewrite (lower2_at _ _ _ _ _ H L). pose proof (index_center2 (t_lim tt) a b H) as E.
    unfold cell_center2 in *. cbn [fst snd] in *. rewrite E. exact B.
Qed.
Lemma follows_cost tt t i X Y x y a b : 0 < l_res (t_lim tt) -> follows t i X x -> follows t i Y y ->
  strictly_inside (t_lim tt) (X t) (Y t) a b ->
  follows t i (fun s => cost_at real_scalar tt (X s) (Y s)) (cost_at jet_scalar tt x y).
Proof.
  intros H FX FY I. pose proof (inside_lower _ _ _ _ _ I) as L.
  unfold strictly_inside, cell_center2 in I. cbn [fst snd] in I. destruct I as [I1 I2].
  destruct (follows_near t i X x _ _ FX I1) as [d1 [D1 E1]]. destruct (follows_near t i Y y _ _ FY I2) as [d2 [D2 E2]].
  assert (M : 0 < Rmin d1 d2) by now apply Rmin_pos.
  assert (LL : forall s, Rabs (s - t) < Rmin d1 d2 -> lower_left (t_lim tt) (X s) (Y s) a b).
  { intros s S. pose proof (Rmin_l d1 d2). pose proof (Rmin_r d1 d2).
    unfold lower_left, cell_center2. cbn [fst snd]. pose proof (E1 s ltac:(lra)). pose proof (E2 s ltac:(lra)). lra. }
  assert (C : cost_at jet_scalar tt x y =
    if Req_EM_T (get_weight2 tt a b) 0 then s_of jet_scalar (t_max tt) else
    if Req_EM_T (get_weight2 tt (a - 1) b) 0 then s_of jet_scalar (t_max tt) else
    if Req_EM_T (get_weight2 tt a (b - 1)) 0 then s_of jet_scalar (t_max tt) else
    if Req_EM_T (get_weight2 tt (a - 1) (b - 1)) 0 then s_of jet_scalar (t_max tt) else
    bilinear jet_scalar x y (l_max_x (t_lim tt) - l_res (t_lim tt) * (IZR b + 1 / 2))
       (l_max_y (t_lim tt) - l_res (t_lim tt) * (IZR a + 1 / 2))
       (l_max_x (t_lim tt) - l_res (t_lim tt) * (IZR b + 1 / 2) + l_res (t_lim tt))
       (l_max_y (t_lim tt) - l_res (t_lim tt) * (IZR a + 1 / 2) + l_res (t_lim tt))
       (get_cost2 tt a b) (get_cost2 tt (a - 1)%Z b) (get_cost2 tt a (b - 1)%Z) (get_cost2 tt (a - 1)%Z (b - 1)%Z)).
  { unfold cost_at. change (s_val jet_scalar) with j_a. destruct FX as [Xa _], FY as [Ya _]. rewrite <- Xa, <- Ya.
    rewrite (lower2_at _ _ _ _ _ H L). pose proof (index_center2 (t_lim tt) a b H) as E.
    unfold cell_center2 in *. cbn [fst snd] in *. rewrite E. reflexivity. }
  rewrite C. clear C.
  assert (U : ~ all_known tt a b -> follows t i (fun s => cost_at real_scalar tt (X s) (Y s)) (s_of jet_scalar (t_max tt))).
  { intros N. apply follows_local with (G := fun _ => t_max tt) (d := Rmin d1 d2); [exact M | | apply follows_of].
    intros s S. apply (cost_form tt _ _ a b H (LL s S)). exact N. }
  destruct (Req_EM_T (get_weight2 tt a b) 0) as [W1|W1]; [apply U; intros A; apply (A (a, b)); [cbn; auto | exact W1]|].
  destruct (Req_EM_T (get_weight2 tt (a - 1) b) 0) as [W2|W2];
    [apply U; intros A; apply (A (a - 1, b)%Z); [cbn; auto | exact W2]|].
  destruct (Req_EM_T (get_weight2 tt a (b - 1)) 0) as [W3|W3];
    [apply U; intros A; apply (A (a, b - 1)%Z); [cbn; auto | exact W3]|].
  destruct (Req_EM_T (get_weight2 tt (a - 1) (b - 1)) 0) as [W4|W4];
    [apply U; intros A; apply (A (a - 1, b - 1)%Z); [cbn; auto | exact W4]|].
  clear U. apply follows_local with (G := fun s => blend_at (t_lim tt) (get_cost2 tt) (X s) (Y s) a b) (d := Rmin d1 d2); [exact M | |].
  - intros s S. apply (cost_form tt _ _ a b H (LL s S)). intros c Hc. cbn in Hc.
    destruct Hc as [<- | [<- | [<- | [<- | []]]]]; assumption.
  - apply (blend_jet (t_lim tt) t i X Y x y (get_cost2 tt) a b H FX FY).
Qed.
