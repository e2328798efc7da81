(* C69 and C70: the costs of the 2D scan matcher *)
From Coq Require Import ZArith Reals Lra Lia List Bool.
From Verif Require Import CF_Model RG_Model IG_Model IG_Spec IG_Proofs IG_Jet I2_Model I2_Spec I2_Proofs I2_Match I2_Cubic.
Import ListNotations.
Open Scope R_scope.

Lemma seen_world f pose p : seen f pose p = f (fst (world2 real_scalar pose p)) (snd (world2 real_scalar pose p)).
Proof.
  unfold seen, world2, r2_apply. cbn [v0 v1 v2 fst snd real_scalar s_add s_mul s_of s_cos s_sin s_neg].
  f_equal; ring.
Qed.
Lemma seen_weight t pose p : seen (weight_at real_scalar t) pose p = weight_of t pose p.
Proof. apply seen_world. Qed.
Lemma seen_cost t pose p : seen (cost_at real_scalar t) pose p = cost_of t pose p.
Proof. apply seen_world. Qed.

(* ---- C69: the TSDF *)

(* the four interpolated cells are those whose centres surround the point *)
Theorem C69_lower : forall l x y, 0 < l_res l -> exists i j,
  lower_left l x y i j /\
  (let c := center_of_lower2 l x y in cell_index2 l (fst c) (snd c) = (i, j) /\
    cell_center2 l (i, j) = c /\
    cell_center2 l (i - 1, j)%Z = (fst c, snd c + l_res l) /\
    cell_center2 l (i, j - 1)%Z = (fst c + l_res l, snd c) /\
    cell_center2 l (i - 1, j - 1)%Z = (fst c + l_res l, snd c + l_res l)).
Proof.
  intros l x y H. destruct (lower2 l x y H) as [i [j [E L]]]. exists i, j. split; [exact L|].
  cbv zeta. rewrite E. split; [now apply index_center2|]. split; [reflexivity|].
  unfold cell_center2. cbn [fst snd]. rewrite !minus_IZR. repeat split; f_equal; ring.
Qed.
(* between known cells the cost is between theirs *)
Theorem C69_cost_bounds : forall t x y i j lo hi, 0 < l_res (t_lim t) ->
  lower_left (t_lim t) x y i j -> all_known t i j ->
  (forall c, In c (corners i j) -> lo <= t_cost t (fst c) (snd c) <= hi) ->
  lo <= cost_at real_scalar t x y <= hi.
Proof.
  intros t x y i j lo hi H L K B. rewrite (proj1 (cost_form t x y i j H L) K).
  apply blend_at_bounds; [exact H | exact L |]. intros c Hc. unfold get_cost2.
  destruct (contains2 (t_lim t) (fst c, snd c)) eqn:E; [now apply B|].
  exfalso. apply (K c Hc). unfold get_weight2. now rewrite E.
Qed.
(* at the centre of a cell it is the cell's, provided the three cells towards greater
   coordinates are known too *)
Theorem C69_cost_at_centre : forall t i j, 0 < l_res (t_lim t) -> all_known t i j ->
  let c := cell_center2 (t_lim t) (i, j) in cost_at real_scalar t (fst c) (snd c) = t_cost t i j.
Proof.
  intros t i j H K. cbv zeta. rewrite (proj1 (cost_form t _ _ i j H (center_lower_left _ i j H)) K).
  rewrite blend_at_center by exact H. unfold get_cost2.
  destruct (contains2 (t_lim t) (i, j)) eqn:E; [reflexivity|].
  exfalso. apply (K (i, j)); [cbn; auto|]. unfold get_weight2. cbn [fst snd]. now rewrite E.
Qed.
(* with an unknown one among the four it is the greatest cost *)
Theorem C69_unknown : forall t x y i j, 0 < l_res (t_lim t) -> lower_left (t_lim t) x y i j -> ~ all_known t i j ->
  cost_at real_scalar t x y = t_max t.
Proof. intros t x y i j H L K. exact (proj2 (cost_form t x y i j H L) K). Qed.
(* the weight is between the four weights, that of the cell at its centre ... *)
Theorem C69_weight_bounds : forall t x y i j lo hi, 0 < l_res (t_lim t) -> lower_left (t_lim t) x y i j ->
  (forall c, In c (corners i j) -> lo <= get_weight2 t (fst c) (snd c) <= hi) ->
  lo <= weight_at real_scalar t x y <= hi.
Proof. intros t x y i j lo hi H L B. rewrite (weight_form t x y i j H L). now apply blend_at_bounds. Qed.
Theorem C69_weight_at_centre : forall t i j, 0 < l_res (t_lim t) ->
  let c := cell_center2 (t_lim t) (i, j) in weight_at real_scalar t (fst c) (snd c) = get_weight2 t i j.
Proof.
  intros t i j H. cbv zeta. rewrite (weight_form t _ _ i j H (center_lower_left _ i j H)).
  now apply blend_at_center.
Qed.
(* ... and changes at most proportionally *)
Theorem C69_weight_lipschitz : forall t w x y x' y', 0 < l_res (t_lim t) -> (forall i j, 0 <= t_weight t i j <= w) ->
  Rabs (weight_at real_scalar t x' y' - weight_at real_scalar t x y)
    <= w / l_res (t_lim t) * (Rabs (x' - x) + Rabs (y' - y)).
Proof. exact weight_lipschitz. Qed.
(* inside a cell of the lattice of centres both jets are the value and the derivative *)
Theorem C69_derivative : forall t i X Y (u : R) x y a b, 0 < l_res (t_lim t) ->
  X u = j_a x -> Y u = j_a y ->
  derivable_pt_lim X u (j_v x i) -> derivable_pt_lim Y u (j_v y i) ->
  strictly_inside (t_lim t) (X u) (Y u) a b ->
  weight_at real_scalar t (X u) (Y u) = j_a (weight_at jet_scalar t x y) /\
  derivable_pt_lim (fun s => weight_at real_scalar t (X s) (Y s)) u (j_v (weight_at jet_scalar t x y) i) /\
  cost_at real_scalar t (X u) (Y u) = j_a (cost_at jet_scalar t x y) /\
  derivable_pt_lim (fun s => cost_at real_scalar t (X s) (Y s)) u (j_v (cost_at jet_scalar t x y) i).
Proof.
  intros t i X Y u x y a b H XA YA XD YD I.
  destruct (follows_weight t u i X Y x y a b H (conj XA XD) (conj YA YD) I) as [W1 W2].
  destruct (follows_cost t u i X Y x y a b H (conj XA XD) (conj YA YD) I) as [C1 C2]. auto.
Qed.

(* returns false exactly when no point has any weight *)
Theorem C69_defined : forall t s pose points, 0 < l_res (t_lim t) -> (forall i j, 0 <= t_weight t i j) ->
  (tsdf_match t s pose points = None <->
   forall p, In p points -> seen (weight_at real_scalar t) pose p = 0).
Proof.
  intros t s pose points H B. rewrite match_form. cbv zeta.
  assert (N : forall x, In x (map (weight_of t pose) points) -> 0 <= x).
  { intros x I. apply in_map_iff in I. destruct I as [p [<- _]]. now apply weight_nonneg. }
  destruct (total_nonneg _ N) as [_ T].
  destruct (Req_EM_T (total_of (map (weight_of t pose) points)) 0) as [Z | Z]; split; intros Q; try reflexivity; try discriminate.
  - intros p I. rewrite seen_weight. apply (proj1 T Z). now apply in_map.
  - exfalso. apply Z. apply (proj2 T). intros x I. apply in_map_iff in I. destruct I as [p [<- I]].
    rewrite <- seen_weight. now apply Q.
Qed.
(* each residual is the cost of its point, weighted relative to the mean weight *)
Theorem C69_residuals : forall t s pose points rs, tsdf_match t s pose points = Some rs ->
  length rs = length points /\
  (forall k p r, nth_error points k = Some p -> nth_error rs k = Some r ->
     r * total_of (map (seen (weight_at real_scalar t) pose) points) =
     INR (length points) * s * seen (cost_at real_scalar t) pose p * seen (weight_at real_scalar t) pose p) /\
  total_of rs * total_of (map (seen (weight_at real_scalar t) pose) points) =
  INR (length points) * s *
    total_of (map (fun p => seen (weight_at real_scalar t) pose p * seen (cost_at real_scalar t) pose p) points).
Proof.
  intros t s pose points rs. rewrite match_form. cbv zeta.
  rewrite (total_ext (seen (weight_at real_scalar t) pose) (weight_of t pose) points) by (intros; apply seen_weight).
  set (w := total_of (map (weight_of t pose) points)).
  destruct (Req_EM_T w 0) as [Z | Z]; [discriminate|]. intros Q.
  assert (E : rs = map (fun p => INR (length points) * s * cost_of t pose p * weight_of t pose p / w) points) by congruence.
  clear Q. rewrite E, map_length. split; [reflexivity|]. split.
  - intros k p r P Q. rewrite nth_error_map, P in Q. cbn [option_map] in Q.
    assert (R : r = INR (length points) * s * cost_of t pose p * weight_of t pose p / w) by congruence.
    rewrite R, seen_weight, seen_cost. field. exact Z.
  - rewrite (total_ext _ (fun p => INR (length points) * s / w * (seen (weight_at real_scalar t) pose p * seen (cost_at real_scalar t) pose p)) points).
    + rewrite total_map_scale. field. exact Z.
    + intros p _. rewrite seen_weight, seen_cost. field. exact Z.
Qed.
Theorem C69_bounded : forall t s pose points rs m r, 0 < l_res (t_lim t) -> (forall i j, 0 <= t_weight t i j) ->
  (forall p, In p points -> Rabs (seen (cost_at real_scalar t) pose p) <= m) ->
  tsdf_match t s pose points = Some rs -> In r rs -> Rabs r <= INR (length points) * Rabs s * m.
Proof.
  intros t s pose points rs m r H B C. rewrite match_form. cbv zeta.
  assert (N : forall x, In x (map (weight_of t pose) points) -> 0 <= x).
  { intros x I. apply in_map_iff in I. destruct I as [p [<- _]]. now apply weight_nonneg. }
  destruct (total_nonneg _ N) as [T0 _]. pose proof (total_in (map (weight_of t pose) points)) as TI.
  set (w := total_of (map (weight_of t pose) points)) in *.
  destruct (Req_EM_T w 0) as [Z | Z]; [discriminate|]. intros Q I.
  assert (E : rs = map (fun p => INR (length points) * s * cost_of t pose p * weight_of t pose p / w) points) by congruence.
  rewrite E in I. apply in_map_iff in I. destruct I as [p [<- Ip]].
  pose proof (C p Ip) as Cp. rewrite seen_cost in Cp.
  assert (W : weight_of t pose p <= w) by (apply TI; [exact N | now apply in_map]).
  pose proof (N _ (in_map _ _ _ Ip)) as Wp.
  replace (INR (length points) * s * cost_of t pose p * weight_of t pose p / w)
    with (INR (length points) * (s * (cost_of t pose p * (weight_of t pose p / w)))) by (field; exact Z).
  rewrite !Rabs_mult. rewrite (Rabs_pos_eq (INR _)) by apply pos_INR. rewrite Rmult_assoc.
  apply Rmult_le_compat_l; [apply pos_INR|]. apply Rmult_le_compat_l; [apply Rabs_pos|].
  assert (F : 0 <= weight_of t pose p / w <= 1).
  { split.
    - apply Rmult_le_pos; [exact Wp|]. left. apply Rinv_0_lt_compat. lra.
    - apply Rmult_le_reg_r with w; [lra|]. unfold Rdiv. rewrite Rmult_assoc, Rinv_l by exact Z. lra. }
  rewrite (Rabs_pos_eq (weight_of t pose p / w)) by lra.
  pose proof (Rabs_pos (cost_of t pose p)). nra.
Qed.
(* only the proportions of the weights matter *)
Theorem C69_proportions : forall t s pose points k, 0 < l_res (t_lim t) -> k <> 0 ->
  tsdf_match (mk_tsdf2 (t_lim t) (fun i j => k * t_weight t i j) (t_cost t) (t_max t)) s pose points =
  tsdf_match t s pose points.
Proof.
  intros t s pose points k H K. set (t' := mk_tsdf2 _ _ _ _).
  assert (G : forall i j, get_weight2 t' i j = k * get_weight2 t i j).
  { intros i j. unfold get_weight2, t'. cbn [t_lim t_weight]. destruct (contains2 (t_lim t) (i, j)); ring. }
  assert (W : forall p, weight_of t' pose p = k * weight_of t pose p).
  { intros p. unfold weight_of. set (x := fst _). set (y := snd _). clearbody x y.
    destruct (lower2 (t_lim t) x y H) as [i [j [_ L]]].
    rewrite (weight_form t x y i j H L), (weight_form t' x y i j H L). unfold blend_at, blend. rewrite !G.
    unfold t', nx_of, ny_of. cbn [t_lim]. match goal with |- @eq _ ?a ?b => change (@eq R a b) end. ring. }
  assert (C : forall p, cost_of t' pose p = cost_of t pose p).
  { intros p. unfold cost_of. set (x := fst _). set (y := snd _). clearbody x y.
    destruct (lower2 (t_lim t) x y H) as [i [j [_ L]]].
    destruct (cost_form t x y i j H L) as [A1 A2]. destruct (cost_form t' x y i j H L) as [B1 B2].
    assert (KN : all_known t' i j <-> all_known t i j).
    { unfold all_known. split; intros Q c Hc Z; apply (Q c Hc).
      - rewrite G, Z. ring.
      - rewrite G in Z. apply Rmult_integral in Z. tauto. }
    destruct (Classical_Prop.classic (all_known t i j)) as [Q | Q].
    - rewrite A1, B1 by tauto. reflexivity.
    - rewrite A2, B2 by tauto. reflexivity. }
  rewrite !match_form. cbv zeta.
  rewrite (total_ext (weight_of t' pose) (fun p => k * weight_of t pose p) points) by (intros; apply W).
  rewrite total_map_scale. set (w := total_of (map (weight_of t pose) points)).
  destruct (Req_EM_T (k * w) 0) as [Z | Z], (Req_EM_T w 0) as [Z' | Z']; try reflexivity.
  - exfalso. apply Rmult_integral in Z. tauto.
  - exfalso. apply Z. rewrite Z'. ring.
  - f_equal. apply map_ext. intros p. rewrite W, C. field. tauto.
Qed.
(* with equal weights a residual is the scaled cost *)
Theorem C69_equal_weights : forall t s pose points w, points <> [] -> w <> 0 ->
  (forall p, In p points -> seen (weight_at real_scalar t) pose p = w) ->
  tsdf_match t s pose points = Some (map (fun p => s * seen (cost_at real_scalar t) pose p) points).
Proof.
  intros t s pose points w NE W E. rewrite match_form. cbv zeta.
  assert (T : total_of (map (weight_of t pose) points) = INR (length points) * w).
  { rewrite (total_ext _ (fun _ => w)); [apply total_const|]. intros. rewrite <- seen_weight. now apply E. }
  rewrite T.
  assert (L : INR (length points) <> 0) by (apply not_0_INR; destruct points; [congruence | discriminate]).
  destruct (Req_EM_T (INR (length points) * w) 0) as [Z | Z].
  - apply Rmult_integral in Z. tauto.
  - f_equal. apply map_ext_in. intros p I. rewrite seen_cost. rewrite <- (seen_weight t pose p), (E p I). field. tauto.
Qed.
(* the Jacobian: every jet of the cost is the value and the derivative of the residual *)
Theorem C69_jacobian : forall t s pose n points rs js, 0 < l_res (t_lim t) ->
  (forall p, In p points -> exists i j,
     strictly_inside (t_lim t) (seen (fun x _ => x) pose p) (seen (fun _ y => y) pose p) i j) ->
  tsdf_match t s pose points = Some rs ->
  tsdf_match_jet t s (fun m => seed (pose m) m) points = Some js ->
  forall k r j, nth_error rs k = Some r -> nth_error js k = Some j ->
    j_a j = r /\
    derivable_pt_lim (fun u => match tsdf_match t s (vary pose n u) points with
                               | Some l => nth k l 0 | None => 0 end) (pose n) (j_v j n).
Proof.
  intros t s pose n points rs js H I M J k r j Rk Jk.
  assert (I' : forall p, In p points -> inside_cells t pose p).
  { intros p Hp. destruct (I p Hp) as [a [b Q]]. exists a, b. rewrite !seen_world in Q. exact Q. }
  destruct (follows_match t s pose n points js H I' J) as [L F].
  destruct (nth_error points k) as [p|] eqn:P.
  2:{ apply nth_error_None in P. assert (k < length js)%nat by (apply nth_error_Some; congruence). lia. }
  specialize (F k p j P Jk). pose proof F as [Fa _].
  set (w := fun u => total_of (map (weight_of t (vary pose n u)) points)).
  assert (V : weight_of t (vary pose n (pose n)) = weight_of t pose /\ cost_of t (vary pose n (pose n)) p = cost_of t pose p).
  { split; [|unfold cost_of; now rewrite vary_same].
    unfold weight_of. apply FunctionalExtensionality.functional_extensionality. intros q. now rewrite vary_same. }
  destruct V as [Vw Vc].
  rewrite match_form in M. cbv zeta in M.
  destruct (Req_EM_T (total_of (map (weight_of t pose) points)) 0) as [Z | Z]; [discriminate|].
  assert (Er : rs = map (fun p => INR (length points) * s * cost_of t pose p * weight_of t pose p / total_of (map (weight_of t pose) points)) points) by congruence.
  split.
  - rewrite <- Fa. rewrite Vw, Vc. rewrite Er, nth_error_map, P in Rk. cbn [option_map] in Rk. congruence.
  - (* near the pose the sum of the weights stays different from zero *)
    assert (C : exists d, 0 < d /\ forall u, Rabs (u - pose n) < d -> w u <> 0).
    { pose proof (follows_match_sum t pose n points H I') as Fw.
      assert (W0 : w (pose n) <> 0) by (unfold w; now rewrite Vw).
      set (jw := fold_left _ _ _) in Fw. change (follows (pose n) n w jw) in Fw.
      destruct (Rdichotomy _ _ W0) as [N | N].
      - destruct (follows_near _ _ _ _ (w (pose n) - 1) 0 Fw) as [d [D Q]]; [lra|].
        exists d. split; [exact D|]. intros u U. specialize (Q u U). lra.
      - destruct (follows_near _ _ _ _ 0 (w (pose n) + 1) Fw) as [d [D Q]]; [lra|].
        exists d. split; [exact D|]. intros u U. specialize (Q u U). lra. }
    destruct C as [d [D C]].
    assert (FF : follows (pose n) n (fun u => match tsdf_match t s (vary pose n u) points with
                               | Some l => nth k l 0 | None => 0 end) j).
    { eapply follows_local with (d := d); [exact D | | exact F].
      intros u U. cbn beta. rewrite match_form. cbv zeta. specialize (C u U). unfold w in C.
      destruct (Req_EM_T (total_of (map (weight_of t (vary pose n u)) points)) 0) as [Z' | _]; [contradiction|].
      erewrite nth_error_nth; [reflexivity|]. rewrite nth_error_map, P. reflexivity. }
    exact (proj2 FF).
Qed.

(* a grid of two by two cells *)
Definition ex_l : limits2 := mk_limits2 1 2 2 2 2.
Definition ex_t : tsdf2 := mk_tsdf2 ex_l (fun _ _ => 1) (fun i j => IZR (i + 2 * j) / 10) 1.
Lemma ex_known : all_known ex_t 1 1.
Proof. intros c [<- | [<- | [<- | [<- | []]]]]; cbn; lra. Qed.
Lemma ex_left x y : 1 / 2 <= x < 3 / 2 -> 1 / 2 <= y < 3 / 2 -> lower_left ex_l x y 1 1.
Proof. intros. unfold lower_left, cell_center2, ex_l. cbn [fst snd l_res l_max_x l_max_y]. lra. Qed.
(* a known cell at the border of the known area does not have its cost at its centre *)
Theorem C69_border_refuted : exists t i j, 0 < l_res (t_lim t) /\ get_weight2 t i j <> 0 /\
  let c := cell_center2 (t_lim t) (i, j) in cost_at real_scalar t (fst c) (snd c) <> t_cost t i j.
Proof.
  exists ex_t, 0%Z, 0%Z. split; [cbn; lra|]. split; [cbn; lra|]. cbv zeta.
  rewrite (C69_unknown ex_t _ _ 0 0).
  - cbn. intros Q. assert (0 / 10 = 0) by field. lra.
  - cbn. lra.
  - apply center_lower_left. cbn. lra.
  - intros K. apply (K (-1, 0)%Z); [cbn; auto | reflexivity].
Qed.
(* the residual jumps where a neighbouring cell becomes unknown, although the weight does not *)
Theorem C69_jump_refuted : exists t s p, 0 < l_res (t_lim t) /\ 0 < s /\ forall d, 0 < d < 1 ->
  exists r r', tsdf_match t s (params2 (mk_vec3 0 0 0)) [p] = Some [r] /\
    tsdf_match t s (params2 (mk_vec3 (- d) 0 0)) [p] = Some [r'] /\ r - r' >= s * 8 / 10.
Proof.
  pose (t := mk_tsdf2 ex_l (fun _ _ => 1) (fun _ _ => 1 / 10) 1).
  exists t, 1, (3 / 2, 1). split; [cbn; lra|]. split; [lra|]. intros d D.
  assert (W1 : seen (weight_at real_scalar t) (params2 (mk_vec3 0 0 0)) (3 / 2, 1) = 1 /\
               seen (cost_at real_scalar t) (params2 (mk_vec3 0 0 0)) (3 / 2, 1) = 1).
  { unfold seen, r2_apply, params2. cbn [v0 v1 v2 fst snd]. rewrite cos_0, sin_0.
    replace (1 * (3 / 2) - 0 * 1 + 0) with (3 / 2) by ring. replace (0 * (3 / 2) + 1 * 1 + 0) with 1 by ring.
    assert (L : lower_left (t_lim t) (3 / 2) 1 1 0) by (unfold lower_left, cell_center2, t, ex_l; cbn; lra).
    split.
    - rewrite (weight_form t _ _ 1 0) by (try exact L; cbn; lra).
      unfold blend_at, blend, nx_of, ny_of, t, ex_l. cbn. field.
    - apply (C69_unknown t _ _ 1 0); [cbn; lra | exact L |].
      intros K. apply (K (1, -1)%Z); [cbn; auto | reflexivity]. }
  assert (W2 : seen (weight_at real_scalar t) (params2 (mk_vec3 (- d) 0 0)) (3 / 2, 1) = 1 /\
               seen (cost_at real_scalar t) (params2 (mk_vec3 (- d) 0 0)) (3 / 2, 1) = 1 / 10).
  { unfold seen, r2_apply, params2. cbn [v0 v1 v2 fst snd]. rewrite cos_0, sin_0.
    replace (1 * (3 / 2) - 0 * 1 + - d) with (3 / 2 - d) by ring. replace (0 * (3 / 2) + 1 * 1 + 0) with 1 by ring.
    assert (L : lower_left (t_lim t) (3 / 2 - d) 1 1 1) by (unfold lower_left, cell_center2, t, ex_l; cbn; lra).
    assert (K : all_known t 1 1) by (intros c [<- | [<- | [<- | [<- | []]]]]; cbn; lra).
    split.
    - rewrite (weight_form t _ _ 1 1) by (try exact L; cbn; lra).
      unfold blend_at, blend, nx_of, ny_of, t, ex_l. cbn. field.
    - rewrite (proj1 (cost_form t _ _ 1 1 ltac:(cbn; lra) L) K).
      unfold blend_at, blend, nx_of, ny_of, t, ex_l. cbn. field. }
  destruct W1 as [A1 B1], W2 as [A2 B2].
  exists (1 * 1), (1 * (1 / 10)). split; [|split; [|lra]].
  - rewrite (C69_equal_weights t 1 _ [(3 / 2, 1)] 1); try discriminate; try lra.
    + cbn [map]. now rewrite B1.
    + intros p [<- | []]. exact A1.
  - rewrite (C69_equal_weights t 1 _ [(3 / 2, 1)] 1); try discriminate; try lra.
    + cbn [map]. now rewrite B2.
    + intros p [<- | []]. exact A2.
Qed.

Example C69_lower_example : lower_left ex_l (5 / 4) (3 / 4) 1 1 /\ cell_center2 ex_l (1, 1)%Z = (1 / 2, 1 / 2).
Proof. split; [apply ex_left; lra|]. unfold cell_center2, ex_l. cbn. f_equal; lra. Qed.
Example C69_cost_example : cost_at real_scalar ex_t 1 1 = 3 / 20 /\ cost_at real_scalar ex_t (5 / 4) 1 = 1 / 10.
Proof.
  split.
  - rewrite (proj1 (cost_form ex_t 1 1 1 1 ltac:(cbn; lra) (ex_left 1 1 ltac:(lra) ltac:(lra))) ex_known).
    unfold blend_at, blend, nx_of, ny_of, ex_t, ex_l. cbn. field.
  - rewrite (proj1 (cost_form ex_t (5 / 4) 1 1 1 ltac:(cbn; lra) (ex_left (5 / 4) 1 ltac:(lra) ltac:(lra))) ex_known).
    unfold blend_at, blend, nx_of, ny_of, ex_t, ex_l. cbn. field.
Qed.
Example C69_centre_example : cost_at real_scalar ex_t (1 / 2) (1 / 2) = 3 / 10.
Proof.
  pose proof (C69_cost_at_centre ex_t 1 1 ltac:(cbn; lra) ex_known) as H. cbn in H.
  replace (2 - 1 * (1 + 1 / 2)) with (1 / 2) in H by lra. exact H.
Qed.
Example C69_weight_example : weight_at real_scalar ex_t 1 (7 / 4) = 3 / 4.
Proof.
  rewrite (weight_form ex_t 1 (7 / 4) 0 1); [|cbn; lra|unfold lower_left, cell_center2, ex_t, ex_l; cbn; lra].
  unfold blend_at, blend, nx_of, ny_of, ex_t, ex_l. cbn. field.
Qed.
(* two points, of which one off the map *)
Example C69_match_example : tsdf_match ex_t 3 (params2 (mk_vec3 1 0 0)) [(0, 1); (10, 10)] = Some [9 / 10; 0].
Proof.
  rewrite match_form. cbv zeta. cbn [map total_of length].
  assert (A : weight_of ex_t (params2 (mk_vec3 1 0 0)) (0, 1) = 1 /\ cost_of ex_t (params2 (mk_vec3 1 0 0)) (0, 1) = 3 / 20).
  { rewrite <- seen_weight, <- seen_cost. unfold seen, r2_apply, params2. cbn [v0 v1 v2 fst snd]. rewrite cos_0, sin_0.
    replace (1 * 0 - 0 * 1 + 1) with 1 by ring. replace (0 * 0 + 1 * 1 + 0) with 1 by ring. split; [|apply C69_cost_example].
    rewrite (weight_form ex_t 1 1 1 1); [|cbn; lra|apply ex_left; lra].
    unfold blend_at, blend, nx_of, ny_of, ex_t, ex_l. cbn. field. }
  assert (B : weight_of ex_t (params2 (mk_vec3 1 0 0)) (10, 10) = 0).
  { rewrite <- seen_weight. unfold seen, r2_apply, params2. cbn [v0 v1 v2 fst snd]. rewrite cos_0, sin_0.
    replace (1 * 10 - 0 * 10 + 1) with 11 by ring. replace (0 * 10 + 1 * 10 + 0) with 10 by ring.
    rewrite (weight_form ex_t 11 10 (-8) (-9)); [|cbn; lra|unfold lower_left, cell_center2, ex_t, ex_l; cbn; lra].
    unfold blend_at, blend, nx_of, ny_of, ex_t, ex_l. cbn. field. }
  destruct A as [A1 A2]. rewrite A1, A2, B.
  destruct (Req_EM_T (1 + (0 + 0)) 0) as [Z | _]; [lra|]. cbn [INR]. repeat (f_equal; try (field; lra)).
Qed.
Example C69_jacobian_example :
  strictly_inside ex_l (5 / 4) 1 1 1 /\
  exists rs js, tsdf_match ex_t 1 (params2 (mk_vec3 0 0 0)) [(5 / 4, 1)] = Some rs /\
    tsdf_match_jet ex_t 1 (fun m => seed (params2 (mk_vec3 0 0 0) m) m) [(5 / 4, 1)] = Some js /\ length js = 1%nat /\
    (forall j, nth_error js 0 = Some j ->
       derivable_pt_lim (fun u => match tsdf_match ex_t 1 (vary (params2 (mk_vec3 0 0 0)) 0 u) [(5 / 4, 1)] with
                                  | Some l => nth 0 l 0 | None => 0 end) 0 (j_v j 0%nat)).
Proof.
  assert (SI : strictly_inside ex_l (5 / 4) 1 1 1) by (unfold strictly_inside, cell_center2, ex_l; cbn; lra).
  split; [exact SI|].
  assert (I : forall p, In p [(5 / 4, 1)] -> exists i j, strictly_inside (t_lim ex_t)
     (seen (fun x _ => x) (params2 (mk_vec3 0 0 0)) p) (seen (fun _ y => y) (params2 (mk_vec3 0 0 0)) p) i j).
  { intros p [<- | []]. exists 1%Z, 1%Z. unfold seen, r2_apply, params2. cbn [v0 v1 v2 fst snd]. rewrite cos_0, sin_0.
    replace (1 * (5 / 4) - 0 * 1 + 0) with (5 / 4) by ring. replace (0 * (5 / 4) + 1 * 1 + 0) with 1 by ring. exact SI. }
  assert (W : seen (weight_at real_scalar ex_t) (params2 (mk_vec3 0 0 0)) (5 / 4, 1) = 1).
  { unfold seen, r2_apply, params2. cbn [v0 v1 v2 fst snd]. rewrite cos_0, sin_0.
    replace (1 * (5 / 4) - 0 * 1 + 0) with (5 / 4) by ring. replace (0 * (5 / 4) + 1 * 1 + 0) with 1 by ring.
    rewrite (weight_form ex_t (5 / 4) 1 1 1); [|cbn; lra|apply ex_left; lra].
    unfold blend_at, blend, nx_of, ny_of, ex_t, ex_l. cbn. field. }
  assert (M := C69_equal_weights ex_t 1 (params2 (mk_vec3 0 0 0)) [(5 / 4, 1)] 1 ltac:(discriminate) ltac:(lra)
    ltac:(intros p [<- | []]; exact W)).
  destruct (tsdf_match_jet ex_t 1 (fun m => seed (params2 (mk_vec3 0 0 0) m) m) [(5 / 4, 1)]) as [js|] eqn:J.
  - eexists _, js. split; [exact M|]. split; [reflexivity|].
    assert (L : length js = 1%nat).
    { revert J. unfold tsdf_match_jet. cbv zeta. destruct (Req_EM_T _ 0); [discriminate|]. intros Q.
      assert (E := f_equal (fun o => match o with Some l => length l | None => 7%nat end) Q). cbn beta iota in E.
      rewrite <- E, !map_length. reflexivity. }
    split; [exact L|]. intros j Nj.
    assert (X := C69_jacobian ex_t 1 (params2 (mk_vec3 0 0 0)) 0 [(5 / 4, 1)] _ js ltac:(cbn; lra) I M J 0%nat _ j eq_refl Nj).
    exact (proj2 X).
  - exfalso. revert J. unfold tsdf_match_jet. cbv zeta.
    destruct (Req_EM_T _ 0) as [Z | Z]; [|discriminate]. intros _.
    pose proof (follows_match_sum ex_t (params2 (mk_vec3 0 0 0)) 0 [(5 / 4, 1)] ltac:(cbn; lra)) as FS.
    destruct FS as [FS _].
    { intros p Hp. destruct (I p Hp) as [a [b Q]]. exists a, b. rewrite !seen_world in Q. exact Q. }
    rewrite Z in FS. cbn [map total_of] in FS. revert FS.
    unfold weight_of. rewrite vary_same. fold (weight_of ex_t (params2 (mk_vec3 0 0 0)) (5 / 4, 1)).
    rewrite <- seen_weight, W. lra.
Qed.

(* ---- C70: the occupied space *)

(* the padded array is the grid continued by the greatest cost without end *)
Theorem C70_padding : forall l cost i j,
  adapter l cost (j + k_padding) (i + k_padding) = continued l cost i j.
Proof. exact adapter_shift. Qed.
Theorem C70_unpadded : forall s l cost pose p,
  occupied_residual2 real_scalar (evaluate_real (adapter l cost)) s l pose p =
  s * evaluate_real (fun row column => continued l cost column row)
        (seen (fun x _ => (l_max_x l - x) / l_res l - 1 / 2) pose p)
        (seen (fun _ y => (l_max_y l - y) / l_res l - 1 / 2) pose p).
Proof. intros. rewrite !seen_world. apply residual2_form. Qed.
(* at the centre of a cell the residual is the scaled cost of that cell *)
Theorem C70_interpolates : forall s l cost pose p i j, 0 < l_res l ->
  r2_apply pose p = cell_center2 l (i, j) ->
  occupied_residual2 real_scalar (evaluate_real (adapter l cost)) s l (params2 pose) p = s * continued l cost i j.
Proof.
  intros s l cost pose p i j H E. rewrite residual2_form.
  assert (W : world2 real_scalar (params2 pose) p = cell_center2 l (i, j)).
  { rewrite <- E. unfold world2, r2_apply, params2. cbn [real_scalar s_add s_mul s_of s_cos s_sin s_neg]. f_equal; ring. }
  rewrite W. unfold cell_center2. cbn [fst snd]. unfold row_of, column_of.
  replace ((l_max_x l - (l_max_x l - l_res l * (IZR j + 1 / 2))) / l_res l - 1 / 2) with (IZR j) by (field; lra).
  replace ((l_max_y l - (l_max_y l - l_res l * (IZR i + 1 / 2))) / l_res l - 1 / 2) with (IZR i) by (field; lra).
  unfold evaluate_real. rewrite bicubic_form. cbn [fst]. now rewrite spl_Z, spl_Z.
Qed.
(* the interpolated cost overshoots those of the cells by at most 9/32 of their range *)
Theorem C70_bounds : forall s l cost pose p lo hi, 0 <= s -> lo <= 9 / 10 <= hi ->
  (forall i j, contains2 l (i, j) = true -> lo <= cost i j <= hi) ->
  s * (lo - 9 / 32 * (hi - lo)) <= occupied_residual2 real_scalar (evaluate_real (adapter l cost)) s l pose p
    <= s * (hi + 9 / 32 * (hi - lo)).
Proof.
  intros s l cost pose p lo hi Hs K B. rewrite residual2_form. unfold evaluate_real. rewrite bicubic_form. cbn [fst].
  set (r := row_of _ _). set (c := column_of _ _).
  assert (S1 : forall i, lo - (hi - lo) / 8 <= spl (fun col => continued l cost col i) c <= hi + (hi - lo) / 8).
  { intros i. apply spl_bounds. intros. now apply continued_bounds. }
  pose proof (spl_bounds _ r _ _ S1) as S2. split; apply Rmult_le_compat_l; lra.
Qed.
(* off the map it is the greatest cost, with a zero gradient *)
Theorem C70_off_map : forall s l cost pose p, 0 < l_res l ->
  off_map l (fst (r2_apply pose p)) (snd (r2_apply pose p)) ->
  occupied_residual2 real_scalar (evaluate_real (adapter l cost)) s l (params2 pose) p = s * (9 / 10) /\
  forall n, j_v (occupied_residual2 jet_scalar (evaluate_jet (adapter l cost)) s l
                   (fun m => seed (params2 pose m) m) p) n = 0.
Proof.
  intros s l cost pose p H O.
  assert (W : world2 real_scalar (params2 pose) p = r2_apply pose p).
  { unfold world2, r2_apply, params2. cbn [real_scalar s_add s_mul s_of s_cos s_sin s_neg]. f_equal; ring. }
  set (x := fst (r2_apply pose p)) in *. set (y := snd (r2_apply pose p)) in *.
  assert (F : (forall i, (Int_part (row_of l x) - 1 <= i <= Int_part (row_of l x) + 2)%Z -> forall c, continued l cost c i = 9 / 10) \/
              (forall i, (Int_part (column_of l y) - 1 <= i <= Int_part (column_of l y) + 2)%Z -> forall c, continued l cost i c = 9 / 10)).
  { assert (Q : forall m v n, (m + 3 / 2 * l_res l < v \/ v < m - (IZR n + 3 / 2) * l_res l) ->
      let k := Int_part ((m - v) / l_res l - 1 / 2) in (k + 2 < 0 \/ n <= k - 1)%Z).
    { intros m v n D k. pose proof (floor_spec ((m - v) / l_res l - 1 / 2)) as FS. fold k in FS.
      assert (E : (m - v) / l_res l * l_res l = m - v) by (field; lra). set (q := (m - v) / l_res l) in *.
      destruct D as [D | D].
      - left. assert (q < - (3 / 2)) by (apply Rmult_lt_reg_r with (l_res l); lra).
        apply lt_IZR. rewrite plus_IZR. lra.
      - right. assert (IZR n + 3 / 2 < q) by (apply Rmult_lt_reg_r with (l_res l); lra).
        apply Z.lt_succ_r. unfold Z.succ. apply lt_IZR. rewrite plus_IZR, minus_IZR. lra. }
    destruct O as [O | [O | [O | O]]].
    - left. destruct (Q _ _ (l_ny l) (or_introl O)) as [Z | Z]; fold (row_of l x) in Z; intros i I c; unfold continued, contains2; cbn [fst snd].
      + destruct (Z.leb_spec 0 i); [lia|]. now rewrite andb_false_r.
      + destruct (Z.ltb_spec i (l_ny l)); [lia|]. now rewrite andb_false_r.
    - left. destruct (Q _ _ (l_ny l) (or_intror O)) as [Z | Z]; fold (row_of l x) in Z; intros i I c; unfold continued, contains2; cbn [fst snd].
      + destruct (Z.leb_spec 0 i); [lia|]. now rewrite andb_false_r.
      + destruct (Z.ltb_spec i (l_ny l)); [lia|]. now rewrite andb_false_r.
    - right. destruct (Q _ _ (l_nx l) (or_introl O)) as [Z | Z]; fold (column_of l y) in Z; intros i I c; unfold continued, contains2; cbn [fst snd].
      + destruct (Z.leb_spec 0 i); [lia|]. reflexivity.
      + destruct (Z.ltb_spec i (l_nx l)); [lia|]. now rewrite andb_false_r.
    - right. destruct (Q _ _ (l_nx l) (or_intror O)) as [Z | Z]; fold (column_of l y) in Z; intros i I c; unfold continued, contains2; cbn [fst snd].
      + destruct (Z.leb_spec 0 i); [lia|]. reflexivity.
      + destruct (Z.ltb_spec i (l_nx l)); [lia|]. now rewrite andb_false_r. }
  assert (V : bicubic (fun row col => continued l cost col row) (row_of l x) (column_of l y) = (9 / 10, 0, 0)).
  { rewrite bicubic_form. destruct F as [F | F].
    - rewrite (spl_const _ (row_of l x) (9 / 10)) by (intros i I; apply spl_const; intros; now apply F).
      rewrite (dspl_const _ (row_of l x) (9 / 10)) by (intros i I; apply spl_const; intros; now apply F).
      rewrite (spl_const _ (row_of l x) 0) by (intros i I; apply (dspl_const _ _ (9 / 10)); intros; now apply F).
      reflexivity.
    - rewrite (spl_const _ (row_of l x) (9 / 10)) by (intros i I; apply spl_const; intros j J; now apply (F j J)).
      rewrite (dspl_const _ (row_of l x) (9 / 10)) by (intros i I; apply spl_const; intros j J; now apply (F j J)).
      rewrite (spl_const _ (row_of l x) 0) by (intros i I; apply (dspl_const _ _ (9 / 10)); intros j J; now apply (F j J)).
      reflexivity. }
  split.
  - rewrite residual2_form, W.
    change (s * evaluate_real (fun row col => continued l cost col row) (row_of l x) (column_of l y) = s * (9 / 10)).
    unfold evaluate_real. now rewrite V.
  - intros n. unfold occupied_residual2.
    destruct (follows_world2 (params2 pose) n p) as [[X _] [Y _]]. rewrite vary_same, W in X, Y.
    destruct (world2 jet_scalar (fun m => seed (params2 pose m) m) p) as [wx wy]. cbn [fst snd] in X, Y.
    change (x = j_a wx) in X. change (y = j_a wy) in Y.
    unfold evaluate_jet. cbn [jet_scalar s_mul s_add s_sub s_of j_a j_v]. rewrite <- X, <- Y.
    change ((l_max_x l - x) * / l_res l - 1 / 2) with (row_of l x).
    change ((l_max_y l - y) * / l_res l - 1 / 2) with (column_of l y).
    rewrite bicubic_shift, V. cbn [j_a j_v]. ring.
Qed.
(* the Jacobian: at every pose the jets are the values and the derivatives, also where the
   interpolation passes from one cell to the next *)
Theorem C70_jacobian : forall s l cost pose n p lo hi,
  (forall i j, contains2 l (i, j) = true -> lo <= cost i j <= hi) ->
  let f := fun pose => occupied_residual2 real_scalar (evaluate_real (adapter l cost)) s l pose p in
  let j := occupied_residual2 jet_scalar (evaluate_jet (adapter l cost)) s l (fun m => seed (pose m) m) p in
  f pose = j_a j /\ derivable_pt_lim (fun u => f (vary pose n u)) (pose n) (j_v j n).
Proof.
  intros s l cost pose n p lo hi B f j.
  destruct (follows_occupied2 (adapter l cost) (Rabs lo + Rabs hi + 1) (fun i j => adapter_abs l cost lo hi i j B) s l pose n p) as [A D].
  split; [|exact D]. fold j in A. rewrite <- A. unfold f. rewrite !residual2_form. now rewrite vary_same.
Qed.
(* the indices fit an int for maps of up to 2^30 cells a side and points within 10^9 cells *)
Theorem C70_no_overflow : forall l x, (0 <= l_nx l <= 2 ^ 30)%Z -> (0 <= l_ny l <= 2 ^ 30)%Z ->
  Rabs x <= 1000000000 ->
  (l_nx l + 2 * k_padding <= 2147483647 /\ l_ny l + 2 * k_padding <= 2147483647 /\
   - 2147483648 <= Int_part (x + IZR k_padding) - 1 /\ Int_part (x + IZR k_padding) + 2 <= 2147483647)%Z.
Proof.
  intros l x A B X. pose proof (floor_spec (x + IZR k_padding)) as F. set (k := Int_part _) in *. unfold k_padding in *.
  assert (E : (2147483647 / 4 = 536870911)%Z) by reflexivity. rewrite E in *.
  assert (X' : - 1000000000 <= x <= 1000000000) by (unfold Rabs in X; destruct (Rcase_abs x); lra).
  assert (K1 : (-1000000000 < k + 1)%Z) by (apply lt_IZR; rewrite plus_IZR; lra).
  assert (K2 : (k < 1536870912)%Z) by (apply lt_IZR; lra). lia.
Qed.
(* the interpolated cost can be negative although every cell has a cost of at least a tenth *)
Definition ex_cost (i j : Z) : R :=
  if Bool.eqb ((i =? 1) || (i =? 2))%Z ((j =? 1) || (j =? 2))%Z then 1 / 10 else 9 / 10.
Definition ex_l4 : limits2 := mk_limits2 1 4 4 4 4.
Theorem C70_sign_refuted : exists s l cost pose p, 0 < s /\ 0 < l_res l /\
  (forall i j, 1 / 10 <= cost i j <= 9 / 10) /\
  occupied_residual2 real_scalar (evaluate_real (adapter l cost)) s l (params2 pose) p = - s / 8.
Proof.
  exists 1, ex_l4, ex_cost, (mk_vec3 0 0 0), (2, 2). split; [lra|]. split; [cbn; lra|]. split.
  { intros i j. unfold ex_cost. destruct (Bool.eqb _ _); lra. }
  rewrite residual2_form.
  assert (W : world2 real_scalar (params2 (mk_vec3 0 0 0)) (2, 2) = (2, 2)).
  { unfold world2, params2. cbn [real_scalar s_add s_mul s_of s_cos s_sin s_neg v0 v1 v2 fst snd].
    rewrite cos_0, sin_0. f_equal; ring. }
  rewrite W. cbn [fst snd]. unfold evaluate_real. rewrite bicubic_form. cbn [fst].
  assert (Rw : row_of ex_l4 2 = 3 / 2) by (unfold row_of, ex_l4; cbn; field).
  assert (Cl : column_of ex_l4 2 = 3 / 2) by (unfold column_of, ex_l4; cbn; field).
  rewrite Rw, Cl.
  assert (I : Int_part (3 / 2) = 1%Z) by (apply floor_unique; lra).
  unfold spl. cbv zeta. rewrite I. cbn. unfold hermite. field.
Qed.
Example C70_interpolates_example :
  r2_apply (mk_vec3 1 0 0) (1 / 2, 5 / 2) = cell_center2 ex_l4 (1, 2)%Z /\
  occupied_residual2 real_scalar (evaluate_real (adapter ex_l4 ex_cost)) 2 ex_l4 (params2 (mk_vec3 1 0 0)) (1 / 2, 5 / 2)
    = 2 * (1 / 10).
Proof.
  assert (E : r2_apply (mk_vec3 1 0 0) (1 / 2, 5 / 2) = cell_center2 ex_l4 (1, 2)%Z).
  { unfold r2_apply, cell_center2, ex_l4. cbn [v0 v1 v2 fst snd l_max_x l_max_y l_res]. rewrite cos_0, sin_0. f_equal; field. }
  split; [exact E|]. rewrite (C70_interpolates 2 ex_l4 ex_cost _ _ 1 2 ltac:(cbn; lra) E). reflexivity.
Qed.
Example C70_off_map_example : off_map ex_l4 (fst (r2_apply (mk_vec3 1 0 0) (5, 1))) (snd (r2_apply (mk_vec3 1 0 0) (5, 1))).
Proof. unfold off_map, r2_apply, ex_l4. cbn. rewrite cos_0, sin_0. lra. Qed.
Example C70_bounds_example : forall i j, contains2 ex_l4 (i, j) = true -> 1 / 10 <= ex_cost i j <= 9 / 10.
Proof. intros i j _. unfold ex_cost. destruct (Bool.eqb _ _); lra. Qed.
Example C70_padding_example : adapter ex_l4 ex_cost (1 + k_padding) (0 + k_padding) = 9 / 10 /\
  adapter ex_l4 ex_cost (1 + k_padding) (2 + k_padding) = 1 / 10 /\ adapter ex_l4 ex_cost (4 + k_padding) (2 + k_padding) = 9 / 10.
Proof. rewrite !C70_padding. repeat split. Qed.

Print Assumptions C69_lower.
Print Assumptions C69_cost_bounds.
Print Assumptions C69_cost_at_centre.
Print Assumptions C69_unknown.
Print Assumptions C69_weight_bounds.
Print Assumptions C69_weight_at_centre.
Print Assumptions C69_weight_lipschitz.
Print Assumptions C69_derivative.
Print Assumptions C69_defined.
Print Assumptions C69_residuals.
Print Assumptions C69_bounded.
Print Assumptions C69_proportions.
Print Assumptions C69_equal_weights.
Print Assumptions C69_jacobian.
Print Assumptions C69_border_refuted.
Print Assumptions C69_jump_refuted.
Print Assumptions C70_padding.
Print Assumptions C70_unpadded.
Print Assumptions C70_interpolates.
Print Assumptions C70_bounds.
Print Assumptions C70_off_map.
Print Assumptions C70_jacobian.
Print Assumptions C70_no_overflow.
Print Assumptions C70_sign_refuted.
