(* A grid embedded in a larger one has the same values at the points of the plane. *)
From Coq Require Import List ZArith QArith Bool Lia Lqa.
From Verif Require Import Vec Float32 PV_Model G2_Model G2_Round G2_Spec G2_Proofs G2_Grow.
Import ListNotations.
Open Scope Z_scope.

Lemma embeds_value_at g g' ox oy qx qy : embeds g g' ox oy -> wf g -> wf g' ->
  ~ (qx == l_mx (g_lim g))%Q -> ~ (qy == l_my (g_lim g))%Q ->
  value_at g' qx qy = value_at g qx qy.
Proof.
  intros EM W W' Nx Ny.
  pose proof (wf_lim _ W) as L. pose proof (wf_lim _ W') as L'. pose proof L as [Hr [Hnx Hny]].
  pose proof (em_x _ _ _ _ EM) as [Ox Ox2]. pose proof (em_y _ _ _ _ EM) as [Oy Oy2].
  assert (Far : forall m m' q o, 0 <= o -> (m' == m + l_res (g_lim g) * inject_Z o)%Q -> (m < q)%Q ->
    round_away (frac m (l_res (g_lim g)) q - (1 # 2)) < 0 /\
    round_away (frac m' (l_res (g_lim g)) q - (1 # 2)) < o).
  { intros m m' q o Ho Em Hq. split.
    - destruct (Z_lt_le_dec (round_away (frac m (l_res (g_lim g)) q - (1 # 2))) 0) as [|Q]; [assumption|].
      apply (index_nonneg _ _ _ Hr) in Q. lra.
    - destruct (Z.eq_dec o 0) as [-> | No].
      + destruct (Z_lt_le_dec (round_away (frac m' (l_res (g_lim g)) q - (1 # 2))) 0) as [|Q]; [assumption|].
        apply (index_nonneg _ _ _ Hr) in Q. rewrite Em in Q. change (inject_Z 0) with 0%Q in Q. lra.
      + apply (index_lt _ _ _ _ Hr); [lia|]. rewrite Em. lra. }
  assert (Out : forall x y x' y', cell_index (g_lim g) qx qy = (x, y) -> cell_index (g_lim g') qx qy = (x', y') ->
    contains (g_lim g) x y = false -> contains (g_lim g) (x' - ox) (y' - oy) = false ->
    value_at g' qx qy = value_at g qx qy).
  { intros x y x' y' I1 I2 C1 C2. unfold value_at. rewrite I1, I2, C1.
    destruct (contains (g_lim g') x' y') eqn:C3; [|reflexivity].
    rewrite (em_val _ _ _ _ EM) by exact C3. now rewrite C2. }
  destruct (Q_dec qx (l_mx (g_lim g))) as [[Lx | Gx] | Ex]; [| |contradiction].
  + destruct (Q_dec qy (l_my (g_lim g))) as [[Ly | Gy] | Ey]; [| |contradiction].
    * pose proof (embeds_index g g' ox oy qx qy EM L Lx Ly) as I.
      destruct (cell_index (g_lim g) qx qy) as [x y] eqn:I1. cbn [fst snd] in I.
      destruct (contains (g_lim g) x y) eqn:C1.
      -- unfold value_at. rewrite I1, I, C1.
         assert (C2 : contains (g_lim g') (x + ox) (y + oy) = true)
           by (apply contains_iff; apply contains_iff in C1; lia).
         rewrite C2, (em_val _ _ _ _ EM) by exact C2. now rewrite !Z.add_simpl_r, C1.
      -- apply (Out x y (x + ox) (y + oy)); auto. now rewrite !Z.add_simpl_r.
    * destruct (Far _ _ qy ox Ox (em_my _ _ _ _ EM) Gy) as [F1 F2].
      eapply Out; [apply cell_index_frac | rewrite cell_index_frac, (em_res _ _ _ _ EM); reflexivity | |];
        apply not_true_is_false; rewrite contains_iff; lia.
  + destruct (Far _ _ qx oy Oy (em_mx _ _ _ _ EM) Gx) as [F1 F2].
    eapply Out; [apply cell_index_frac | rewrite cell_index_frac, (em_res _ _ _ _ EM); reflexivity | |];
      apply not_true_is_false; rewrite contains_iff; lia.
Qed.

(* cell centres coincide *)
Lemma embeds_center g g' ox oy x y : embeds g g' ox oy -> contains (g_lim g) x y = true ->
  contains (g_lim g') (x + ox) (y + oy) = true /\
  (fst (cell_center (g_lim g') (x + ox) (y + oy)) == fst (cell_center (g_lim g) x y))%Q /\
  (snd (cell_center (g_lim g') (x + ox) (y + oy)) == snd (cell_center (g_lim g) x y))%Q /\
  cell_value g' (x + ox) (y + oy) = cell_value g x y.
Proof.
  intros EM C1. pose proof (em_x _ _ _ _ EM) as [Ox Ox2]. pose proof (em_y _ _ _ _ EM) as [Oy Oy2].
  assert (C2 : contains (g_lim g') (x + ox) (y + oy) = true)
    by (apply contains_iff; apply contains_iff in C1; lia).
  split; [exact C2|]. unfold cell_center. cbn [fst snd]. rewrite (em_res _ _ _ _ EM).
  split; [rewrite (em_mx _ _ _ _ EM), inject_Z_plus; ring|].
  split; [rewrite (em_my _ _ _ _ EM), inject_Z_plus; ring|].
  rewrite (em_val _ _ _ _ EM) by exact C2. now rewrite !Z.add_simpl_r, C1.
Qed.
