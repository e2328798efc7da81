(* The real time search in 3D. *)
From Coq Require Import ZArith Reals Lra Lia List Bool.
From Verif Require Import CF_Model RG_Model RG_Proofs RG_Angle IG_Model IG_Proofs I2_Model I2_Spec I2_Match Vec RH_Model SW_Model SW_Spec SW_Proofs.
Import ListNotations.
Open Scope R_scope.

Lemma flat_length {A B} (f : A -> list B) n l : (forall a, In a l -> length (f a) = n) -> length (flat_map f l) = (length l * n)%nat.
Proof.
  induction l as [|a l IH]; intros F; [reflexivity|]. cbn [flat_map]. rewrite app_length, F, IH by (intros; auto using in_eq, in_cons).
  reflexivity.
Qed.
Lemma fold_sum (f : point -> R) l : forall a, fold_left (fun s p => s + f p) l a = a + total_of (map f l).
Proof. induction l as [|p l IH]; intros a; cbn [fold_left map total_of]; [ring|]. rewrite IH. cbn. ring. Qed.
Lemma total_positive l : l <> [] -> (forall x, In x l -> 0 < x) -> 0 < total_of l.
Proof.
  intros NE P. destruct l as [|a l]; [congruence|]. assert (0 < a) by (apply P; now left).
  assert (Q : forall x, In x (a :: l) -> 0 <= x) by (intros x I; apply Rlt_le, P, I).
  pose proof (total_in (a :: l) a Q ltac:(now left)). lra.
Qed.
Lemma score_ok tw rw probability cloud pose t : cloud <> [] -> (forall p, 0 < probability p) ->
  score_candidate tw rw probability (map (r3_apply pose) cloud) t =
  Some (mean_at probability pose cloud * exp (- ((vnorm (trans t) * tw + get_angle t * rw) * (vnorm (trans t) * tw + get_angle t * rw)))) /\
  0 < mean_at probability pose cloud.
Proof.
  intros NE P. assert (M : 0 < mean_at probability pose cloud).
  { unfold mean_at. apply Rdiv_lt_0_compat.
    - apply total_positive; [destruct cloud; [congruence|discriminate]|]. intros x I. apply in_map_iff in I. destruct I as [p [<- _]]. apply P.
    - apply (lt_INR 0). destruct cloud; [congruence|cbn; lia]. }
  split; [|exact M]. unfold score_candidate. destruct (map (r3_apply pose) cloud) as [|q l] eqn:E.
  - destruct cloud; [congruence|discriminate].
  - rewrite <- E. cbv zeta. rewrite fold_sum, map_map, map_length, Rplus_0_l.
    fold (mean_at probability pose cloud). set (s := _ * exp _).
    assert (0 < s) by (apply Rmult_lt_0_compat; [exact M | apply exp_pos]). destruct (Rlt_dec 0 s); [reflexivity | lra].
Qed.
Section Fold.
Variables (tw rw : R) (probability : point -> R) (initial : rigid3) (cloud : list point) (f : rigid3 -> R).
Hypothesis scored : forall t, score_candidate tw rw probability (map (r3_apply (r3_mul initial t)) cloud) t = Some (f t).
Lemma match_fold ts : forall b po, exists b' po',
  fold_left (match_step tw rw probability initial cloud) ts (Some (b, po)) = Some (b', po') /\ b <= b' /\
  ((b' = b /\ po' = po /\ forall t, In t ts -> f t <= b) \/
   exists before t after, ts = before ++ t :: after /\ po' = Some (r3_mul initial t) /\ b' = f t /\ b < b' /\
     (forall u, In u before -> f u < b') /\ (forall u, In u after -> f u <= b')).
Proof.
  induction ts as [|t ts IH]; intros b po; cbn [fold_left].
  - exists b, po. split; [reflexivity|]. split; [lra|]. left. repeat split. intros ? [].
  - unfold match_step at 2. cbv zeta. rewrite scored. destruct (Rlt_dec b (f t)) as [L|L].
    + destruct (IH (f t) (Some (r3_mul initial t))) as [b' [po' [E [G C]]]]. exists b', po'. split; [exact E|]. split; [lra|].
      right. destruct C as [[-> [-> A]] | [pre [u [post [-> [-> [-> [B [C D]]]]]]]]].
      * exists [], t, ts. repeat split; auto. intros ? [].
      * exists (t :: pre), u, post. repeat split; auto; [lra|]. intros v [<-|I]; auto.
    + destruct (IH b po) as [b' [po' [E [G C]]]]. exists b', po'. split; [exact E|]. split; [lra|].
      destruct C as [[-> [-> A]] | [pre [u [post [-> [-> [-> [B [C D]]]]]]]]].
      * left. repeat split. intros v [<-|I]; [lra | auto].
      * right. exists (t :: pre), u, post. repeat split; auto. intros v [<-|I]; [lra | auto].
Qed.
End Fold.
Lemma exhaustive_in linear angular cloud res : 0 < res -> exists step ts, exhaustive linear angular cloud res = Some ts /\ 0 < step /\
  angular_step k_safety_real_time_3d res (max_range (map vnorm cloud) res) = Some step /\
  (forall t, In t ts <-> exists x y z rx ry rz,
    (Z.abs x <= lround (linear / res))%Z /\ (Z.abs y <= lround (linear / res))%Z /\ (Z.abs z <= lround (linear / res))%Z /\
    (Z.abs rx <= lround (angular / step))%Z /\ (Z.abs ry <= lround (angular / step))%Z /\ (Z.abs rz <= lround (angular / step))%Z /\
    t = mk_rigid3 (mk_vec3 (IZR x * res) (IZR y * res) (IZR z * res)) (of_angle_axis (mk_vec3 (IZR rx * step) (IZR ry * step) (IZR rz * step)))) /\
  ((0 <= lround (linear / res))%Z -> (0 <= lround (angular / step))%Z ->
    Z.of_nat (length ts) = ((2 * lround (linear / res) + 1) ^ 3 * (2 * lround (angular / step) + 1) ^ 3)%Z).
Proof.
  intros H. unfold exhaustive.
  destruct (angles_facts k_safety_real_time_3d angular cloud res H) as [a [E [R _]]]; [unfold k_safety_real_time_3d; lra|].
  rewrite E. set (step := k_safety_real_time_3d * a). cbv zeta. set (n := lround (linear / res)). set (m := lround (angular / step)).
  exists step. eexists. split; [reflexivity|]. split; [unfold step, k_safety_real_time_3d; nra|]. split; [reflexivity|]. split.
  - intros t. assert (SN := symmetric_in n). assert (SM := symmetric_in m).
    generalize dependent (symmetric n). generalize dependent (symmetric m). intros sm SM sn SN. rewrite in_flat_map. setoid_rewrite in_flat_map. setoid_rewrite in_flat_map. setoid_rewrite in_flat_map. setoid_rewrite in_flat_map. setoid_rewrite in_map_iff.
    setoid_rewrite SN. setoid_rewrite SM. split.
    + intros (z & Z0 & y & Y0 & x & X0 & rz & C0 & ry & B0 & rx & <- & A0). exists x, y, z, rx, ry, rz. repeat split; lia.
    + intros (x & y & z & rx & ry & rz & X0 & Y0 & Z0 & A0 & B0 & C0 & ->). exists z. split; [lia|]. exists y. split; [lia|]. exists x. split; [lia|].
      exists rz. split; [lia|]. exists ry. split; [lia|]. exists rx. split; [reflexivity | lia].
  - intros N M. assert (LN : length (symmetric n) = Z.to_nat (2 * n + 1)) by now apply symmetric_length.
    assert (LM : length (symmetric m) = Z.to_nat (2 * m + 1)) by now apply symmetric_length.
    erewrite flat_length; [|intros; erewrite flat_length; [reflexivity|]; intros; erewrite flat_length; [reflexivity|];
      intros; erewrite flat_length; [reflexivity|]; intros; erewrite flat_length; [reflexivity|]; intros; apply map_length].
    rewrite LN, LM, !Nat2Z.inj_mul, !Z2Nat.id by lia.
    fold m. ring.
Qed.
