From Coq Require Import List ZArith QArith Bool Lia Lqa.
From Verif Require Import RTP_Model RTP_Spec RTP_Proofs.
Import ListNotations.
Open Scope Z_scope.

Lemma quot_div a b : 0 <= a -> 0 < b -> Z.quot a b = a / b.
Proof. intros. apply Z.quot_div_nonneg; lia. Qed.
Lemma rem_mod a b : 0 <= a -> 0 < b -> Z.rem a b = a mod b.
Proof. intros. apply Z.rem_mod_nonneg; lia. Qed.

Lemma div_eq a s : 0 < s -> exists q r, a / s = q /\ a mod s = r /\ a = s * q + r /\ 0 <= r < s.
Proof.
  intros H. exists (a / s), (a mod s). repeat split; try apply Z.mod_pos_bound; auto.
  apply Z.div_mod. lia.
Qed.

(* vertical lines *)
Lemma vertical_ok x end_y first : forall fuel y l l1, Z.of_nat fuel >= end_y - y + 1 ->
  push (x, y) l = Some ((x, y) :: l1) -> chain up ((x, y) :: l1) -> last ((x, y) :: l1) first = first ->
  y <= end_y ->
  exists l2, vertical fuel x y end_y l = Some ((x, end_y) :: l2) /\ chain up ((x, end_y) :: l2) /\
    last ((x, end_y) :: l2) first = first /\
    forall p, In p ((x, end_y) :: l2) <-> In p ((x, y) :: l1) \/ (fst p = x /\ y <= snd p <= end_y).
Proof.
  induction fuel as [|f IH]; intros y l l1 Hf P C La Hy; [lia|].
  cbn [vertical]. rewrite (proj2 (Z.leb_le _ _) Hy), P. cbn [bind].
  destruct (Z.eq_dec y end_y) as [-> | N].
  - exists l1. split.
    + destruct f; cbn [vertical]; destruct (Z.leb_spec (end_y + 1) end_y); try lia; reflexivity.
    + split; [exact C|]. split; [exact La|]. intros p. split; [auto|].
      intros [I | I]; [exact I|]. left. destruct p as [a b]. cbn [fst snd] in *. f_equal; lia.
  - assert (Pn : push (x, y + 1) ((x, y) :: l1) = Some ((x, y + 1) :: (x, y) :: l1))
      by (apply push_new; intros E; injection E; lia).
    assert (Cn : chain up ((x, y + 1) :: (x, y) :: l1))
      by (apply chain_cons; split; [left; cbn; lia | exact C]).
    destruct (IH (y + 1) _ _ ltac:(lia) Pn Cn La ltac:(lia)) as [l2 [E [C2 [L2 I2]]]].
    exists l2. split; [exact E|]. split; [exact C2|]. split; [exact L2|].
    intros p. rewrite I2. cbn [In]. split.
    + intros [[I | I] | I]; [subst p; cbn [fst snd]; lia | tauto | lia].
    + intros [I | I]; [tauto|]. destruct p as [a b]. cbn [fst snd] in *.
      destruct (Z.eq_dec b y); [left; right; left; f_equal; lia|].
      destruct (Z.eq_dec b (y + 1)); [left; left; f_equal; lia | right; lia].
Qed.

Section Slanted.
Variables bx by_ ex ey s : Z.
Hypothesis Hs : 0 < s.
Hypothesis Hs31 : 2 * s < 2 ^ 31.
Hypothesis Hbx : int32 bx.
Hypothesis Hby : int32 by_.
Hypothesis Hex : int32 ex.
Hypothesis Hey : int32 ey.
Let c0 := bx / s.
Let c1 := ex / s.
Hypothesis Hc : c0 < c1.
Let D := ex - bx.
Let dy := ey - by_.
Let den := 2 * s * D.
(* D times the height at abscissa X, in half subpixels *)
Definition F (X : Z) : Z := (2 * by_ + 1) * D + dy * (X - (2 * bx + 1)).
Definition FL (c : Z) : Z := if c =? c0 then F (2 * bx + 1) else F (2 * s * c).
Definition FR (c : Z) : Z := if c =? c1 then F (2 * ex + 1) else F (2 * s * (c + 1)).

Lemma D_pos : 0 < D < 2 ^ 31.
Proof.
  pose proof (Z.mul_div_le ex s Hs). pose proof (Z.mul_succ_div_gt bx s Hs).
  unfold c0, c1, D, int32 in *. nia.
Qed.
Lemma den_pos : 0 < den < 2 ^ 62.
Proof. pose proof D_pos. unfold den. split; [nia|]. change (2 ^ 62) with (2 ^ 31 * 2 ^ 31). nia. Qed.
Lemma F_begin : F (2 * bx + 1) = (2 * by_ + 1) * D. Proof. unfold F. ring. Qed.
Lemma F_end : F (2 * ex + 1) = (2 * ey + 1) * D. Proof. unfold F, dy, D. ring. Qed.
Lemma begin_row : 0 < F (2 * bx + 1) - den * (by_ / s) < den.
Proof.
  rewrite F_begin. pose proof D_pos. destruct (div_eq by_ s Hs) as [q [r [-> [_ [E R]]]]].
  unfold den. rewrite E at 1 2. split; nia.
Qed.
Lemma end_row : 0 < F (2 * ex + 1) - den * (ey / s) < den.
Proof.
  rewrite F_end. pose proof D_pos. destruct (div_eq ey s Hs) as [q [r [-> [_ [E R]]]]].
  unfold den. rewrite E at 1 2. split; nia.
Qed.
Lemma end_not_border r : F (2 * ex + 1) <> den * r.
Proof.
  rewrite F_end. unfold den. pose proof D_pos. intros E.
  assert (2 * ey + 1 = 2 * (s * r)) by nia. lia.
Qed.
Lemma end_row_eq r : 0 <= F (2 * ex + 1) - den * r <= den -> r = ey / s.
Proof.
  intros H. pose proof end_row. pose proof (end_not_border (r + 1)). pose proof (end_not_border r).
  pose proof den_pos. nia.
Qed.

Lemma prep : exists step d1 d2 sub, i64 (ex - bx) = Some D /\ i64 (ey - by_) = Some dy /\
  i64 (2 * s * D) = Some den /\ i64 ((2 * Z.rem by_ s + 1) * D) = Some sub /\
  i64 (dy * (2 * s - 2 * Z.rem bx s - 1)) = Some d1 /\ i64 (dy * 2 * s) = Some step /\
  i64 (dy * (2 * Z.rem ex s + 1)) = Some d2 /\ i64 (sub + d1) = Some (sub + d1) /\
  0 < sub < den /\ step = dy * (2 * s) /\ Z.abs step < 2 ^ 62 /\
  Z.abs d1 < 2 ^ 62 /\ Z.abs d2 < 2 ^ 62 /\
  (0 < dy -> 0 < d1 /\ 0 < d2) /\ (dy < 0 -> d1 < 0 /\ d2 < 0) /\ (dy = 0 -> d1 = 0 /\ d2 = 0) /\
  sub + den * (by_ / s) = F (2 * bx + 1) /\
  sub + d1 + den * (by_ / s) = F (2 * s * (c0 + 1)) /\
  F (2 * s * c1) + d2 = F (2 * ex + 1).
Proof.
  pose proof D_pos as HD. pose proof den_pos as HN.
  assert (HY : - 2 ^ 31 < dy < 2 ^ 31) by (unfold dy, int32 in *; lia).
  assert (H31 : 2 ^ 62 = 2 ^ 31 * 2 ^ 31) by reflexivity.
  assert (H63 : 2 ^ 63 = 2 * (2 ^ 31 * 2 ^ 31)) by reflexivity.
  assert (P31 : 0 < 2 ^ 31) by reflexivity.
  assert (Ab : forall f, 0 < f < 2 ^ 31 -> Z.abs (dy * f) < 2 ^ 31 * 2 ^ 31).
  { intros f Hf. rewrite Z.abs_mul. apply Z.mul_lt_mono_nonneg; lia. }
  unfold int32 in *.
  rewrite !rem_mod by lia.
  destruct (div_eq bx s Hs) as [qx [rx [Qx [-> [Ex Rx]]]]].
  destruct (div_eq ex s Hs) as [qe [re [Qe [-> [Ee Re]]]]].
  destruct (div_eq by_ s Hs) as [qy [ry [Qy [-> [Ey Ry]]]]].
  fold c0 in Qx. fold c1 in Qe. rewrite Qy, Qx, Qe.
  pose proof (Ab (2 * s - 2 * rx - 1) ltac:(lia)) as A1.
  pose proof (Ab (2 * s) ltac:(lia)) as A2. pose proof (Ab (2 * re + 1) ltac:(lia)) as A3.
  assert (Su : 0 < (2 * ry + 1) * D < den) by (unfold den; split; nia).
  exists (dy * (2 * s)), (dy * (2 * s - 2 * rx - 1)), (dy * (2 * re + 1)), ((2 * ry + 1) * D).
  split; [apply i64_ok; unfold D in *; lia|]. split; [apply i64_ok; unfold dy in *; lia|].
  split; [apply i64_ok; unfold den in *; lia|]. split; [apply i64_ok; lia|].
  split; [apply i64_ok; lia|]. split; [rewrite <- Z.mul_assoc; apply i64_ok; lia|].
  split; [apply i64_ok; lia|]. split; [apply i64_ok; lia|]. split; [exact Su|].
  split; [reflexivity|]. do 3 (split; [lia|]).
  split; [intros; split; apply Z.mul_pos_pos; lia|].
  split; [intros; split; apply Z.mul_neg_pos; lia|].
  split; [intros ->; split; reflexivity|].
  split; [|split].
  - rewrite F_begin. unfold den. replace (2 * by_ + 1) with (2 * ry + 1 + 2 * s * qy) by lia. ring.
  - unfold F, den. replace (2 * s * (qx + 1) - (2 * bx + 1)) with (2 * s - 2 * rx - 1) by lia.
    replace (2 * by_ + 1) with (2 * ry + 1 + 2 * s * qy) by lia. ring.
  - unfold F. replace (2 * ex + 1) with (2 * s * qe + (2 * re + 1)) by lia. ring.
Qed.

Definition in_mask (p : pixel) : Prop :=
  c0 <= fst p <= c1 /\
  if 0 <? dy then den * snd p < FR (fst p) /\ FL (fst p) < den * (snd p + 1)
  else den * snd p < FL (fst p) /\ FR (fst p) < den * (snd p + 1).

Lemma slanted_ok : exists l, ray_ordered (bx, by_) (ex, ey) s = Some ((c1, ey / s) :: l) /\
  (chain up ((c1, ey / s) :: l) \/ chain down ((c1, ey / s) :: l)) /\
  last ((c1, ey / s) :: l) (c0, by_ / s) = (c0, by_ / s) /\
  forall p, In p ((c1, ey / s) :: l) <-> in_mask p.
Proof.
  pose proof D_pos as HD. pose proof den_pos as HN.
  assert (H63 : 2 ^ 63 = 2 * 2 ^ 62) by reflexivity.
  destruct prep as [step [d1 [d2 [sub [P1 [P2 [P3 [P4 [P5 [P6 [P7 [P8 [Su [St [B1 [B2 [B3 [Up [Dn [Eq [Gb [G0 G1]]]]]]]]]]]]]]]]]]]]]].
  unfold ray_ordered, int32 in *.
  destruct (Z.eqb_spec s 0); [lia|].
  rewrite !(proj2 (Z.leb_le 0 _)) by lia. cbn [andb negb].
  rewrite !quot_div by lia. fold c0 c1. destruct (Z.eqb_spec c0 c1); [lia|].
  rewrite P1. cbn [bind]. rewrite P2. cbn [bind]. rewrite P3. cbn [bind]. rewrite P4. cbn [bind].
  rewrite P5. cbn [bind]. rewrite P8. cbn [bind]. rewrite P6. cbn [bind]. rewrite P7. cbn [bind].
  rewrite (Z.max_r bx ex) by (unfold D in *; lia). fold c1.
  assert (Gc : forall c, F (2 * s * (c0 + 1)) + step * (c - c0) = F (2 * s * (c + 1))).
  { intros c. unfold F. rewrite St. ring. }
  assert (Gc' : forall c, F (2 * s * (c0 + 1)) + step * (c - 1 - c0) = F (2 * s * c)).
  { intros c. rewrite Gc. f_equal. ring. }
  destruct (Z.ltb_spec 0 dy) as [Hy | Hy].
  - destruct (columns_up_ok den step c1 (c0, by_ / s) ltac:(lia) ltac:(nia) ltac:(lia)
      (Z.to_nat (c1 - c0)) c0 (by_ / s) (sub + d1) _ [] ltac:(lia) ltac:(lia) ltac:(lia)
      (push_same _ _) I eq_refl)
      as [y' [sub' [l' [l2 [-> [Q1 [Q2 [Q3 [Q4 [Q5 Q6]]]]]]]]]]. cbn [bind].
    rewrite i64_ok by lia. cbn [bind]. rewrite Q3. cbn [bind].
    assert (Sp : 0 < sub' + d2) by lia.
    destruct (climb_ok den c1 (proj1 HN) _ y' (sub' + d2) l2 (c0, by_ / s)
      (climb_fuel_ok den _ (proj1 HN) Sp) Sp Q4 Q5) as [k [l3 [K1 [-> [K3 [K4 [K5 K6]]]]]]]. cbn [bind].
    rewrite G0, Gc' in Q2.
    assert (V : sub' + d2 - den * k = F (2 * ex + 1) - den * (y' + k)) by lia.
    assert (Er : y' + k = ey / s) by (apply end_row_eq; lia).
    rewrite Er in *.
    destruct (Z.eqb_spec (sub' + d2 - den * k) den) as [E | _].
    { exfalso. apply (end_not_border (ey / s + 1)). lia. }
    rewrite Z.eqb_refl. cbn [orb negb].
    exists l3. split; [reflexivity|]. split; [left; exact K4|]. split; [exact K5|].
    intros p. rewrite K6.
    change (In p ((c1, y') :: l2)) with ((c1, y') = p \/ In p l2). rewrite Q6.
    rewrite G0, Gc, Gc'. unfold in_mask. destruct (Z.ltb_spec 0 dy); [|lia].
    assert (Rb : forall r, by_ / s <= r <-> F (2 * bx + 1) < den * (r + 1))
      by (intros r; apply row_ge; [lia | pose proof begin_row; lia]).
    assert (Re : forall r, r <= ey / s <-> den * r < F (2 * ex + 1))
      by (intros r; apply row_le; [lia | pose proof end_row; lia]).
    assert (Rl : forall r, y' <= r <-> F (2 * s * c1) < den * (r + 1)) by (intros r; apply row_ge; lia).
    assert (Mono : F (2 * s * c1) < F (2 * ex + 1)) by lia.
    destruct p as [c r]. cbn [fst snd] in *. specialize (Rb r). specialize (Re r). specialize (Rl r).
    unfold FR, FL. split.
    + intros [[I | [I | I]] | I].
      * injection I as Ec Er'. subst c r. rewrite Z.eqb_refl. destruct (Z.eqb_spec c1 c0); [lia|].
        split; [lia|]. lia.
      * cbn [In] in I. destruct I as [I | []]. injection I as Ec Er'. subst c r.
        rewrite Z.eqb_refl. destruct (Z.eqb_spec c0 c1); [lia|].
        split; [lia|]. split; [|lia].
        pose proof begin_row. enough (F (2 * bx + 1) < F (2 * s * (c0 + 1))) by lia.
        rewrite <- G0. destruct (Up Hy). lia.
      * destruct I as [I1 [I2 [I3 I4]]]. destruct (Z.eqb_spec c c1); [lia|].
        split; [lia|]. split; [exact I2|]. destruct (Z.eqb_spec c c0); [apply Rb; lia | apply I4; lia].
      * destruct I as [-> I]. rewrite Z.eqb_refl. destruct (Z.eqb_spec c1 c0); [lia|]. lia.
    + intros [Hcc [I1 I2]]. destruct (Z.eqb_spec c c1) as [-> | N].
      * destruct (Z.eqb_spec c1 c0); [lia|].
        destruct (Z.eq_dec r y') as [-> | N]; [left; left; reflexivity|]. right. lia.
      * left. right. right. split; [lia|]. split; [exact I1|].
        destruct (Z.eqb_spec c c0); split; intros; try lia.
  - assert (Hz : step < 0 \/ 0 < sub + d1) by (destruct (Z.eq_dec dy 0) as [E0 | E0]; [right; destruct (Eq E0); lia | left; nia]).
    assert (Hlt : sub + d1 < den) by (destruct (Z.eq_dec dy 0) as [E0 | E0]; [destruct (Eq E0) | destruct (Dn ltac:(lia))]; lia).
    destruct (columns_down_ok den step c1 (c0, by_ / s) ltac:(lia) ltac:(nia) ltac:(lia) ltac:(lia)
      (Z.to_nat (c1 - c0)) c0 (by_ / s) (sub + d1) _ [] ltac:(lia) ltac:(lia) Hlt Hz
      (push_same _ _) I eq_refl)
      as [y' [sub' [l' [l2 [-> [Q1 [Q1' [Q2 [Q3 [Q4 [Q5 Q6]]]]]]]]]]]. cbn [bind].
    rewrite i64_ok by lia. cbn [bind]. rewrite Q3. cbn [bind].
    assert (Sp : sub' + d2 < den) by (destruct (Z.eq_dec dy 0) as [E0 | E0]; [destruct (Eq E0); nia | destruct (Dn ltac:(lia)); lia]).
    destruct (descend_ok den c1 (proj1 HN) _ y' (sub' + d2) l2 (c0, by_ / s)
      (descend_fuel_ok den _ (proj1 HN)) Sp Q4 Q5) as [k [l3 [K1 [-> [K3 [K4 [K5 K6]]]]]]]. cbn [bind].
    rewrite G0, Gc' in Q2.
    assert (V : sub' + d2 + den * k = F (2 * ex + 1) - den * (y' - k)) by lia.
    assert (Er : y' - k = ey / s) by (apply end_row_eq; lia).
    rewrite Er in *.
    destruct (Z.eqb_spec (sub' + d2 + den * k) 0) as [E | _].
    { exfalso. apply (end_not_border (ey / s)). lia. }
    rewrite Z.eqb_refl. cbn [orb negb].
    exists l3. split; [reflexivity|]. split; [right; exact K4|]. split; [exact K5|].
    intros p. rewrite K6.
    change (In p ((c1, y') :: l2)) with ((c1, y') = p \/ In p l2). rewrite Q6.
    rewrite G0, Gc, Gc'. unfold in_mask. destruct (Z.ltb_spec 0 dy); [lia|].
    assert (Rb : forall r, r <= by_ / s <-> den * r < F (2 * bx + 1))
      by (intros r; apply row_le; [lia | pose proof begin_row; lia]).
    assert (Re : forall r, ey / s <= r <-> F (2 * ex + 1) < den * (r + 1))
      by (intros r; apply row_ge; [lia | pose proof end_row; lia]).
    assert (Rl : forall r, r <= y' <-> den * r < F (2 * s * c1)) by (intros r; apply row_le; lia).
    assert (Mono : F (2 * ex + 1) <= F (2 * s * c1))
      by (destruct (Z.eq_dec dy 0) as [E0 | E0]; [destruct (Eq E0) | destruct (Dn ltac:(lia))]; lia).
    destruct p as [c r]. cbn [fst snd] in *. specialize (Rb r). specialize (Re r). specialize (Rl r).
    unfold FR, FL. split.
    + intros [[I | [I | I]] | I].
      * injection I as Ec Er'. subst c r. rewrite Z.eqb_refl. destruct (Z.eqb_spec c1 c0); [lia|].
        split; [lia|]. lia.
      * cbn [In] in I. destruct I as [I | []]. injection I as Ec Er'. subst c r.
        rewrite Z.eqb_refl. destruct (Z.eqb_spec c0 c1); [lia|].
        split; [lia|]. split; [lia|].
        pose proof begin_row. enough (F (2 * s * (c0 + 1)) <= F (2 * bx + 1)) by lia.
        rewrite <- G0. destruct (Z.eq_dec dy 0) as [E0 | E0]; [destruct (Eq E0) | destruct (Dn ltac:(lia))]; lia.
      * destruct I as [I1 [I2 [I3 I4]]]. destruct (Z.eqb_spec c c1); [lia|].
        split; [lia|]. split; [|exact I2]. destruct (Z.eqb_spec c c0); [apply Rb; lia | apply I4; lia].
      * destruct I as [-> I]. rewrite Z.eqb_refl. destruct (Z.eqb_spec c1 c0); [lia|]. lia.
    + intros [Hcc [I1 I2]]. destruct (Z.eqb_spec c c1) as [-> | N].
      * destruct (Z.eqb_spec c1 c0); [lia|].
        destruct (Z.eq_dec r y') as [-> | N]; [left; left; reflexivity|]. right. lia.
      * left. right. right. split; [lia|]. split; [exact I2|].
        destruct (Z.eqb_spec c c0); split; intros; try lia.
Qed.
End Slanted.
