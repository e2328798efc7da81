From Coq Require Import List ZArith Bool Lia.
From Verif Require Import RTP_Model.
Import ListNotations.
Open Scope Z_scope.

Lemma is_equal_iff a b : is_equal a b = true <-> a = b.
Proof.
  destruct a as [a1 a2], b as [b1 b2]. unfold is_equal. cbn [fst snd]. rewrite Z.eqb_eq. split.
  - intros H. f_equal; lia.
  - intros H. injection H as -> ->. lia.
Qed.

Lemma push_same c l : push c (c :: l) = Some (c :: l).
Proof. unfold push. now rewrite (proj2 (is_equal_iff c c) eq_refl). Qed.
Lemma push_new c b l : b <> c -> push c (b :: l) = Some (c :: b :: l).
Proof.
  intros H. unfold push. destruct (is_equal b c) eqn:E; [|reflexivity].
  apply is_equal_iff in E. contradiction.
Qed.
Lemma i64_ok z : - 2 ^ 63 <= z < 2 ^ 63 -> i64 z = Some z.
Proof.
  intros [A B]. unfold i64. rewrite (proj2 (Z.leb_le _ _) A), (proj2 (Z.ltb_lt _ _) B). reflexivity.
Qed.

(* the reversed mask: every pixel follows from the previous one by a step of [st] *)
Section Chain.
Variable st : pixel -> pixel -> Prop.
Fixpoint chain (l : list pixel) : Prop :=
  match l with
  | q :: ((p :: _) as l') => st p q /\ chain l'
  | _ => True
  end.
Lemma chain_cons q p l : chain (q :: p :: l) <-> st p q /\ chain (p :: l).
Proof. reflexivity. Qed.
End Chain.

Definition up (p q : pixel) : Prop :=
  (fst q = fst p /\ snd q = snd p + 1) \/
  (fst q = fst p + 1 /\ (snd q = snd p \/ snd q = snd p + 1)).
Definition down (p q : pixel) : Prop :=
  (fst q = fst p /\ snd q = snd p - 1) \/
  (fst q = fst p + 1 /\ (snd q = snd p \/ snd q = snd p - 1)).

(* rows y, y+1, ... of one column *)
Lemma climb_ok den x : 0 < den -> forall fuel y sub l first,
  sub <= den * (Z.of_nat fuel + 1) -> 0 < sub ->
  chain up ((x, y) :: l) -> last ((x, y) :: l) first = first ->
  exists k l', 0 <= k /\ climb fuel den x y sub ((x, y) :: l) = Some (y + k, sub - den * k, (x, y + k) :: l') /\
    0 < sub - den * k <= den /\ chain up ((x, y + k) :: l') /\
    last ((x, y + k) :: l') first = first /\
    forall p, In p ((x, y + k) :: l') <-> In p ((x, y) :: l) \/ (fst p = x /\ y < snd p <= y + k).
Proof.
  intros Hd. induction fuel as [|f IH]; intros y sub l first Hf Hs C La; cbn [climb].
  - destruct (Z.ltb_spec den sub); [lia|]. exists 0, l.
    replace (y + 0) with y by lia. replace (sub - den * 0) with sub by lia.
    split; [lia|]. split; [reflexivity|]. split; [lia|]. split; [exact C|]. split; [exact La|].
    intros p. split; [auto|]. intros [I | I]; [exact I | lia].
  - destruct (Z.ltb_spec den sub).
    + rewrite push_new by (intros E; injection E; lia). cbn [bind].
      destruct (IH (y + 1) (sub - den) ((x, y) :: l) first) as [k [l' [K1 [K2 [K3 [K4 [K5 K6]]]]]]]; try lia.
      * apply chain_cons. split; [left; cbn; lia | exact C].
      * exact La.
      * exists (k + 1), l'. replace (y + (k + 1)) with (y + 1 + k) by lia.
        replace (sub - den * (k + 1)) with (sub - den - den * k) by lia.
        split; [lia|]. split; [exact K2|]. split; [exact K3|]. split; [exact K4|]. split; [exact K5|].
        intros p. rewrite K6. cbn [In]. split.
        -- intros [[E | I] | I]; [|tauto|lia]. subst p. cbn [fst snd]. lia.
        -- intros [I | I]; [tauto|]. destruct p as [a b]. cbn [fst snd] in *.
           destruct (Z.eq_dec b (y + 1)) as [-> | N]; [|lia]. left. left. f_equal. lia.
    + exists 0, l. replace (y + 0) with y by lia. replace (sub - den * 0) with sub by lia.
      split; [lia|]. split; [reflexivity|]. split; [lia|]. split; [exact C|]. split; [exact La|].
      intros p. split; [auto|]. intros [I | I]; [exact I | lia].
Qed.

Lemma climb_fuel_ok den sub : 0 < den -> 0 < sub -> sub <= den * (Z.of_nat (climb_fuel den sub) + 1).
Proof.
  intros Hd Hs. unfold climb_fuel. pose proof (Z.div_pos sub den ltac:(lia) Hd).
  rewrite Z2Nat.id by lia. pose proof (Z.mul_succ_div_gt sub den Hd). lia.
Qed.

Lemma row_le den g y r : 0 < den -> 0 < g - den * y <= den -> (r <= y <-> den * r < g).
Proof. intros. split; intros; nia. Qed.
Lemma row_ge den g y r : 0 < den -> 0 <= g - den * y < den -> (y <= r <-> g < den * (r + 1)).
Proof. intros. split; intros; nia. Qed.

Lemma columns_up_ok den step end_x first : 0 < den -> 0 < step -> den + step <= 2 ^ 63 ->
  forall fuel x y sub l l1, Z.of_nat fuel = end_x - x -> 0 < Z.of_nat fuel ->
  0 < sub -> push (x, y) l = Some ((x, y) :: l1) -> chain up ((x, y) :: l1) ->
  last ((x, y) :: l1) first = first ->
  exists y' sub' l' l2, columns_up fuel den step end_x x y sub l = Some (y', sub', l') /\
    0 <= sub' < den /\ sub' + den * y' = sub + den * y + step * (end_x - 1 - x) /\
    push (end_x, y') l' = Some ((end_x, y') :: l2) /\ chain up ((end_x, y') :: l2) /\
    last ((end_x, y') :: l2) first = first /\
    forall p, In p l2 <-> In p ((x, y) :: l1) \/
      (x <= fst p < end_x /\ den * snd p < sub + den * y + step * (fst p - x) /\
       (fst p = x -> y <= snd p) /\
       (x < fst p -> sub + den * y + step * (fst p - 1 - x) < den * (snd p + 1))).
Proof.
  intros Hd Hst Hov. induction fuel as [|f IH]; intros x y sub l l1 Ef Fp Hs P C La; [lia|].
  cbn [columns_up]. rewrite P. cbn [bind].
  destruct (climb_ok den x Hd _ y sub l1 first (climb_fuel_ok den sub Hd Hs) Hs C La)
    as [k [l' [K1 [-> [K3 [K4 [K5 K6]]]]]]]. cbn [bind].
  set (G := sub + den * y) in *.
  assert (KG : 0 < G - den * (y + k) <= den) by (unfold G; lia).
  (* after the corner adjustment *)
  assert (A : exists y1 s1, (if sub - den * k =? den then (y + k + 1, sub - den * k - den) else (y + k, sub - den * k)) = (y1, s1) /\
     0 <= s1 < den /\ s1 + den * y1 = G /\ (y1 = y + k \/ y1 = y + k + 1)).
  { destruct (Z.eqb_spec (sub - den * k) den) as [E | E].
    - exists (y + k + 1), (sub - den * k - den). unfold G. repeat split; lia.
    - exists (y + k), (sub - den * k). unfold G. repeat split; lia. }
  destruct A as [y1 [s1 [-> [S1 [S2 S3]]]]].
  assert (Pn : push (x + 1, y1) ((x, y + k) :: l') = Some ((x + 1, y1) :: (x, y + k) :: l')).
  { apply push_new. intros E. injection E. lia. }
  assert (Cn : chain up ((x + 1, y1) :: (x, y + k) :: l')).
  { apply chain_cons. split; [right; cbn; lia | exact K4]. }
  assert (Col : forall p, In p ((x, y + k) :: l') <-> In p ((x, y) :: l1) \/
      (fst p = x /\ y <= snd p /\ den * snd p < G)).
  { intros p. rewrite K6, <- (row_le den G (y + k) (snd p) Hd KG). split.
    - intros [I | I]; [tauto|]. right. lia.
    - intros [I | I]; [tauto|]. destruct p as [a b]. cbn [fst snd] in *.
      destruct (Z.eq_dec b y) as [-> | N]; [left; left; f_equal; lia | right; lia]. }
  destruct (Z.eqb_spec (x + 1) end_x) as [E | E].
  - subst end_x. exists y1, s1, ((x, y + k) :: l'), ((x, y + k) :: l').
    split; [reflexivity|]. split; [exact S1|]. split; [lia|]. split; [exact Pn|]. split; [exact Cn|].
    split; [exact K5|].
    intros p. rewrite Col. split.
    + intros [I | I]; [tauto|]. right. replace (fst p - x) with 0 by lia. lia.
    + intros [I | [I1 [I2 [I3 I4]]]]; [tauto|]. right. assert (fst p = x) by lia.
      replace (fst p - x) with 0 in I2 by lia. rewrite Z.mul_0_r in I2. lia.
  - rewrite i64_ok by lia. cbn [bind].
    destruct (IH (x + 1) y1 (s1 + step) _ _ ltac:(lia) ltac:(lia) ltac:(lia) Pn Cn K5)
      as [y' [sub' [l2 [l3 [-> [Q1 [Q2 [Q3 [Q4 [Q5 Q6]]]]]]]]]].
    exists y', sub', l2, l3. split; [reflexivity|]. split; [exact Q1|]. split; [lia|].
    split; [exact Q3|]. split; [exact Q4|]. split; [exact Q5|].
    intros p. rewrite Q6.
    replace (s1 + step + den * y1 + step * (fst p - (x + 1))) with (G + step * (fst p - x)) by lia.
    replace (s1 + step + den * y1 + step * (fst p - 1 - (x + 1))) with (G + step * (fst p - 1 - x)) by lia.
    assert (Y1 : y1 <= snd p <-> G < den * (snd p + 1)) by (apply row_ge; lia).
    change (In p ((x + 1, y1) :: (x, y + k) :: l')) with ((x + 1, y1) = p \/ In p ((x, y + k) :: l')).
    rewrite Col. split.
    + intros [[I | [I | I]] | [I1 [I2 [I3 I4]]]].
      * subst p. right. cbn [fst snd] in *. replace (x + 1 - x) with 1 by lia.
        replace (x + 1 - 1 - x) with 0 by lia. rewrite Z.mul_0_r, Z.mul_1_r.
        split; [lia|]. split; [lia|]. split; [lia|]. intros _. lia.
      * tauto.
      * right. replace (fst p - x) with 0 by lia. lia.
      * right. split; [lia|]. split; [exact I2|]. split; [lia|]. intros _.
        destruct (Z.eq_dec (fst p) (x + 1)) as [Ex | N]; [|apply I4; lia].
        replace (fst p - 1 - x) with 0 by lia. specialize (I3 Ex). lia.
    + intros [I | [I1 [I2 [I3 I4]]]]; [tauto|].
      destruct (Z.eq_dec (fst p) x) as [Ex | N].
      * left. right. right. replace (fst p - x) with 0 in I2 by lia. specialize (I3 Ex). lia.
      * right. split; [lia|]. split; [exact I2|]. specialize (I4 ltac:(lia)). split; [|lia].
        intros Ex. apply Y1. replace (fst p - 1 - x) with 0 in I4 by lia. lia.
Qed.

(* the same downwards *)
Lemma descend_ok den x : 0 < den -> forall fuel y sub l first,
  - sub <= den * Z.of_nat fuel -> sub < den ->
  chain down ((x, y) :: l) -> last ((x, y) :: l) first = first ->
  exists k l', 0 <= k /\ descend fuel den x y sub ((x, y) :: l) = Some (y - k, sub + den * k, (x, y - k) :: l') /\
    0 <= sub + den * k < den /\ chain down ((x, y - k) :: l') /\
    last ((x, y - k) :: l') first = first /\
    forall p, In p ((x, y - k) :: l') <-> In p ((x, y) :: l) \/ (fst p = x /\ y - k <= snd p < y).
Proof.
  intros Hd. induction fuel as [|f IH]; intros y sub l first Hf Hs C La; cbn [descend].
  - destruct (Z.ltb_spec sub 0); [lia|]. exists 0, l.
    replace (y - 0) with y by lia. replace (sub + den * 0) with sub by lia.
    split; [lia|]. split; [reflexivity|]. split; [lia|]. split; [exact C|]. split; [exact La|].
    intros p. split; [auto|]. intros [I | I]; [exact I | lia].
  - destruct (Z.ltb_spec sub 0).
    + rewrite push_new by (intros E; injection E; lia). cbn [bind].
      destruct (IH (y - 1) (sub + den) ((x, y) :: l) first) as [k [l' [K1 [K2 [K3 [K4 [K5 K6]]]]]]]; try lia.
      * apply chain_cons. split; [left; cbn; lia | exact C].
      * exact La.
      * exists (k + 1), l'. replace (y - (k + 1)) with (y - 1 - k) by lia.
        replace (sub + den * (k + 1)) with (sub + den + den * k) by lia.
        split; [lia|]. split; [exact K2|]. split; [exact K3|]. split; [exact K4|]. split; [exact K5|].
        intros p. rewrite K6. cbn [In]. split.
        -- intros [[E | I] | I]; [|tauto|lia]. subst p. cbn [fst snd]. lia.
        -- intros [I | I]; [tauto|]. destruct p as [a b]. cbn [fst snd] in *.
           destruct (Z.eq_dec b (y - 1)) as [-> | N]; [|lia]. left. left. f_equal. lia.
    + exists 0, l. replace (y - 0) with y by lia. replace (sub + den * 0) with sub by lia.
      split; [lia|]. split; [reflexivity|]. split; [lia|]. split; [exact C|]. split; [exact La|].
      intros p. split; [auto|]. intros [I | I]; [exact I | lia].
Qed.

Lemma descend_fuel_ok den sub : 0 < den -> - sub <= den * Z.of_nat (descend_fuel den sub).
Proof.
  intros Hd. unfold descend_fuel. pose proof (Z.mul_succ_div_gt (- sub) den Hd).
  destruct (Z_le_gt_dec 0 (- sub / den + 1)) as [L | L]; [rewrite Z2Nat.id by lia; lia|].
  nia.
Qed.

Lemma columns_down_ok den step end_x first : 0 < den -> step <= 0 -> - 2 ^ 63 <= step -> den < 2 ^ 63 ->
  forall fuel x y sub l l1, Z.of_nat fuel = end_x - x -> 0 < Z.of_nat fuel ->
  sub < den -> (step < 0 \/ 0 < sub) -> push (x, y) l = Some ((x, y) :: l1) -> chain down ((x, y) :: l1) ->
  last ((x, y) :: l1) first = first ->
  exists y' sub' l' l2, columns_down fuel den step end_x x y sub l = Some (y', sub', l') /\
    0 < sub' <= den /\ (step < 0 \/ sub' < den) /\
    sub' + den * y' = sub + den * y + step * (end_x - 1 - x) /\
    push (end_x, y') l' = Some ((end_x, y') :: l2) /\ chain down ((end_x, y') :: l2) /\
    last ((end_x, y') :: l2) first = first /\
    forall p, In p l2 <-> In p ((x, y) :: l1) \/
      (x <= fst p < end_x /\ sub + den * y + step * (fst p - x) < den * (snd p + 1) /\
       (fst p = x -> snd p <= y) /\
       (x < fst p -> den * snd p < sub + den * y + step * (fst p - 1 - x))).
Proof.
  intros Hd Hst Hov Hov2. induction fuel as [|f IH]; intros x y sub l l1 Ef Fp Hs Hz P C La; [lia|].
  cbn [columns_down]. rewrite P. cbn [bind].
  destruct (descend_ok den x Hd _ y sub l1 first (descend_fuel_ok den sub Hd) Hs C La)
    as [k [l' [K1 [-> [K3 [K4 [K5 K6]]]]]]]. cbn [bind].
  set (G := sub + den * y) in *.
  assert (KG : 0 <= G - den * (y - k) < den) by (unfold G; lia).
  assert (A : exists y1 s1, (if sub + den * k =? 0 then (y - k - 1, sub + den * k + den) else (y - k, sub + den * k)) = (y1, s1) /\
     0 < s1 <= den /\ s1 + den * y1 = G /\ (y1 = y - k \/ y1 = y - k - 1) /\ (step < 0 \/ s1 < den)).
  { destruct (Z.eqb_spec (sub + den * k) 0) as [E | E].
    - exists (y - k - 1), (sub + den * k + den). unfold G. repeat split; lia.
    - exists (y - k), (sub + den * k). unfold G. repeat split; lia. }
  destruct A as [y1 [s1 [-> [S1 [S2 [S3 S4]]]]]].
  assert (Pn : push (x + 1, y1) ((x, y - k) :: l') = Some ((x + 1, y1) :: (x, y - k) :: l')).
  { apply push_new. intros E. injection E. lia. }
  assert (Cn : chain down ((x + 1, y1) :: (x, y - k) :: l')).
  { apply chain_cons. split; [right; cbn; lia | exact K4]. }
  assert (Col : forall p, In p ((x, y - k) :: l') <-> In p ((x, y) :: l1) \/
      (fst p = x /\ snd p <= y /\ G < den * (snd p + 1))).
  { intros p. rewrite K6, <- (row_ge den G (y - k) (snd p) Hd KG). split.
    - intros [I | I]; [tauto|]. right. lia.
    - intros [I | I]; [tauto|]. destruct p as [a b]. cbn [fst snd] in *.
      destruct (Z.eq_dec b y) as [-> | N]; [left; left; f_equal; lia | right; lia]. }
  destruct (Z.eqb_spec (x + 1) end_x) as [E | E].
  - subst end_x. exists y1, s1, ((x, y - k) :: l'), ((x, y - k) :: l').
    split; [reflexivity|]. split; [exact S1|]. split; [exact S4|]. split; [lia|]. split; [exact Pn|]. split; [exact Cn|].
    split; [exact K5|].
    intros p. rewrite Col. split.
    + intros [I | I]; [tauto|]. right. replace (fst p - x) with 0 by lia. lia.
    + intros [I | [I1 [I2 [I3 I4]]]]; [tauto|]. right. assert (fst p = x) by lia.
      replace (fst p - x) with 0 in I2 by lia. rewrite Z.mul_0_r in I2. lia.
  - rewrite i64_ok by lia. cbn [bind].
    destruct (IH (x + 1) y1 (s1 + step) _ _ ltac:(lia) ltac:(lia) ltac:(lia) ltac:(lia) Pn Cn K5)
      as [y' [sub' [l2 [l3 [-> [Q1 [Q1' [Q2 [Q3 [Q4 [Q5 Q6]]]]]]]]]]].
    exists y', sub', l2, l3. split; [reflexivity|]. split; [exact Q1|]. split; [exact Q1'|]. split; [lia|].
    split; [exact Q3|]. split; [exact Q4|]. split; [exact Q5|].
    intros p. rewrite Q6.
    replace (s1 + step + den * y1 + step * (fst p - (x + 1))) with (G + step * (fst p - x)) by lia.
    replace (s1 + step + den * y1 + step * (fst p - 1 - (x + 1))) with (G + step * (fst p - 1 - x)) by lia.
    assert (Y1 : snd p <= y1 <-> den * snd p < G) by (apply row_le; lia).
    change (In p ((x + 1, y1) :: (x, y - k) :: l')) with ((x + 1, y1) = p \/ In p ((x, y - k) :: l')).
    rewrite Col. split.
    + intros [[I | [I | I]] | [I1 [I2 [I3 I4]]]].
      * subst p. right. cbn [fst snd] in *. replace (x + 1 - x) with 1 by lia.
        replace (x + 1 - 1 - x) with 0 by lia. rewrite Z.mul_0_r, Z.mul_1_r.
        split; [lia|]. split; [lia|]. split; [lia|]. intros _. lia.
      * tauto.
      * right. replace (fst p - x) with 0 by lia. lia.
      * right. split; [lia|]. split; [exact I2|]. split; [lia|]. intros _.
        destruct (Z.eq_dec (fst p) (x + 1)) as [Ex | N]; [|apply I4; lia].
        replace (fst p - 1 - x) with 0 by lia. specialize (I3 Ex). lia.
    + intros [I | [I1 [I2 [I3 I4]]]]; [tauto|].
      destruct (Z.eq_dec (fst p) x) as [Ex | N].
      * left. right. right. replace (fst p - x) with 0 in I2 by lia. specialize (I3 Ex). lia.
      * right. split; [lia|]. split; [exact I2|]. specialize (I4 ltac:(lia)). split; [|lia].
        intros Ex. apply Y1. replace (fst p - 1 - x) with 0 in I4 by lia. lia.
Qed.
