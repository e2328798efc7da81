From Coq Require Import List ZArith QArith Bool Lia.
From Verif Require Import RTP_Model RTP_Spec RTP_Proofs RTP_Main.
Import ListNotations.
Open Scope Z_scope.

(* in_pixel at parameter n / d, over the integers *)
Definition zin (s p b e n d : Z) : Prop :=
  2 * s * p * d < (2 * b + 1) * d + 2 * n * (e - b) < 2 * s * (p + 1) * d.

Lemma in_pixel_zin s p b e n d : in_pixel s p (along b e (n # d)) <-> zin s p b e n (Zpos d).
Proof.
  unfold in_pixel, along, zin, Qlt, inject_Z. cbn [Qnum Qden Qplus Qmult Qminus Qopp].
  rewrite !Pos2Z.inj_mul. split; intros [A B]; split; lia.
Qed.
Lemma unit_zin n d : (0 <= (n # d) <= 1)%Q <-> 0 <= n <= Zpos d.
Proof. unfold Qle. cbn [Qnum Qden]. lia. Qed.

Definition zcrosses (b e : pixel) (s : Z) (p : pixel) : Prop :=
  exists n d, 0 < d /\ 0 <= n <= d /\
    zin s (fst p) (fst b) (fst e) n d /\ zin s (snd p) (snd b) (snd e) n d.
Lemma crosses_zcrosses b e s p : crosses b e s p <-> zcrosses b e s p.
Proof.
  split.
  - intros [[n d] [U [X Y]]]. apply in_pixel_zin in X. apply in_pixel_zin in Y.
    pose proof (proj1 (unit_zin n d) U) as U'.
    exists n, (Zpos d). split; [lia|]. split; [exact U'|]. split; assumption.
  - intros [n [d [Hd [U [X Y]]]]]. destruct d as [|d|d]; try lia.
    exists (n # d)%Q. split; [now apply (unit_zin n d)|]. split; now apply in_pixel_zin.
Qed.

Lemma zin_swap s p b e n d : zin s p b e n d <-> zin s p e b (d - n) d.
Proof. unfold zin. split; intros [A B]; split; lia. Qed.
Lemma crosses_swap b e s p : crosses b e s p <-> crosses e b s p.
Proof.
  rewrite !crosses_zcrosses. split; intros [n [d [Hd [U [X Y]]]]];
    exists (d - n), d; (split; [lia|]); (split; [lia|]); split; now apply (zin_swap _ _ _ _ n).
Qed.

(* two open intervals that overlap pairwise *)
Lemma between a b c d : a < b -> c < d -> a < d -> c < b ->
  exists m, 2 * a < m < 2 * b /\ 2 * c < m < 2 * d.
Proof.
  intros. exists (Z.max a c + Z.min b d). lia.
Qed.

Lemma zin_bounds s p b e n d : 0 < s -> 0 < d -> 0 <= n <= d -> zin s p b e n d ->
  Z.min b e / s <= p <= Z.max b e / s.
Proof.
  intros Hs Hd Hn [A B].
  destruct (Z_le_gt_dec b e) as [L | L].
  - rewrite Z.min_l, Z.max_r by lia.
    assert (P : 0 <= n * (e - b) <= d * (e - b)) by nia.
    split.
    + apply Z.lt_succ_r. apply Z.div_lt_upper_bound; [lia|].
      assert ((2 * b + 1) * d < (2 * s * (p + 1)) * d) by lia. nia.
    + apply Z.div_le_lower_bound; [lia|].
      assert ((2 * s * p) * d < (2 * e + 1) * d) by lia. nia.
  - rewrite Z.min_r, Z.max_l by lia.
    assert (P : d * (e - b) <= n * (e - b) <= 0) by nia.
    split.
    + apply Z.lt_succ_r. apply Z.div_lt_upper_bound; [lia|].
      assert ((2 * e + 1) * d < (2 * s * (p + 1)) * d) by lia. nia.
    + apply Z.div_le_lower_bound; [lia|].
      assert ((2 * s * p) * d < (2 * b + 1) * d) by lia. nia.
Qed.

Lemma own_pixel s b : 0 < s -> 2 * s * (b / s) < 2 * b + 1 < 2 * s * (b / s + 1).
Proof. intros Hs. destruct (div_eq b s Hs) as [q [r [-> [_ [E R]]]]]. lia. Qed.

(* one column only *)
Lemma vertical_crosses bx by_ ex ey s p : 0 < s -> bx <= ex -> bx / s = ex / s ->
  crosses (bx, by_) (ex, ey) s p <->
  (fst p = bx / s /\ Z.min by_ ey / s <= snd p <= Z.max by_ ey / s).
Proof.
  intros Hs Hx Hc. rewrite crosses_zcrosses. destruct p as [c r]. unfold zcrosses. cbn [fst snd].
  pose proof (own_pixel s bx Hs) as Ox. pose proof (own_pixel s ex Hs) as Oe. rewrite <- Hc in Oe.
  split.
  - intros [n [d [Hd [U [X Y]]]]]. apply (zin_bounds _ _ _ _ _ _ Hs Hd U) in X.
    apply (zin_bounds _ _ _ _ _ _ Hs Hd U) in Y. rewrite Z.min_l, Z.max_r in X by lia. lia.
  - intros [-> Hr].
    assert (Col : forall n d, 0 < d -> 0 <= n <= d -> zin s (bx / s) bx ex n d).
    { intros n d Hd U. unfold zin. assert (0 <= n * (ex - bx) <= d * (ex - bx)) by nia. split; nia. }
    enough (exists n d, 0 < d /\ 0 <= n <= d /\ zin s r by_ ey n d) as [n [d [Hd [U Y]]]].
    { exists n, d. auto. }
    pose proof (own_pixel s by_ Hs) as Ob. pose proof (own_pixel s ey Hs) as Oy.
    destruct (Z.eq_dec r (by_ / s)) as [-> | N1].
    { exists 0, 1. unfold zin. lia. }
    destruct (Z.eq_dec r (ey / s)) as [-> | N2].
    { exists 1, 1. unfold zin. lia. }
    (* strictly between the two rows: take the middle of the row *)
    destruct (Z_le_gt_dec by_ ey) as [L | L].
    + rewrite Z.min_l, Z.max_r in Hr by lia.
      assert (B1 : 2 * by_ + 1 < 2 * s * r) by nia. assert (B2 : 2 * s * (r + 1) < 2 * ey + 1) by nia.
      exists (2 * s * r + s - (2 * by_ + 1)), (2 * (ey - by_)). unfold zin.
      split; [lia|]. split; [lia|]. split; nia.
    + rewrite Z.min_r, Z.max_l in Hr by lia.
      assert (B1 : 2 * ey + 1 < 2 * s * r) by nia. assert (B2 : 2 * s * (r + 1) < 2 * by_ + 1) by nia.
      exists ((2 * by_ + 1) - (2 * s * r + s)), (2 * (by_ - ey)). unfold zin.
      split; [lia|]. split; [lia|]. split; nia.
Qed.

Section Slant.
Variables bx by_ ex ey s : Z.
Hypothesis Hs : 0 < s.
Hypothesis Hc : bx / s < ex / s.
Let D := ex - bx.

Lemma D_pos' : 0 < D.
Proof.
  pose proof (Z.mul_div_le ex s Hs). pose proof (Z.mul_succ_div_gt bx s Hs). unfold D. nia.
Qed.

(* the part of the segment in column c, as abscissas times two *)
Definition XL (c : Z) := if c =? bx / s then 2 * bx + 1 else 2 * s * c.
Definition XR (c : Z) := if c =? ex / s then 2 * ex + 1 else 2 * s * (c + 1).

Lemma X_range c : bx / s <= c <= ex / s ->
  2 * bx + 1 <= XL c /\ 2 * s * c <= XL c /\ XL c < XR c /\ XR c <= 2 * ex + 1 /\ XR c <= 2 * s * (c + 1).
Proof.
  intros H. pose proof (own_pixel s bx Hs). pose proof (own_pixel s ex Hs). unfold XL, XR.
  destruct (Z.eqb_spec c (bx / s)) as [E1 | E1]; destruct (Z.eqb_spec c (ex / s)) as [E2 | E2]; try lia.
  - rewrite E1 in *. nia.
  - rewrite E2 in *. nia.
  - nia.
Qed.

Lemma zin_col c n d : 0 < d -> 0 <= n <= d -> zin s c bx ex n d ->
  bx / s <= c <= ex / s /\ (XL c - (2 * bx + 1)) * d <= 2 * n * D <= (XR c - (2 * bx + 1)) * d.
Proof.
  intros Hd U X. pose proof (zin_bounds _ _ _ _ _ _ Hs Hd U X) as B. pose proof D_pos' as P.
  assert (bx <= ex) by (unfold D in P; lia). rewrite Z.min_l, Z.max_r in B by lia.
  split; [exact B|]. destruct X as [X1 X2]. fold D in X1, X2. unfold XL, XR.
  assert (0 <= n * D <= d * D) by nia.
  destruct (c =? bx / s); destruct (c =? ex / s); unfold D in *; nia.
Qed.

Lemma slant_crosses p : crosses (bx, by_) (ex, ey) s p <-> in_mask bx by_ ex ey s p.
Proof.
  rewrite crosses_zcrosses. destruct p as [c r]. unfold zcrosses, in_mask. cbn [fst snd].
  pose proof D_pos' as P. fold D. set (dy := ey - by_).
  assert (EL : FL bx by_ ex ey s c = (2 * by_ + 1) * D + dy * (XL c - (2 * bx + 1))).
  { unfold FL, XL, F. fold D dy. destruct (c =? bx / s); reflexivity. }
  assert (ER : FR bx by_ ex ey s c = (2 * by_ + 1) * D + dy * (XR c - (2 * bx + 1))).
  { unfold FR, XR, F. fold D dy. destruct (c =? ex / s); reflexivity. }
  rewrite EL, ER. clear EL ER. split.
  - intros [n [d [Hd [U [X [Y1 Y2]]]]]]. destruct (zin_col c n d Hd U X) as [B [L R]].
    split; [exact B|]. fold dy in Y1, Y2.
    set (a := XL c - (2 * bx + 1)) in *. set (b := XR c - (2 * bx + 1)) in *.
    destruct (Z.ltb_spec 0 dy) as [Hy | Hy].
    + split.
      * assert (2 * n * D * dy <= b * d * dy) by nia.
        assert (2 * s * r * d * D < ((2 * by_ + 1) * d + 2 * n * dy) * D) by nia. nia.
      * assert (a * d * dy <= 2 * n * D * dy) by nia.
        assert (((2 * by_ + 1) * d + 2 * n * dy) * D < 2 * s * (r + 1) * d * D) by nia. nia.
    + split.
      * assert (2 * n * D * dy <= a * d * dy) by nia.
        assert (2 * s * r * d * D < ((2 * by_ + 1) * d + 2 * n * dy) * D) by nia. nia.
      * assert (b * d * dy <= 2 * n * D * dy) by nia.
        assert (((2 * by_ + 1) * d + 2 * n * dy) * D < 2 * s * (r + 1) * d * D) by nia. nia.
  - intros [B I]. destruct (X_range c B) as [A1 [A2 [A3 [A4 A5]]]].
    assert (EX : 2 * ex + 1 = 2 * bx + 1 + 2 * D) by (unfold D; lia).
    unfold zin. fold D dy.
    set (a := XL c - (2 * bx + 1)) in *. set (b := XR c - (2 * bx + 1)) in *.
    assert (0 <= a) by (unfold a; lia). assert (a < b) by (unfold a, b; lia).
    assert (b <= 2 * D) by (unfold b; lia).
    assert (C1 : 2 * s * c <= 2 * bx + 1 + a) by (unfold a; lia).
    assert (C2 : 2 * bx + 1 + b <= 2 * s * (c + 1)) by (unfold b; lia).
    clearbody a b. clear A1 A2 A3 A4 A5.
    destruct (Z.ltb_spec 0 dy) as [Hy | Hy].
    + destruct I as [I1 I2].
      destruct (between (a * dy) (b * dy) ((2 * s * r - (2 * by_ + 1)) * D) ((2 * s * (r + 1) - (2 * by_ + 1)) * D))
        as [m [[M1 M2] [M3 M4]]]; [nia | nia | lia | lia |].
      exists m, (4 * D * dy). split; [nia|]. split; [nia|].
      split; split.
      * assert (2 * s * c * (4 * D * dy) <= (2 * bx + 1 + a) * (4 * D * dy)) by nia. nia.
      * assert ((2 * bx + 1 + b) * (4 * D * dy) <= 2 * s * (c + 1) * (4 * D * dy)) by nia. nia.
      * nia.
      * nia.
    + destruct (Z.eq_dec dy 0) as [-> | N].
      * exists (a + b), (4 * D). split; [lia|]. split; [lia|].
        split; split; nia.
      * set (e := - dy). assert (He : 0 < e) by (unfold e; lia).
        replace dy with (- e) in * by (unfold e; lia). clearbody e.
        destruct I as [I1 I2].
        destruct (between (a * e) (b * e) ((2 * by_ + 1 - 2 * s * (r + 1)) * D) ((2 * by_ + 1 - 2 * s * r) * D))
          as [m [[M1 M2] [M3 M4]]]; [nia | nia | lia | lia |].
        exists m, (4 * D * e). split; [nia|]. split; [nia|].
        split; split.
        -- assert (2 * s * c * (4 * D * e) <= (2 * bx + 1 + a) * (4 * D * e)) by nia. nia.
        -- assert ((2 * bx + 1 + b) * (4 * D * e) <= 2 * s * (c + 1) * (4 * D * e)) by nia. nia.
        -- nia.
        -- nia.
Qed.
End Slant.
