(* C21: ray casting. *)
From Coq Require Import List ZArith QArith Bool Lia.
From Verif Require Import RTP_Model RTP_Spec RTP_Proofs RTP_Main RTP_Geo.
Import ListNotations.
Open Scope Z_scope.

Lemma chain_NoDup (st : pixel -> pixel -> Prop) (f : pixel -> Z) : (forall p q, st p q -> f p < f q) ->
  forall l, chain st l -> NoDup l.
Proof.
  intros M l C.
  enough (NoDup l /\ match l with [] => True | q :: l' => forall p, In p l' -> f p < f q end) by tauto.
  induction l as [|q l IH]; [split; [constructor | exact I]|].
  destruct l as [|p l]; [split; [constructor; [easy | constructor] | easy]|].
  apply chain_cons in C. destruct C as [S C]. destruct (IH C) as [N B].
  assert (H : forall x, In x (p :: l) -> f x < f q).
  { intros x [<- | I]; [now apply M|]. specialize (B x I). specialize (M p q S). lia. }
  split; [|exact H]. constructor; [|exact N]. intros I. specialize (H q I). lia.
Qed.

Lemma path_snoc l a b : path (l ++ [a]) -> touching a b -> path (l ++ [a; b]).
Proof.
  induction l as [|x l IH]; intros P T.
  - cbn. tauto.
  - destruct l as [|y l]; cbn [app path] in *; [tauto|]. split; [tauto|]. apply IH; tauto.
Qed.
Lemma chain_path (st : pixel -> pixel -> Prop) : (forall p q, st p q -> touching p q) -> forall l, chain st l -> path (rev l).
Proof.
  intros T. induction l as [|q l IH]; intros C; [exact I|].
  destruct l as [|p l]; [exact I|]. apply chain_cons in C. destruct C as [S C].
  cbn [rev] in *. rewrite <- app_assoc. cbn [app]. apply path_snoc; [apply IH, C | now apply T].
Qed.

Definition good_mask (b e : pixel) (s : Z) (l : list pixel) : Prop :=
  (forall p, In p l <-> crosses b e s p) /\ NoDup l /\ path l /\
  exists u v, hd_error l = Some u /\ last l u = v /\
    ((u = pixel_of s b /\ v = pixel_of s e) \/ (u = pixel_of s e /\ v = pixel_of s b)).

Lemma last_cons (q : pixel) l d : last (q :: l) d = last l q.
Proof. revert q. induction l as [|a l IH]; intros q; [reflexivity|]. cbn [last] in *. destruct l; [reflexivity|]. exact (IH q). Qed.
Lemma rev_ends (q : pixel) l :
  hd_error (rev (q :: l)) = Some (last l q) /\ last (rev (q :: l)) (last l q) = q.
Proof.
  split.
  - revert q. induction l as [|a l IH]; intros q; [reflexivity|].
    change (rev (q :: a :: l)) with (rev (a :: l) ++ [q]). rewrite last_cons.
    specialize (IH a). destruct (rev (a :: l)) as [|z zs]; [discriminate|]. exact IH.
  - cbn [rev]. now rewrite last_last.
Qed.

Lemma ordered_mask b e s : int32 (fst b) -> int32 (snd b) -> int32 (fst e) -> int32 (snd e) ->
  0 < s -> 2 * s < 2 ^ 31 -> fst b <= fst e ->
  exists l, ray_ordered b e s = Some l /\ good_mask b e s (rev l).
Proof.
  destruct b as [bx by_], e as [ex ey]. cbn [fst snd]. intros Hbx Hby Hex Hey Hs H31 Hx.
  assert (Tu : forall p q, up p q -> touching p q) by (unfold up, touching; intros; lia).
  assert (Td : forall p q, down p q -> touching p q) by (unfold down, touching; intros; lia).
  assert (Mu : forall p q, up p q -> fst p + snd p < fst q + snd q) by (unfold up; intros; lia).
  assert (Md : forall p q, down p q -> fst p - snd p < fst q - snd q) by (unfold down; intros; lia).
  destruct (Z.eq_dec (bx / s) (ex / s)) as [E | N].
  - set (x := bx / s). set (y0 := Z.min by_ ey / s). set (y1 := Z.max by_ ey / s).
    assert (Y : y0 <= y1) by (apply Z.div_le_mono; lia).
    destruct (vertical_ok x y1 (x, y0) (Z.to_nat (y1 - y0 + 1)) y0 [(x, y0)] [] ltac:(lia)
      (push_same _ _) I eq_refl Y) as [l [R [C [La M]]]].
    exists ((x, y1) :: l). split.
    + unfold ray_ordered, int32 in *. destruct (Z.eqb_spec s 0); [lia|].
      rewrite !(proj2 (Z.leb_le 0 _)) by lia. cbn [andb negb]. rewrite !quot_div by lia.
      rewrite (proj2 (Z.eqb_eq _ _) E). exact R.
    + split; [|split; [|split]].
      * intros p. rewrite <- in_rev, M, (vertical_crosses bx by_ ex ey s p Hs Hx E). cbn [In].
        fold x y0 y1. destruct p as [c r]. cbn [fst snd]. split; [|tauto].
        intros [[I | []] | I]; [|exact I]. injection I as <- <-. lia.
      * apply NoDup_rev. exact (chain_NoDup up _ Mu _ C).
      * exact (chain_path up Tu _ C).
      * destruct (rev_ends (x, y1) l) as [E1 E2].
        assert (F : last l (x, y1) = (x, y0)).
        { now rewrite <- La, last_cons. }
        rewrite F in E1, E2. exists (x, y0), (x, y1). split; [exact E1|]. split; [exact E2|].
        unfold pixel_of. cbn [fst snd]. rewrite <- E. fold x. unfold y0, y1.
        destruct (Z_le_gt_dec by_ ey); [left | right].
        -- now rewrite Z.min_l, Z.max_r by lia.
        -- now rewrite Z.min_r, Z.max_l by lia.
  - assert (Hc : bx / s < ex / s) by (pose proof (Z.div_le_mono bx ex s Hs Hx); lia).
    destruct (slanted_ok bx by_ ex ey s Hs H31 Hbx Hby Hex Hey Hc) as [l [R [C [La M]]]].
    eexists. split; [exact R|]. split; [|split; [|split]].
    + intros p. rewrite <- in_rev, M. symmetry. now apply slant_crosses.
    + apply NoDup_rev. destruct C as [C | C]; [exact (chain_NoDup up _ Mu _ C) | exact (chain_NoDup down _ Md _ C)].
    + destruct C as [C | C]; [exact (chain_path up Tu _ C) | exact (chain_path down Td _ C)].
    + destruct (rev_ends (ex / s, ey / s) l) as [E1 E2].
      assert (F : last l (ex / s, ey / s) = (bx / s, by_ / s)).
      { now rewrite <- La, last_cons. }
      rewrite F in E1, E2. eexists _, _. split; [exact E1|]. split; [exact E2|]. left. split; reflexivity.
Qed.

(* For all endpoints with non-negative int coordinates: no CHECK fails, nothing
   overflows, the loops terminate, and the mask is exactly the set of pixels whose
   interior the segment between the subpixel centres meets, each once, in an order
   in which neighbours touch, from one end pixel to the other. *)
Theorem C21_ray : forall b e s,
  int32 (fst b) -> int32 (snd b) -> int32 (fst e) -> int32 (snd e) -> 0 < s -> 2 * s < 2 ^ 31 ->
  exists l, ray_to_pixel_mask b e s = Some l /\ good_mask b e s l.
Proof.
  intros b e s H1 H2 H3 H4 Hs H31. unfold ray_to_pixel_mask.
  destruct (Z.ltb_spec (fst e) (fst b)) as [L | L].
  - destruct (ordered_mask e b s H3 H4 H1 H2 Hs H31 ltac:(lia)) as [l [-> [G1 [G2 [G3 [u [v [G4 [G5 G6]]]]]]]]].
    exists (rev l). split; [reflexivity|]. split; [|split; [exact G2 | split; [exact G3|]]].
    + intros p. rewrite G1. apply crosses_swap.
    + exists u, v. tauto.
  - destruct (ordered_mask b e s H1 H2 H3 H4 Hs H31 ltac:(lia)) as [l [-> G]].
    exists (rev l). split; [reflexivity | exact G].
Qed.

Theorem C21_symmetric : forall b e s l l',
  int32 (fst b) -> int32 (snd b) -> int32 (fst e) -> int32 (snd e) -> 0 < s -> 2 * s < 2 ^ 31 ->
  ray_to_pixel_mask b e s = Some l -> ray_to_pixel_mask e b s = Some l' ->
  forall p, In p l <-> In p l'.
Proof.
  intros b e s l l' H1 H2 H3 H4 Hs H31 E E' p.
  destruct (C21_ray b e s H1 H2 H3 H4 Hs H31) as [m [Em [M _]]].
  destruct (C21_ray e b s H3 H4 H1 H2 Hs H31) as [m' [Em' [M' _]]].
  rewrite Em in E. rewrite Em' in E'. injection E as <-. injection E' as <-.
  rewrite M, M'. apply crosses_swap.
Qed.

(* a falling ray through a pixel corner, three subpixels per pixel *)
Example C21_example :
  ray_to_pixel_mask (0, 11) (9, 2) 3 = Some [(0, 3); (1, 2); (2, 1); (3, 0)] /\
  ray_to_pixel_mask (0, 10) (9, 2) 3 = Some [(0, 3); (0, 2); (1, 2); (1, 1); (2, 1); (2, 0); (3, 0)] /\
  ray_to_pixel_mask (1, 1) (7, 7) 3 = Some [(0, 0); (1, 1); (2, 2)] /\
  ray_to_pixel_mask (7, 7) (8, 1) 3 = Some [(2, 0); (2, 1); (2, 2)] /\
  ray_to_pixel_mask (-1, 7) (8, 1) 3 = None.
Proof. vm_compute. repeat split. Qed.

Print Assumptions C21_ray.
Print Assumptions C21_symmetric.
