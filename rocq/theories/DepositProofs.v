(** Accumulation of contributions, and the zig-zag scheme. *)
From Coq Require Import ZArith List Reals Lra Lia Permutation.
From Verif Require Import FieldModel FieldSpec ShapeModel ShapeSpec ShapePieces ShapeProofs DepositModel DepositSpec.
Import ListNotations.
Open Scope R_scope.

(** ** Scatter *)
Definition hit (c : jcomp) (x : list Z) (t : contrib) : R :=
  let '(c', x', v) := t in
  if jcomp_eq_dec c c' then if list_eq_dec Z.eq_dec x x' then v else 0 else 0.

Fixpoint total (cs : list contrib) (c : jcomp) (x : list Z) : R :=
  match cs with
  | [] => 0
  | t :: cs' => hit c x t + total cs' c x
  end.

Lemma scatter_total : forall cs J c x, scatter cs J c x = J c x + total cs c x.
Proof.
  induction cs as [|[[c' x'] v] cs IH]; intros J c x; [cbn; ring|].
  change (scatter ((c', x', v) :: cs) J) with (scatter cs (add jcomp_eq_dec J c' x' v)).
  rewrite IH. cbn [total hit]. unfold add, set.
  destruct (jcomp_eq_dec c c') as [->|]; [|ring]. destruct (list_eq_dec Z.eq_dec x x') as [->|]; ring.
Qed.

Lemma total_app : forall a b c x, total (a ++ b) c x = total a c x + total b c x.
Proof. induction a as [|t a IH]; intros b c x; cbn; [ring|]. rewrite IH. ring. Qed.

Lemma total_perm : forall a b c x, Permutation a b -> total a c x = total b c x.
Proof. intros a b c x H. induction H; cbn; try congruence; ring. Qed.

Lemma scatter_perm : forall a b J c x, Permutation a b -> scatter a J c x = scatter b J c x.
Proof. intros a b J c x H. rewrite !scatter_total. f_equal. now apply total_perm. Qed.

Lemma divJ_scatter : forall cs J k, divJ (scatter cs J) k = divJ J k + divJ (total cs) k.
Proof.
  intros cs J k. destruct k as [|k1 [|k2 [|k3 [|k4 k]]]]; cbn; rewrite ?scatter_total; ring.
Qed.

Lemma divJ_app : forall a b k, divJ (total (a ++ b)) k = divJ (total a) k + divJ (total b) k.
Proof.
  intros a b k. destruct k as [|k1 [|k2 [|k3 [|k4 k]]]]; cbn; rewrite ?total_app; ring.
Qed.

Lemma divJ_perm : forall a b k, Permutation a b -> divJ (total a) k = divJ (total b) k.
Proof.
  intros a b k H. destruct k as [|k1 [|k2 [|k3 [|k4 k]]]]; cbn; rewrite ?(total_perm a b _ _ H); ring.
Qed.

(** ** Kronecker deltas *)
Definition kd (a b : Z) : R := if Z.eq_dec a b then 1 else 0.

Lemma hit1 : forall c c' k a v, hit c [k] (c', [a], v) = if jcomp_eq_dec c c' then v * kd k a else 0.
Proof.
  intros. unfold hit, kd. destruct jcomp_eq_dec; [|reflexivity].
  destruct (list_eq_dec Z.eq_dec [k] [a]) as [E|E]; destruct (Z.eq_dec k a); try ring; exfalso; congruence.
Qed.
Lemma hit2 : forall c c' k1 k2 a b v,
  hit c [k1; k2] (c', [a; b], v) = if jcomp_eq_dec c c' then v * kd k1 a * kd k2 b else 0.
Proof.
  intros. unfold hit, kd. destruct jcomp_eq_dec; [|reflexivity].
  destruct (list_eq_dec Z.eq_dec [k1; k2] [a; b]) as [E|E]; destruct (Z.eq_dec k1 a); destruct (Z.eq_dec k2 b);
    try ring; exfalso; congruence.
Qed.
Lemma hit3 : forall c c' k1 k2 k3 a b d v,
  hit c [k1; k2; k3] (c', [a; b; d], v) = if jcomp_eq_dec c c' then v * kd k1 a * kd k2 b * kd k3 d else 0.
Proof.
  intros. unfold hit, kd. destruct jcomp_eq_dec; [|reflexivity].
  destruct (list_eq_dec Z.eq_dec [k1; k2; k3] [a; b; d]) as [E|E]; destruct (Z.eq_dec k1 a); destruct (Z.eq_dec k2 b);
    destruct (Z.eq_dec k3 d); try ring; exfalso; congruence.
Qed.

Lemma kd_pred : forall k a, kd (k - 1) a = kd k (a + 1).
Proof. intros. unfold kd. destruct (Z.eq_dec (k - 1) a); destruct (Z.eq_dec k (a + 1)); try reflexivity; lia. Qed.

(** Linear weight of a point at offset [d] in cell [i]. *)
Definition lin (g i : Z) (d : R) (k : Z) : R := (1 - d) * kd k (i + g) + d * kd k (i + g + 1).

Lemma lin_bspline : forall g i d k, 0 <= d <= 1 -> bspline 1 (IZR i + d - IZR (k - g)) = lin g i d k.
Proof.
  intros g i d k Hd. unfold lin, kd. rewrite bspline_1.
  destruct (Z.eq_dec k (i + g)) as [->|N0].
  - destruct (Z.eq_dec (i + g) (i + g + 1)); [lia|]. rewrite minus_IZR, plus_IZR, Rabs_pos_eq, S1_0 by lra. lra.
  - destruct (Z.eq_dec k (i + g + 1)) as [->|N1].
    + rewrite minus_IZR, !plus_IZR, Rabs_left1, S1_0 by lra. lra.
    + rewrite S1_out; [lra|]. destruct (Z_lt_le_dec k (i + g)) as [L|L].
      * assert (IZR (k - g) <= IZR (i - 1)) by (apply IZR_le; lia). rewrite !minus_IZR in *. rewrite Rabs_pos_eq; lra.
      * assert (IZR (i + 2) <= IZR (k - g)) by (apply IZR_le; lia). rewrite !plus_IZR, ?minus_IZR in *. rewrite Rabs_left1; lra.
Qed.

Definition r1 (m : mv) : R := relay m - IZR (pi m).
Definition r2 (m : mv) : R := relay m - IZR (ci m).

Lemma zz_facts : forall m, valid_move m ->
  zz_W1 m = (pdx m + r1 m) / 2 /\ zz_W2 m = (r2 m + cdx m) / 2 /\
  (forall q t, zz_F1 m q t = (r1 m - pdx m) * q * t) /\
  (forall q t, zz_F2 m q t = (cdx m - r2 m) * q * t) /\
  (forall g k, lin g (ci m) (r2 m) k = lin g (pi m) (r1 m) k).
Proof.
  intros m (H1 & H2 & H3). unfold r1, r2, relay, zz_W1, zz_W2, zz_F1, zz_F2, zz_r, now, before, bit, lin.
  destruct (Z.eq_dec (ci m) (pi m)) as [E|E].
  - rewrite E, Z.eqb_refl, Z.ltb_irrefl. cbn [Z.b2z].
    replace (0 + pi m - pi m)%Z with 0%Z by lia. replace (pi m - pi m - 0)%Z with 0%Z by lia.
    repeat split; intros; lra.
  - assert (K : (ci m = pi m + 1 \/ ci m = pi m - 1)%Z) by lia.
    rewrite (proj2 (Z.eqb_neq _ _) E).
    destruct K as [K|K]; rewrite K.
    + replace (pi m <? pi m + 1)%Z with true by (symmetry; apply Z.ltb_lt; lia). cbn [Z.b2z].
      replace (1 + pi m - (pi m + 1))%Z with 0%Z by lia. replace (pi m + 1 - pi m - 1)%Z with 0%Z by lia.
      replace (Z.max (pi m + 1) (pi m)) with (pi m + 1)%Z by lia. rewrite plus_IZR.
      repeat split; intros; try lra.
      replace (pi m + 1 + g)%Z with (pi m + g + 1)%Z by lia. lra.
    + replace (pi m <? pi m - 1)%Z with false by (symmetry; apply Z.ltb_ge; lia). cbn [Z.b2z].
      replace (0 + pi m - (pi m - 1))%Z with 1%Z by lia. replace (pi m - 1 - pi m - 0)%Z with (-1)%Z by lia.
      replace (Z.max (pi m - 1) (pi m)) with (pi m)%Z by lia. rewrite minus_IZR.
      repeat split; intros; try lra.
      replace (pi m - 1 + g + 1)%Z with (pi m + g)%Z by lia. lra.
Qed.

Lemma weight_prev : forall g m k, valid_move m -> bspline 1 (before m - IZR (k - g)) = lin g (pi m) (pdx m) k.
Proof. intros g m k H. unfold before. apply lin_bspline. apply H. Qed.
Lemma weight_now : forall g m k, valid_move m -> bspline 1 (now m - IZR (k - g)) = lin g (ci m) (cdx m) k.
Proof. intros g m k H. unfold now. apply lin_bspline. apply H. Qed.

Ltac jdec := repeat match goal with |- context [jcomp_eq_dec ?a ?b] =>
  let d := eval compute in (jcomp_eq_dec a b) in
  match d with
  | left _ => destruct (jcomp_eq_dec a b); [|congruence]
  | right _ => destruct (jcomp_eq_dec a b); [congruence|]
  end end.

Definition jd (a b : jcomp) : bool := match a, b with Jx1, Jx1 | Jx2, Jx2 | Jx3, Jx3 => true | _, _ => false end.
Lemma jd_dec : forall a b (x y : R), (if jcomp_eq_dec a b then x else y) = if jd a b then x else y.
Proof. intros [] [] x y; reflexivity. Qed.

Lemma zigzag1_div : forall g t p m1 k1, valid_move m1 ->
  divJ (total (zigzag1 g t p m1)) [k1] =
  - (qw p * t) * (lin g (ci m1) (cdx m1) k1 - lin g (pi m1) (pdx m1) k1).
Proof.
  intros g t p m1 k1 H1. destruct (zz_facts m1 H1) as (A1 & A2 & A3 & A4 & A5). specialize (A5 g k1).
  unfold zigzag1. cbv zeta. cbn [divJ total]. rewrite !hit1, !jd_dec. cbn [jd].
  rewrite A3, A4. rewrite !kd_pred.
  transitivity (- (qw p * t) * ((lin g (ci m1) (cdx m1) k1 - lin g (ci m1) (r2 m1) k1)
     + (lin g (pi m1) (r1 m1) k1 - lin g (pi m1) (pdx m1) k1))).
  - unfold lin. ring.
  - rewrite A5. ring.
Qed.

Lemma zigzag2_div : forall g t p m1 m2 k1 k2, valid_move m1 -> valid_move m2 ->
  divJ (total (zigzag2 g t p m1 m2)) [k1; k2] =
  - (qw p * t) * (lin g (ci m1) (cdx m1) k1 * lin g (ci m2) (cdx m2) k2
                - lin g (pi m1) (pdx m1) k1 * lin g (pi m2) (pdx m2) k2).
Proof.
  intros g t p m1 m2 k1 k2 H1 H2.
  destruct (zz_facts m1 H1) as (A1 & A2 & A3 & A4 & A5). specialize (A5 g k1).
  destruct (zz_facts m2 H2) as (B1 & B2 & B3 & B4 & B5). specialize (B5 g k2).
  unfold zigzag2. cbv zeta. cbn [divJ total]. rewrite !hit2, !jd_dec. cbn [jd].
  rewrite A1, A2, A3, A4, B1, B2, B3, B4. rewrite !kd_pred.
  transitivity (- (qw p * t) * ((lin g (ci m1) (cdx m1) k1 * lin g (ci m2) (cdx m2) k2
       - lin g (ci m1) (r2 m1) k1 * lin g (ci m2) (r2 m2) k2)
     + (lin g (pi m1) (r1 m1) k1 * lin g (pi m2) (r1 m2) k2
       - lin g (pi m1) (pdx m1) k1 * lin g (pi m2) (pdx m2) k2))).
  - unfold lin. field.
  - rewrite A5, B5. ring.
Qed.

Lemma corner_kd : forall c k, corner c k = kd k c - kd k (c + 1).
Proof. reflexivity. Qed.

Lemma zigzag3_div : forall g t p m1 m2 m3 k1 k2 k3, valid_move m1 -> valid_move m2 -> valid_move m3 ->
  mvs p = [m1; m2; m3] ->
  divJ (total (zigzag3 g t p m1 m2 m3)) [k1; k2; k3] =
  - (qw p * t) * (lin g (ci m1) (cdx m1) k1 * (lin g (ci m2) (cdx m2) k2 * lin g (ci m3) (cdx m3) k3)
                - lin g (pi m1) (pdx m1) k1 * (lin g (pi m2) (pdx m2) k2 * lin g (pi m3) (pdx m3) k3))
  - t * zigzag_defect g p [k1; k2; k3].
Proof.
  intros g t p m1 m2 m3 k1 k2 k3 H1 H2 H3 Hp.
  destruct (zz_facts m1 H1) as (A1 & A2 & A3 & A4 & A5). specialize (A5 g k1).
  destruct (zz_facts m2 H2) as (B1 & B2 & B3 & B4 & B5). specialize (B5 g k2).
  destruct (zz_facts m3 H3) as (C1 & C2 & C3 & C4 & C5). specialize (C5 g k3).
  unfold zigzag_defect. rewrite Hp. rewrite !corner_kd.
  unfold zigzag3. cbv zeta. cbn [divJ total]. rewrite !hit3, !jd_dec. cbn [jd].
  rewrite A1, A2, A3, A4, B1, B2, B3, B4, C1, C2, C3, C4. rewrite !kd_pred.
  replace (relay m1 - before m1) with (r1 m1 - pdx m1) by (unfold r1, before; ring).
  replace (relay m2 - before m2) with (r1 m2 - pdx m2) by (unfold r1, before; ring).
  replace (relay m3 - before m3) with (r1 m3 - pdx m3) by (unfold r1, before; ring).
  replace (now m1 - relay m1) with (cdx m1 - r2 m1) by (unfold r2, now; ring).
  replace (now m2 - relay m2) with (cdx m2 - r2 m2) by (unfold r2, now; ring).
  replace (now m3 - relay m3) with (cdx m3 - r2 m3) by (unfold r2, now; ring).
  transitivity (- (qw p * t) * ((lin g (ci m1) (cdx m1) k1 * (lin g (ci m2) (cdx m2) k2 * lin g (ci m3) (cdx m3) k3)
       - lin g (ci m1) (r2 m1) k1 * (lin g (ci m2) (r2 m2) k2 * lin g (ci m3) (r2 m3) k3))
     + (lin g (pi m1) (r1 m1) k1 * (lin g (pi m2) (r1 m2) k2 * lin g (pi m3) (r1 m3) k3)
       - lin g (pi m1) (pdx m1) k1 * (lin g (pi m2) (pdx m2) k2 * lin g (pi m3) (pdx m3) k3)))
   - t * (qw p / 4 *
      ((r1 m1 - pdx m1) * (r1 m2 - pdx m2) * (r1 m3 - pdx m3)
         * ((kd k1 (pi m1 + g) - kd k1 (pi m1 + g + 1)) * (kd k2 (pi m2 + g) - kd k2 (pi m2 + g + 1)) * (kd k3 (pi m3 + g) - kd k3 (pi m3 + g + 1)))
       + (cdx m1 - r2 m1) * (cdx m2 - r2 m2) * (cdx m3 - r2 m3)
         * ((kd k1 (ci m1 + g) - kd k1 (ci m1 + g + 1)) * (kd k2 (ci m2 + g) - kd k2 (ci m2 + g + 1)) * (kd k3 (ci m3 + g) - kd k3 (ci m3 + g + 1)))))).
  - unfold lin. field.
  - rewrite A5, B5, C5. ring.
Qed.
