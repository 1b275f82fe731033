(** The shapes of the code are the central B-splines; their general properties. *)
From Coq Require Import ZArith Reals Lra Lia Bool.
From Verif Require Import ShapeModel ShapeSpec ShapePieces.
Open Scope R_scope.

Ltac decs := repeat match goal with
  | |- context [Rlt_dec ?a ?b] => destruct (Rlt_dec a b); try lra
  | |- context [Rle_dec ?a ?b] => destruct (Rle_dec a b); try lra
  end.

Lemma bspline_1 : forall x, bspline 1 x = S1 (Rabs x).
Proof.
  intros x. unfold Rabs. destruct (Rcase_abs x); unfold S1; cbn; decs.
Qed.

Lemma bspline_rec : forall o x, (0 < o)%nat ->
  bspline o x = ((INR (S o) / 2 + x) * bspline (pred o) (x + 1/2)
               + (INR (S o) / 2 - x) * bspline (pred o) (x - 1/2)) / INR o.
Proof. intros [|o] x H; [lia|]. reflexivity. Qed.

Lemma bspline_even : forall o x, (0 < o)%nat -> bspline o (- x) = bspline o x.
Proof.
  induction o as [|o IH]; intros x H; [lia|].
  destruct o as [|o]; [now rewrite !bspline_1, Rabs_Ropp|].
  rewrite (bspline_rec (S (S o)) (-x)), (bspline_rec (S (S o)) x) by lia. cbn [pred].
  replace (- x + 1/2) with (- (x - 1/2)) by lra. replace (- x - 1/2) with (- (x + 1/2)) by lra.
  rewrite !IH by lia. f_equal. ring.
Qed.

Lemma bspline_rabs : forall o x, (0 < o)%nat -> bspline o (Rabs x) = bspline o x.
Proof. intros o x H. unfold Rabs. destruct (Rcase_abs x); [now apply bspline_even|reflexivity]. Qed.

(** One step of the identification of the code's polynomials. *)
Lemma code_step : forall o S S' a,
  (0 < o)%nat -> (forall x, S (Rabs x) = bspline o x) -> a = INR (2 + o) / 2 ->
  (forall x, 0 <= x -> S' x = ((a + x) * S (x + 1/2) + (a - x) * S (Rabs (x - 1/2))) / INR (1 + o)) ->
  forall x, S' (Rabs x) = bspline (1 + o) x.
Proof.
  intros o S S' a Ho HS Ha HR x. rewrite <- (bspline_rabs (1 + o)) by lia.
  pose proof (Rabs_pos x) as Hp. set (y := Rabs x) in *. rewrite HR by assumption.
  rewrite HS. replace (S (y + 1/2)) with (S (Rabs (y + 1/2))) by (now rewrite Rabs_pos_eq by lra).
  rewrite HS. rewrite (bspline_rec (1 + o)) by lia. cbn [pred Nat.add] in *. now rewrite Ha.
Qed.

Ltac step o F := apply (code_step o F _ (INR (2 + o) / 2)); [lia| |reflexivity|].
Ltac nums := repeat match goal with |- context [INR ?n] =>
   let z := eval cbv in (Z.of_nat n) in replace (INR n) with (IZR z) by (rewrite INR_IZR_INZ; reflexivity) end.

Lemma code_1 : forall x, S1 (Rabs x) = bspline 1 x.
Proof. intros x. now rewrite bspline_1. Qed.
Lemma code_2 : forall x, S2 (Rabs x) = bspline 2 x.
Proof. step 1%nat S1; [apply code_1|]. intros x Hx. rewrite S2_rec by assumption. nums. lra. Qed.
Lemma code_3 : forall x, S3 (Rabs x) = bspline 3 x.
Proof. step 2%nat S2; [apply code_2|]. intros x Hx. rewrite S3_rec by assumption. nums. lra. Qed.
Lemma code_4 : forall x, S4 (Rabs x) = bspline 4 x.
Proof. step 3%nat S3; [apply code_3|]. intros x Hx. rewrite S4_rec by assumption. nums. lra. Qed.
Lemma code_5 : forall x, S5 (Rabs x) = bspline 5 x.
Proof. step 4%nat S4; [apply code_4|]. intros x Hx. rewrite S5_rec by assumption. nums. lra. Qed.
Lemma code_6 : forall x, S6 (Rabs x) = bspline 6 x.
Proof. step 5%nat S5; [apply code_5|]. intros x Hx. rewrite S6_rec by assumption. nums. lra. Qed.
Lemma code_7 : forall x, S7 (Rabs x) = bspline 7 x.
Proof. step 6%nat S6; [apply code_6|]. intros x Hx. rewrite S7_rec by assumption. nums. lra. Qed.
Lemma code_8 : forall x, S8 (Rabs x) = bspline 8 x.
Proof. step 7%nat S7; [apply code_7|]. intros x Hx. rewrite S8_rec by assumption. nums. lra. Qed.
Lemma code_9 : forall x, S9 (Rabs x) = bspline 9 x.
Proof. step 8%nat S8; [apply code_8|]. intros x Hx. rewrite S9_rec by assumption. nums. lra. Qed.
Lemma code_10 : forall x, S10 (Rabs x) = bspline 10 x.
Proof. step 9%nat S9; [apply code_9|]. intros x Hx. rewrite S10_rec by assumption. nums. lra. Qed.
Lemma code_11 : forall x, S11 (Rabs x) = bspline 11 x.
Proof. step 10%nat S10; [apply code_10|]. intros x Hx. rewrite S11_rec by assumption. nums. lra. Qed.

(** ** General properties of the B-splines *)
Lemma bspline_out : forall o x, (0 < o)%nat -> INR (S o) / 2 <= Rabs x -> bspline o x = 0.
Proof.
  induction o as [|o IH]; intros x H HL; [lia|].
  destruct o as [|o].
  { rewrite bspline_1. apply S1_out. cbn in HL. lra. }
  rewrite bspline_rec by lia. cbn [pred].
  rewrite S_INR in HL.
  assert (Hh : forall y s, s = 1/2 \/ s = -(1/2) -> y = x + s ->
     (INR (S (S (S o))) / 2 + 2 * s * x) * bspline (S o) y = 0).
  { intros y s Hs ->.
    destruct (Req_dec (INR (S (S (S o))) / 2 + 2 * s * x) 0) as [E|E]; [rewrite E; ring|].
    rewrite IH; [ring|lia|].
    unfold Rabs in *. rewrite !S_INR in *.
    repeat match goal with |- context [Rcase_abs ?a] => destruct (Rcase_abs a)
      | H : context [Rcase_abs ?a] |- _ => destruct (Rcase_abs a) end; try lra. }
  pose proof (Hh (x + 1/2) (1/2) ltac:(lra) ltac:(lra)) as H1.
  pose proof (Hh (x - 1/2) (-(1/2)) ltac:(lra) ltac:(lra)) as H2.
  replace (INR (S (S (S o))) / 2 + 2 * (1/2) * x) with (INR (S (S (S o))) / 2 + x) in H1 by lra.
  replace (INR (S (S (S o))) / 2 + 2 * -(1/2) * x) with (INR (S (S (S o))) / 2 - x) in H2 by lra.
  rewrite H1, H2. unfold Rdiv. ring.
Qed.

Lemma bspline_nonneg : forall o x, 0 <= bspline o x.
Proof.
  induction o as [|o IH]; intros x; [cbn; decs|].
  destruct o as [|o].
  { rewrite bspline_1. unfold S1. decs. }
  destruct (Rle_dec (INR (S (S (S o))) / 2) (Rabs x)) as [H|H].
  { rewrite bspline_out; [lra|lia|assumption]. }
  rewrite bspline_rec by lia. cbn [pred].
  assert (0 < INR (S (S o))) by (apply lt_0_INR; lia).
  apply Rmult_le_pos; [|left; now apply Rinv_0_lt_compat].
  pose proof (IH (x + 1/2)). pose proof (IH (x - 1/2)).
  assert (0 <= INR (S (S (S o))) / 2 + x /\ 0 <= INR (S (S (S o))) / 2 - x) as [? ?].
  { unfold Rabs in H. destruct (Rcase_abs x); lra. }
  assert (forall a b, 0 <= a -> 0 <= b -> 0 <= a * b) by (intros; now apply Rmult_le_pos).
  match goal with |- 0 <= ?a + ?b => assert (0 <= a) by auto; assert (0 <= b) by auto; lra end.
Qed.

(** ** Sums *)
Lemma zsum_ext : forall n lo f g, (forall k, (lo <= k < lo + Z.of_nat n)%Z -> f k = g k) -> zsum f lo n = zsum g lo n.
Proof.
  induction n as [|n IH]; intros lo f g H; [reflexivity|]. cbn [zsum].
  rewrite (H lo) by lia. rewrite (IH (lo + 1)%Z f g); [reflexivity|]. intros k Hk. apply H. lia.
Qed.

Lemma zsum_plus : forall n lo f g, zsum (fun k => f k + g k) lo n = zsum f lo n + zsum g lo n.
Proof. induction n as [|n IH]; intros lo f g; cbn [zsum]; [ring|]. rewrite IH. ring. Qed.

Lemma zsum_scal : forall n lo c f, zsum (fun k => c * f k) lo n = c * zsum f lo n.
Proof. induction n as [|n IH]; intros lo c f; cbn [zsum]; [ring|]. rewrite IH. ring. Qed.

Lemma zsum_zero : forall n lo f, (forall k, (lo <= k < lo + Z.of_nat n)%Z -> f k = 0) -> zsum f lo n = 0.
Proof.
  intros n lo f H. rewrite (zsum_ext n lo f (fun k => 0 * f k)) by (intros k Hk; rewrite H by assumption; ring).
  rewrite zsum_scal. ring.
Qed.

Lemma zsum_shift : forall n lo f, zsum (fun k => f (k + 1)%Z) lo n = zsum f (lo + 1) n.
Proof. induction n as [|n IH]; intros lo f; cbn [zsum]; [reflexivity|]. now rewrite IH. Qed.

Lemma zsum_app : forall n m lo f, zsum f lo (n + m) = zsum f lo n + zsum f (lo + Z.of_nat n) m.
Proof.
  induction n as [|n IH]; intros m lo f; cbn [zsum Nat.add].
  - rewrite Z.add_0_r. ring.
  - rewrite IH. replace (lo + Z.of_nat (S n))%Z with (lo + 1 + Z.of_nat n)%Z by lia. ring.
Qed.

Lemma zsum_last : forall n lo f, zsum f lo (S n) = zsum f lo n + f (lo + Z.of_nat n)%Z.
Proof. intros n lo f. replace (S n) with (n + 1)%nat by lia. rewrite zsum_app. cbn [zsum]. ring. Qed.

Lemma zsum_telescope : forall n lo f, zsum (fun k => f (k + 1)%Z - f k) lo n = f (lo + Z.of_nat n)%Z - f lo.
Proof.
  induction n as [|n IH]; intros lo f; cbn [zsum].
  - rewrite Z.add_0_r. ring.
  - rewrite IH. replace (lo + 1 + Z.of_nat n)%Z with (lo + Z.of_nat (S n))%Z by lia. ring.
Qed.

(** One window step of the recursion, with a weight [w]. *)
Lemma spline_shift : forall o x (g : Z -> R) lo n,
  (0 < o)%nat -> IZR lo <= x - INR o / 2 -> x + INR o / 2 <= IZR (lo + Z.of_nat n) ->
  zsum (fun k => g k * bspline (S o) (x - IZR k)) lo (S n) =
  zsum (fun k => (g k * (INR (S (S o)) / 2 - (x - IZR k))
                + g (k + 1)%Z * (INR (S (S o)) / 2 + (x - IZR k) - 1)) / INR (S o)
                * bspline o (x - 1/2 - IZR k)) lo n.
Proof.
  intros o x g lo n Ho H1 H2.
  assert (Hne : INR (S o) <> 0) by (apply not_0_INR; lia).
  set (a := fun k => g k * (INR (S (S o)) / 2 + (x - IZR k)) / INR (S o) * bspline o (x + 1/2 - IZR k)).
  set (b := fun k => g k * (INR (S (S o)) / 2 - (x - IZR k)) / INR (S o) * bspline o (x - 1/2 - IZR k)).
  rewrite (zsum_ext (S n) lo _ (fun k => a k + b k)).
  2:{ intros k Hk. rewrite (bspline_rec (S o)) by lia. cbn [pred]. unfold a, b.
      replace (x + 1/2 - IZR k) with (x - IZR k + 1/2) by ring.
      replace (x - 1/2 - IZR k) with (x - IZR k - 1/2) by ring. now field. }
  rewrite zsum_plus. cbn [zsum]. rewrite <- (zsum_shift n lo a).
  rewrite (zsum_last n lo b) || idtac.
  change (b lo + zsum b (lo + 1) n) with (zsum b lo (S n)). rewrite zsum_last.
  assert (Ha : a lo = 0).
  { unfold a. rewrite bspline_out; [ring|assumption|]. rewrite Rabs_pos_eq; rewrite ?S_INR in *; pose proof (pos_INR o); lra. }
  assert (Hb : b (lo + Z.of_nat n)%Z = 0).
  { unfold b. rewrite bspline_out; [ring|assumption|]. rewrite Rabs_left1; rewrite ?S_INR in *; pose proof (pos_INR o); lra. }
  rewrite Ha, Hb.
  replace (0 + zsum (fun k => a (k + 1)%Z) lo n + (zsum b lo n + 0)) with
    (zsum (fun k => a (k + 1)%Z) lo n + zsum b lo n) by ring.
  rewrite <- zsum_plus. apply zsum_ext. intros k Hk. unfold a, b. rewrite !plus_IZR.
  replace (x + 1/2 - (IZR k + 1)) with (x - 1/2 - IZR k) by lra.
  replace (x - (IZR k + 1)) with (x - IZR k - 1) by ring. field; assumption.
Qed.

Lemma hat_sum : forall n x lo (g : Z -> R), (forall k, g k = 1) \/ (forall k, g k = x - IZR k) ->
  IZR lo <= x <= IZR (lo + Z.of_nat n) ->
  zsum (fun k => g k * bspline 1 (x - IZR k)) lo (S n) = g 0%Z - (if Req_EM_T (g 0%Z) (g 1%Z) then 0 else x).
Proof.
  induction n as [|n IH]; intros x lo g Hg Hx.
  - rewrite Z.add_0_r in Hx. cbn [zsum]. rewrite bspline_1. assert (x = IZR lo) by lra.
    replace (Rabs (x - IZR lo)) with 0 by (rewrite H, Rminus_diag_eq, Rabs_R0; reflexivity).
    rewrite (S1_0 0) by lra. destruct Hg as [Hg|Hg]; rewrite !Hg; destruct Req_EM_T; try lra.
  - destruct (Rle_dec (IZR (lo + 1)) x) as [H|H].
    + cbn [zsum]. change (g (lo + 1)%Z * bspline 1 (x - IZR (lo + 1)) + zsum (fun k => g k * bspline 1 (x - IZR k)) (lo + 1 + 1) n)
        with (zsum (fun k => g k * bspline 1 (x - IZR k)) (lo + 1) (S n)).
      rewrite IH; [|assumption|split; [assumption|]].
      2:{ replace (lo + 1 + Z.of_nat n)%Z with (lo + Z.of_nat (S n))%Z by lia. lra. }
      rewrite bspline_1, S1_out; [ring|]. rewrite plus_IZR in H. rewrite Rabs_pos_eq; lra.
    + cbn [zsum]. rewrite plus_IZR in H.
      rewrite (zsum_zero n).
      2:{ intros k Hk. rewrite bspline_1, S1_out; [ring|].
          assert (IZR (lo + 2) <= IZR k) by (apply IZR_le; lia). rewrite plus_IZR in *. rewrite Rabs_left1; lra. }
      rewrite !bspline_1, plus_IZR, Rabs_pos_eq, Rabs_left1 by lra.
      rewrite !S1_0 by lra.
      destruct Hg as [Hg|Hg]; rewrite !Hg, ?plus_IZR; destruct Req_EM_T; try lra.
Qed.

(** Partition of unity, for every window of nodes that contains the support. *)
Theorem bspline_unity : forall o x lo n, (0 < o)%nat ->
  IZR lo <= x - INR (pred o) / 2 -> x + INR (pred o) / 2 <= IZR (lo + Z.of_nat n) ->
  zsum (fun k => bspline o (x - IZR k)) lo (S n) = 1.
Proof.
  induction o as [|o IH]; intros x lo n Ho H1 H2; [lia|]. cbn [pred] in *.
  destruct o as [|o].
  - rewrite (zsum_ext (S n) lo _ (fun k => 1 * bspline 1 (x - IZR k))) by (intros; ring).
    rewrite (hat_sum n x lo (fun _ => 1)); [destruct Req_EM_T; lra|left; reflexivity|cbn in *; lra].
  - rewrite (zsum_ext (S n) lo _ (fun k => 1 * bspline (S (S o)) (x - IZR k))) by (intros; ring).
    destruct n as [|n].
    { exfalso. rewrite Z.add_0_r in H2. pose proof (lt_0_INR (S o) ltac:(lia)). lra. }
    rewrite (spline_shift (S o) x (fun _ => 1)) by (lia || assumption).
    rewrite (zsum_ext (S n) lo _ (fun k => bspline (S o) (x - 1/2 - IZR k))).
    2:{ intros k Hk. assert (INR (S (S o)) <> 0) by (apply not_0_INR; lia).
        rewrite (S_INR (S (S o))). field. assumption. }
    apply IH; [lia| |]; cbn [pred].
    + rewrite S_INR in H1. lra.
    + rewrite S_INR in H2. replace (lo + Z.of_nat (S n))%Z with (lo + Z.of_nat n + 1)%Z in H2 by lia.
      rewrite plus_IZR in H2. lra.
Qed.

(** First moment: the shape is centred on the particle. *)
Theorem bspline_centre : forall o x lo n, (0 < o)%nat ->
  IZR lo <= x - INR (pred o) / 2 -> x + INR (pred o) / 2 <= IZR (lo + Z.of_nat n) ->
  zsum (fun k => (x - IZR k) * bspline o (x - IZR k)) lo (S n) = 0.
Proof.
  induction o as [|o IH]; intros x lo n Ho H1 H2; [lia|]. cbn [pred] in *.
  destruct o as [|o].
  - rewrite (hat_sum n x lo (fun k => x - IZR k)); [destruct Req_EM_T; lra|right; reflexivity|cbn in *; lra].
  - destruct n as [|n].
    { exfalso. rewrite Z.add_0_r in H2. pose proof (lt_0_INR (S o) ltac:(lia)). lra. }
    rewrite (spline_shift (S o) x (fun k => x - IZR k)) by (lia || assumption).
    rewrite (zsum_ext (S n) lo _ (fun k => (INR (S o) / INR (S (S o))) * ((x - 1/2 - IZR k) * bspline (S o) (x - 1/2 - IZR k)))).
    2:{ intros k Hk. assert (INR (S (S o)) <> 0) by (apply not_0_INR; lia).
        rewrite plus_IZR. rewrite (S_INR (S (S o))). rewrite (S_INR (S o)) in *. field. assumption. }
    rewrite zsum_scal, IH; [ring|lia| |]; cbn [pred].
    + rewrite S_INR in H1. lra.
    + rewrite S_INR in H2. replace (lo + Z.of_nat (S n))%Z with (lo + Z.of_nat n + 1)%Z in H2 by lia.
      rewrite plus_IZR in H2. lra.
Qed.
