From Coq Require Import ZArith List Bool Lia Reals Lra Permutation FunctionalExtensionality.
From Verif Require Import Base HaloSpec SyncProofs FieldModel FieldSpec FieldProofs FieldTop FieldGR.
Import ListNotations.
Open Scope R_scope.

Lemma gr_cancel s b c t : s <> 0 -> s * (b + c * (1 / s) * t) = s * b + c * t.
Proof. apply cancel. Qed.

Section Values.
  Variables (g : Z) (mt : metric2) (ax_lo ax_hi : bool) (i2max : Z) (c : R) (m : gr_fields).
  Lemma fgr_1 md i1 i2 : far_body g mt ax_lo md c m [i1; i2] (far_out md, Bx1) [i1; i2] =
    m (far_in md, Bx1) [i1; i2] + c * (1 / sdh mt (IZR (i1 - g)) (IZR (i2 - g) + / 2))
      * (m (Aux, Ex3) [i1; i2] - m (Aux, Ex3) [i1; (i2 + 1)%Z]).
  Proof. destruct md; cbv [far_body far_out far_in far_args fst snd]; ddg; bool_cases; field_cases; reflexivity. Qed.
  Lemma fgr_2 md i1 i2 : (i2 =? g)%Z && ax_lo = false -> far_body g mt ax_lo md c m [i1; i2] (far_out md, Bx2) [i1; i2] =
    m (far_in md, Bx2) [i1; i2] + c * (1 / sdh mt (IZR (i1 - g) + / 2) (IZR (i2 - g)))
      * (m (Aux, Ex3) [(i1 + 1)%Z; i2] - m (Aux, Ex3) [i1; i2]).
  Proof. intro H. destruct md; cbv [far_body far_out far_in far_args fst snd]; ddg; rewrite H; field_cases; reflexivity. Qed.
  Lemma agr_1 md i1 i2 : node_inside g ax_lo ax_hi i2max i2 ->
    amp_body g mt ax_lo ax_hi i2max md c m [i1; i2] (amp_out md, Ex1) [i1; i2] =
    m (amp_in md, Ex1) [i1; i2] + c * (1 / sdh mt (IZR (i1 - g) + / 2) (IZR (i2 - g)))
      * (m (Aux, Bx3) [i1; i2] - m (Aux, Bx3) [i1; (i2 - 1)%Z]).
  Proof.
    intro H. apply inside_cases in H as [H1 H2].
    destruct md; cbv [amp_body amp_out amp_in amp_args fst snd]; ddg; rewrite H1, H2; field_cases; reflexivity.
  Qed.
  Lemma agr_2 md i1 i2 : (i2 =? i2max)%Z && ax_hi = false \/ (i2 =? g)%Z && ax_lo = true ->
    amp_body g mt ax_lo ax_hi i2max md c m [i1; i2] (amp_out md, Ex2) [i1; i2] =
    m (amp_in md, Ex2) [i1; i2] + c * (1 / sdh mt (IZR (i1 - g)) (IZR (i2 - g) + / 2))
      * (m (Aux, Bx3) [(i1 - 1)%Z; i2] - m (Aux, Bx3) [i1; i2]).
  Proof.
    intro H. destruct ((i2 =? g)%Z && ax_lo) eqn:E.
    - destruct md; cbv [amp_body amp_out amp_in amp_args fst snd]; ddg; rewrite E; field_cases;
      apply andb_true_iff in E as [E _]; apply Z.eqb_eq in E; subst; rewrite Z.sub_diag, Rplus_0_l; reflexivity.
    - destruct H as [H|H]; [|discriminate].
      destruct md; cbv [amp_body amp_out amp_in amp_args fst snd]; ddg; rewrite E, H; field_cases; reflexivity.
  Qed.
End Values.

Lemma faraday_gr_div g mt ax_lo ax_hi i2max a0 a1 md c cells (m : gr_fields) i1 i2 :
  NoDup cells -> regular g mt ax_lo ax_hi i2max a0 a1 -> on_axis g mt ax_lo ax_hi i2max ->
  (ax_lo = true -> forall i, m (Aux, Ex3) [i; g] = 0) ->
  (ax_hi = true -> forall i, m (Aux, Ex3) [i; i2max] = 0) ->
  (g <= i2 < i2max)%Z -> (a0 <= i1 - g)%Z -> (i1 + 1 - g <= a1)%Z ->
  In [i1; i2] cells -> In [(i1 + 1)%Z; i2] cells ->
  (ax_hi = true /\ (i2 + 1 = i2max)%Z \/ In [i1; (i2 + 1)%Z] cells) ->
  let m' := par_for (far_body g mt ax_lo md c) cells m in
  flux_divB g mt (m' (far_out md, Bx1)) (m' (far_out md, Bx2)) i1 i2 =
  flux_divB g mt (m (far_in md, Bx1)) (m (far_in md, Bx2)) i1 i2.
Proof.
  intros Hn Hreg [Hlo Hhi] Elo Ehi Hi2 Ha0 Ha1 Hc1 Hc2 Hc3 m'.
  assert (HP : forall c' y, In y cells -> m' c' y = far_body g mt ax_lo md c m y c' y)
    by (intros; apply (par_for_in (wr isB (far_out md))); auto; [apply faraday_gr_frames|apply faraday_gr_local]).
  unfold flux_divB.
  rewrite (HP (far_out md, Bx1) _ Hc1), (HP (far_out md, Bx1) _ Hc2), (HP (far_out md, Bx2) _ Hc1), !fgr_1.
  destruct (Hreg (i1 - g)%Z (i2 - g)%Z) as (R1 & R2 & _ & R3); try lia.
  destruct (Hreg (i1 - g)%Z (i2 + 1 - g)%Z) as (_ & _ & _ & R4); try lia.
  destruct (Hreg (i1 + 1 - g)%Z (i2 - g)%Z) as (R5 & _); try lia.
  assert (Hup : sdh mt (IZR (i1 - g) + / 2) (IZR (i2 + 1 - g)) * m' (far_out md, Bx2) [i1; (i2 + 1)%Z]
    = sdh mt (IZR (i1 - g) + / 2) (IZR (i2 + 1 - g)) * m (far_in md, Bx2) [i1; (i2 + 1)%Z]
      + c * (m (Aux, Ex3) [(i1 + 1)%Z; (i2 + 1)%Z] - m (Aux, Ex3) [i1; (i2 + 1)%Z])).
  { destruct (Bool.bool_dec ax_hi true) as [E2|E2]; [destruct (Z.eq_dec (i2 + 1) i2max) as [E1|E1]|].
    - rewrite E1, (proj1 (Hhi E2 _)), !(Ehi E2). ring.
    - destruct Hc3 as [[_ ?]|Hc3]; [lia|]. rewrite (HP (far_out md, Bx2) _ Hc3), fgr_2.
      + apply cancel. apply R4; intros [? ?]; lia.
      + apply andb_false_iff; left; apply Z.eqb_neq; lia.
    - destruct Hc3 as [[? _]|Hc3]; [congruence|]. rewrite (HP (far_out md, Bx2) _ Hc3), fgr_2.
      + apply cancel. apply R4; intros [? ?]; [lia|congruence].
      + apply andb_false_iff; left; apply Z.eqb_neq; lia. }
  rewrite Hup. clear Hup.
  assert (Hdn : sdh mt (IZR (i1 - g) + / 2) (IZR (i2 - g)) * far_body g mt ax_lo md c m [i1; i2] (far_out md, Bx2) [i1; i2]
    = sdh mt (IZR (i1 - g) + / 2) (IZR (i2 - g)) * m (far_in md, Bx2) [i1; i2]
      + c * (m (Aux, Ex3) [(i1 + 1)%Z; i2] - m (Aux, Ex3) [i1; i2])).
  { destruct ((i2 =? g)%Z && ax_lo) eqn:E.
    - apply andb_true_iff in E as [E1 E2]. apply Z.eqb_eq in E1. subst i2.
      rewrite Z.sub_diag, (proj1 (Hlo E2 _)), !(Elo E2). ring.
    - rewrite fgr_2 by assumption. apply cancel. apply R3; [|lia].
      intros [E1 E2]. assert (i2 = g) by lia. subst. rewrite Z.eqb_refl in E. discriminate. }
  rewrite Hdn. rewrite !cancel by assumption. ring.
Qed.

Lemma ampere_gr_div g mt ax_lo ax_hi i2max a0 a1 md c cells (m : gr_fields) i1 i2 :
  NoDup cells -> regular g mt ax_lo ax_hi i2max a0 a1 ->
  (g <= i2 <= i2max)%Z -> (a0 <= i1 - 1 - g)%Z -> (i1 - g <= a1)%Z ->
  node_inside g ax_lo ax_hi i2max i2 ->
  In [i1; i2] cells -> In [(i1 - 1)%Z; i2] cells -> In [i1; (i2 - 1)%Z] cells ->
  let m' := par_for (amp_body g mt ax_lo ax_hi i2max md c) cells m in
  flux_divE g mt (m' (amp_out md, Ex1)) (m' (amp_out md, Ex2)) i1 i2 =
  flux_divE g mt (m (amp_in md, Ex1)) (m (amp_in md, Ex2)) i1 i2.
Proof.
  intros Hn Hreg Hi2 Ha0 Ha1 Hin Hc1 Hc2 Hc3 m'.
  assert (HP : forall k y, amp_good g ax_lo ax_hi i2max md k y -> In y cells -> m' k y = amp_body g mt ax_lo ax_hi i2max md c m y k y).
  { intros k y Hk Hy. unfold m', amp_body.
    rewrite (par_for_good _ _ _ (ampere_gr_frames g mt ax_lo ax_hi i2max md c) (ampere_gr_local g mt ax_lo ax_hi i2max md c)) by assumption.
    destruct (in_dec cell_dec y cells); [reflexivity|contradiction]. }
  assert (G1 : forall a j, amp_good g ax_lo ax_hi i2max md (a, Ex1) [j; i2]) by (intros; right; right; exact Hin).
  assert (G2 : forall a y, amp_good g ax_lo ax_hi i2max md (a, Ex2) y) by (intros; right; left; cbn; discriminate).
  unfold flux_divE.
  rewrite (HP _ _ (G1 _ _) Hc1), (HP _ _ (G1 _ _) Hc2), (HP _ _ (G2 _ _) Hc1), (HP _ _ (G2 _ _) Hc3).
  destruct (inside_cases _ _ _ _ _ Hin) as [B1 B2].
  assert (B3 : (i2 - 1 =? i2max)%Z && ax_hi = false) by (apply andb_false_iff; left; apply Z.eqb_neq; lia).
  rewrite !agr_1, !agr_2 by auto.
  destruct (Hreg (i1 - g)%Z (i2 - g)%Z) as (R1 & _ & _ & R2); try lia.
  destruct (Hreg (i1 - 1 - g)%Z (i2 - g)%Z) as (_ & _ & _ & R3); try lia.
  destruct (Hreg (i1 - g)%Z (i2 - 1 - g)%Z) as (R4 & _ & _ & _); try lia.
  destruct Hin as [N1 N2].
  assert (M1 : ~ (ax_lo = true /\ (i2 - g = 0)%Z)) by (intros [? ?]; apply N1; split; [assumption|lia]).
  assert (M2 : ~ (ax_hi = true /\ (i2 - g = i2max - g)%Z)) by (intros [? ?]; apply N2; split; [assumption|lia]).
  destruct (R2 M1 M2) as [R2' _]. destruct (R3 M1 M2) as [R3' _].
  rewrite !coord_P, !half_P in *. rewrite !cancel by assumption.
  replace (i2 - 1)%Z with (i2 - 1)%Z by reflexivity. ring.
Qed.

(** ** Order of execution *)
Lemma amp_main_order g mt ax_lo ax_hi i2max c cells cells' (m : gr_fields) : NoDup cells -> Permutation cells cells' ->
  par_for (amp_body g mt ax_lo ax_hi i2max AmpMain c) cells m = par_for (amp_body g mt ax_lo ax_hi i2max AmpMain c) cells' m.
Proof.
  intros Hn HP. apply (par_for_perm (wr isE Em0)); auto.
  - apply (ampere_gr_frames g mt ax_lo ax_hi i2max AmpMain c).
  - intros m1 m2 k x _ H1 H2. apply (ampere_gr_local g mt ax_lo ax_hi i2max AmpMain c); auto. left; reflexivity.
Qed.
Lemma far_order g mt ax_lo md c cells cells' (m : gr_fields) : NoDup cells -> Permutation cells cells' ->
  par_for (far_body g mt ax_lo md c) cells m = par_for (far_body g mt ax_lo md c) cells' m.
Proof.
  intros Hn HP. apply (par_for_perm (wr isB (far_out md))); auto.
  - apply faraday_gr_frames.
  - apply faraday_gr_local.
Qed.

(** A metric with an axis at x2 = 0 and x2 = 4, for counterexamples and examples. *)
Definition mt0 : metric2 := {| sdh := fun _ th => th * (4 - th); h11 := fun _ _ => 1; h22 := fun _ _ => 1;
  h33 := fun _ th => th * (4 - th); polar_area := fun _ => 1 |}.
Lemma mt0_axis : on_axis 2 mt0 true true 6.
Proof. split; intros _ r; cbn; split; lra. Qed.
Lemma mt0_regular a0 a1 : regular 2 mt0 true true 6 a0 a1.
Proof.
  intros a b _ Hb. cbn.
  assert (H : forall z : Z, (2 * z + 1 <> 0)%Z -> IZR z + / 2 <> 0).
  { intros z Hz E. apply Hz. apply eq_IZR. rewrite plus_IZR, mult_IZR. lra. }
  assert (Hh : (IZR b + / 2) * (4 - (IZR b + / 2)) <> 0).
  { apply Rmult_integral_contrapositive. split; [apply H; lia|].
    intro E. apply (H (3 - b)%Z); [lia|]. rewrite minus_IZR. lra. }
  repeat split; try assumption; try lra;
    (apply Rmult_integral_contrapositive; split; [apply not_0_IZR; intro; apply H0; auto|];
     replace (4 - IZR b) with (IZR (4 - b)) by (rewrite minus_IZR; reflexivity);
     apply not_0_IZR; intro; apply H1; split; [reflexivity|lia]).
Qed.

(** D = 1 in the first row above the axis at column 2, zero elsewhere. *)
Definition gr0 (a : arr) : gr_fields := fun k x =>
  if loc_eq_dec k (a, Ex1) then if list_eq_dec Z.eq_dec x [2; 3]%Z then 1 else 0 else 0.

Lemma amp_alias_race md : md <> AmpMain -> exists cells cells' m, NoDup cells /\ Permutation cells cells' /\
  par_for (amp_body 2 mt0 true true 6 md 1) cells m (amp_out md, Ex1) [2; 2]%Z <>
  par_for (amp_body 2 mt0 true true 6 md 1) cells' m (amp_out md, Ex1) [2; 2]%Z.
Proof.
  intro Hmd.
  exists [[2; 2]; [2; 3]]%Z, [[2; 3]; [2; 2]]%Z.
  exists (fun k x => if loc_eq_dec k (Aux, Bx3) then if list_eq_dec Z.eq_dec x [2; 3]%Z then 1 else 0 else 0).
  split; [|split].
  - repeat constructor; cbn; intuition discriminate.
  - apply perm_swap.
  - destruct md; try (exfalso; apply Hmd; reflexivity); cbn; unfold coord, half; change (IZR (3 - 2)) with 1; replace (1 * (4 - 1)) with 3 by ring; lra.
Qed.

Lemma amp_axis_div : exists cells m, NoDup cells /\ In [2; 2]%Z cells /\ In [1; 2]%Z cells /\
  (forall k x, fst k = Aux -> m k x = 0) /\
  flux_divE_lo 2 mt0 (par_for (amp_body 2 mt0 true true 6 AmpMain 1) cells m (Em0, Ex1))
    (par_for (amp_body 2 mt0 true true 6 AmpMain 1) cells m (Em0, Ex2)) 2 2 <>
  flux_divE_lo 2 mt0 (m (Em, Ex1)) (m (Em, Ex2)) 2 2.
Proof.
  exists [[1; 2]; [2; 2]]%Z, (gr0 Em).
  split; [repeat constructor; cbn; intuition discriminate|].
  split; [cbn; auto|]. split; [cbn; auto|].
  split.
  - intros [a c] x E. cbn in E. subst a. unfold gr0. destruct (loc_eq_dec (Aux, c) (Em, Ex1)); [congruence|reflexivity].
  - unfold flux_divE_lo. cbn. unfold coord, half. lra.
Qed.

(** ** The plain divergence with tuned coefficients *)
Definition k_beta : fcoef := {| coeff1 := 1; coeff2 := 1; deltax := 0; deltay := 0; betaxy := / 8; betayx := 0;
  deltaz := 0; betaxz := 0; betazx := 0; betayz := 0; betazy := 0 |}.
Definition pulse : fields := fun c x =>
  match c with Ex3 => if list_eq_dec Z.eq_dec x [2; 2]%Z then 1 else 0 | _ => 0 end.
Lemma beta_divB : exists cells x, NoDup cells /\ covered 1 2 cells x /\
  divB (par_for (faraday_mink k_beta) cells pulse) x <> divB pulse x.
Proof.
  exists (box [(0, 4); (0, 4)]%Z), [1; 1]%Z.
  assert (Hn : NoDup (box [(0, 4); (0, 4)]%Z)) by apply nodup_box.
  assert (Hin : forall a b, (0 <= a < 4)%Z -> (0 <= b < 4)%Z -> In [a; b] (box [(0, 4); (0, 4)]%Z)).
  { intros a b Ha Hb. apply in_boxl. repeat constructor; cbn; lia. }
  split; [exact Hn|]. split.
  - intros y Hy. inversion Hy as [|? ? ? ? Hy1 Hy']; subst. inversion Hy' as [|? ? ? ? Hy2 Hy'']; subst.
    inversion Hy''; subst. apply Hin; lia.
  - cbn [divB].
    rewrite !(fun c y => par_for_in isB (faraday_mink k_beta) _ pulse c y (faraday_mink_frames _) (faraday_mink_local _) Hn)
      by (apply Hin; lia).
    rewrite !far2_1, !far2_2. unfold ext1, side, pulse, k_beta. cbn. lra.
Qed.
