From Coq Require Import ZArith List Bool Lia Reals Lra Permutation FunctionalExtensionality.
From Verif Require Import Base FieldModel FieldSpec FieldProofs.
Import ListNotations.
Open Scope R_scope.

(** ** Cartesian: plain stencil, Ampere, currents *)
Lemma div_ext_plain k F x : plain k -> div_ext k F x = divB F x.
Proof.
  intros (H1 & H2 & H3 & H4 & H5 & H6 & H7 & H8 & H9).
  destruct x as [|i1 [|i2 [|i3 [|? ?]]]]; try reflexivity; cbn [div_ext divB]; unfold ext1, side;
    rewrite ?H1, ?H2, ?H3, ?H4, ?H5, ?H6, ?H7, ?H8, ?H9; ring.
Qed.

Lemma faraday_divB k cells (m : fields) x : plain k -> NoDup cells -> covered 0 1 cells x ->
  divB (par_for (faraday_mink k) cells m) x = divB m x.
Proof.
  intros Hk Hn Hc.
  assert (HP : forall c y, In y cells -> par_for (faraday_mink k) cells m c y = faraday_mink k m y c y)
    by (intros; apply (par_for_in isB); auto using faraday_mink_frames, faraday_mink_local).
  destruct Hk as (H1 & H2 & H3 & H4 & H5 & H6 & H7 & H8 & H9).
  destruct x as [|i1 [|i2 [|i3 [|? ?]]]]; try reflexivity; cbn [divB].
  - rewrite !HP by (apply (covered1 _ _ _ _ _ Hc); lia). reflexivity.
  - rewrite !HP by (apply (covered2 _ _ _ _ _ _ _ Hc); lia).
    rewrite !far2_1, !far2_2. unfold ext1, side.
    rewrite ?H1, ?H2, ?H3, ?H4, ?H5, ?H6, ?H7, ?H8, ?H9; znorm; ring.
  - rewrite !HP by (apply (covered3 _ _ _ _ _ _ _ _ _ Hc); lia).
    rewrite !far3_1, !far3_2, !far3_3. unfold ext1, side.
    rewrite ?H1, ?H2, ?H3, ?H4, ?H5, ?H6, ?H7, ?H8, ?H9; znorm; ring.
Qed.

Lemma ampere_divE c1 c2 cells (m : fields) x : NoDup cells -> covered 1 0 cells x ->
  divE (par_for (ampere_mink c1 c2) cells m) x = divE m x.
Proof.
  intros Hn Hc.
  assert (HP : forall c y, In y cells -> par_for (ampere_mink c1 c2) cells m c y = ampere_mink c1 c2 m y c y)
    by (intros; apply (par_for_in isE); auto using ampere_mink_frames, ampere_mink_local).
  destruct x as [|i1 [|i2 [|i3 [|? ?]]]]; try reflexivity; cbn [divE].
  - rewrite !HP by (apply (covered1 _ _ _ _ _ Hc); lia). reflexivity.
  - rewrite !HP by (apply (covered2 _ _ _ _ _ _ _ Hc); lia). dd; field_cases; znorm; ring.
  - rewrite !HP by (apply (covered3 _ _ _ _ _ _ _ _ _ Hc); lia). dd; field_cases; znorm; ring.
Qed.

Lemma currents_divE c J cells (m : fields) x : NoDup cells -> covered 1 0 cells x ->
  divE (par_for (currents_mink c J) cells m) x = divE m x + c * divJ J x.
Proof.
  intros Hn Hc.
  assert (HP : forall c' y, In y cells -> par_for (currents_mink c J) cells m c' y = currents_mink c J m y c' y)
    by (intros; apply (par_for_in isE); auto using currents_mink_frames, currents_mink_local).
  destruct x as [|i1 [|i2 [|i3 [|? ?]]]]; cbn [divE divJ]; try ring.
  - rewrite !HP by (apply (covered1 _ _ _ _ _ Hc); lia). dd; field_cases; znorm; ring.
  - rewrite !HP by (apply (covered2 _ _ _ _ _ _ _ Hc); lia). dd; field_cases; znorm; ring.
  - rewrite !HP by (apply (covered3 _ _ _ _ _ _ _ _ _ Hc); lia). dd; field_cases; znorm; ring.
Qed.

(** ** Curvilinear, special relativity *)
Ltac ddc := cbv [body2 faraday_sr ampere_sr currents_sr faraday_gr ampere_gr half add set comp_eq_dec comp_rec comp_rect
  sumbool_rec sumbool_rect].
Ltac bool_cases :=
  repeat match goal with |- context [if ?b then _ else _] =>
    match b with context [Z.eqb] => destruct b eqn:?H end end.

Section SR.
  Variables (g : Z) (mt : metric2) (ax_lo ax_hi : bool) (i2max : Z).

  Lemma faraday_sr_frames c : frames isB (body2 (faraday_sr g mt ax_lo c)).
  Proof.
    intros m x c' y H. destruct x as [|i1 [|i2 [|? ?]]]; try reflexivity.
    destruct c'; ddc; bool_cases; field_cases; try reflexivity; destruct H; cbn in *; congruence.
  Qed.
  Lemma faraday_sr_local c : local_body isB (body2 (faraday_sr g mt ax_lo c)).
  Proof.
    intros m m' c' x _ Hr Ho'. assert (Ho : forall c', m c' x = m' c' x) by auto. clear Ho'.
    destruct x as [|i1 [|i2 [|? ?]]]; try apply Ho.
    destruct c'; ddc; bool_cases; field_cases; unwritten Hr; rewrite ?Ho; reflexivity.
  Qed.
  Lemma ampere_sr_frames c : frames isE (body2 (ampere_sr g mt ax_lo ax_hi i2max c)).
  Proof.
    intros m x c' y H. destruct x as [|i1 [|i2 [|? ?]]]; try reflexivity.
    destruct c'; ddc; bool_cases; field_cases; try reflexivity; destruct H; cbn in *; congruence.
  Qed.
  Lemma ampere_sr_local c : local_body isE (body2 (ampere_sr g mt ax_lo ax_hi i2max c)).
  Proof.
    intros m m' c' x _ Hr Ho'. assert (Ho : forall c', m c' x = m' c' x) by auto. clear Ho'.
    destruct x as [|i1 [|i2 [|? ?]]]; try apply Ho.
    destruct c'; ddc; bool_cases; field_cases; unwritten Hr; rewrite ?Ho; reflexivity.
  Qed.
  Lemma currents_sr_frames c n J : frames isE (body2 (currents_sr g mt ax_lo ax_hi i2max c n J)).
  Proof.
    intros m x c' y H. destruct x as [|i1 [|i2 [|? ?]]]; try reflexivity.
    destruct c'; ddc; bool_cases; field_cases; try reflexivity; destruct H; cbn in *; congruence.
  Qed.
  Lemma currents_sr_local c n J : local_body isE (body2 (currents_sr g mt ax_lo ax_hi i2max c n J)).
  Proof.
    intros m m' c' x _ Hr Ho'. assert (Ho : forall c', m c' x = m' c' x) by auto. clear Ho'.
    destruct x as [|i1 [|i2 [|? ?]]]; try apply Ho.
    destruct c'; ddc; bool_cases; field_cases; unwritten Hr; rewrite ?Ho; reflexivity.
  Qed.
End SR.

Lemma coord_S g i : IZR (i + 1 - g) = IZR (i - g) + 1.
Proof. rewrite <- plus_IZR. f_equal. lia. Qed.
Lemma coord_P g i : IZR (i - 1 - g) = IZR (i - g) - 1.
Proof. rewrite <- minus_IZR. f_equal. lia. Qed.
Lemma half_P a : a - 1 + / 2 = a - / 2.
Proof. field. Qed.
Lemma cancel s b c t : s <> 0 -> s * (b + c * (1 / s) * t) = s * b + c * t.
Proof. intro. field. assumption. Qed.
Lemma cancel' s b c t : s <> 0 -> s * (b + 1 / s * c * t) = s * b + c * t.
Proof. intro. field. assumption. Qed.
Lemma cancel_m s b c t : s <> 0 -> s * (b + - (1 / s * c * t)) = s * b - c * t.
Proof. intro. field. assumption. Qed.

Lemma faraday_sr_div g mt ax_lo ax_hi i2max a0 a1 c cells (m : fields) i1 i2 :
  NoDup cells -> regular g mt ax_lo ax_hi i2max a0 a1 -> on_axis g mt ax_lo ax_hi i2max ->
  (g <= i2 < i2max)%Z -> (a0 <= i1 - g)%Z -> (i1 + 1 - g <= a1)%Z ->
  In [i1; i2] cells -> In [(i1 + 1)%Z; i2] cells ->
  (ax_hi = true /\ (i2 + 1 = i2max)%Z \/ In [i1; (i2 + 1)%Z] cells) ->
  let m' := par_for (body2 (faraday_sr g mt ax_lo c)) cells m in
  flux_divB g mt (m' Bx1) (m' Bx2) i1 i2 = flux_divB g mt (m Bx1) (m Bx2) i1 i2.
Proof.
  intros Hn Hreg Hax Hi2 Ha0 Ha1 Hc1 Hc2 Hc3 m'.
  assert (HP : forall c' y, In y cells -> m' c' y = body2 (faraday_sr g mt ax_lo c) m y c' y)
    by (intros; apply (par_for_in isB); auto using faraday_sr_frames, faraday_sr_local).
  unfold flux_divB.
  rewrite (HP Bx1 _ Hc1), (HP Bx1 _ Hc2), (HP Bx2 _ Hc1).
  destruct Hax as [Hlo Hhi].
  destruct (Hreg (i1 - g)%Z (i2 - g)%Z) as (R1 & R2 & _ & R3); try lia.
  destruct (Hreg (i1 - g)%Z (i2 + 1 - g)%Z) as (_ & _ & _ & R4); try lia.
  destruct (Hreg (i1 + 1 - g)%Z (i2 - g)%Z) as (R5 & _); try lia.
  assert (Elo : (i2 = g)%Z -> ax_lo = true -> forall r, sdh mt r (IZR (i2 - g)) = 0 /\ h33 mt r (IZR (i2 - g)) = 0)
    by (intros E1 E2 r; rewrite E1, Z.sub_diag; apply Hlo; assumption).
  assert (Ehi : (i2 + 1 = i2max)%Z -> ax_hi = true -> forall r, sdh mt r (IZR (i2 - g) + 1) = 0 /\ h33 mt r (IZR (i2 - g) + 1) = 0)
    by (intros E1 E2 r; rewrite <- coord_S, E1; apply Hhi; assumption).
  assert (Hup : sdh mt (IZR (i1 - g) + / 2) (IZR (i2 - g) + 1) * m' Bx2 [i1; (i2 + 1)%Z]
    = sdh mt (IZR (i1 - g) + / 2) (IZR (i2 - g) + 1) * m Bx2 [i1; (i2 + 1)%Z]
      + c * (h33 mt (IZR (i1 - g) + 1) (IZR (i2 - g) + 1) * m Ex3 [(i1 + 1)%Z; (i2 + 1)%Z]
             - h33 mt (IZR (i1 - g)) (IZR (i2 - g) + 1) * m Ex3 [i1; (i2 + 1)%Z])).
  { destruct (Z.eq_dec (i2 + 1) i2max) as [E1|E1]; destruct ax_hi eqn:E2.
    - rewrite (proj1 (Ehi E1 eq_refl _)), !(fun r => proj2 (Ehi E1 eq_refl r)). ring.
    - destruct Hc3 as [[? _]|Hc3]; [discriminate|]. rewrite (HP Bx2 _ Hc3). ddc. bool_cases; field_cases.
      + unfold coord. rewrite !coord_S in *. apply cancel. apply R4; intros [? ?]; [lia|congruence].
      + exfalso. apply orb_false_iff in H as [Ha _]. apply negb_false_iff, Z.eqb_eq in Ha. lia.
    - destruct Hc3 as [[_ ?]|Hc3]; [lia|]. rewrite (HP Bx2 _ Hc3). ddc. bool_cases; field_cases.
      + unfold coord. rewrite !coord_S in *. apply cancel. apply R4; intros [? ?]; lia.
      + exfalso. apply orb_false_iff in H as [Ha _]. apply negb_false_iff, Z.eqb_eq in Ha. lia.
    - destruct Hc3 as [[_ ?]|Hc3]; [lia|]. rewrite (HP Bx2 _ Hc3). ddc. bool_cases; field_cases.
      + unfold coord. rewrite !coord_S in *. apply cancel. apply R4; intros [? ?]; [lia|congruence].
      + exfalso. apply orb_false_iff in H as [Ha _]. apply negb_false_iff, Z.eqb_eq in Ha. lia. }
  rewrite coord_S in R5. rewrite !coord_S. rewrite Hup. clear Hup.
  assert (Hdn : sdh mt (IZR (i1 - g) + / 2) (IZR (i2 - g)) * body2 (faraday_sr g mt ax_lo c) m [i1; i2] Bx2 [i1; i2]
    = sdh mt (IZR (i1 - g) + / 2) (IZR (i2 - g)) * m Bx2 [i1; i2]
      + c * (h33 mt (IZR (i1 - g) + 1) (IZR (i2 - g)) * m Ex3 [(i1 + 1)%Z; i2]
             - h33 mt (IZR (i1 - g)) (IZR (i2 - g)) * m Ex3 [i1; i2])).
  { ddc. bool_cases; field_cases.
    - unfold coord. apply cancel. apply R3; [|lia]. intros [E1 E2].
      apply orb_true_iff in H as [Ha|Ha]; [apply negb_true_iff, Z.eqb_neq in Ha; lia|].
      rewrite E1 in Ha; discriminate.
    - apply orb_false_iff in H as [Ha Hb]. apply negb_false_iff, Z.eqb_eq in Ha. apply negb_false_iff in Hb.
      rewrite (proj1 (Elo Ha Hb _)), !(fun r => proj2 (Elo Ha Hb r)). ring. }
  rewrite Hdn. clear Hdn.
  ddc; bool_cases; field_cases; unfold coord; rewrite !coord_S, !cancel by assumption; ring.
Qed.

Lemma ampere_sr_ex2 g mt ax_lo ax_hi i2max c (m : fields) i1 i2 : sdh mt (IZR (i1 - g)) (IZR (i2 - g) + / 2) <> 0 ->
  ~ (ax_hi = true /\ i2 = i2max) \/ (i2 = g /\ ax_lo = true) ->
  sdh mt (IZR (i1 - g)) (IZR (i2 - g) + / 2) * body2 (ampere_sr g mt ax_lo ax_hi i2max c) m [i1; i2] Ex2 [i1; i2]
  = sdh mt (IZR (i1 - g)) (IZR (i2 - g) + / 2) * m Ex2 [i1; i2]
    + c * (h33 mt (IZR (i1 - g) - / 2) (IZR (i2 - g) + / 2) * m Bx3 [(i1 - 1)%Z; i2]
           - h33 mt (IZR (i1 - g) + / 2) (IZR (i2 - g) + / 2) * m Bx3 [i1; i2]).
Proof.
  intros Hs Hnot. ddc. bool_cases; field_cases.
  - unfold coord. apply cancel. assumption.
  - exfalso. apply andb_true_iff in H0 as [Ha Hb]. apply Z.eqb_eq in Ha. destruct Hnot as [Hnot|[E1 E2]]; [tauto|].
    rewrite E1, E2 in H. rewrite Z.eqb_refl in H. discriminate.
  - unfold coord. apply cancel. assumption.
Qed.

Lemma ampere_sr_ex1 g mt ax_lo ax_hi i2max c (m : fields) i1 i2 : sdh mt (IZR (i1 - g) + / 2) (IZR (i2 - g)) <> 0 ->
  node_inside g ax_lo ax_hi i2max i2 ->
  sdh mt (IZR (i1 - g) + / 2) (IZR (i2 - g)) * body2 (ampere_sr g mt ax_lo ax_hi i2max c) m [i1; i2] Ex1 [i1; i2]
  = sdh mt (IZR (i1 - g) + / 2) (IZR (i2 - g)) * m Ex1 [i1; i2]
    + c * (h33 mt (IZR (i1 - g) + / 2) (IZR (i2 - g) + / 2) * m Bx3 [i1; i2]
           - h33 mt (IZR (i1 - g) + / 2) (IZR (i2 - g) - / 2) * m Bx3 [i1; (i2 - 1)%Z]).
Proof.
  intros Hs [N1 N2]. ddc. bool_cases; field_cases.
  - exfalso. apply andb_true_iff in H as [Ha Hb]. apply Z.eqb_eq in Ha. tauto.
  - exfalso. apply andb_true_iff in H0 as [Ha Hb]. apply Z.eqb_eq in Ha. tauto.
  - unfold coord. apply cancel. assumption.
Qed.

Lemma ampere_sr_div g mt ax_lo ax_hi i2max a0 a1 c cells (m : fields) i1 i2 :
  NoDup cells -> regular g mt ax_lo ax_hi i2max a0 a1 ->
  (g <= i2 <= i2max)%Z -> (a0 <= i1 - 1 - g)%Z -> (i1 - g <= a1)%Z ->
  node_inside g ax_lo ax_hi i2max i2 ->
  In [i1; i2] cells -> In [(i1 - 1)%Z; i2] cells -> In [i1; (i2 - 1)%Z] cells ->
  let m' := par_for (body2 (ampere_sr g mt ax_lo ax_hi i2max c)) cells m in
  flux_divE g mt (m' Ex1) (m' Ex2) i1 i2 = flux_divE g mt (m Ex1) (m Ex2) i1 i2.
Proof.
  intros Hn Hreg Hi2 Ha0 Ha1 Hin Hc1 Hc2 Hc3 m'.
  assert (HP : forall c' y, In y cells -> m' c' y = body2 (ampere_sr g mt ax_lo ax_hi i2max c) m y c' y)
    by (intros; apply (par_for_in isE); auto using ampere_sr_frames, ampere_sr_local).
  unfold flux_divE.
  rewrite (HP Ex1 _ Hc1), (HP Ex1 _ Hc2), (HP Ex2 _ Hc1), (HP Ex2 _ Hc3).
  destruct (Hreg (i1 - g)%Z (i2 - g)%Z) as (R1 & _ & _ & R2); try lia.
  destruct (Hreg (i1 - 1 - g)%Z (i2 - g)%Z) as (_ & _ & _ & R3); try lia.
  destruct (Hreg (i1 - g)%Z (i2 - 1 - g)%Z) as (R4 & _ & _ & _); try lia.
  destruct Hin as [N1 N2].
  assert (M1 : ~ (ax_lo = true /\ (i2 - g = 0)%Z)) by (intros [? ?]; apply N1; split; [assumption|lia]).
  assert (M2 : ~ (ax_hi = true /\ (i2 - g = i2max - g)%Z)) by (intros [? ?]; apply N2; split; [assumption|lia]).
  pose proof (ampere_sr_ex1 g mt ax_lo ax_hi i2max c m i1 i2 (proj1 (R2 M1 M2)) (conj N1 N2)) as E1.
  pose proof (ampere_sr_ex1 g mt ax_lo ax_hi i2max c m (i1 - 1) i2 (proj1 (R3 M1 M2)) (conj N1 N2)) as E2.
  pose proof (ampere_sr_ex2 g mt ax_lo ax_hi i2max c m i1 i2 R1 (or_introl N2)) as E3.
  assert (M3 : ~ (ax_hi = true /\ (i2 - 1)%Z = i2max) \/ ((i2 - 1)%Z = g /\ ax_lo = true)) by (left; intros [? ?]; lia).
  pose proof (ampere_sr_ex2 g mt ax_lo ax_hi i2max c m i1 (i2 - 1) R4 M3) as E4.
  rewrite !coord_P, !half_P in *. rewrite E1, E2, E3, E4. ring.
Qed.

Lemma ampere_sr_div_lo g mt ax_hi i2max a0 a1 c cells (m : fields) i1 :
  NoDup cells -> regular g mt true ax_hi i2max a0 a1 ->
  (g <= i2max)%Z -> (a0 <= i1 - 1 - g)%Z -> (i1 - g <= a1)%Z ->
  In [i1; g] cells -> In [(i1 - 1)%Z; g] cells ->
  let m' := par_for (body2 (ampere_sr g mt true ax_hi i2max c)) cells m in
  flux_divE_lo g mt (m' Ex1) (m' Ex2) i1 g = flux_divE_lo g mt (m Ex1) (m Ex2) i1 g.
Proof.
  intros Hn Hreg Hi2 Ha0 Ha1 Hc1 Hc2 m'.
  assert (HP : forall c' y, In y cells -> m' c' y = body2 (ampere_sr g mt true ax_hi i2max c) m y c' y)
    by (intros; apply (par_for_in isE); auto using ampere_sr_frames, ampere_sr_local).
  unfold flux_divE_lo.
  rewrite (HP Ex1 _ Hc1), (HP Ex1 _ Hc2), (HP Ex2 _ Hc1).
  destruct (Hreg (i1 - g)%Z (g - g)%Z) as (R1 & _ & R2 & _); try lia.
  destruct (Hreg (i1 - 1 - g)%Z (g - g)%Z) as (_ & _ & R3 & _); try lia.
  assert (M3 : ~ (ax_hi = true /\ g = i2max) \/ (g = g /\ true = true)) by (right; auto).
  rewrite (ampere_sr_ex2 g mt true ax_hi i2max c m i1 g R1 M3).
  rewrite coord_P, half_P in R3.
  ddc. rewrite Z.eqb_refl. cbv [andb]. field_cases. unfold coord. rewrite !coord_P, !half_P.
  rewrite !cancel' by assumption. ring.
Qed.

Lemma ampere_sr_div_hi g mt ax_lo i2max a0 a1 c cells (m : fields) i1 :
  NoDup cells -> regular g mt ax_lo true i2max a0 a1 ->
  (g < i2max)%Z -> (a0 <= i1 - 1 - g)%Z -> (i1 - g <= a1)%Z ->
  In [i1; i2max] cells -> In [(i1 - 1)%Z; i2max] cells -> In [i1; (i2max - 1)%Z] cells ->
  (forall i, m Bx3 [i; i2max] = m Bx3 [i; (i2max - 1)%Z]) ->
  let m' := par_for (body2 (ampere_sr g mt ax_lo true i2max c)) cells m in
  flux_divE_hi g mt (m' Ex1) (m' Ex2) i1 i2max = flux_divE_hi g mt (m Ex1) (m Ex2) i1 i2max.
Proof.
  intros Hn Hreg Hi2 Ha0 Ha1 Hc1 Hc2 Hc3 Hmir m'.
  assert (HP : forall c' y, In y cells -> m' c' y = body2 (ampere_sr g mt ax_lo true i2max c) m y c' y)
    by (intros; apply (par_for_in isE); auto using ampere_sr_frames, ampere_sr_local).
  unfold flux_divE_hi.
  rewrite (HP Ex1 _ Hc1), (HP Ex1 _ Hc2), (HP Ex2 _ Hc3).
  destruct (Hreg (i1 - g)%Z (i2max - 1 - g)%Z) as (R1 & _ & R2 & _); try lia.
  destruct (Hreg (i1 - 1 - g)%Z (i2max - 1 - g)%Z) as (_ & _ & R3 & _); try lia.
  assert (M3 : ~ (true = true /\ (i2max - 1)%Z = i2max) \/ ((i2max - 1)%Z = g /\ ax_lo = true)) by (left; lia).
  pose proof (ampere_sr_ex2 g mt ax_lo true i2max c m i1 (i2max - 1) R1 M3) as E.
  rewrite !coord_P, !half_P in *. rewrite E.
  replace (body2 (ampere_sr g mt ax_lo true i2max c) m [i1; i2max] Ex1 [i1; i2max]) with
    (m Ex1 [i1; i2max] + - (1 / polar_area mt (IZR (i1 - g) + / 2) * c *
       (h33 mt (IZR (i1 - g) + / 2) (IZR (i2max - g) - / 2) * m Bx3 [i1; i2max]))).
  2:{ ddc. replace (i2max =? g)%Z with false by (symmetry; apply Z.eqb_neq; lia).
      rewrite Z.eqb_refl. cbv [andb]. field_cases. reflexivity. }
  replace (body2 (ampere_sr g mt ax_lo true i2max c) m [(i1 - 1)%Z; i2max] Ex1 [(i1 - 1)%Z; i2max]) with
    (m Ex1 [(i1 - 1)%Z; i2max] + - (1 / polar_area mt (IZR (i1 - g) - / 2) * c *
       (h33 mt (IZR (i1 - g) - / 2) (IZR (i2max - g) - / 2) * m Bx3 [(i1 - 1)%Z; i2max]))).
  2:{ ddc. replace (i2max =? g)%Z with false by (symmetry; apply Z.eqb_neq; lia).
      rewrite Z.eqb_refl. cbv [andb]. field_cases. unfold coord. rewrite !coord_P, !half_P. reflexivity. }
  rewrite !cancel_m by assumption. rewrite !Hmir. ring.
Qed.
