(** Proofs about particle moments, one domain. *)
From Coq Require Import ZArith List Bool Reals Lra Lia Permutation.
From Verif Require Import Base ListLemmas ShapeModel ShapeSpec ShapeProofs HaloSpec SyncProofs GaussProofs
  MomentModel MomentSpec.
Import ListNotations.
Open Scope R_scope.
Local Ltac Zify.zify_post_hook ::= Z.div_mod_to_equations.

Tactic Notation "led" ident(E) := cbn beta; match goal with |- context [list_eq_dec ?d ?x ?y] => destruct (list_eq_dec d x y) as [E|E] end.

(** ** Smoothing weights *)
Lemma window_nonneg o : (0 <= window o)%Z.
Proof. unfold window. lia. Qed.
Lemma window_half o : INR o / 2 <= IZR (window o).
Proof.
  rewrite INR_IZR_INZ. assert (H : (Z.of_nat o <= 2 * window o)%Z) by (unfold window; lia).
  apply IZR_le in H. rewrite mult_IZR in H. lra.
Qed.

Definition shp (c : mcfg) (x : R) : R := match shapeFunction c x with Some a => a | None => 0 end.

Lemma shp_ok c x : supported c -> shapeFunction c x = Some (shp c x).
Proof.
  intros [H _]. unfold shp, shapeFunction. destruct (method c); [|reflexivity].
  specialize (H eq_refl). destruct (order_ c) as [|o]; [reflexivity|].
  do 11 (destruct o as [|o]; [reflexivity|]). lia.
Qed.

Lemma shp_spline c x : supported c -> method c = SPLINE -> (0 < order_ c)%nat ->
  shp c (Rabs x) = bspline (order_ c) x.
Proof.
  intros [H _] Hm H0. specialize (H Hm). unfold shp, shapeFunction. rewrite Hm.
  destruct (order_ c) as [|o]; [lia|].
  destruct o as [|o]; [apply code_1|]. destruct o as [|o]; [apply code_2|].
  destruct o as [|o]; [apply code_3|]. destruct o as [|o]; [apply code_4|].
  destruct o as [|o]; [apply code_5|]. destruct o as [|o]; [apply code_6|].
  destruct o as [|o]; [apply code_7|]. destruct o as [|o]; [apply code_8|].
  destruct o as [|o]; [apply code_9|]. destruct o as [|o]; [apply code_10|].
  destruct o as [|o]; [apply code_11|]. lia.
Qed.

Lemma offsets_range w : (0 <= w)%Z -> offsets w = zrange (- w) (w + 1).
Proof.
  intros H. unfold offsets, zrange. replace (w + 1 - - w)%Z with (2 * w + 1)%Z by lia.
  apply map_ext. intros. lia.
Qed.

Lemma zsum_rsum n : forall f lo, zsum f lo n = rsum (zrange lo (lo + Z.of_nat n)) f.
Proof.
  induction n as [|n IH]; intros f lo.
  - unfold zrange. replace (lo + Z.of_nat 0 - lo)%Z with 0%Z by lia. reflexivity.
  - cbn [zsum]. rewrite IH. rewrite (zrange_app lo (lo + 1) (lo + Z.of_nat (S n))) by lia.
    rewrite rsum_app. replace (lo + 1 + Z.of_nat n)%Z with (lo + Z.of_nat (S n))%Z by lia.
    replace (zrange lo (lo + 1)) with [lo]; [cbn; ring|].
    unfold zrange. replace (lo + 1 - lo)%Z with 1%Z by lia. change (Z.to_nat 1) with 1%nat. cbn [seq map]. f_equal. lia.
Qed.

Lemma rsum_const {A} (l : list A) a : rsum l (fun _ => a) = INR (length l) * a.
Proof.
  induction l as [|x l IH]; [cbn; ring|]. change (a + rsum l (fun _ => a) = INR (S (length l)) * a).
  rewrite S_INR, IH. ring.
Qed.

Lemma shp_sum c dx : supported c -> 0 <= dx <= 1 ->
  rsum (offsets (window (order_ c))) (fun d => shp c (Rabs (dx - (IZR d + 1/2)))) = 1.
Proof.
  intros Hs Hd. pose proof (window_nonneg (order_ c)) as Hw. rewrite offsets_range by assumption.
  destruct (method c) eqn:Em.
  - destruct (Nat.eq_dec (order_ c) 0) as [E0|E0].
    + unfold shp, shapeFunction. rewrite Em, E0. change (window 0) with 0%Z. change (zrange (- 0) (0 + 1)) with [0%Z]. unfold rsum. cbn [fold_right]. ring.
    + rewrite (rsum_ext _ _ (fun d => bspline (order_ c) (dx - 1/2 - IZR d))).
      2:{ intros d _. rewrite shp_spline by (assumption || lia). f_equal. ring. }
      replace (window (order_ c) + 1)%Z with (- window (order_ c) + Z.of_nat (S (Z.to_nat (2 * window (order_ c)))))%Z by lia.
      rewrite <- zsum_rsum. pose proof (window_half (order_ c)) as Hh.
      assert (Hp : INR (Nat.pred (order_ c)) = INR (order_ c) - 1).
      { destruct (order_ c); [lia|]. rewrite S_INR. cbn [Nat.pred]. ring. }
      apply bspline_unity; [lia| |]; rewrite Hp.
      * rewrite opp_IZR. lra.
      * rewrite Z2Nat.id by lia. replace (- window (order_ c) + 2 * window (order_ c))%Z with (window (order_ c)) by lia. lra.
  - unfold shp, shapeFunction. rewrite Em, rsum_const.
    assert (EL : INR (length (zrange (- window (order_ c)) (window (order_ c) + 1))) = 2 * IZR (window (order_ c)) + 1).
    { unfold zrange. rewrite map_length, seq_length, INR_IZR_INZ, Z2Nat.id by lia.
      rewrite <- mult_IZR, <- plus_IZR. f_equal. lia. }
    rewrite EL. field. apply IZR_le in Hw. lra.
Qed.

Lemma shp_weight c i dx d : supported c -> (Z.abs d <= window (order_ c))%Z ->
  shp c (Rabs (dx - (IZR d + 1/2))) = weight1 c (IZR i + dx - (IZR (i + d) + 1/2)) (i + d - i).
Proof.
  intros Hs Hd. unfold weight1. replace (i + d - i)%Z with d by lia. destruct (method c) eqn:Em.
  - destruct (Nat.eqb_spec (order_ c) 0) as [E0|E0].
    + unfold shp, shapeFunction. rewrite Em, E0. rewrite E0 in Hd. change (window 0) with 0%Z in Hd.
      replace d with 0%Z by lia. reflexivity.
    + rewrite shp_spline by (assumption || lia). f_equal. rewrite plus_IZR. ring.
  - unfold shp, shapeFunction. rewrite Em. destruct (Z.leb_spec (Z.abs d) (window (order_ c))); [reflexivity|lia].
Qed.

Lemma weight1_out c i dx d : 0 <= dx <= 1 -> (window (order_ c) < Z.abs d)%Z ->
  weight1 c (IZR i + dx - (IZR (i + d) + 1/2)) (i + d - i) = 0.
Proof.
  intros Hx Hd. unfold weight1. replace (i + d - i)%Z with d by lia.
  pose proof (window_nonneg (order_ c)) as Hw. destruct (method c) eqn:Em.
  - destruct (Nat.eqb_spec (order_ c) 0) as [E0|E0].
    + destruct (Z.eqb_spec d 0); [lia|reflexivity].
    + apply bspline_out; [lia|]. pose proof (window_half (order_ c)) as Hh. rewrite S_INR.
      rewrite plus_IZR. replace (IZR i + dx - (IZR i + IZR d + 1/2)) with (dx - 1/2 - IZR d) by ring.
      assert (HD : IZR (window (order_ c)) + 1 <= Rabs (IZR d)).
      { rewrite <- abs_IZR. rewrite <- plus_IZR. apply IZR_le. lia. }
      unfold Rabs in *. destruct (Rcase_abs (IZR d)), (Rcase_abs (dx - 1/2 - IZR d)); lra.
  - destruct (Z.leb_spec (Z.abs d) (window (order_ c))); [lia|reflexivity].
Qed.

Lemma weight1_nonneg c x d : 0 <= weight1 c x d.
Proof.
  unfold weight1. pose proof (window_nonneg (order_ c)) as Hw. destruct (method c).
  - destruct Nat.eqb; [destruct Z.eqb; lra|apply bspline_nonneg].
  - destruct Z.leb; [|lra]. apply IZR_le in Hw. apply Rlt_le, Rdiv_lt_0_compat; lra.
Qed.

Fixpoint prod_shape (c : mcfg) (q : list (Z * R)) (di : list Z) : R :=
  match q, di with
  | (_, dx) :: q', d :: di' => shp c (Rabs (dx - (IZR d + 1/2))) * prod_shape c q' di'
  | _, _ => 1
  end.

Lemma shape_coeff_ok c q : supported c -> forall di, shape_coeff c q di = Some (prod_shape c q di).
Proof.
  intros Hs. induction q as [|[i dx] q IH]; intros [|d di]; try reflexivity.
  cbn [shape_coeff prod_shape]. rewrite (shp_ok _ _ Hs), IH. reflexivity.
Qed.

Lemma offsets_d_length w d : forall x, In x (offsets_d w d) -> length x = d.
Proof.
  induction d as [|d IH]; cbn; intros x H.
  - destruct H as [<-|[]]. reflexivity.
  - apply in_flat_map in H as [t [Ht H]]. apply in_map_iff in H as [y [<- _]]. cbn. f_equal. auto.
Qed.
Lemma offsets_d_in w d x : (0 <= w)%Z -> In x (offsets_d w d) -> Forall (fun a => - w <= a <= w)%Z x.
Proof.
  intros Hw. revert x. induction d as [|d IH]; cbn; intros x H.
  - destruct H as [<-|[]]. constructor.
  - apply in_flat_map in H as [t [Ht H]]. apply in_map_iff in H as [y [<- Hy]].
    rewrite offsets_range, in_zrange in Hy by assumption. constructor; [lia|auto].
Qed.

Lemma prod_shape_sum c q : supported c -> Forall (fun p => 0 <= snd p <= 1) q ->
  rsum (offsets_d (window (order_ c)) (length q)) (prod_shape c q) = 1.
Proof.
  intros Hs. induction 1 as [|[i dx] q Hp Hq IH]; [cbn; ring|]. cbn [length offsets_d].
  rewrite rsum_flat_map. rewrite <- IH. apply rsum_ext. intros t _. rewrite rsum_map.
  rewrite (rsum_ext _ _ (fun d => prod_shape c q t * shp c (Rabs (dx - (IZR d + 1/2)))))
    by (intros d _; cbn [prod_shape]; ring).
  rewrite rsum_scal, shp_sum; [ring|assumption|exact Hp].
Qed.

Lemma prod_shape_at c q : supported c -> Forall (fun p => 0 <= snd p <= 1) q -> forall y, length y = length q ->
  rsum (offsets_d (window (order_ c)) (length q))
    (fun di => if list_eq_dec Z.eq_dec y (map2 Z.add (map fst q) di) then prod_shape c q di else 0)
  = weight_d c q y.
Proof.
  intros Hs. induction 1 as [|[i dx] q Hp Hq IH]; intros y Hy.
  - destruct y; [|discriminate]. unfold rsum. cbn [length offsets_d fold_right map map2 prod_shape weight_d]. led E; [ring|congruence].
  - destruct y as [|a y]; [discriminate|]. cbn [length] in Hy. cbn [length offsets_d weight_d].
    rewrite rsum_flat_map. rewrite <- IH by congruence. rewrite <- rsum_scal. apply rsum_ext. intros t Ht. rewrite rsum_map.
    pose proof (window_nonneg (order_ c)) as Hw. rewrite offsets_range by assumption.
    cbn [map2 map fst prod_shape]. destruct (list_eq_dec Z.eq_dec y (map2 Z.add (map fst q) t)) as [E|E].
    + destruct (Z.leb_spec (Z.abs (a - i)) (window (order_ c))) as [Ha|Ha].
      * rewrite (rsum_one _ _ (a - i)%Z); [|apply nodup_zrange|apply in_zrange; lia|].
        -- led E1; [|elim E1; f_equal; [lia|assumption]].
           rewrite (shp_weight c i) by assumption. replace (i + (a - i))%Z with a by lia. reflexivity.
        -- intros d _ Hd. led E1; [|reflexivity]. injection E1. intros. lia.
      * replace (weight1 c (IZR i + dx - (IZR a + 1/2)) (a - i)) with 0.
        2:{ symmetry. replace a with (i + (a - i))%Z by lia. apply (weight1_out c i dx (a - i)); [exact Hp|assumption]. }
        rewrite Rmult_0_l. apply rsum_none. intros d Hd. apply in_zrange in Hd.
        led E1; [|reflexivity]. injection E1. intros. lia.
    + rewrite Rmult_0_r. apply rsum_none. intros d _. led E1; [|reflexivity].
      injection E1. intros. congruence.
Qed.

(** ** Contributions *)
Lemma component_ok u k : (0 <= k <= 3)%Z -> component u k = Some (u_ u k).
Proof.
  destruct u as [[[u0 u1] u2] u3]. intros H.
  assert (E : (k = 0 \/ k = 1 \/ k = 2 \/ k = 3)%Z) by lia. destruct E as [->|[->|[->| ->]]]; reflexivity.
Qed.

Lemma coeff_ok c F s p c1 c2 : components_ok F c1 c2 ->
  coeff c F s p c1 c2 = Some (contribution c F s p c1 c2).
Proof.
  intros Hc. unfold coeff, contribution, quantity. destruct F; cbn [raw components_ok] in *.
  - f_equal. destruct (use_weights c); unfold Rdiv; ring.
  - f_equal. destruct (use_weights c); unfold Rdiv; ring.
  - f_equal. destruct (use_weights c); unfold Rdiv; ring.
  - reflexivity.
  - unfold stress_energy. rewrite component_ok by lia. cbn [fold_left]. rewrite !component_ok by lia. cbn [opt2].
    f_equal. unfold mass1. destruct (use_weights c); unfold Rdiv; ring.
  - unfold bulk_velocity. rewrite !component_ok by lia. destruct c1 as [|k|k]; try lia.
    f_equal. unfold mass1. destruct (use_weights c); unfold Rdiv; ring.
Qed.
