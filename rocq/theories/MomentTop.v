(** Theorems about particle moments on one domain. *)
From Coq Require Import ZArith List Bool Reals Lra Lia Permutation.
From Verif Require Import Base ListLemmas ShapeModel ShapeSpec ShapeProofs HaloSpec SyncProofs GaussProofs
  MomentModel MomentSpec MomentProofs.
Import ListNotations.
Open Scope R_scope.
Local Ltac Zify.zify_post_hook ::= Z.div_mod_to_equations.

Lemma all_some_map {A B} (f : A -> option B) (h : A -> B) l :
  (forall a, In a l -> f a = Some (h a)) -> all_some (map f l) = Some (map h l).
Proof.
  induction l as [|a l IH]; intros H; [reflexivity|]. cbn. rewrite (H a) by (left; reflexivity).
  rewrite IH by (intros; apply H; right; assumption). reflexivity.
Qed.

(** The additions of one particle. *)
Definition kadds (c : mcfg) (F : moment) (c1 c2 : Z) (s : species) (p : part) : list (list Z * R) :=
  if live p then
    map (fun di => (cell_index c (ppos p) di, contribution c F s p c1 c2 * prod_shape c (ppos p) di))
      (offsets_d (window (order_ c)) (length (ppos p)))
  else [].

Lemma kernel_ok c F s c1 c2 p : supported c -> components_ok F c1 c2 ->
  kernel c F s c1 c2 p = Some (kadds c F c1 c2 s p).
Proof.
  intros Hs Hc. unfold kernel, kadds, live. destruct (Z.eqb (ptag p) 0); [reflexivity|]. cbn [negb].
  rewrite coeff_ok by assumption. apply all_some_map. intros di _.
  rewrite shape_coeff_ok by assumption. reflexivity.
Qed.

Lemma selected_ok all specs ss : selects all specs ss <-> selected all specs = Some ss.
Proof.
  destruct specs as [|a specs]; [cbn; split; congruence|]. unfold selects, selected.
  generalize (a :: specs) as l. intros l. revert ss. induction l as [|x l IH]; intros ss.
  - cbn. split; [inversion 1; reflexivity|]. injection 1 as <-. constructor.
  - cbn [map all_some]. split.
    + intros H. inversion H as [|? s ? ss' [H1 H2] H3]; subst. apply IH in H3.
      destruct (Z.ltb_spec 0 x); [|lia]. rewrite H2, H3. reflexivity.
    + destruct (Z.ltb_spec 0 x); [|discriminate]. destruct nth_error eqn:E; [|discriminate].
      destruct (all_some _) as [ss'|] eqn:E2; [|discriminate]. cbn. injection 1 as <-.
      constructor; [split; assumption|]. apply IH. reflexivity.
Qed.

Lemma constructor_ok_iff c F s : supported c -> (constructor_ok c F s = true <-> species_ok F s).
Proof.
  intros [_ Hw]. unfold constructor_ok, species_ok. apply Z.leb_le in Hw. rewrite Hw. cbn [andb].
  destruct F; cbn [negb]; try tauto; destruct Req_EM_T; cbn; intuition congruence.
Qed.

Definition all_adds (c : mcfg) (F : moment) (c1 c2 : Z) (ss : list species) : list (list Z * R) :=
  flat_map (fun s => flat_map (kadds c F c1 c2 s) (sparts s)) ss.

Lemma flat_map_concat_map' {A B} (f : A -> list B) l : flat_map f l = concat (map f l).
Proof. induction l; cbn; congruence. Qed.
Lemma concat_flat_map {A B C} (f : A -> list B) (h : A -> B -> list C) l :
  concat (flat_map (fun s => map (h s) (f s)) l) = flat_map (fun s => flat_map (h s) (f s)) l.
Proof. induction l as [|a l IH]; cbn; [reflexivity|]. rewrite concat_app, IH, <- flat_map_concat_map'. reflexivity. Qed.

Lemma all_some_app {A} (l1 l2 : list (option A)) a b : all_some l1 = Some a -> all_some l2 = Some b ->
  all_some (l1 ++ l2) = Some (a ++ b).
Proof.
  revert a. induction l1 as [|x l1 IH]; intros a H1 H2; cbn in *; [injection H1 as <-; assumption|].
  destruct x; [|discriminate]. destruct (all_some l1); [|discriminate]. injection H1 as <-.
  rewrite (IH l eq_refl H2). reflexivity.
Qed.

Lemma additions_ok c F all specs c1 c2 ss : supported c -> components_ok F c1 c2 ->
  selects all specs ss -> Forall (species_ok F) ss ->
  additions c F all specs c1 c2 = Some (all_adds c F c1 c2 ss).
Proof.
  intros Hs Hc Hsel Hok. unfold additions. apply selected_ok in Hsel. rewrite Hsel.
  replace (forallb (constructor_ok c F) ss) with true.
  2:{ symmetry. apply forallb_forall. intros s H. apply constructor_ok_iff; [assumption|].
      rewrite Forall_forall in Hok. auto. }
  assert (E : all_some (flat_map (fun s => map (kernel c F s c1 c2) (sparts s)) ss)
              = Some (flat_map (fun s => map (kadds c F c1 c2 s) (sparts s)) ss)).
  { clear Hsel Hok. induction ss as [|s ss IH]; [reflexivity|]. cbn [flat_map].
    apply all_some_app; [|assumption]. apply all_some_map. intros p _. apply kernel_ok; assumption. }
  rewrite E. cbn [option_map]. f_equal. apply concat_flat_map.
Qed.

Lemma accumulate_at l : forall b x,
  accumulate b l x = b x + rsum l (fun e => if list_eq_dec Z.eq_dec x (fst e) then snd e else 0).
Proof.
  induction l as [|e l IH]; intros b x; [unfold accumulate; cbn; ring|].
  change (accumulate (badd b e) l x = b x + ((if list_eq_dec Z.eq_dec x (fst e) then snd e else 0)
    + rsum l (fun e => if list_eq_dec Z.eq_dec x (fst e) then snd e else 0))).
  rewrite IH. unfold badd. destruct list_eq_dec; ring.
Qed.

Lemma moments_at c F all specs c1 c2 ss sched b : supported c -> components_ok F c1 c2 ->
  selects all specs ss -> Forall (species_ok F) ss -> any_order sched ->
  exists b', compute_moments c F all specs c1 c2 sched b = Some b' /\
    forall x, b' x = b x + rsum ss (fun s => rsum (sparts s) (fun p =>
      rsum (kadds c F c1 c2 s p) (fun e => if list_eq_dec Z.eq_dec x (fst e) then snd e else 0))).
Proof.
  intros Hs Hc Hsel Hok Hany. unfold compute_moments. rewrite (additions_ok _ _ _ _ _ _ ss) by assumption.
  cbn [option_map]. eexists. split; [reflexivity|]. intros x. rewrite accumulate_at. f_equal.
  rewrite <- (rsum_perm _ _ _ (Hany _)). unfold all_adds. rewrite rsum_flat_map. apply rsum_ext. intros s _.
  apply rsum_flat_map.
Qed.

(** ** Cartesian grids: the value of every cell *)
Lemma cell_index_cart c q di : cartesian c = true ->
  cell_index c q di = loc (ghosts c) (map2 Z.add (map fst q) di).
Proof.
  intros H. unfold cell_index, loc, index2. rewrite H. destruct (map2 _ _ _) as [|a [|b r]]; reflexivity.
Qed.
Lemma loc_inj g a b : loc g a = loc g b -> a = b.
Proof.
  unfold loc. revert b. induction a as [|x a IH]; intros [|y b] H; cbn in H; try discriminate; [reflexivity|].
  injection H as H1 H2. f_equal; [lia|auto].
Qed.

Lemma kadds_cart c F c1 c2 s p y : cartesian c = true -> supported c ->
  (live p = true -> length (ppos p) = length y /\ Forall (fun q => 0 <= snd q <= 1) (ppos p)) ->
  rsum (kadds c F c1 c2 s p) (fun e => if list_eq_dec Z.eq_dec (loc (ghosts c) y) (fst e) then snd e else 0)
  = if live p then contribution c F s p c1 c2 * weight_d c (ppos p) y else 0.
Proof.
  intros Hcart Hs Hp. unfold kadds. destruct (live p) eqn:El; [|reflexivity].
  destruct (Hp eq_refl) as [HL HF]. rewrite rsum_map. cbn [fst snd].
  rewrite <- (prod_shape_at c (ppos p) Hs HF y) by congruence. rewrite <- rsum_scal.
  apply rsum_ext. intros di _. rewrite cell_index_cart by assumption.
  destruct (list_eq_dec Z.eq_dec y (map2 Z.add (map fst (ppos p)) di)) as [E|E].
  - led E1; [reflexivity|]. elim E1. f_equal. assumption.
  - led E1; [|ring]. apply loc_inj in E1. contradiction.
Qed.

Theorem moments_value c F all specs c1 c2 ss sched b D :
  cartesian c = true -> supported c -> components_ok F c1 c2 -> selects all specs ss ->
  Forall (species_ok F) ss -> any_order sched ->
  (forall s p, In s ss -> In p (sparts s) -> live p = true ->
     length (ppos p) = D /\ Forall (fun q => 0 <= snd q <= 1) (ppos p)) ->
  exists b', compute_moments c F all specs c1 c2 sched b = Some b' /\
    forall y, length y = D -> b' (loc (ghosts c) y) = b (loc (ghosts c) y) +
      rsum ss (fun s => rsum (sparts s) (fun p =>
        if live p then contribution c F s p c1 c2 * weight_d c (ppos p) y else 0)).
Proof.
  intros Hcart Hs Hc Hsel Hok Hany Hp.
  destruct (moments_at c F all specs c1 c2 ss sched b Hs Hc Hsel Hok Hany) as (b' & E & H).
  exists b'. split; [exact E|]. intros y Hy. rewrite H. f_equal. apply rsum_ext. intros s Hsin.
  apply rsum_ext. intros p Hpin. apply kadds_cart; [assumption..|]. intros El.
  destruct (Hp s p Hsin Hpin El). split; [congruence|assumption].
Qed.

(** ** All coordinates: totals over a region *)
Lemma region_total (b b' : buffer) (G : list (list Z)) (A : list (list Z * R)) : NoDup G ->
  (forall x, b' x = b x + rsum A (fun e => if list_eq_dec Z.eq_dec x (fst e) then snd e else 0)) ->
  rsum G b' = rsum G b + rsum A (fun e => if in_dec (list_eq_dec Z.eq_dec) (fst e) G then snd e else 0).
Proof.
  intros Hn H. rewrite (rsum_ext G b' _ (fun x _ => H x)), rsum_plus. f_equal. rewrite rsum_swap.
  apply rsum_ext. intros [k v] _. cbn [fst snd]. destruct in_dec as [Hi|Hi].
  - rewrite (rsum_one G _ k) by (auto; intros y _ Hy; led E; congruence). led E; congruence.
  - apply rsum_none. intros y Hy. led E; congruence.
Qed.

Lemma moments_region c F all specs c1 c2 ss sched b G : supported c -> components_ok F c1 c2 ->
  selects all specs ss -> Forall (species_ok F) ss -> any_order sched -> NoDup G ->
  exists b', compute_moments c F all specs c1 c2 sched b = Some b' /\
    rsum G b' = rsum G b + rsum ss (fun s => rsum (sparts s) (fun p =>
      rsum (kadds c F c1 c2 s p) (fun e => if in_dec (list_eq_dec Z.eq_dec) (fst e) G then snd e else 0))).
Proof.
  intros Hs Hc Hsel Hok Hany Hn.
  destruct (moments_at c F all specs c1 c2 ss sched b Hs Hc Hsel Hok Hany) as (b' & E & H).
  exists b'. split; [exact E|]. rewrite (region_total b b' G (all_adds c F c1 c2 ss) Hn).
  - f_equal. unfold all_adds. rewrite rsum_flat_map. apply rsum_ext. intros s _. apply rsum_flat_map.
  - intros x. rewrite H. f_equal. unfold all_adds. rewrite rsum_flat_map. apply rsum_ext. intros s _. symmetry. apply rsum_flat_map.
Qed.

Lemma in_box_cons a l m n : in_box (a :: l) (m :: n) -> (0 <= a < m)%Z /\ in_box l n.
Proof. intros H. inversion H; subst. split; assumption. Qed.

Lemma storage_rest g w r n di : (w <= g)%Z -> in_box r n -> length di = length r ->
  Forall (fun a => - w <= a <= w)%Z di ->
  Forall2 (fun a q => fst q <= a < snd q)%Z (map (fun a => (a + g)%Z) (map2 Z.add r di)) (map (fun k => (0, k + 2 * g)%Z) n).
Proof.
  intros Hw H. revert di. induction H as [|a m r n Ha Hr IH]; intros di HL Hd.
  - destruct di; cbn; constructor.
  - destruct di as [|d di]; [discriminate|]. inversion Hd; subst. cbn [map2 map]. constructor; [cbn [fst snd]; lia|].
    apply IH; [cbn in HL; congruence|assumption].
Qed.

Lemma index2_storage c a d n2 : (window (order_ c) <= ghosts c)%Z -> (cartesian c = false -> ni2 c = n2) ->
  (0 <= a < n2)%Z -> (- window (order_ c) <= d <= window (order_ c))%Z ->
  (0 <= index2 c (a + d) < n2 + 2 * ghosts c)%Z.
Proof.
  intros Hw Hn Ha Hd. unfold index2. destruct (cartesian c); [lia|]. specialize (Hn eq_refl).
  destruct (Z.ltb_spec (a + d) 0), (Z.leb_spec (ni2 c) (a + d)), (axis_min c), (axis_max c); cbn [andb]; lia.
Qed.

Lemma cell_index_storage c q n di : (window (order_ c) <= ghosts c)%Z ->
  (cartesian c = false -> nth 1 n 0%Z = ni2 c) -> in_box (map fst q) n ->
  In di (offsets_d (window (order_ c)) (length q)) -> In (cell_index c q di) (storage (ghosts c) n).
Proof.
  intros Hw Hn Hq Hdi. pose proof (offsets_d_length _ _ _ Hdi) as HL.
  pose proof (offsets_d_in _ _ _ (window_nonneg _) Hdi) as HF. clear Hdi.
  unfold storage. apply in_boxl. unfold cell_index.
  assert (HL' : length di = length (map fst q)) by (rewrite map_length; assumption). clear HL.
  revert Hq HL'. generalize (map fst q). intros r Hq HL.
  destruct Hq as [|a m r n Ha Hr]; [destruct di; [constructor|discriminate]|].
  destruct di as [|d di]; [discriminate|]. inversion HF as [|? ? Hd HF']; subst. cbn in HL.
  destruct Hr as [|a2 m2 r n Ha2 Hr].
  - destruct di; [|discriminate]. cbn [map map2]. constructor; [cbn [fst snd]; lia|constructor].
  - destruct di as [|d2 di]; [discriminate|]. inversion HF' as [|? ? Hd2 HF2]; subst. cbn in HL, Hn. cbn [map2 map].
    constructor; [cbn [fst snd]; lia|]. constructor; [|apply (storage_rest _ (window (order_ c))); auto; congruence].
    cbn [fst snd]. apply (index2_storage c a2 d2 m2); auto. intros H. symmetry. apply Hn. assumption.
Qed.

Theorem moments_in_bounds c F all specs c1 c2 ss n : supported c -> components_ok F c1 c2 ->
  selects all specs ss -> Forall (species_ok F) ss ->
  (cartesian c = false -> nth 1 n 0%Z = ni2 c) ->
  (forall s p, In s ss -> In p (sparts s) -> live p = true -> inside n p) ->
  exists adds, additions c F all specs c1 c2 = Some adds /\
    Forall (fun e => In (fst e) (storage (ghosts c) n)) adds.
Proof.
  intros Hs Hc Hsel Hok Hn Hp. exists (all_adds c F c1 c2 ss). split; [apply additions_ok; assumption|].
  apply Forall_forall. intros e He. unfold all_adds in He. apply in_flat_map in He as (s & Hsin & He).
  apply in_flat_map in He as (p & Hpin & He). unfold kadds in He. destruct (live p) eqn:El; [|destruct He].
  apply in_map_iff in He as (di & <- & Hdi). cbn [fst]. destruct (Hp s p Hsin Hpin El) as [H1 _].
  apply cell_index_storage; auto. apply Hs.
Qed.

Lemma kadds_total c F c1 c2 s p n : supported c -> (cartesian c = false -> nth 1 n 0%Z = ni2 c) ->
  (live p = true -> inside n p) ->
  rsum (kadds c F c1 c2 s p) (fun e => if in_dec (list_eq_dec Z.eq_dec) (fst e) (storage (ghosts c) n) then snd e else 0)
  = if live p then contribution c F s p c1 c2 else 0.
Proof.
  intros Hs Hn Hp. unfold kadds. destruct (live p) eqn:El; [|reflexivity]. destruct (Hp eq_refl) as [H1 H2].
  rewrite rsum_map. cbn [fst snd].
  rewrite (rsum_ext _ _ (fun di => contribution c F s p c1 c2 * prod_shape c (ppos p) di)).
  - rewrite rsum_scal, prod_shape_sum by assumption. ring.
  - intros di Hdi. destruct in_dec as [|Hi]; [reflexivity|]. elim Hi. apply cell_index_storage; auto. apply Hs.
Qed.

Theorem moments_total c F all specs c1 c2 ss sched b n : supported c -> components_ok F c1 c2 ->
  selects all specs ss -> Forall (species_ok F) ss -> any_order sched ->
  (cartesian c = false -> nth 1 n 0%Z = ni2 c) ->
  (forall s p, In s ss -> In p (sparts s) -> live p = true -> inside n p) ->
  exists b', compute_moments c F all specs c1 c2 sched b = Some b' /\
    rsum (storage (ghosts c) n) b' = rsum (storage (ghosts c) n) b + total c F ss c1 c2.
Proof.
  intros Hs Hc Hsel Hok Hany Hn Hp.
  destruct (moments_region c F all specs c1 c2 ss sched b (storage (ghosts c) n)) as (b' & E & H); auto.
  { apply nodup_box. }
  exists b'. split; [exact E|]. rewrite H. f_equal. unfold total. apply rsum_ext. intros s Hsin.
  apply rsum_ext. intros p Hpin. apply kadds_total; auto. intros El. eauto.
Qed.

(** ** The two axes *)
Lemma sum_second c i1 x1 i2 x2 r (f : Z -> R) : supported c -> 0 <= x1 <= 1 ->
  Forall (fun p => 0 <= snd p <= 1) r ->
  rsum (offsets_d (window (order_ c)) (2 + length r))
    (fun di => f (nth 1 di 0%Z) * prod_shape c ((i1, x1) :: (i2, x2) :: r) di)
  = rsum (offsets (window (order_ c))) (fun d => f d * shp c (Rabs (x2 - (IZR d + 1/2)))).
Proof.
  intros Hs H1 Hr. cbn [Nat.add offsets_d]. rewrite rsum_flat_map.
  rewrite rsum_flat_map.
  rewrite (rsum_ext _ _ (fun t => prod_shape c r t *
     rsum (offsets (window (order_ c))) (fun d => f d * shp c (Rabs (x2 - (IZR d + 1/2)))))).
  - rewrite (rsum_ext _ _ (fun t => rsum (offsets (window (order_ c))) (fun d => f d * shp c (Rabs (x2 - (IZR d + 1/2)))) * prod_shape c r t))
      by (intros; ring).
    rewrite rsum_scal, prod_shape_sum by assumption. ring.
  - intros t _. rewrite rsum_map. rewrite <- rsum_scal. apply rsum_ext. intros d2 _. rewrite rsum_map.
    cbn [nth prod_shape].
    rewrite (rsum_ext _ _ (fun d1 => (f d2 * (shp c (Rabs (x2 - (IZR d2 + 1/2))) * prod_shape c r t)) *
      shp c (Rabs (x1 - (IZR d1 + 1/2))))) by (intros; ring).
    rewrite rsum_scal, shp_sum by assumption. ring.
Qed.

Lemma kadds_rows c F c1 c2 s p n : supported c -> cartesian c = false -> nth 1 n 0%Z = ni2 c ->
  axis_min c = true -> axis_max c = true -> (window (order_ c) < ni2 c)%Z ->
  (live p = true -> inside n p) -> (2 <= length n)%nat ->
  rsum (kadds c F c1 c2 s p) (fun e => if in_dec (list_eq_dec Z.eq_dec) (fst e) (rows (ghosts c) n) then snd e else 0)
  = if live p then contribution c F s p c1 c2 * (1 -
      match ppos p with
      | _ :: (i2, x2) :: _ => weight1 c (IZR i2 + x2 - (IZR (ni2 c) + 1/2)) (ni2 c - i2)
      | _ => 0
      end) else 0.
Proof.
  intros Hs Hcart Hn Hmin Hmax Hw Hp HL. unfold kadds. destruct (live p) eqn:El; [|reflexivity].
  destruct (Hp eq_refl) as [H1 H2]. destruct n as [|n1 [|n2 n]]; [cbn in HL; lia..|]. cbn in Hn. subst n2.
  destruct (ppos p) as [|[i1 x1] [|[i2 x2] r]]; [inversion H1|inversion H1 as [|? ? ? ? ? H']; inversion H'|].
  cbn [map fst] in H1. apply in_box_cons in H1 as [A1 H1]. apply in_box_cons in H1 as [A2 A3].
  inversion H2 as [|? ? B1 H2']; subst. inversion H2' as [|? ? B2 B3]; subst. cbn [snd] in B1, B2.
  rewrite rsum_map. cbn [fst snd]. pose proof (window_nonneg (order_ c)) as Hw0.
  assert (EO : forall d, In d (offsets (window (order_ c))) <-> (- window (order_ c) <= d <= window (order_ c))%Z).
  { intros d. rewrite offsets_range, in_zrange by assumption. lia. }
  rewrite (rsum_ext _ _ (fun di => contribution c F s p c1 c2 *
     ((if Z.eqb (i2 + nth 1 di 0%Z) (ni2 c) then 0 else 1) * prod_shape c ((i1, x1) :: (i2, x2) :: r) di))).
  - rewrite rsum_scal. f_equal. change (length ((i1, x1) :: (i2, x2) :: r)) with (2 + length r)%nat.
    rewrite (sum_second c i1 x1 i2 x2 r (fun d => if Z.eqb (i2 + d) (ni2 c) then 0 else 1)) by assumption.
    rewrite (rsum_ext _ _ (fun d => shp c (Rabs (x2 - (IZR d + 1/2))) +
       -1 * (if Z.eqb (i2 + d) (ni2 c) then shp c (Rabs (x2 - (IZR d + 1/2))) else 0)))
      by (intros d _; destruct Z.eqb; ring).
    rewrite rsum_plus, rsum_scal, shp_sum by assumption.
    destruct (Z.leb_spec (ni2 c - i2) (window (order_ c))) as [Hi|Hi].
    + rewrite (rsum_one _ _ (ni2 c - i2)%Z).
      * cbn beta. replace (i2 + (ni2 c - i2))%Z with (ni2 c) by lia. rewrite Z.eqb_refl.
        rewrite (shp_weight c i2) by (assumption || lia).
        replace (i2 + (ni2 c - i2))%Z with (ni2 c) by lia. ring.
      * rewrite offsets_range by assumption. apply nodup_zrange.
      * apply EO. lia.
      * intros d _ Hd. cbn beta. destruct (Z.eqb_spec (i2 + d) (ni2 c)); [lia|reflexivity].
    + rewrite rsum_none.
      * replace (weight1 c (IZR i2 + x2 - (IZR (ni2 c) + 1/2)) (ni2 c - i2)) with 0; [ring|].
        symmetry. pose proof (weight1_out c i2 x2 (ni2 c - i2) B2) as E.
        replace (i2 + (ni2 c - i2))%Z with (ni2 c) in E by lia. apply E. lia.
      * intros d Hd. apply EO in Hd. cbn beta. destruct (Z.eqb_spec (i2 + d) (ni2 c)); [lia|reflexivity].
  - intros di Hdi. pose proof (offsets_d_length _ _ _ Hdi) as HLd. pose proof (offsets_d_in _ _ _ Hw0 Hdi) as HF.
    destruct di as [|d1 [|d2 di]]; [discriminate..|]. cbn [nth length] in *.
    inversion HF as [|? ? D1 HF1]; subst. inversion HF1 as [|? ? D2 HF2]; subst.
    assert (EI : cell_index c ((i1, x1) :: (i2, x2) :: r) (d1 :: d2 :: di)
       = (i1 + d1 + ghosts c)%Z :: index2 c (i2 + d2) :: map (fun a => (a + ghosts c)%Z) (map2 Z.add (map fst r) di))
      by reflexivity. rewrite EI. clear EI.
    assert (ER : In ((i1 + d1 + ghosts c)%Z :: index2 c (i2 + d2) :: map (fun a => (a + ghosts c)%Z) (map2 Z.add (map fst r) di))
                    (rows (ghosts c) (n1 :: ni2 c :: n)) <-> (i2 + d2)%Z <> ni2 c).
    { destruct Hs as [_ Hs]. unfold rows. rewrite in_boxl. split.
      - intros H. inversion H as [|? ? ? ? _ H']; subst. inversion H' as [|? ? ? ? H3 _]; subst. cbn [fst snd] in H3.
        unfold index2 in H3. rewrite Hcart, Hmin, Hmax in H3. cbn [andb] in H3.
        destruct (Z.ltb_spec (i2 + d2) 0), (Z.leb_spec (ni2 c) (i2 + d2)); lia.
      - intros Hne. constructor; [cbn [fst snd]; lia|]. constructor.
        + cbn [fst snd]. unfold index2. rewrite Hcart, Hmin, Hmax. cbn [andb].
          destruct (Z.ltb_spec (i2 + d2) 0), (Z.leb_spec (ni2 c) (i2 + d2)); lia.
        + apply (storage_rest _ (window (order_ c))); auto. rewrite map_length. congruence. }
    destruct in_dec as [Hi|Hi]; destruct (Z.eqb_spec (i2 + d2) (ni2 c)) as [E|E]; try ring.
    + apply ER in Hi. contradiction.
    + elim Hi. apply ER. assumption.
Qed.

Theorem moments_axis c F all specs c1 c2 ss sched b n : supported c -> components_ok F c1 c2 ->
  selects all specs ss -> Forall (species_ok F) ss -> any_order sched ->
  cartesian c = false -> axis_min c = true -> axis_max c = true ->
  (2 <= length n)%nat -> nth 1 n 0%Z = ni2 c -> (window (order_ c) < ni2 c)%Z ->
  (forall s p, In s ss -> In p (sparts s) -> live p = true -> inside n p) ->
  exists b', compute_moments c F all specs c1 c2 sched b = Some b' /\
    rsum (rows (ghosts c) n) b' = rsum (rows (ghosts c) n) b + total c F ss c1 c2 -
      rsum ss (fun s => rsum (sparts s) (fun p => if live p then contribution c F s p c1 c2 *
        match ppos p with
        | _ :: (i2, x2) :: _ => weight1 c (IZR i2 + x2 - (IZR (ni2 c) + 1/2)) (ni2 c - i2)
        | _ => 0
        end else 0)).
Proof.
  intros Hs Hc Hsel Hok Hany Hcart Hmin Hmax HL Hn Hw Hp.
  destruct (moments_region c F all specs c1 c2 ss sched b (rows (ghosts c) n)) as (b' & E & H); auto.
  { unfold rows. destruct n as [|n1 [|n2 n]]; [constructor..|apply nodup_box]. }
  exists b'. split; [exact E|]. rewrite H. match goal with |- _ = ?a + ?b - ?d => replace (a + b - d) with (a + (b + - d)) by ring end. f_equal.
  rewrite (rsum_ext ss _ (fun s => rsum (sparts s) (fun p => if live p then contribution c F s p c1 c2 else 0)
     + -1 * rsum (sparts s) (fun p => if live p then contribution c F s p c1 c2 *
        match ppos p with
        | _ :: (i2, x2) :: _ => weight1 c (IZR i2 + x2 - (IZR (ni2 c) + 1/2)) (ni2 c - i2)
        | _ => 0
        end else 0))).
  - rewrite rsum_plus. unfold total. f_equal. rewrite (rsum_scal ss). lra.
  - intros s Hsin. rewrite <- rsum_scal, <- rsum_plus. apply rsum_ext. intros p Hpin.
    rewrite (kadds_rows c F c1 c2 s p n) by (auto; intros El; eauto). destruct (live p); ring.
Qed.
