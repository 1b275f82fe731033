(** Proofs for [StatsProps]. *)
From Coq Require Import ZArith List Bool Reals Lra Lia Permutation.
From Verif Require Import Base ListLemmas DecompModel DecompSpec FieldModel HaloSpec HaloProofs HaloTop SyncProofs StepModel StepSpec StepProofs EnergySpec EnergyTop.
From Verif Require Import PhysModel PhysSpec PhysProofs StatsModel StatsSpec.
Import ListNotations.
Open Scope R_scope.

Lemma dom_length ls d : In d (domains ls) -> length (sub_offset_ncells d) = length (sub_ncells d) /\ length (sub_ncells d) = length ls.
Proof.
  intro Hd. destruct (HaloProofs.dom_pos ls d Hd) as [B [E1 E2]].
  assert (Ln : length (sub_ncells d) = length ls) by (rewrite E1; apply size_length; assumption). split; [|exact Ln].
  rewrite Ln, E2. unfold offs. rewrite map2_length. apply in_box_length in B. unfold counts in B. rewrite map_length in B. lia.
Qed.
Lemma edge_centre (F : mem Z) x : (1 <= length x <= 3)%nat ->
  edge_c F x = (centre (on_edge 0) (F 0%Z) x, centre (on_edge 1) (F 1%Z) x, centre (on_edge 2) (F 2%Z) x).
Proof.
  intro H. destruct x as [|i [|j [|k [|l x]]]]; cbn [length] in H; try lia; cbn; apply triple; field.
Qed.
Lemma face_centre (F : mem Z) x : (1 <= length x <= 3)%nat ->
  face_c F x = (centre (on_face 0) (F 3%Z) x, centre (on_face 1) (F 4%Z) x, centre (on_face 2) (F 5%Z) x).
Proof.
  intro H. destruct x as [|i [|j [|k [|l x]]]]; cbn [length] in H; try lia; cbn; apply triple; field.
Qed.
Lemma middle_centre g z : middle g (loc g z) = cell_centre z.
Proof.
  unfold middle, cell_centre, loc. rewrite map_map. apply map_ext. intro i. unfold ch, co. do 2 f_equal. lia.
Qed.
Lemma co_loc g i : co g (i + g) = IZR i. Proof. unfold co. f_equal. lia. Qed.

(** One rank: its kernel in a cell is the density of its own fields, in its own coordinates. *)
Section Rank.
  Variables (g : Z) (down hat : nat -> list R -> R -> R) (hatv : list R -> vec -> vec) (sd : list R -> R) (em cur : mem Z).
  Definition unloc (F : mem Z) : mem Z := fun c y => F c (loc g y).
  Lemma kernel_density q z : valid_stat q -> (1 <= length z <= 3)%nat ->
    field_kernel g down hat hatv sd em cur q (loc g z) = density down hat hatv sd (unloc em) (unloc cur) q z.
  Proof.
    intros Hq HL. assert (HL' : (1 <= length (loc g z) <= 3)%nat) by (unfold loc; rewrite map_length; exact HL).
    destruct q as [I|I|I|]; cbn [field_kernel valid_stat] in *.
    - assert (I = 1 \/ I = 2 \/ I = 3)%nat as [-> | [-> | ->]] by lia;
        destruct z as [|i [|j [|k [|l z]]]]; cbn [length] in HL; try lia;
        unfold e2, squared, ch, density, comp_square, loc; cbn; rewrite !co_loc, ?Rplus_0_r; reflexivity.
    - assert (I = 1 \/ I = 2 \/ I = 3)%nat as [-> | [-> | ->]] by lia;
        destruct z as [|i [|j [|k [|l z]]]]; cbn [length] in HL; try lia;
        unfold b2, squared, ch, density, comp_square, loc; cbn; rewrite !co_loc, ?Rplus_0_r; reflexivity.
    - unfold exb. rewrite edge_centre, face_centre, middle_centre by assumption. cbn [density].
      unfold at_centre, array_of, unloc, each, hats. cbn [stagger Z.of_nat Pos.of_succ_nat Pos.succ Z.add Pos.add].
      rewrite !centre_loc. assert (I = 1 \/ I = 2 \/ I = 3)%nat as [-> | [-> | ->]] by lia; reflexivity.
    - unfold jdote. rewrite !edge_centre, middle_centre by assumption. cbn [density].
      unfold at_centre, array_of, unloc. cbn [stagger Z.of_nat Pos.of_succ_nat Pos.succ Z.add Pos.add].
      rewrite !centre_loc. unfold dot. destruct (hatv _ _) as [[a b] c]. destruct (hatv _ _) as [[a' b'] c']. reflexivity.
  Qed.
End Rank.

Lemma position_add half : forall s z, length s = length z ->
  position half (map2 Z.add s z) = map2 Rplus (map IZR s) (position half z).
Proof.
  intros s z. revert half s. induction z as [|i z IH]; intros half [|a s] H; try discriminate; [reflexivity|].
  cbn [length] in H. cbn. rewrite IH by lia. f_equal. rewrite plus_IZR. ring.
Qed.

Section Shift.
  Variables (g : Z) (ls : list (list Z)).
  Variables (downG hatG : nat -> list R -> R -> R) (hatvG : list R -> vec -> vec) (sdG : list R -> R) (EM CUR : mem Z).
  Variables (em cur : list Z -> mem Z).
  Hypothesis Hg : (1 <= g)%Z.
  Hypothesis HE : agree g ls em EM.
  Hypothesis HJ : agree g ls cur CUR.
  Lemma density_shift d z q down hat hatv sd : In d (domains ls) -> in_box z (sub_ncells d) ->
    let s := map IZR (sub_offset_ncells d) in
    (forall a x v, down a x v = downG a (map2 Rplus s x) v) -> (forall a x v, hat a x v = hatG a (map2 Rplus s x) v) ->
    (forall x v, hatv x v = hatvG (map2 Rplus s x) v) -> (forall x, sd x = sdG (map2 Rplus s x)) ->
    density down hat hatv sd (unloc g (em (sub_offset_ndomains d))) (unloc g (cur (sub_offset_ndomains d))) q z =
    density downG hatG hatvG sdG EM CUR q (map2 Z.add (sub_offset_ncells d) z).
  Proof.
    intros Hd Hz s Hdn Hht Hhv Hsd.
    assert (HL : length (sub_offset_ncells d) = length z).
    { rewrite (proj1 (dom_length ls d Hd)). symmetry. eapply Forall2_length. exact Hz. }
    assert (V : forall f a, array_of SRPIC f (unloc g (em (sub_offset_ndomains d))) (unloc g (em (sub_offset_ndomains d)))
        (unloc g (cur (sub_offset_ndomains d))) a z = array_of SRPIC f EM EM CUR a (map2 Z.add (sub_offset_ncells d) z)).
    { assert (Ze : in_extended g z (sub_ncells d)).
      { apply (corner_extended g z); [assumption|assumption|]. clear. induction z; constructor; auto. }
      intros f a. destruct f; cbn; unfold unloc; first [apply HE; assumption|apply HJ; assumption]. }
    assert (C : forall f, at_centre (unloc g (em (sub_offset_ndomains d))) (unloc g (cur (sub_offset_ndomains d))) f z =
        at_centre EM CUR f (map2 Z.add (sub_offset_ncells d) z)).
    { intro f. unfold at_centre. apply triple; rewrite <- centre_move by assumption; apply centre_ext; intros y Hy;
      pose proof (corner_extended g z _ y Hg Hz Hy) as Hye;
      destruct f; cbn; unfold unloc; first [apply HE; assumption|apply HJ; assumption]. }
    assert (M : map2 Rplus s (cell_centre z) = cell_centre (map2 Z.add (sub_offset_ncells d) z)) by (apply centre_add; assumption).
    assert (P : forall h, map2 Rplus s (position h z) = position h (map2 Z.add (sub_offset_ncells d) z))
      by (intro; symmetry; apply position_add; assumption).
    destruct q; cbn [density].
    - unfold comp_square. rewrite V, Hdn, Hsd, P. reflexivity.
    - unfold comp_square. rewrite V, Hdn, Hsd, P. reflexivity.
    - rewrite !C. unfold each. unfold at_centre at 1 2. rewrite !Hht, Hsd, M. reflexivity.
    - rewrite !C, !Hhv, Hsd, M. reflexivity.
  Qed.
End Shift.

Lemma active_loc g n : range_active g n = map (loc g) (box (map (fun a => (- 0, a + 0)%Z) n)).
Proof.
  rewrite range_active_box. induction n as [|a n IH]; [reflexivity|]. cbn [map box].
  replace (zrange g (a + g)) with (map (fun i => i + g)%Z (zrange (- 0) (a + 0))).
  2:{ unfold zrange. rewrite map_map. replace (a + g - g)%Z with (a + 0 - - 0)%Z by lia. apply map_ext. intro. lia. }
  rewrite IH. induction (zrange (- 0) (a + 0)) as [|i l IHl]; [reflexivity|]. cbn [map flat_map]. rewrite map_app, IHl. f_equal.
  rewrite !map_map. reflexivity.
Qed.
Lemma field_columns g ls downG hatG hatvG sdG EM CUR em cur down hat hatv sd V q order ranks :
  (1 <= g)%Z -> wide g ls -> (1 <= length ls <= 3)%nat -> valid_stat q ->
  agree g ls em EM -> agree g ls cur CUR ->
  (forall d, In d (domains ls) -> let s := map IZR (sub_offset_ncells d) in
     (forall a x v, down d a x v = downG a (map2 Rplus s x) v) /\ (forall a x v, hat d a x v = hatG a (map2 Rplus s x) v) /\
     (forall x v, hatv d x v = hatvG (map2 Rplus s x) v) /\ (forall x, sd d x = sdG (map2 Rplus s x))) ->
  (forall d, In d (domains ls) -> Permutation (order d) (range_active g (sub_ncells d))) ->
  Permutation ranks (domains ls) ->
  rsum ranks (fun d => let o := sub_offset_ndomains d in
    reduce_fields g (down d) (hat d) (hatv d) (sd d) (em o) (cur o) V q (order d)) =
  rsum (box (map (fun n => (0%Z, n)) (map sumZ ls))) (density downG hatG hatvG sdG EM CUR q) / V.
Proof.
  intros Hg W HD Hq HE HJ HM HO HR. cbv zeta. rewrite (rsum_perm _ _ _ HR).
  rewrite (rsum_ext _ _ (fun d => / V * rsum (box (map (fun a => (- 0, a + 0)%Z) (sub_ncells d)))
      (fun z => density downG hatG hatvG sdG EM CUR q (glob (d, z))))).
  - rewrite rsum_scal. change (rsum (box (map (fun n => (0%Z, n)) (map sumZ ls)))) with (total (map sumZ ls)).
    rewrite <- (cells_total g ls _ W). unfold cells. rewrite rsum_flat_map. unfold Rdiv. rewrite Rmult_comm. f_equal.
    apply rsum_ext. intros d _. rewrite rsum_map. reflexivity.
  - intros d Hd. unfold reduce_fields. rewrite (rsum_perm _ _ _ (HO d Hd)), active_loc, rsum_map. unfold Rdiv. rewrite Rmult_comm. f_equal.
    apply rsum_ext. intros z Hz.
    assert (Bz : in_box z (sub_ncells d)) by (apply ext0_box, in_box_ext_list; exact Hz).
    destruct (dom_length ls d Hd) as [_ Ln].
    rewrite kernel_density; [|assumption|rewrite (in_box_length _ _ Bz); lia].
    destruct (HM d Hd) as (H1 & H2 & H3 & H4).
    exact (density_shift g ls downG hatG hatvG sdG EM CUR em cur Hg HE HJ d z q _ _ _ _ Hd Bz H1 H2 H3 H4).
Qed.
