From Coq Require Import ZArith List Reals Lra Lia Permutation Bool FunctionalExtensionality.
From Verif Require Import Base ListLemmas DecompModel DecompSpec DirsModel DirsSpec TopoModel TopoSpec TopoProofs TopoTop FieldModel FieldProofs
  InterpSpec HaloSpec HaloModel HaloProofs HaloTop SyncProofs DepositModel FilterModel StepModel StepSpec StepProofs StepTop
  EnergySpec EnergyProofs EnergyTop FilterSpec.
Import ListNotations.
Open Scope R_scope.

(** ** The kernel away from conductors and axes *)
Definition free (cfg : filter_cfg) : Prop :=
  fcart cfg = true /\ Forall (fun c => c = (false, false)) (fcond cfg).

Lemma jset_here arr c x v : jset arr c x v c x = v.
Proof. unfold set. destruct (jcomp_eq_dec c c); [|congruence]. destruct (list_eq_dec _ _ _); [reflexivity|congruence]. Qed.
Lemma jset_c arr c x v c' y : c' <> c -> jset arr c x v c' y = arr c' y.
Proof. intro H. unfold set. destruct (jcomp_eq_dec c' c); [congruence|reflexivity]. Qed.
Lemma jset_x arr c x v c' y : y <> x -> jset arr c x v c' y = arr c' y.
Proof. intro H. unfold set. destruct (jcomp_eq_dec c' c); [|reflexivity]. destruct (list_eq_dec _ _ _); [congruence|reflexivity]. Qed.

Lemma free_cond cfg d : free cfg -> nth d (fcond cfg) (false, false) = (false, false).
Proof.
  intros [_ H]. revert d. induction H as [|c l Hc Hl IH]; intros [|d]; cbn; auto.
Qed.
Lemma free_wall cfg d i : free cfg -> wall cfg d i = false.
Proof. intro H. unfold wall. rewrite (free_cond cfg d H). reflexivity. Qed.
Lemma free_next cfg d i : free cfg -> next_wall cfg d i = false.
Proof. intro H. unfold next_wall. rewrite (free_cond cfg d H). reflexivity. Qed.

Lemma body_is cfg b arr x : free cfg -> (1 <= length x <= 3)%nat ->
  filter_body cfg b arr x = all3 arr x (fun c => coded_filter (b c) x).
Proof.
  intros HF HL.
  destruct x as [|i [|j [|k [|? ?]]]]; cbn [length] in HL; try lia; cbn [filter_body].
  - unfold filter_1d. rewrite free_wall, free_next by assumption. f_equal. apply functional_extensionality. intro c.
    unfold coded_filter, product_filter, smooth, stencil1, Z.sub. cbn [length Nat.eqb shift Z.opp]. field.
  - rewrite (proj1 HF). unfold filter_2d_cart. rewrite !free_wall, !free_next by assumption. f_equal. apply functional_extensionality. intro c.
    unfold coded_filter, product_filter, smooth, stencil2, Z.sub. cbn [length Nat.eqb shift Z.opp]. field.
  - unfold filter_3d. rewrite !free_wall, !free_next by assumption. f_equal. apply functional_extensionality. intro c.
    unfold coded_filter, product_filter, smooth, misplaced, stencil3, Z.sub. cbn [length Nat.eqb shift Z.opp]. field.
Qed.
Lemma all3_here arr x f c : all3 arr x f c x = f c.
Proof. unfold all3, set. destruct c; cbn; destruct (list_eq_dec _ _ _); congruence. Qed.
Lemma all3_frame arr x f c y : y <> x -> all3 arr x f c y = arr c y.
Proof. intro H. unfold all3. rewrite !jset_x; auto. Qed.
Lemma body_frames cfg b : free cfg -> frames (fun _ => true) (filter_body cfg b).
Proof.
  intros HF m x c y [H|H]; [discriminate|].
  assert (C : (1 <= length x <= 3)%nat \/ filter_body cfg b m x = m).
  { destruct x as [|i [|j [|k [|l x]]]]; cbn; auto; left; lia. }
  destruct C as [C| ->]; [|reflexivity]. rewrite body_is by assumption. apply all3_frame. assumption.
Qed.
Lemma body_local cfg b : free cfg -> local_body (fun _ => true) (filter_body cfg b).
Proof.
  intros HF m m' c x _ _ H. specialize (H c I).
  assert (C : (1 <= length x <= 3)%nat \/ forall m, filter_body cfg b m x = m).
  { destruct x as [|i [|j [|k [|l x]]]]; cbn; auto; left; lia. }
  destruct C as [C|C]; [|rewrite !C; assumption]. rewrite !body_is, !all3_here by assumption. reflexivity.
Qed.

(** ** Periodic boxes have neither conductors nor axes *)
Lemma face_aligned D k s : (k < D)%nat -> (s = -1 \/ s = 1)%Z ->
  axis_aligned D (repeat 0%Z k ++ [s] ++ repeat 0%Z (D - S k)) k s.
Proof.
  intros Hk Hs. split; [|split; [assumption|split; [lia|]]].
  - split.
    + rewrite !app_length, !repeat_length. cbn. lia.
    + apply Forall_app. split; [|constructor].
      * apply Forall_forall. intros x Hx. apply repeat_spec in Hx. subst. lia.
      * lia.
      * apply Forall_forall. intros x Hx. apply repeat_spec in Hx. subst. lia.
  - intros j Hj. destruct (Nat.eqb_spec j k) as [->|N].
    + rewrite app_nth2, repeat_length, Nat.sub_diag by (rewrite repeat_length; lia). reflexivity.
    + destruct (Nat.lt_ge_cases j k).
      * rewrite app_nth1 by (rewrite repeat_length; lia). apply nth_repeat.
      * rewrite app_nth2, repeat_length by (rewrite repeat_length; lia).
        destruct (j - k)%nat as [|q] eqn:Q; [lia|]. cbn. apply nth_repeat.
Qed.
Lemma periodic_faces ls gbc o k s b : length gbc = length ls -> all_periodic gbc -> in_box o (counts ls) ->
  (k < length ls)%nat -> (s = -1 \/ s = 1)%Z -> b <> F_PERIODIC -> b <> F_SYNC ->
  is_bc ls gbc b o (face ls k s) = false.
Proof.
  intros L AP Ho Hk Hs N1 N2. unfold is_bc.
  destruct (flds_bc_eq_dec _ _) as [E|]; [exfalso|reflexivity].
  assert (LN : length (counts ls) = length ls) by apply map_length.
  assert (AA : axis_aligned (length (counts ls)) (face ls k s) k s) by (rewrite LN; apply face_aligned; auto).
  assert (NS : Forall (fun b => fst b <> F_SYNC /\ snd b <> F_SYNC) gbc).
  { eapply Forall_impl; [|exact AP]. intros c ->. cbn. split; discriminate. }
  assert (US : user_bc F_INVALID gbc k s = F_PERIODIC).
  { unfold user_bc. assert (Q : nth k gbc (F_INVALID, F_INVALID) = (F_PERIODIC, F_PERIODIC)).
    { apply (proj1 (Forall_forall _ _) AP). apply nth_In. lia. }
    rewrite Q. destruct (s =? -1)%Z; reflexivity. }
  destruct (face_condition flds_bc_eq_dec F_INVALID F_PERIODIC F_SYNC (counts ls) gbc o (face ls k s) k s) as [F1 F2]; auto; [congruence|].
  assert (E' : bc_in flds_bc_eq_dec F_INVALID F_PERIODIC F_SYNC (counts ls) gbc o (face ls k s) = b) by exact E.
  cbv zeta in F1, F2. rewrite E', US in *.
  assert (CP : (1 <= nth k (counts ls) 0)%Z).
  { assert (Hk' : (k < length (counts ls))%nat) by lia. clear -Ho Hk'. revert k Hk'.
    unfold in_box in Ho. induction Ho as [|a b x n H1 H2 IH]; intros [|k] Hk'; cbn in *; try lia. apply IH. lia. }
  assert (DEC : on_global_boundary (counts ls) o k s \/ ~ on_global_boundary (counts ls) o k s) by (unfold on_global_boundary; lia).
  destruct DEC as [G|G].
  - destruct (F1 G) as [_ [Q1 Q2]].
    destruct (Z.eq_dec (nth k (counts ls) 0%Z) 1) as [C1|C1].
    + exact (N1 (Q1 eq_refl C1)).
    + assert (C2 : (1 < nth k (counts ls) 0)%Z) by lia. exact (N2 (Q2 eq_refl C2)).
  - exact (N2 (F2 G)).
Qed.

Lemma filter_free g ls gbc o : length gbc = length ls -> all_periodic gbc -> in_box o (counts ls) ->
  free (filter_args g ls gbc o).
Proof.
  intros L AP Ho. split; [reflexivity|]. cbn [filter_args fcond]. apply Forall_map. apply Forall_forall. intros k Hk.
  apply in_seq in Hk.
  rewrite !(periodic_faces ls gbc o k _ F_CONDUCTOR); auto; try discriminate; lia.
Qed.

(** ** Reach of the stencil *)
Section Reach.
  Variables (g : Z) (n off : list Z).
  Hypothesis Hlen : length off = length n.
  Definition reach (r : nat -> Z) (y : list Z) : Prop :=
    length y = length n /\ forall k, (k < length n)%nat -> (- r k <= nth k y 0 < nth k n 0 + r k)%Z.
  Definition bump (r : nat -> Z) (a : nat) (k : nat) : Z := if Nat.eqb k a then (r k + 1)%Z else r k.
  Definition agr (r : nat -> Z) (f h : list Z -> R) : Prop :=
    forall y, reach r y -> f (loc g y) = h (map2 Z.add off y).

  Lemma nth_shift a k y i : (i < length y)%nat -> nth i (shift a k y) 0%Z = (nth i y 0 + if Nat.eqb i a then k else 0)%Z.
  Proof.
    revert a i. induction y as [|v y IH]; intros [|a] [|i] H; cbn in *; try lia.
    apply IH. lia.
  Qed.
  Lemma reach_shift r a k y : (-1 <= k <= 1)%Z -> reach r y -> reach (bump r a) (shift a k y).
  Proof.
    intros Hk [H1 H2]. split; [rewrite shift_length; assumption|]. intros i Hi. specialize (H2 i Hi).
    rewrite nth_shift by lia. unfold bump. destruct (Nat.eqb i a); lia.
  Qed.
  Lemma reach_bump r a y : reach r y -> reach (bump r a) y.
  Proof. intros [H1 H2]. split; [assumption|]. intros i Hi. specialize (H2 i Hi). unfold bump. destruct (Nat.eqb i a); lia. Qed.
  Lemma agr_shift r a k f h : (-1 <= k <= 1)%Z -> agr (bump r a) f h -> agr r (fun x => f (shift a k x)) (fun x => h (shift a k x)).
  Proof.
    intros Hk H y Hy. rewrite shift_loc, (H _ (reach_shift r a k y Hk Hy)). f_equal. apply shift_add.
    destruct Hy as [Hy _]. congruence.
  Qed.
  Lemma agr_bump r a f h : agr (bump r a) f h -> agr r f h.
  Proof. intros H y Hy. apply H. apply reach_bump. assumption. Qed.
  Lemma agr_smooth r a f h : agr (bump r a) f h -> agr r (smooth a f) (smooth a h).
  Proof.
    intros H y Hy. unfold smooth.
    rewrite (agr_shift r a (-1) f h ltac:(lia) H y Hy), (agr_shift r a 1 f h ltac:(lia) H y Hy), (agr_bump r a f h H y Hy).
    reflexivity.
  Qed.
  Lemma agr_coded f h : (1 <= g)%Z ->
    (forall z, in_extended g z n -> f (loc g z) = h (map2 Z.add off z)) -> agr (fun _ => 0%Z) (coded_filter f) (coded_filter h).
  Proof.
    intros Hg HA.
    assert (A1 : agr (bump (bump (bump (fun _ => 0%Z) 0) 1) 2) f h).
    { intros y [H1 H2]. apply HA. unfold in_extended. clear -H1 H2 Hg.
      assert (H3 : forall k, (k < length n)%nat -> (- g <= nth k y 0 < nth k n 0 + g)%Z).
      { intros k Hk. specialize (H2 k Hk). unfold bump in H2. destruct k as [|[|[|k]]]; cbn in H2; lia. }
      clear H2. revert y H1 H3. induction n as [|b m IH]; intros [|i y] H1 H3; cbn in H1; try discriminate; constructor.
      - specialize (H3 0%nat). cbn in H3. lia.
      - apply IH; [lia|]. intros k Hk. specialize (H3 (S k)). cbn in H3. apply H3. lia. }
    intros y Hy. unfold coded_filter, product_filter.
    rewrite (agr_smooth (fun _ => 0%Z) 0 (smooth 1 (smooth 2 f)) (smooth 1 (smooth 2 h))) by
      (auto; apply agr_smooth, agr_smooth; assumption).
    f_equal. pose proof (proj1 Hy) as Ly. unfold loc at 1. rewrite map_length.
    replace (length (map2 Z.add off y)) with (length y) by (rewrite map2_length; lia).
    destruct (Nat.eqb (length y) 3); [|reflexivity].
    assert (A2 : agr (bump (bump (fun _ => 0%Z) 1) 2) f h).
    { intros z Hz. apply A1. destruct Hz as [Z1 Z2]. split; [assumption|]. intros k Hk. specialize (Z2 k Hk).
      unfold bump in *. destruct k as [|[|[|k]]]; cbn in *; lia. }
    assert (A3 : agr (bump (fun _ => 0%Z) 2) f h).
    { intros z Hz. apply A2. destruct Hz as [Z1 Z2]. split; [assumption|]. intros k Hk. specialize (Z2 k Hk).
      unfold bump in *. destruct k as [|[|[|k]]]; cbn in *; lia. }
    unfold misplaced. rewrite !(shift_comm 1 _ 2).
    pose proof (agr_shift _ 2 (-1) f h ltac:(lia) A3 y Hy) as B1. cbv beta in B1. rewrite B1.
    pose proof (agr_shift _ 2 1 f h ltac:(lia) A3 y Hy) as B2. cbv beta in B2. rewrite B2.
    pose proof (agr_shift _ 1 (-1) _ _ ltac:(lia) (agr_shift _ 2 1 f h ltac:(lia) A2) y Hy) as B3. cbv beta in B3. rewrite B3.
    pose proof (agr_shift _ 1 1 _ _ ltac:(lia) (agr_shift _ 2 (-1) f h ltac:(lia) A2) y Hy) as B4. cbv beta in B4. rewrite B4.
    reflexivity.
  Qed.
End Reach.
  Lemma box_reach n y : in_box y n -> reach n (fun _ => 0%Z) y.
  Proof.
    unfold in_box. intro H. induction H as [|i b y m H1 H2 IH].
    - split; [reflexivity|]. cbn. lia.
    - destruct IH as [I1 I2]. split; [cbn; lia|]. intros [|k] Hk; cbn in *; [lia|]. apply I2. lia.
  Qed.

(** ** Passes *)
Section Passes.
  Variables (g : Z) (ls : list (list Z)) (gbc : list (flds_bc * flds_bc)).
  Hypothesis W : wide g ls.
  Hypothesis L : length gbc = length ls.
  Hypothesis AP : all_periodic gbc.
  Hypothesis HD : dimension (length ls).
  Hypothesis Hg : (1 <= g)%Z.
  Let N := map sumZ ls.

  Lemma per_smooth a f : per1 N f -> per1 N (smooth a f).
  Proof.
    intros H x y Hx Hy Hm. unfold smooth.
    rewrite (H x y), (per_shift N f a (-1) H x y), (per_shift N f a 1 H x y); auto.
  Qed.
  Lemma per_coded f : per1 N f -> per1 N (coded_filter f).
  Proof.
    intros H x y Hx Hy Hm. unfold coded_filter, product_filter.
    rewrite (per_smooth 0 (smooth 1 (smooth 2 f)) (per_smooth 1 _ (per_smooth 2 f H)) x y) by auto.
    f_equal. rewrite Hx, Hy. destruct (Nat.eqb _ _); [|reflexivity]. unfold misplaced.
    rewrite (per_shift N f 2 (-1) H x y), (per_shift N f 2 1 H x y) by auto.
    rewrite !(shift_comm 1 _ 2).
    rewrite (per_shift N _ 1 (-1) (per_shift N f 2 1 H) x y), (per_shift N _ 1 1 (per_shift N f 2 (-1) H) x y) by auto.
    reflexivity.
  Qed.

  Lemma filter_pass_agree thr es cur cur' Jr : any_order thr -> complete ls es -> periodic N Jr ->
    agree g ls cur Jr -> filter_pass g ls gbc thr es cur = Some cur' ->
    agree g ls cur' (fun c => coded_filter (Jr c)).
  Proof.
    intros HT HC HP HA HX. unfold filter_pass in HX.
    refine (comm_agree g ls gbc W L AP (fun _ => true) es _ cur' _ _ HC _ _ HX).
    - rewrite per_of in *. intro c. apply per_coded. apply HP.
    - intros d c y Hd Hy. destruct (dom_len ls d Hd) as [L1 [L2 L3]].
      destruct (dom_pos ls d Hd) as [Bo _].
      pose proof (filter_free g ls gbc _ L AP Bo) as FR.
      assert (LL : length (loc g y) = length ls).
      { unfold loc. rewrite map_length, <- L2. apply in_box_length. assumption. }
      rewrite (launch_active g ls (fun _ => true)) by
        (auto using body_frames, body_local; rewrite L3; assumption).
      rewrite body_is, all3_here by (auto; rewrite LL; exact HD).
      exact (agr_coded g (sub_ncells d) (sub_offset_ncells d) L1 _ _ Hg (fun z Hz => HA d c z Hd Hz) y (box_reach _ _ Hy)).
    - discriminate.
  Qed.

  Lemma filter_passes_agree l : forall cur cur' Jr, Forall (fun te => any_order (fst te) /\ complete ls (snd te)) l -> periodic N Jr ->
    agree g ls cur Jr -> filter_passes g ls gbc l cur = Some cur' ->
    agree g ls cur' (fun c => passes (length l) (Jr c)).
  Proof.
    induction l as [|[thr es] l IH]; intros cur cur' Jr HF HP HA; cbn [filter_passes passes length].
    - intro X. injection X as <-. exact HA.
    - inversion HF as [|? ? [H1 H2] H3]; subst. cbn in H1, H2. unfold obind.
      destruct (filter_pass g ls gbc thr es cur) as [cur1|] eqn:X; [|discriminate]. intro Y.
      apply (IH cur1 cur' (fun c => coded_filter (Jr c))); auto.
      + rewrite per_of in *. intro c. apply per_coded. apply HP.
      + eapply filter_pass_agree; eauto.
  Qed.
End Passes.
