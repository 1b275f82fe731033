(** Proofs for [PhysProps]. *)
From Coq Require Import ZArith List Bool Reals Lra Lia Permutation.
From Verif Require Import Base ListLemmas DecompModel DecompSpec DirsSpec HaloSpec HaloModel HaloProofs SyncProofs FieldModel FieldProofs StepModel StepSpec StepProofs PhysModel PhysSpec.
Import ListNotations.
Open Scope R_scope.

(** ** The kernel *)
Definition W345 (c : Z) : bool := (3 <=? c)%Z && (c <? 6)%Z.
Lemma store_frame F x f c y : W345 c = false \/ y <> x -> store 3 4 5 F x f c y = F c y.
Proof.
  intro H. destruct f as [[a b] d]. unfold store.
  destruct (list_eq_dec Z.eq_dec y x) as [->|N].
  - destruct H as [H|H]; [|congruence]. unfold W345 in H.
    rewrite !set_neq_c; [reflexivity|..]; intros ->; discriminate.
  - rewrite !set_neq_x by assumption. reflexivity.
Qed.
Lemma store_at F x f : (store 3 4 5 F x f 3%Z x, store 3 4 5 F x f 4%Z x, store 3 4 5 F x f 5%Z x) = f.
Proof.
  destruct f as [[a b] d]. unfold store.
  rewrite !(set_neq_c _ _ 5%Z) by lia. rewrite !(set_neq_c _ _ 4%Z x b 3%Z) by lia. rewrite !set_eq. reflexivity.
Qed.
Lemma store_same F F' x f c : (forall c, F c x = F' c x) -> store 3 4 5 F x f c x = store 3 4 5 F' x f c x.
Proof.
  intro H. destruct f as [[a b] d]. unfold store, set.
  destruct (Z.eq_dec c 5); [destruct (list_eq_dec Z.eq_dec x x); congruence|].
  destruct (Z.eq_dec c 4); [destruct (list_eq_dec Z.eq_dec x x); congruence|].
  destruct (Z.eq_dec c 3); [destruct (list_eq_dec Z.eq_dec x x); congruence|]. apply H.
Qed.

Section Kernel.
  Variables (g : Z) (fl : pflags) (tr : basis -> list R -> vec -> vec).
  Let body := phys_body g fl tr 0 1 2 3 4 5.
  Lemma phys_frames : frames W345 body.
  Proof.
    intros m x c y H. unfold body, phys_body.
    destruct x as [|i [|j [|k [|l x]]]]; try reflexivity; apply store_frame; assumption.
  Qed.
  Lemma phys_local : local_body W345 body.
  Proof.
    intros m m' c x _ H1 H2. unfold body, phys_body.
    assert (A : forall c y, (c = 0 \/ c = 1 \/ c = 2)%Z -> m c y = m' c y).
    { intros c0 y H. apply H1. destruct H as [-> | [-> | ->]]; reflexivity. }
    destruct x as [|i [|j [|k [|l x]]]]; try (apply H2; exact I).
    - replace (interp_1d fl 0 1 2 m i) with (interp_1d fl 0 1 2 m' i) by (unfold interp_1d; rewrite !A by lia; reflexivity).
      apply store_same. intro. apply H2. exact I.
    - replace (interp_2d fl 0 1 2 m i j) with (interp_2d fl 0 1 2 m' i j) by (unfold interp_2d; rewrite !A by lia; reflexivity).
      apply store_same. intro. apply H2. exact I.
    - replace (interp_3d fl 0 1 2 m i j k) with (interp_3d fl 0 1 2 m' i j k) by (unfold interp_3d; rewrite !A by lia; reflexivity).
      apply store_same. intro. apply H2. exact I.
  Qed.
End Kernel.

Lemma place_centre g fl z : edges fl || faces fl = true -> place g fl (loc g z) = cell_centre z.
Proof.
  intro H. unfold place, cell_centre, loc. rewrite H, map_map. apply map_ext. intro i. f_equal. f_equal. lia.
Qed.

Lemma triple (a b c a' b' c' : R) : a = a' -> b = b' -> c = c' -> (a, b, c) = (a', b', c').
Proof. congruence. Qed.
(** The interpolation is the centre. *)
Lemma interp_edges g fl tr (F : mem Z) x : edges fl = true -> (1 <= length x <= 3)%nat ->
  phys_body g fl tr 0 1 2 3 4 5 F x =
  store 3 4 5 F x (convert fl tr (place g fl x) (centre (on_edge 0) (F 0%Z) x, centre (on_edge 1) (F 1%Z) x, centre (on_edge 2) (F 2%Z) x)).
Proof.
  intros He HL. unfold phys_body.
  destruct x as [|i [|j [|k [|l x]]]]; cbn [length] in HL; try lia; f_equal; f_equal;
    unfold interp_1d, interp_2d, interp_3d; rewrite He; unfold on_edge; cbn [centre Nat.eqb]; apply triple; lra.
Qed.
Lemma interp_faces g fl tr (F : mem Z) x : edges fl = false -> faces fl = true -> (1 <= length x <= 3)%nat ->
  phys_body g fl tr 0 1 2 3 4 5 F x =
  store 3 4 5 F x (convert fl tr (place g fl x) (centre (on_face 0) (F 0%Z) x, centre (on_face 1) (F 1%Z) x, centre (on_face 2) (F 2%Z) x)).
Proof.
  intros He Hf HL. unfold phys_body.
  destruct x as [|i [|j [|k [|l x]]]]; cbn [length] in HL; try lia; f_equal; f_equal;
    unfold interp_1d, interp_2d, interp_3d; rewrite He, Hf; unfold on_face; cbn [centre Nat.eqb negb]; apply triple; lra.
Qed.

Lemma centre_ext half F G x : (forall y, corner x y -> F y = G y) -> centre half F x = centre half G x.
Proof.
  revert half F G. induction x as [|i x IH]; intros half F G H; cbn [centre]; [apply H; constructor|].
  rewrite (IH _ (fun y => F (i :: y)) (fun y => G (i :: y))) by (intros; apply H; constructor; auto).
  rewrite (IH _ (fun y => F ((i + 1)%Z :: y)) (fun y => G ((i + 1)%Z :: y))) by (intros; apply H; constructor; auto).
  reflexivity.
Qed.

Section Write.
  Variables (g : Z) (S : engine) (f : fid) (tr : basis -> list R -> vec -> vec) (em aux cur : mem Z).
  Let out as_is order := write_vector g S f as_is tr em aux cur order.
  Let A := array_of S f em aux cur.

  Lemma source_is a x : (a < 3)%nat -> fst (source S f em aux cur) (Z.of_nat a + snd (source S f em aux cur))%Z x = A a x.
  Proof.
    intro Ha. unfold source, A, array_of.
    destruct f, S; cbn [is_current is_gr_aux_field is_efield fst snd]; rewrite ?Z.add_0_r; reflexivity.
  Qed.
  Definition start : mem Z :=
    let b := deep_copy3 (fst (source S f em aux cur)) (fun _ _ => 0) (snd (source S f em aux cur)) 0 in deep_copy3 b b 0 3.
  Lemma start_lo a x : (a < 3)%nat -> start (Z.of_nat a) x = A a x.
  Proof.
    intro Ha. rewrite <- source_is by assumption. unfold start, deep_copy3.
    destruct (Z.leb_spec 3 (Z.of_nat a)); [lia|]. destruct (Z.leb_spec 0 (Z.of_nat a)); [|lia].
    destruct (Z.ltb_spec (Z.of_nat a) (0 + 3)); [|lia]. cbn [andb]. f_equal. lia.
  Qed.
  Lemma start_hi a x : (a < 3)%nat -> start (Z.of_nat a + 3)%Z x = A a x.
  Proof.
    intro Ha. rewrite <- source_is by assumption. unfold start, deep_copy3.
    destruct (Z.leb_spec 3 (Z.of_nat a + 3)); [|lia]. destruct (Z.ltb_spec (Z.of_nat a + 3) (3 + 3)); [|lia]. cbn [andb].
    destruct (Z.leb_spec 0 (Z.of_nat a + 3 - 3 + 0)); [|lia]. destruct (Z.ltb_spec (Z.of_nat a + 3 - 3 + 0) (0 + 3)); [|lia].
    cbn [andb]. f_equal. lia.
  Qed.
  Lemma out_is order : out false order = par_for (phys_body g (output_flags S f) tr 0 1 2 3 4 5) order start.
  Proof. unfold out, write_vector, start. destruct (source S f em aux cur). reflexivity. Qed.

  Lemma flags_one : edges (output_flags S f) || faces (output_flags S f) = true.
  Proof. destruct S, f; reflexivity. Qed.
  Lemma flags_conv x v : convert (output_flags S f) tr x v = tr (basis_of S f) x v.
  Proof. destruct S, f; reflexivity. Qed.

  (** In the active cells. *)
  Lemma out_active n order z : (1 <= length n <= 3)%nat -> Permutation order (range_active g n) -> in_box z n ->
    let o := out false order in let x := loc g z in
    (o 3%Z x, o 4%Z x, o 5%Z x) =
    tr (basis_of S f) (cell_centre z) (centre (stagger f 0) (A 0%nat) x, centre (stagger f 1) (A 1%nat) x, centre (stagger f 2) (A 2%nat) x).
  Proof.
    intros Hn HP Hz. cbv zeta. rewrite out_is.
    assert (HL : length (loc g z) = length n) by (unfold loc; rewrite map_length; eapply Forall2_length; exact Hz).
    assert (ND : NoDup order) by (eapply Permutation_NoDup; [apply Permutation_sym; eassumption|apply range_active_nodup]).
    assert (HI : In (loc g z) order) by (eapply Permutation_in; [apply Permutation_sym; eassumption|apply range_active_in; assumption]).
    rewrite !(par_for_in W345 _ order start _ (loc g z) (phys_frames _ _ _) (phys_local _ _ _) ND HI).
    assert (C : forall a half, (a < 3)%nat -> centre half (start (Z.of_nat a)) (loc g z) = centre half (A a) (loc g z)).
    { intros a half Ha. apply centre_ext. intros y _. apply start_lo. assumption. }
    pose proof (C 0%nat) as C0. pose proof (C 1%nat) as C1. pose proof (C 2%nat) as C2. cbn [Z.of_nat Pos.of_succ_nat Pos.succ] in C0, C1, C2.
    destruct (edges (output_flags S f)) eqn:E.
    - rewrite interp_edges by (assumption || lia). rewrite store_at, place_centre, flags_conv by apply flags_one.
      rewrite C0, C1, C2 by lia. destruct f, S; try discriminate; reflexivity.
    - rewrite interp_faces; [|assumption| |lia].
      + rewrite store_at, place_centre, flags_conv by apply flags_one. rewrite C0, C1, C2 by lia. destruct f, S; try discriminate; reflexivity.
      + pose proof flags_one as H. rewrite E in H. exact H.
  Qed.
  (** Everywhere else: the array itself. *)
  Lemma out_elsewhere n order x a : (a < 3)%nat -> Permutation order (range_active g n) -> ~ In x (range_active g n) ->
    out false order (Z.of_nat a + 3)%Z x = A a x.
  Proof.
    intros Ha HP Hx. rewrite out_is.
    assert (ND : NoDup order) by (eapply Permutation_NoDup; [apply Permutation_sym; eassumption|apply range_active_nodup]).
    rewrite (par_for_spec W345 _ (phys_frames _ _ _) (phys_local _ _ _)) by assumption.
    destruct (in_dec cell_dec x order) as [H|H]; [exfalso; apply Hx; eapply Permutation_in; eassumption|].
    apply start_hi. assumption.
  Qed.
  Lemma out_as_is order x a : (a < 3)%nat -> out true order (Z.of_nat a + 3)%Z x = A a x.
  Proof.
    intros Ha. rewrite <- source_is by assumption. unfold out, write_vector. destruct (source S f em aux cur) as [src from].
    cbn [fst snd]. unfold deep_copy3. destruct (Z.leb_spec 3 (Z.of_nat a + 3)); [|lia].
    destruct (Z.ltb_spec (Z.of_nat a + 3) (3 + 3)); [|lia]. cbn [andb]. f_equal. lia.
  Qed.
End Write.

(** ** The centre *)
Lemma centre_bounds half F x lo hi : (forall y, corner x y -> lo <= F y <= hi) -> lo <= centre half F x <= hi.
Proof.
  revert half F. induction x as [|i x IH]; intros half F H; cbn [centre]; [apply H; constructor|].
  pose proof (IH (fun k => half (Datatypes.S k)) (fun y => F (i :: y))) as H1.
  pose proof (IH (fun k => half (Datatypes.S k)) (fun y => F ((i + 1)%Z :: y))) as H2.
  cbv beta in H1, H2.
  assert (L1 : lo <= centre (fun k => half (Datatypes.S k)) (fun y => F (i :: y)) x <= hi) by (apply H1; intros; apply H; constructor; auto).
  assert (L2 : lo <= centre (fun k => half (Datatypes.S k)) (fun y => F ((i + 1)%Z :: y)) x <= hi) by (apply H2; intros; apply H; constructor; auto).
  destruct (half 0%nat); lra.
Qed.
Lemma centre_affine_gen half x : forall u f, multi_affine f ->
  centre half (fun y => f (u ++ position half y)) x = f (u ++ cell_centre x).
Proof.
  revert half. induction x as [|i x IH]; intros half u f Hf; [reflexivity|].
  cbn [centre].
  assert (A : forall j, centre (fun k => half (Datatypes.S k)) (fun y => f (u ++ position half (j :: y))) x =
    f (u ++ (IZR j + if half 0%nat then / 2 else 0) :: cell_centre x)).
  { intro j. cbn [position].
    transitivity (f ((u ++ [IZR j + if half 0%nat then / 2 else 0]) ++ cell_centre x)).
    - rewrite <- (IH (fun k => half (Datatypes.S k)) (u ++ [IZR j + if half 0%nat then / 2 else 0]) f Hf).
      apply centre_ext. intros y _. rewrite <- app_assoc. reflexivity.
    - rewrite <- app_assoc. reflexivity. }
  rewrite !A. unfold cell_centre. cbn [map]. fold (cell_centre x). destruct (half 0%nat).
  - reflexivity.
  - rewrite plus_IZR, !Rplus_0_r. pose proof (Hf u (cell_centre x) (IZR i) (IZR i + 1) (/ 2)) as H.
    replace ((1 - / 2) * IZR i + / 2 * (IZR i + 1)) with (IZR i + / 2) in H by field. rewrite H. field.
Qed.
Lemma centre_affine half f x : multi_affine f -> centre half (fun y => f (position half y)) x = f (cell_centre x).
Proof. intro H. exact (centre_affine_gen half x [] f H). Qed.

(** Centres commute with translations. *)
Lemma centre_move half F x s : length s = length x ->
  centre half (fun y => F (map2 Z.add s y)) x = centre half F (map2 Z.add s x).
Proof.
  revert half F s. induction x as [|i x IH]; intros half F [|a s] H; try discriminate; [reflexivity|].
  cbn [length] in H. cbn [centre map2]. rewrite Z.add_assoc.
  pose proof (IH (fun k => half (Datatypes.S k)) (fun y => F ((a + i)%Z :: y)) s) as H1.
  pose proof (IH (fun k => half (Datatypes.S k)) (fun y => F ((a + i + 1)%Z :: y)) s) as H2. cbv beta in H1, H2.
  rewrite <- H1, <- H2 by lia. reflexivity.
Qed.
Lemma centre_loc half F x g : centre half (fun y => F (loc g y)) x = centre half F (loc g x).
Proof.
  revert half F. induction x as [|i x IH]; intros half F; [reflexivity|].
  unfold loc in *. cbn [map centre].
  pose proof (IH (fun k => half (Datatypes.S k)) (fun y => F ((i + g)%Z :: y))) as H1.
  pose proof (IH (fun k => half (Datatypes.S k)) (fun y => F ((i + 1 + g)%Z :: y))) as H2. cbv beta in H1, H2.
  rewrite H1, H2. replace (i + 1 + g)%Z with (i + g + 1)%Z by lia. reflexivity.
Qed.
Lemma corner_extended g z n y : (1 <= g)%Z -> in_box z n -> corner z y -> in_extended g y n.
Proof.
  intros Hg Hz. revert y. unfold in_box, in_extended, corner in *.
  induction Hz as [|i m z n Hi Hz IH]; intros y Hy; inversion Hy; subst; constructor; [cbn in *; lia|auto].
Qed.
Lemma centre_add s z : length s = length z -> map2 Rplus (map IZR s) (cell_centre z) = cell_centre (map2 Z.add s z).
Proof.
  revert z. induction s as [|a s IH]; intros [|i z] H; try discriminate; [reflexivity|].
  unfold cell_centre in *. cbn [map map2]. cbn [length] in H. rewrite IH by lia. f_equal. rewrite plus_IZR. ring.
Qed.

Lemma decomposed g ls S f tr trG (em aux cur : list Z -> mem Z) EM AUX CUR d z order :
  (1 <= g)%Z -> (1 <= length ls <= 3)%nat ->
  agree g ls em EM -> agree g ls aux AUX -> agree g ls cur CUR ->
  In d (domains ls) -> in_box z (sub_ncells d) ->
  let o := sub_offset_ndomains d in let s := sub_offset_ncells d in
  (forall b x v, tr b x v = trG b (map2 Rplus (map IZR s) x) v) ->
  Permutation order (range_active g (sub_ncells d)) ->
  let r := write_vector g S f false tr (em o) (aux o) (cur o) order in let x := loc g z in let X := map2 Z.add s z in
  let A := array_of S f EM AUX CUR in
  (r 3%Z x, r 4%Z x, r 5%Z x) =
  trG (basis_of S f) (cell_centre X) (centre (stagger f 0) (A 0%nat) X, centre (stagger f 1) (A 1%nat) X, centre (stagger f 2) (A 2%nat) X).
Proof.
  intros Hg HD HE HA HC Hd Hz o s Htr HP r x X A.
  destruct (HaloProofs.dom_pos ls d Hd) as [B [E1 E2]].
  assert (Ln : length (sub_ncells d) = length ls) by (rewrite E1; apply size_length; assumption).
  assert (Ls : length s = length z).
  { unfold s. transitivity (length (sub_ncells d)); [|symmetry; eapply Forall2_length; exact Hz]. rewrite Ln, E2. unfold offs. rewrite map2_length. apply in_box_length in B.
    unfold counts in B. rewrite map_length in B. lia. }
  unfold r, x. rewrite (out_active g S f tr (em o) (aux o) (cur o) (sub_ncells d) order z); [|lia|assumption|assumption].
  assert (C : forall a half, centre half (array_of S f (em o) (aux o) (cur o) a) (loc g z) = centre half (A a) X).
  { intros a half. rewrite <- centre_loc. unfold X. rewrite <- centre_move by assumption.
    apply centre_ext. intros y Hy. pose proof (corner_extended g z (sub_ncells d) y Hg Hz Hy) as Hx.
    unfold A, array_of, o, s. destruct f, S; first [apply HE|apply HA|apply HC]; assumption. }
  rewrite !C, Htr. unfold X. rewrite centre_add by assumption. reflexivity.
Qed.
