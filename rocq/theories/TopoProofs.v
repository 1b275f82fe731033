From Coq Require Import ZArith List Bool Lia.
From Verif Require Import Base ListLemmas DecompModel DecompSpec DecompProofs DecompTop
  DirsModel DirsSpec DirsProofs TopoModel TopoSpec.
Import ListNotations.
Open Scope Z_scope.

Lemma neighbor1_zero n a : neighbor1 n a 0 = a.
Proof. unfold neighbor1. simpl. lia. Qed.

Lemma list_eqb_true a b : list_eqb a b = true <-> a = b.
Proof. unfold list_eqb. destruct (list_eq_dec Z.eq_dec a b); split; congruence. Qed.

Lemma neighbor_offset_cons n ns a o d dir :
  neighbor_offset (n :: ns) (a :: o) (d :: dir) = neighbor1 n a d :: neighbor_offset ns o dir.
Proof. reflexivity. Qed.

Section Faces.
  Context {B : Type} (eq_dec : forall a b : B, {a = b} + {a <> b})
          (INVALID PERIODIC SYNC : B).
  Notation edge_bc := (edge_bc INVALID SYNC).
  Notation face_bc := (face_bc eq_dec INVALID PERIODIC SYNC).
  Notation bc_in := (bc_in eq_dec INVALID PERIODIC SYNC).
  Notation first_nonperiodic := (first_nonperiodic eq_dec PERIODIC).

  Definition raw1 (n a d : Z) (b : B * B) : B :=
    if d =? -1 then (if a =? 0 then fst b else SYNC)
    else (if a =? n - 1 then snd b else SYNC).
  Definition face1 (n a d : Z) (b : B * B) : B :=
    if neighbor1 n a d =? a then raw1 n a d b
    else if eq_dec (raw1 n a d b) PERIODIC then SYNC else raw1 n a d b.

  Fixpoint faces (ns o dir : list Z) (gbc : list (B * B)) : list B :=
    match ns, o, dir, gbc with
    | n :: ns', a :: o', d :: dir', b :: gbc' =>
        if d =? 0 then faces ns' o' dir' gbc'
        else face1 n a d b :: faces ns' o' dir' gbc'
    | _, _, _, _ => []
    end.

  Lemma edge_bc_prefix d m : d = -1 \/ d = 1 ->
    forall ns1 o1 g1 n a b ns2 o2 g2, length o1 = length ns1 -> length g1 = length ns1 ->
    edge_bc (ns1 ++ n :: ns2) (o1 ++ a :: o2) (repeat 0 (length ns1) ++ d :: m) (g1 ++ b :: g2)
    = raw1 n a d b.
  Proof.
    intros Hd. induction ns1; intros [|] [|[]] n x [lo hi] ns2 o2 g2 L1 L2; try discriminate.
    - simpl. unfold raw1. destruct Hd as [->| ->]; reflexivity.
    - simpl. apply IHns1; simpl in *; lia.
  Qed.

  Lemma neighbor_zero ns : forall o dir, length o = length ns -> length dir = length ns ->
    dir = repeat 0 (length ns) -> neighbor_offset ns o dir = o.
  Proof.
    induction ns; intros [|] [|] L1 L2 E; try discriminate; auto.
    simpl in E. inversion E; subst. rewrite neighbor_offset_cons, neighbor1_zero.
    f_equal. apply IHns; simpl in *; auto.
  Qed.

  Lemma neighbor_prefix d :
    forall ns1 o1 n a ns2 o2, length o1 = length ns1 -> length o2 = length ns2 ->
    neighbor_offset (ns1 ++ n :: ns2) (o1 ++ a :: o2)
      (repeat 0 (length ns1) ++ d :: repeat 0 (length ns2))
    = o1 ++ neighbor1 n a d :: o2.
  Proof.
    induction ns1; intros [|] n x ns2 o2 L1 L2; try discriminate.
    - simpl. rewrite neighbor_offset_cons. f_equal.
      apply neighbor_zero; auto. apply repeat_length.
    - simpl. rewrite neighbor_offset_cons, neighbor1_zero. f_equal.
      apply IHns1; simpl in *; lia.
  Qed.

  Lemma face_bc_prefix d : d = -1 \/ d = 1 ->
    forall ns1 o1 g1 n a b ns2 o2 g2, length o1 = length ns1 -> length g1 = length ns1 ->
    length o2 = length ns2 ->
    face_bc (ns1 ++ n :: ns2) (g1 ++ b :: g2) (o1 ++ a :: o2)
      (repeat 0 (length ns1) ++ [d] ++ repeat 0 (length ns2)) = face1 n a d b.
  Proof.
    intros Hd ns1 o1 g1 n a b ns2 o2 g2 L1 L2 L3. unfold TopoModel.face_bc, face1.
    simpl app. rewrite edge_bc_prefix, neighbor_prefix by auto.
    destruct (Z.eqb_spec (neighbor1 n a d) a) as [->|N].
    - replace (list_eqb (o1 ++ a :: o2) (o1 ++ a :: o2)) with true; auto.
      symmetry. apply list_eqb_true. auto.
    - destruct (list_eqb _ _) eqn:E; auto. apply list_eqb_true in E.
      apply app_inv_head in E. inversion E. contradiction.
  Qed.

  Lemma map_face_bc : forall dir2 ns1 o1 g1 ns2 o2 g2,
    length o1 = length ns1 -> length g1 = length ns1 ->
    length dir2 = length ns2 -> length o2 = length ns2 -> length g2 = length ns2 ->
    Forall (fun a => -1 <= a <= 1) dir2 ->
    map (face_bc (ns1 ++ ns2) (g1 ++ g2) (o1 ++ o2))
        (assoc_orth_from (length ns1 + length ns2) (length ns1) dir2)
    = faces ns2 o2 dir2 g2.
  Proof.
    induction dir2 as [|d dir2 IH]; intros ns1 o1 g1 [|n ns2] [|a o2] [|b g2] L1 L2 L3 L4 L5 F;
      try discriminate; [reflexivity|].
    inversion F as [|? ? Hd F']; subst. cbn [assoc_orth_from faces].
    assert (IH' : map (face_bc (ns1 ++ n :: ns2) (g1 ++ b :: g2) (o1 ++ a :: o2))
        (assoc_orth_from (length ns1 + length (n :: ns2)) (S (length ns1)) dir2)
        = faces ns2 o2 dir2 g2).
    { specialize (IH (ns1 ++ [n]) (o1 ++ [a]) (g1 ++ [b]) ns2 o2 g2).
      rewrite <- !app_assoc in IH. simpl app in IH. rewrite !app_length in IH. simpl length in *.
      replace (length ns1 + 1 + length ns2)%nat with (length ns1 + S (length ns2))%nat in IH by lia.
      replace (length ns1 + 1)%nat with (S (length ns1)) in IH by lia.
      apply IH; try lia. auto. }
    destruct (Z.eqb_spec d 0) as [->|N]; auto.
    cbn [map]. f_equal; auto.
    replace (length ns1 + length (n :: ns2) - S (length ns1))%nat with (length ns2) by (simpl; lia).
    apply face_bc_prefix; simpl in *; auto; lia.
  Qed.

  Lemma faces_eq ns gbc o dir :
    length o = length ns -> length gbc = length ns -> direction (length ns) dir ->
    map (face_bc ns gbc o) (assoc_orth dir) = faces ns o dir gbc.
  Proof.
    intros L1 L2 [L3 F]. unfold assoc_orth. rewrite L3.
    apply (map_face_bc dir [] [] [] ns o gbc); auto.
  Qed.

  Lemma assoc_orth_length dir i D :
    length (assoc_orth_from D i dir) = length (filter (fun a => negb (a =? 0)) dir).
  Proof.
    revert i; induction dir as [|d dir IH]; intros i; simpl; auto.
    destruct (d =? 0); simpl; auto.
  Qed.

  Lemma assoc_orth_single dir d0 :
    assoc_orth dir = [d0] -> d0 = dir.
  Proof.
    unfold assoc_orth.
    assert (G : forall dir i D, (i + length dir = D)%nat ->
       forall d0, assoc_orth_from D i dir = [d0] -> d0 = repeat 0 i ++ dir).
    { clear. induction dir as [|d dir IH]; intros i D L d0 E; simpl in *; [discriminate|].
      destruct (Z.eqb_spec d 0) as [->|N].
      - apply IH in E; [|lia]. subst. replace (S i) with (i + 1)%nat by lia.
        rewrite repeat_app, <- app_assoc. reflexivity.
      - inversion E; subst. f_equal. simpl. f_equal.
        replace (i + S (length dir) - S i)%nat with (length dir) by lia.
        assert (F : length (filter (fun a => negb (a =? 0)) dir) = O).
        { rewrite <- (assoc_orth_length dir (S i) (i + S (length dir))). rewrite H1. auto. }
        clear -F. induction dir as [|d dir IH]; simpl in *; auto.
        destruct (Z.eqb_spec d 0) as [->|]; simpl in F; [|lia]. f_equal; auto. }
    intros E. apply G in E; auto.
  Qed.

  Lemma bc_in_faces ns gbc o dir :
    length o = length ns -> length gbc = length ns -> nonzero_direction (length ns) dir ->
    bc_in ns gbc o dir = first_nonperiodic (faces ns o dir gbc) INVALID.
  Proof.
    intros L1 L2 [Hd Hnz]. unfold TopoModel.bc_in.
    rewrite <- (faces_eq ns gbc o dir L1 L2 Hd).
    destruct (Nat.eqb_spec (length (assoc_orth dir)) 1) as [E|E]; auto.
    destruct (assoc_orth dir) as [|d0 [|]] eqn:A; try discriminate.
    apply assoc_orth_single in A. subst d0. cbn [map TopoModel.first_nonperiodic].
    destruct (eq_dec (face_bc ns gbc o dir) PERIODIC); auto.
  Qed.
End Faces.

  Lemma in_box_nth o ns k : in_box o ns -> (k < length ns)%nat -> 0 <= nth k o 0 < nth k ns 0.
  Proof.
    intros H. revert k. induction H; intros k Hk; simpl in *; [lia|].
    destruct k; auto. apply IHForall2. lia.
  Qed.

  Lemma axis_sign D d k s : axis_aligned D d k s -> s = -1 \/ s = 1.
  Proof.
    intros [[L F] [Hk [Hs Hj]]]. specialize (Hj k Hk). rewrite Nat.eqb_refl in Hj.
    rewrite Forall_forall in F. specialize (F (nth k d 0) ltac:(apply nth_In; lia)). lia.
  Qed.

  Lemma axis_nonzero D d k s : axis_aligned D d k s -> nonzero_direction D d.
  Proof.
    intros [[L F] [Hk [Hs Hj]]]. split; [split; auto|].
    exists s. split; auto. specialize (Hj k Hk). rewrite Nat.eqb_refl in Hj.
    rewrite <- Hj. apply nth_In. lia.
  Qed.

(** * Face conditions (C04) *)
Section FaceSpec.
  Context {B : Type} (eq_dec : forall a b : B, {a = b} + {a <> b})
          (INVALID PERIODIC SYNC : B).

  Lemma nth_faces_single ns : forall o gbc dir k s (db : B),
    length o = length ns -> length gbc = length ns ->
    axis_aligned (length ns) dir k s ->
    faces eq_dec PERIODIC SYNC ns o dir gbc =
      [face1 eq_dec PERIODIC SYNC (nth k ns 0) (nth k o 0) s (nth k gbc (db, db))].
  Proof.
    induction ns as [|n ns IH]; intros [|a o] [|b gbc] dir k s db L1 L2 [[L3 F] [Hk [Hs Hj]]];
      simpl in Hk; try discriminate; try lia.
    destruct dir as [|d dir]; [discriminate|]. inversion F; subst.
    cbn [faces]. destruct k as [|k].
    - pose proof (Hj 0%nat ltac:(simpl; lia)) as E. cbn in E. subst d.
      destruct (Z.eqb_spec s 0); [contradiction|]. cbn [nth]. f_equal.
      assert (Z0 : dir = repeat 0 (length dir)).
      { assert (Hz : forall j, (j < length dir)%nat -> nth j dir 0 = 0).
        { intros j Hj'. specialize (Hj (S j)). simpl in Hj, L3. apply Hj. lia. }
        clear -Hz. induction dir; simpl; auto. f_equal.
        - apply (Hz 0%nat). simpl; lia.
        - apply IHdir. intros j Hj. apply (Hz (S j)). simpl; lia. }
      clear -Z0. revert o gbc dir Z0. induction ns; intros [|] [|] [|] Z0; auto.
      simpl in Z0. injection Z0 as E1 E2. subst. cbn [faces Z.eqb]. apply IHns. exact E2.
    - pose proof (Hj 0%nat ltac:(simpl; lia)) as E. cbn in E. subst d.
      cbn [Z.eqb nth]. apply IH; simpl in *; try lia.
      split; [split; [lia|auto]|]. split; [lia|]. split; [auto|].
      intros j Hj'. specialize (Hj (S j) ltac:(lia)). cbn in Hj. auto.
  Qed.

  Lemma face_condition ns gbc o dir k s :
    length gbc = length ns -> in_box o ns -> axis_aligned (length ns) dir k s ->
    Forall (fun b => fst b <> SYNC /\ snd b <> SYNC) gbc ->
    let bc := bc_in eq_dec INVALID PERIODIC SYNC ns gbc o dir in
    let user := user_bc INVALID gbc k s in
    (on_global_boundary ns o k s ->
       (user <> PERIODIC -> bc = user) /\
       (user = PERIODIC -> nth k ns 0 = 1 -> bc = PERIODIC) /\
       (user = PERIODIC -> 1 < nth k ns 0 -> bc = SYNC)) /\
    (~ on_global_boundary ns o k s -> bc = SYNC).
  Proof.
    intros L2 Ho Hd Hg. pose proof (in_box_length _ _ Ho) as L1. cbv zeta.
    rewrite bc_in_faces; auto; [|eapply axis_nonzero; eauto].
    rewrite (nth_faces_single ns o gbc dir k s INVALID) by auto.
    cbn [TopoModel.first_nonperiodic].
    assert (E : forall b : B, (if eq_dec b PERIODIC then PERIODIC else b) = b).
    { intros b. destruct (eq_dec b PERIODIC); auto. }
    rewrite E.
    pose proof Hd as [_ [Hk _]].
    pose proof (in_box_nth o ns k Ho Hk) as Hr.
    assert (Hb : fst (nth k gbc (INVALID, INVALID)) <> SYNC /\ snd (nth k gbc (INVALID, INVALID)) <> SYNC).
    { rewrite Forall_forall in Hg. apply Hg. apply nth_In. lia. }
    unfold face1, raw1, user_bc, on_global_boundary, neighbor1.
    destruct (nth k gbc (INVALID, INVALID)) as [lo hi]. cbn [fst snd] in *.
    set (a := nth k o 0) in *. set (n := nth k ns 0) in *.
    destruct (axis_sign _ _ _ _ Hd) as [->| ->]; cbn [Z.eqb andb Pos.eqb].
    - destruct (Z.eqb_spec a 0) as [Ea|Ea]; cbn [andb].
      + rewrite Ea. split; [intros _|intros C; exfalso; apply C; left; auto].
        destruct (Z.eqb_spec (n - 1) 0); split; auto; try (split; intros; try lia; auto);
          destruct (eq_dec lo PERIODIC); auto; try congruence; try lia.
      + split; [intros [[_ C]|[C _]]; lia|intros _].
        destruct (Z.eqb_spec (a + -1) a); [lia|]. destruct (eq_dec SYNC PERIODIC); auto.
    - destruct (Z.eqb_spec a (n - 1)) as [Ea|Ea]; cbn [andb].
      + split; [intros _|intros C; exfalso; apply C; right; auto].
        destruct (Z.eqb_spec 0 a); split; auto; try (split; intros; try lia; auto);
          destruct (eq_dec hi PERIODIC); auto; try congruence; try lia.
      + split; [intros [[C _]|[_ C]]; lia|intros _].
        destruct (Z.eqb_spec (a + 1) a); [lia|]. destruct (eq_dec SYNC PERIODIC); auto.
  Qed.
End FaceSpec.

(** * Matching of partners (C05) *)

(** Three classes of conditions as far as communication is concerned. *)
Inductive cls := CP | CS | CO.
Definition cl (b : flds_bc) : cls :=
  match b with F_PERIODIC => CP | F_SYNC => CS | _ => CO end.

Notation ffaces := (faces flds_bc_eq_dec F_PERIODIC F_SYNC).
Notation fface1 := (face1 flds_bc_eq_dec F_PERIODIC F_SYNC).
Notation ffnp := (first_nonperiodic flds_bc_eq_dec F_PERIODIC).

Fixpoint ccls (l : list cls) (acc : cls) : cls :=
  match l with
  | [] => acc
  | CP :: l' => ccls l' CP
  | c :: _ => c
  end.

Lemma cl_first l acc : cl (ffnp l acc) = ccls (map cl l) (cl acc).
Proof.
  revert acc; induction l as [|b l IH]; intros acc; simpl; auto.
  destruct (flds_bc_eq_dec b F_PERIODIC) as [->|N]; simpl; [apply IH|].
  destruct b; auto; congruence.
Qed.

Definition okbc (b : flds_bc * flds_bc) : Prop :=
  (fst b = F_PERIODIC <-> snd b = F_PERIODIC) /\
  fst b <> F_SYNC /\ snd b <> F_SYNC /\ fst b <> F_INVALID /\ snd b <> F_INVALID.

(** A face and the opposite face of the neighbour behind it are of the same class; a
    synchronised face leads to another position, a periodic one back to the same. *)
Lemma face1_partner n a d b :
  0 <= a < n -> d = -1 \/ d = 1 -> okbc b ->
  cl (fface1 n a d b) = cl (fface1 n (neighbor1 n a d) (- d) b).
Proof.
  intros Ha Hd [H1 [H2 [H3 _]]]. destruct b as [lo hi]; cbn [fst snd] in *.
  unfold face1, raw1, neighbor1. cbn [fst snd].
  destruct Hd as [->| ->]; cbn [Z.eqb Z.opp andb Pos.eqb];
  repeat match goal with
  | |- context [?x =? ?y] => destruct (Z.eqb_spec x y); cbn [andb]; try lia
  | |- context [flds_bc_eq_dec ?x ?y] => destruct (flds_bc_eq_dec x y)
  end; try discriminate; try reflexivity; try tauto; subst; try tauto;
  destruct lo, hi; try reflexivity; try congruence; try tauto;
  try (destruct H1 as [H1 H1']; first [discriminate (H1 eq_refl) | discriminate (H1' eq_refl)]).
Qed.

Lemma face1_periodic_opp n a d b :
  0 <= a < n -> d = -1 \/ d = 1 -> okbc b ->
  (cl (fface1 n a d b) = CP <-> cl (fface1 n a (- d) b) = CP).
Proof.
  intros Ha Hd [H1 [H2 [H3 _]]]. destruct b as [lo hi]; cbn [fst snd] in *.
  unfold face1, raw1, neighbor1. cbn [fst snd].
  destruct Hd as [->| ->]; cbn [Z.eqb Z.opp andb Pos.eqb];
  repeat match goal with
  | |- context [?x =? ?y] => destruct (Z.eqb_spec x y); cbn [andb]; try lia
  | |- context [flds_bc_eq_dec ?x ?y] => destruct (flds_bc_eq_dec x y)
  end; try (split; discriminate); try (split; reflexivity); subst;
  destruct lo, hi; try (split; discriminate); try (split; reflexivity); try congruence; try tauto;
  try (destruct H1 as [H1 H1']; first [discriminate (H1 eq_refl) | discriminate (H1' eq_refl)]).
Qed.

Lemma face1_periodic_self n a d b :
  0 <= a < n -> d = -1 \/ d = 1 -> okbc b ->
  cl (fface1 n a d b) = CP -> neighbor1 n a d = a.
Proof.
  intros Ha Hd [H1 [H2 [H3 _]]]. destruct b as [lo hi]; cbn [fst snd] in *.
  unfold face1. destruct (Z.eqb_spec (neighbor1 n a d) a); auto.
  destruct (flds_bc_eq_dec (raw1 F_SYNC n a d (lo, hi)) F_PERIODIC); simpl; intros; try discriminate.
  destruct (raw1 F_SYNC n a d (lo, hi)); simpl in *; congruence.
Qed.

Lemma face1_sync_other n a d b :
  0 <= a < n -> d = -1 \/ d = 1 -> okbc b ->
  cl (fface1 n a d b) = CS -> neighbor1 n a d <> a.
Proof.
  intros Ha Hd [H1 [H2 [H3 _]]]. destruct b as [lo hi]; cbn [fst snd] in *.
  unfold face1, raw1, neighbor1. cbn [fst snd].
  destruct Hd as [->| ->]; cbn [Z.eqb Z.opp andb Pos.eqb];
  repeat match goal with
  | |- context [?x =? ?y] => destruct (Z.eqb_spec x y); cbn [andb]; try lia
  | |- context [flds_bc_eq_dec ?x ?y] => destruct (flds_bc_eq_dec x y)
  end; try lia; intros; destruct lo, hi; simpl in *; congruence.
Qed.

Lemma face1_not_invalid n a d b :
  0 <= a < n -> d = -1 \/ d = 1 -> okbc b -> fface1 n a d b <> F_INVALID.
Proof.
  intros Ha Hd [H1 [H2 [H3 [H4 H5]]]]. destruct b as [lo hi]; cbn [fst snd] in *.
  unfold face1, raw1. cbn [fst snd].
  repeat match goal with
  | |- context [if ?x =? ?y then _ else _] => destruct (Z.eqb_spec x y); try lia
  | |- context [flds_bc_eq_dec ?x ?y] => destruct (flds_bc_eq_dec x y)
  end; congruence.
Qed.

(** Classes of the faces of a direction. *)
Definition fcl ns o dir gbc := map cl (ffaces ns o dir gbc).

Lemma fcl_partner ns : forall o dir gbc,
  in_box o ns -> Forall2 (fun a (_ : Z) => -1 <= a <= 1) dir ns -> Forall okbc gbc ->
  length gbc = length ns ->
  fcl ns o dir gbc = fcl ns (neighbor_offset ns o dir) (opp_dir dir) gbc.
Proof.
  unfold fcl. induction ns as [|n ns IH]; intros o dir gbc Ho Hd Hg L.
  - inversion Ho; subst; inversion Hd; subst. reflexivity.
  - inversion Ho as [|a ? o' ? Ha Ho']; subst. inversion Hd as [|d ? dir' ? Hdd Hd']; subst.
    destruct gbc as [|b gbc]; [discriminate|]. inversion Hg as [|? ? Hb Hg']; subst.
    rewrite neighbor_offset_cons. cbn [opp_dir map faces].
    destruct (Z.eqb_spec d 0) as [->|N].
    + cbn [Z.opp Z.eqb]. rewrite IH; auto.
    + destruct (Z.eqb_spec (- d) 0); [lia|]. cbn [map]. f_equal.
      * apply face1_partner; auto. lia.
      * apply IH; auto.
Qed.

Lemma ccls_CP l : ccls l CP = CP <-> Forall (fun c => c = CP) l.
Proof.
  induction l as [|c l IH]; simpl; [split; auto|].
  destruct c; split; intros H; try discriminate; try (inversion H; congruence).
  - constructor; tauto.
  - inversion H; tauto.
Qed.

Lemma fcl_periodic_opp ns : forall o dir gbc,
  in_box o ns -> Forall2 (fun a (_ : Z) => -1 <= a <= 1) dir ns -> Forall okbc gbc ->
  length gbc = length ns ->
  Forall2 (fun c c' => c = CP <-> c' = CP) (fcl ns o dir gbc) (fcl ns o (opp_dir dir) gbc).
Proof.
  unfold fcl. induction ns as [|n ns IH]; intros o dir gbc Ho Hd Hg L.
  - inversion Ho; subst; inversion Hd; subst. constructor.
  - inversion Ho as [|a ? o' ? Ha Ho']; subst. inversion Hd as [|d ? dir' ? Hdd Hd']; subst.
    destruct gbc as [|b gbc]; [discriminate|]. inversion Hg as [|? ? Hb Hg']; subst.
    cbn [opp_dir map faces].
    destruct (Z.eqb_spec d 0) as [->|N].
    + cbn [Z.opp Z.eqb]. apply IH; auto.
    + destruct (Z.eqb_spec (- d) 0); [lia|]. cbn [map]. constructor.
      * apply face1_periodic_opp; auto. lia.
      * apply IH; auto.
Qed.

Lemma ccls_periodic_iff l l' acc :
  Forall2 (fun c c' => c = CP <-> c' = CP) l l' -> (ccls l acc = CP <-> ccls l' acc = CP).
Proof.
  intros H. revert acc. induction H as [|c c' l l' Hc H IH]; intros acc; simpl; [tauto|].
  destruct c, c'; try tauto; try (destruct Hc as [H1 H2]; first [discriminate (H1 eq_refl)|discriminate (H2 eq_refl)]);
    try (split; discriminate).
  apply IH.
Qed.

Lemma nonempty_faces ns : forall o dir gbc,
  in_box o ns -> length dir = length ns -> length gbc = length ns -> is_zero dir = false ->
  ffaces ns o dir gbc <> [].
Proof.
  induction ns as [|n ns IH]; intros o dir gbc Ho L1 L2 Hz.
  - destruct dir; discriminate.
  - inversion Ho; subst. destruct dir as [|d dir]; [discriminate|].
    destruct gbc as [|b gbc]; [discriminate|]. simpl in *.
    destruct (d =? 0); simpl in *; [apply IH; auto; lia|discriminate].
Qed.

Lemma ccls_acc l a b : l <> [] -> ccls l a = ccls l b.
Proof. destruct l as [|[] l]; simpl; congruence. Qed.

Lemma all_CP_self ns : forall o dir gbc,
  in_box o ns -> Forall2 (fun a (_ : Z) => -1 <= a <= 1) dir ns -> Forall okbc gbc ->
  length gbc = length ns ->
  Forall (fun c => c = CP) (fcl ns o dir gbc) -> neighbor_offset ns o dir = o.
Proof.
  unfold fcl. induction ns as [|n ns IH]; intros o dir gbc Ho Hd Hg L H.
  - inversion Ho; subst; inversion Hd; subst. reflexivity.
  - inversion Ho as [|a ? o' ? Ha Ho']; subst. inversion Hd as [|d ? dir' ? Hdd Hd']; subst.
    destruct gbc as [|b gbc]; [discriminate|]. inversion Hg as [|? ? Hb Hg']; subst.
    rewrite neighbor_offset_cons. cbn [faces] in H.
    destruct (Z.eqb_spec d 0) as [->|N].
    + rewrite neighbor1_zero. f_equal. eapply IH; eauto.
    + cbn [map] in H. inversion H; subst. f_equal; [|eapply IH; eauto].
      apply face1_periodic_self with b; auto. lia.
Qed.

Lemma first_CS_other ns : forall o dir gbc acc,
  in_box o ns -> Forall2 (fun a (_ : Z) => -1 <= a <= 1) dir ns -> Forall okbc gbc ->
  length gbc = length ns -> acc <> CS ->
  ccls (fcl ns o dir gbc) acc = CS -> neighbor_offset ns o dir <> o.
Proof.
  unfold fcl. induction ns as [|n ns IH]; intros o dir gbc acc Ho Hd Hg L Hacc H.
  - inversion Ho; subst; inversion Hd; subst. simpl in H. congruence.
  - inversion Ho as [|a ? o' ? Ha Ho']; subst. inversion Hd as [|d ? dir' ? Hdd Hd']; subst.
    destruct gbc as [|b gbc]; [discriminate|]. inversion Hg as [|? ? Hb Hg']; subst.
    rewrite neighbor_offset_cons. cbn [faces] in H.
    destruct (Z.eqb_spec d 0) as [->|N].
    + rewrite neighbor1_zero. intros E. inversion E as [E1]. eapply IH; eauto.
    + cbn [map ccls] in H. destruct (cl (fface1 n a d b)) eqn:E; intros E0; injection E0 as E1 E2.
      * eapply (IH o' dir' gbc CP); eauto. discriminate.
      * revert E1. apply face1_sync_other with b; auto. lia.
      * discriminate.
Qed.

Lemma dir_F2 ns dir : direction (length ns) dir -> Forall2 (fun a (_ : Z) => -1 <= a <= 1) dir ns.
Proof. apply direction_Forall2. Qed.

Lemma opp_direction D dir : direction D dir -> direction D (opp_dir dir).
Proof.
  intros [L F]. split; [unfold opp_dir; rewrite map_length; auto|].
  unfold opp_dir. clear L. induction F; simpl; constructor; auto; lia.
Qed.

Lemma opp_opp dir : opp_dir (opp_dir dir) = dir.
Proof. unfold opp_dir. rewrite map_map. rewrite (map_ext _ (fun x => x)) by (intros; apply Z.opp_involutive). apply map_id. Qed.

Lemma opp_nonzero D dir : nonzero_direction D dir -> nonzero_direction D (opp_dir dir).
Proof.
  intros [Hd [a [Ha Hn]]]. split; [apply opp_direction; auto|].
  exists (- a). split; [apply in_map; auto|lia].
Qed.

Lemma nonzero_is_zero D dir : nonzero_direction D dir -> is_zero dir = false.
Proof. intros H. apply nonzero_iff in H. tauto. Qed.

Section Match.
  Variables (ns : list Z) (gbc : list (flds_bc * flds_bc)).
  Hypothesis Hg : Forall okbc gbc.
  Hypothesis L : length gbc = length ns.

  Let c o dir := cl (flds_bc_in ns gbc o dir).

  Lemma c_ccls o dir : in_box o ns -> nonzero_direction (length ns) dir ->
    c o dir = ccls (fcl ns o dir gbc) CO.
  Proof.
    intros Ho Hd. unfold c, flds_bc_in, fcl.
    rewrite bc_in_faces; auto; [apply cl_first|]. apply in_box_length; auto.
  Qed.

  Lemma fcl_nonempty o dir : in_box o ns -> nonzero_direction (length ns) dir ->
    fcl ns o dir gbc <> [].
  Proof.
    intros Ho Hd. unfold fcl. intros E. apply map_eq_nil in E. revert E.
    apply nonempty_faces; auto; [apply Hd|eapply nonzero_is_zero; eauto].
  Qed.

  Lemma c_partner o dir : in_box o ns -> nonzero_direction (length ns) dir ->
    c (neighbor_offset ns o dir) (opp_dir dir) = c o dir.
  Proof.
    intros Ho Hd. assert (F2 := dir_F2 ns dir (proj1 Hd)).
    rewrite !c_ccls; auto.
    - rewrite <- fcl_partner by auto. reflexivity.
    - apply neighbor_offset_in_box; auto.
    - apply opp_nonzero; auto.
  Qed.

  Lemma c_periodic_opp o dir : in_box o ns -> nonzero_direction (length ns) dir ->
    (c o dir = CP <-> c o (opp_dir dir) = CP).
  Proof.
    intros Ho Hd. rewrite !c_ccls; auto; [|apply opp_nonzero; auto].
    apply ccls_periodic_iff. apply fcl_periodic_opp; auto. apply dir_F2, Hd.
  Qed.

  Lemma c_periodic_self o dir : in_box o ns -> nonzero_direction (length ns) dir ->
    c o dir = CP -> neighbor_offset ns o dir = o.
  Proof.
    intros Ho Hd. rewrite c_ccls by auto.
    rewrite (ccls_acc _ CO CP) by (apply fcl_nonempty; auto).
    rewrite ccls_CP. apply all_CP_self; auto. apply dir_F2, Hd.
  Qed.

  Lemma c_sync_other o dir : in_box o ns -> nonzero_direction (length ns) dir ->
    c o dir = CS -> neighbor_offset ns o dir <> o.
  Proof.
    intros Ho Hd. rewrite c_ccls by auto.
    apply first_CS_other; auto; [apply dir_F2, Hd|discriminate].
  Qed.

  Lemma cl_P b : cl b = CP <-> b = F_PERIODIC.
  Proof. destruct b; simpl; split; congruence. Qed.
  Lemma cl_S b : cl b = CS <-> b = F_SYNC.
  Proof. destruct b; simpl; split; congruence. Qed.

  (** Explicit result of the partner selection. *)
  Lemma partners_ok o dir : in_box o ns -> nonzero_direction (length ns) dir ->
    partners ns gbc o dir =
    Ok (match c o dir with CO => None | _ => Some (neighbor_offset ns o dir) end,
        match c o (opp_dir dir) with CO => None | _ => Some (neighbor_offset ns o (opp_dir dir)) end).
  Proof.
    intros Ho Hd. pose proof (opp_nonzero _ _ Hd) as Hd'.
    pose proof (c_periodic_opp o dir Ho Hd) as P.
    pose proof (c_periodic_self o dir Ho Hd) as Q. pose proof (c_periodic_self o _ Ho Hd') as Q'.
    pose proof (c_sync_other o dir Ho Hd) as R. pose proof (c_sync_other o _ Ho Hd') as R'.
    unfold c in *. unfold partners.
    destruct (flds_bc_eq_dec (flds_bc_in ns gbc o dir) F_PERIODIC) as [E1|E1].
    { rewrite E1 in *. cbn [cl] in *. specialize (Q eq_refl).
      rewrite (proj2 (list_eqb_true _ _) Q). cbn [negb].
      assert (E2 : cl (flds_bc_in ns gbc o (opp_dir dir)) = CP) by tauto.
      rewrite E2 in *. rewrite (Q' eq_refl). apply cl_P in E2. rewrite E2, Q.
      destruct (flds_bc_eq_dec F_PERIODIC F_PERIODIC); [reflexivity|congruence]. }
    assert (N : forall d, neighbor_offset ns o d <> o -> list_eqb (neighbor_offset ns o d) o = false).
    { intros d Hn. destruct (list_eqb _ _) eqn:E; auto. apply list_eqb_true in E. contradiction. }
    assert (E1' : cl (flds_bc_in ns gbc o (opp_dir dir)) <> CP).
    { intros C. apply E1. apply cl_P. tauto. }
    destruct (flds_bc_eq_dec (flds_bc_in ns gbc o dir) F_SYNC) as [E2|E2].
    - rewrite E2 in *. cbn [cl] in *. rewrite (N dir (R eq_refl)).
      destruct (flds_bc_eq_dec (flds_bc_in ns gbc o (opp_dir dir)) F_SYNC) as [E3|E3].
      + rewrite E3 in *. cbn [cl] in *. rewrite (N _ (R' eq_refl)). reflexivity.
      + destruct (cl (flds_bc_in ns gbc o (opp_dir dir))) eqn:E4; try congruence.
        apply cl_S in E4. contradiction.
    - assert (E4 : cl (flds_bc_in ns gbc o dir) = CO).
      { destruct (cl (flds_bc_in ns gbc o dir)) eqn:E; auto;
        [apply cl_P in E|apply cl_S in E]; contradiction. }
      rewrite E4.
      destruct (flds_bc_eq_dec (flds_bc_in ns gbc o (opp_dir dir)) F_SYNC) as [E3|E3].
      + rewrite E3 in *. cbn [cl] in *. rewrite (N _ (R' eq_refl)). reflexivity.
      + destruct (cl (flds_bc_in ns gbc o (opp_dir dir))) eqn:E5; try congruence.
        apply cl_S in E5. contradiction.
  Qed.

  Lemma matching o b dir : in_box o ns -> in_box b ns -> nonzero_direction (length ns) dir ->
    (send_to ns gbc o dir = Some b <-> recv_from ns gbc b dir = Some o).
  Proof.
    intros Ho Hb Hd. unfold send_to, recv_from. rewrite !partners_ok by auto. cbn [fst snd].
    assert (F2 := dir_F2 ns dir (proj1 Hd)).
    assert (F2' := dir_F2 ns _ (opp_direction _ _ (proj1 Hd))).
    split; intros H.
    - assert (E : neighbor_offset ns o dir = b) by (destruct (c o dir); congruence).
      assert (E' : neighbor_offset ns b (opp_dir dir) = o).
      { subst b. apply neighbor_offset_inv; auto. }
      pose proof (c_partner o dir Ho Hd) as C. rewrite E in C. rewrite C.
      rewrite E'. destruct (c o dir); congruence.
    - assert (E : neighbor_offset ns b (opp_dir dir) = o) by (destruct (c b (opp_dir dir)); congruence).
      assert (E' : neighbor_offset ns o dir = b).
      { subst o. pose proof (neighbor_offset_inv ns b (opp_dir dir) Hb F2') as I.
        fold (opp_dir (opp_dir dir)) in I. rewrite opp_opp in I. auto. }
      pose proof (c_partner o dir Ho Hd) as C. rewrite E' in C. rewrite <- C.
      rewrite E'. destruct (c b (opp_dir dir)); congruence.
  Qed.
End Match.
