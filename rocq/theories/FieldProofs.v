From Coq Require Import ZArith List Bool Lia Reals Lra Permutation FunctionalExtensionality.
From Verif Require Import Base FieldModel FieldSpec.
Import ListNotations.
Open Scope R_scope.

(** ** Parallel loops *)
Section Par.
  Context {K : Type} (K_dec : forall a b : K, {a = b} + {a <> b}).
  Notation mem := (mem K).

  Definition cell_dec := list_eq_dec Z.eq_dec.

  Lemma set_eq (m : mem) c x v : set K_dec m c x v c x = v.
  Proof. unfold set. destruct (K_dec c c); [|congruence]. destruct (list_eq_dec _ x x); congruence. Qed.
  Lemma set_neq_c (m : mem) c x v c' y : c' <> c -> set K_dec m c x v c' y = m c' y.
  Proof. intro H. unfold set. destruct (K_dec c' c); congruence. Qed.
  Lemma set_neq_x (m : mem) c x v c' y : y <> x -> set K_dec m c x v c' y = m c' y.
  Proof. intro H. unfold set. destruct (K_dec c' c); auto. destruct (list_eq_dec _ y x); congruence. Qed.

  Variables (W : K -> bool) (body : mem -> list Z -> mem).
  (** The body writes only components in [W], at its own cell. *)
  Definition frames := forall m x c y, (W c = false \/ y <> x) -> body m x c y = m c y.
  (** What it leaves in the good elements of its own cell depends on the good elements of its
      own cell and on unwritten components. *)
  Definition local_on (good : K -> list Z -> Prop) := forall m m' c x, good c x ->
    (forall c' y, W c' = false -> m c' y = m' c' y) -> (forall c', good c' x -> m c' x = m' c' x) ->
    body m x c x = body m' x c x.
  Definition local_body := local_on (fun _ _ => True).

  Lemma par_for_good good : frames -> local_on good -> forall cells m c y, NoDup cells -> good c y ->
    par_for body cells m c y =
      if in_dec cell_dec y cells then body m y c y else m c y.
  Proof.
    intros Hf Hl. induction cells as [|x cells IH]; intros m c y Hn Hg; [reflexivity|].
    inversion Hn as [|? ? Hnx Hn']; subst.
    unfold par_for in *. cbn [fold_left]. rewrite IH by assumption.
    destruct (in_dec cell_dec y cells) as [Hy|Hy]; destruct (in_dec cell_dec y (x :: cells)) as [Hy'|Hy'].
    - apply Hl; [assumption| |].
      + intros c' z Hc. apply Hf. auto.
      + intros c' Hg'. apply Hf. right. congruence.
    - exfalso. apply Hy'. right; assumption.
    - destruct Hy' as [->|?]; [reflexivity|contradiction].
    - apply Hf. right. intros ->. apply Hy'. left; reflexivity.
  Qed.
  Lemma par_for_spec : frames -> local_body -> forall cells m c y, NoDup cells ->
    par_for body cells m c y =
      if in_dec cell_dec y cells then body m y c y else m c y.
  Proof. intros. apply (par_for_good (fun _ _ => True)); auto. Qed.

  Lemma par_for_perm : frames -> local_body -> forall cells cells' m, NoDup cells ->
    Permutation cells cells' -> par_for body cells m = par_for body cells' m.
  Proof.
    intros Hf Hl cells cells' m Hn HP.
    extensionality c. extensionality y.
    rewrite !par_for_spec by (auto; eapply Permutation_NoDup; eauto).
    destruct (in_dec cell_dec y cells) as [Hy|Hy]; destruct (in_dec cell_dec y cells') as [Hy'|Hy']; auto.
    - exfalso. apply Hy'. eapply Permutation_in; eauto.
    - exfalso. apply Hy. eapply Permutation_in; [apply Permutation_sym|]; eauto.
  Qed.
End Par.

(** ** Evaluation of kernel bodies *)
Ltac dd := cbv [faraday_mink faraday_3d faraday_2d faraday_1d ampere_mink ampere_3d ampere_2d ampere_1d
  currents_mink add set comp_eq_dec comp_rec comp_rect sumbool_rec sumbool_rect].
Ltac field_cases :=
  repeat match goal with
  | |- context [list_eq_dec Z.eq_dec ?a ?b] => destruct (list_eq_dec Z.eq_dec a b); try congruence
  end.

Definition isB (c : comp) : bool := match c with Bx1 | Bx2 | Bx3 => true | _ => false end.
Definition isE (c : comp) : bool := negb (isB c).

Ltac frame_tac :=
  match goal with c : comp |- _ => destruct c end; dd;
  field_cases; try reflexivity; match goal with H : _ \/ _ |- _ => destruct H; cbn in *; congruence end.

Lemma faraday_mink_frames k : frames isB (faraday_mink k).
Proof.
  intros m x c y H. destruct x as [|i1 [|i2 [|i3 [|? ?]]]]; try reflexivity; frame_tac.
Qed.

Ltac unwritten Hr :=
  try rewrite (functional_extensionality _ _ (fun y => Hr Ex1 y eq_refl));
  try rewrite (functional_extensionality _ _ (fun y => Hr Ex2 y eq_refl));
  try rewrite (functional_extensionality _ _ (fun y => Hr Ex3 y eq_refl));
  try rewrite (functional_extensionality _ _ (fun y => Hr Bx1 y eq_refl));
  try rewrite (functional_extensionality _ _ (fun y => Hr Bx2 y eq_refl));
  try rewrite (functional_extensionality _ _ (fun y => Hr Bx3 y eq_refl)).
Ltac local_tac :=
  match goal with
  | Hr : forall c' y, _ = false -> ?m c' y = ?m' c' y, Ho : forall c', ?m c' _ = ?m' c' _ |- _ =>
    match goal with c : comp |- _ => destruct c end; dd; field_cases; unwritten Hr;
    rewrite ?Ho; reflexivity
  end.

Lemma faraday_mink_local k : local_body isB (faraday_mink k).
Proof.
  intros m m' c x _ Hr Ho'. assert (Ho : forall c', m c' x = m' c' x) by auto. clear Ho'.
  destruct x as [|i1 [|i2 [|i3 [|? ?]]]]; try apply Ho; local_tac.
Qed.

Lemma ampere_mink_frames c1 c2 : frames isE (ampere_mink c1 c2).
Proof.
  intros m x c y H. destruct x as [|i1 [|i2 [|i3 [|? ?]]]]; try reflexivity; frame_tac.
Qed.
Lemma ampere_mink_local c1 c2 : local_body isE (ampere_mink c1 c2).
Proof.
  intros m m' c x _ Hr Ho'. assert (Ho : forall c', m c' x = m' c' x) by auto. clear Ho'.
  destruct x as [|i1 [|i2 [|i3 [|? ?]]]]; try apply Ho; local_tac.
Qed.
Lemma currents_mink_frames c J : frames isE (currents_mink c J).
Proof. intros m x c' y H. frame_tac. Qed.
Lemma currents_mink_local c J : local_body isE (currents_mink c J).
Proof.
  intros m m' c' x _ Hr Ho'. assert (Ho : forall c', m c' x = m' c' x) by auto. clear Ho'. local_tac.
Qed.

(** ** Index normalisation: [i + a - b + c] with numerals becomes [i + n] or [i]. *)
Ltac zconst t := match t with Z0 => idtac | Zpos _ => idtac | Zneg _ => idtac end.
Ltac znorm :=
  unfold Z.sub; cbn [Z.opp];
  repeat rewrite <- Z.add_assoc;
  repeat match goal with
  | |- context [Z.add ?a ?b] => zconst a; zconst b; let c := eval compute in (Z.add a b) in change (Z.add a b) with c
  end;
  rewrite ?Z.add_0_r.

Lemma covered1 lo hi cells i1 j1 : covered lo hi cells [i1] -> (i1 - lo <= j1 <= i1 + hi)%Z -> In [j1] cells.
Proof. intros H ?. apply H. repeat constructor; lia. Qed.
Lemma covered2 lo hi cells i1 i2 j1 j2 : covered lo hi cells [i1; i2] ->
  (i1 - lo <= j1 <= i1 + hi)%Z -> (i2 - lo <= j2 <= i2 + hi)%Z -> In [j1; j2] cells.
Proof. intros H ? ?. apply H. repeat constructor; lia. Qed.
Lemma covered3 lo hi cells i1 i2 i3 j1 j2 j3 : covered lo hi cells [i1; i2; i3] ->
  (i1 - lo <= j1 <= i1 + hi)%Z -> (i2 - lo <= j2 <= i2 + hi)%Z -> (i3 - lo <= j3 <= i3 + hi)%Z ->
  In [j1; j2; j3] cells.
Proof. intros H ? ? ?. apply H. repeat constructor; lia. Qed.

Lemma par_for_in {K} (W : K -> bool) body cells m c y : frames W body -> local_body W body -> NoDup cells ->
  In y cells -> par_for body cells m c y = body m y c y.
Proof. intros. rewrite (par_for_spec W) by assumption. destruct (in_dec cell_dec y cells); [reflexivity|contradiction]. Qed.


Section FaradayValues.
  Variables (k : fcoef) (m : fields).
  Lemma far3_1 i1 i2 i3 : faraday_mink k m [i1; i2; i3] Bx1 [i1; i2; i3] = m Bx1 [i1; i2; i3] + coeff1 k *
    ((ext1 (deltaz k) (fun l => m Ex2 [i1; i2; l]) i3
         + side (betazx k) (fun i => m Ex2 [i; i2; (i3 + 1)%Z] - m Ex2 [i; i2; i3]) i1
         + side (betazy k) (fun j => m Ex2 [i1; j; (i3 + 1)%Z] - m Ex2 [i1; j; i3]) i2)
    - (ext1 (deltay k) (fun j => m Ex3 [i1; j; i3]) i2
         + side (betayx k) (fun i => m Ex3 [i; (i2 + 1)%Z; i3] - m Ex3 [i; i2; i3]) i1
         + side (betayz k) (fun l => m Ex3 [i1; (i2 + 1)%Z; l] - m Ex3 [i1; i2; l]) i3)).
  Proof. dd; field_cases. unfold ext1, side. ring. Qed.
  Lemma far3_2 i1 i2 i3 : faraday_mink k m [i1; i2; i3] Bx2 [i1; i2; i3] = m Bx2 [i1; i2; i3] + coeff1 k *
    ((ext1 (deltax k) (fun i => m Ex3 [i; i2; i3]) i1
      + side (betaxy k) (fun j => m Ex3 [(i1 + 1)%Z; j; i3] - m Ex3 [i1; j; i3]) i2
      + side (betaxz k) (fun l => m Ex3 [(i1 + 1)%Z; i2; l] - m Ex3 [i1; i2; l]) i3)
    - (ext1 (deltaz k) (fun l => m Ex1 [i1; i2; l]) i3
         + side (betazx k) (fun i => m Ex1 [i; i2; (i3 + 1)%Z] - m Ex1 [i; i2; i3]) i1
         + side (betazy k) (fun j => m Ex1 [i1; j; (i3 + 1)%Z] - m Ex1 [i1; j; i3]) i2)).
  Proof. dd; field_cases. unfold ext1, side. ring. Qed.
  Lemma far3_3 i1 i2 i3 : faraday_mink k m [i1; i2; i3] Bx3 [i1; i2; i3] = m Bx3 [i1; i2; i3] + coeff1 k *
    ((ext1 (deltay k) (fun j => m Ex1 [i1; j; i3]) i2
         + side (betayx k) (fun i => m Ex1 [i; (i2 + 1)%Z; i3] - m Ex1 [i; i2; i3]) i1
         + side (betayz k) (fun l => m Ex1 [i1; (i2 + 1)%Z; l] - m Ex1 [i1; i2; l]) i3)
    - (ext1 (deltax k) (fun i => m Ex2 [i; i2; i3]) i1
      + side (betaxy k) (fun j => m Ex2 [(i1 + 1)%Z; j; i3] - m Ex2 [i1; j; i3]) i2
      + side (betaxz k) (fun l => m Ex2 [(i1 + 1)%Z; i2; l] - m Ex2 [i1; i2; l]) i3)).
  Proof. dd; field_cases. unfold ext1, side. ring. Qed.
  Lemma far2_1 i1 i2 : faraday_mink k m [i1; i2] Bx1 [i1; i2] = m Bx1 [i1; i2] - coeff1 k *
    (ext1 (deltay k) (fun j => m Ex3 [i1; j]) i2
         + side (betayx k) (fun i => m Ex3 [i; (i2 + 1)%Z] - m Ex3 [i; i2]) i1).
  Proof. dd; field_cases. unfold ext1, side. ring. Qed.
  Lemma far2_2 i1 i2 : faraday_mink k m [i1; i2] Bx2 [i1; i2] = m Bx2 [i1; i2] + coeff1 k *
    (ext1 (deltax k) (fun i => m Ex3 [i; i2]) i1
      + side (betaxy k) (fun j => m Ex3 [(i1 + 1)%Z; j] - m Ex3 [i1; j]) i2).
  Proof. dd; field_cases. unfold ext1, side. ring. Qed.
End FaradayValues.

Lemma faraday_div_ext k cells (m : fields) x : NoDup cells -> covered 1 2 cells x ->
  div_ext k (par_for (faraday_mink k) cells m) x = div_ext k m x.
Proof.
  intros Hn Hc.
  assert (HP : forall c y, In y cells -> par_for (faraday_mink k) cells m c y = faraday_mink k m y c y)
    by (intros; apply (par_for_in isB); auto using faraday_mink_frames, faraday_mink_local).
  destruct x as [|i1 [|i2 [|i3 [|? ?]]]]; try reflexivity; cbn [div_ext].
  - unfold ext1. rewrite !HP by (apply (covered1 _ _ _ _ _ Hc); lia).
    reflexivity.
  - set (f := par_for (faraday_mink k) cells m) in *. unfold ext1, side.
    rewrite !HP by (apply (covered2 _ _ _ _ _ _ _ Hc); lia).
    rewrite !far2_1, !far2_2. unfold ext1, side. znorm. ring.
  - set (f := par_for (faraday_mink k) cells m) in *. unfold ext1, side.
    rewrite !HP by (apply (covered3 _ _ _ _ _ _ _ _ _ Hc); lia).
    rewrite !far3_1, !far3_2, !far3_3. unfold ext1, side. znorm. ring.
Qed.
