From Coq Require Import ZArith List Bool Lia Reals Lra Permutation FunctionalExtensionality.
From Verif Require Import Base FieldModel FieldSpec FieldProofs FieldGR MetModel KsModel GrStepModel GrStepSpec.
Import ListNotations.
Open Scope Z_scope.

(** ** The kernels as parallel loops *)
Definition wE (k : arr * comp) : bool := match k with (Aux, (Ex1 | Ex2 | Ex3)) => true | _ => false end.
Definition wH (k : arr * comp) : bool := match k with (Aux, (Bx1 | Bx2 | Bx3)) => true | _ => false end.
Definition wA (k : arr * comp) : bool := match k with (Em0, _) => true | _ => false end.

Lemma set_same {K} (dec : forall a b : K, {a = b} + {a <> b}) (m m' : mem K) k k' x v v' c y :
  m c y = m' c y -> k = k' -> v = v' -> set dec m k x v c y = set dec m' k' x v' c y.
Proof. intros H -> ->. unfold set. destruct (dec c k'), (list_eq_dec Z.eq_dec y x); congruence. Qed.

Ltac fr := repeat first [rewrite (set_neq_c loc_eq_dec) by congruence | rewrite (set_neq_x loc_eq_dec) by congruence].
Lemma auxE_frames g M md : frames wE (auxE_body g M md).
Proof.
  intros m x [a c] y H. unfold auxE_body, body2.
  destruct x as [|i1 [|i2 [|? ?]]]; try reflexivity. destruct (getE_args md) as [d b]. unfold aux_E. cbv zeta.
  destruct H as [H|H].
  - destruct a, c; try discriminate; fr; reflexivity.
  - fr. reflexivity.
Qed.
Lemma auxH_frames g M md : frames wH (auxH_body g M md).
Proof.
  intros m x [a c] y H. unfold auxH_body, body2.
  destruct x as [|i1 [|i2 [|? ?]]]; try reflexivity. destruct (getH_args md) as [d b]. unfold aux_H. cbv zeta.
  destruct H as [H|H].
  - destruct a, c; try discriminate; fr; reflexivity.
  - fr. reflexivity.
Qed.
Lemma avg_frames : frames wA avgDB_body.
Proof.
  intros m x [a c] y H. unfold avgDB_body. cbn [fold_left].
  destruct H as [H|H].
  - destruct a; try discriminate; fr; reflexivity.
  - fr. reflexivity.
Qed.
Lemma auxE_local g M md : local_body wE (auxE_body g M md).
Proof.
  intros m m' c x _ Hr Ho. unfold auxE_body, body2.
  destruct x as [|i1 [|i2 [|? ?]]]; try (apply Ho; exact I).
  assert (Hr' : forall a c y, a <> Aux -> m (a, c) y = m' (a, c) y) by (intros a c0 y N; apply Hr; destruct a; try congruence; reflexivity).
  destruct md; cbn [getE_args]; unfold aux_E; cbv zeta; repeat (apply set_same; [|reflexivity|]); try (apply Ho; exact I);
    rewrite ?Hr' by discriminate; reflexivity.
Qed.
Lemma auxH_local g M md : local_body wH (auxH_body g M md).
Proof.
  intros m m' c x _ Hr Ho. unfold auxH_body, body2.
  destruct x as [|i1 [|i2 [|? ?]]]; try (apply Ho; exact I).
  assert (Hr' : forall a c y, a <> Aux -> m (a, c) y = m' (a, c) y) by (intros a c0 y N; apply Hr; destruct a; try congruence; reflexivity).
  destruct md; cbn [getH_args]; unfold aux_H; cbv zeta; repeat (apply set_same; [|reflexivity|]); try (apply Ho; exact I);
    rewrite ?Hr' by discriminate; reflexivity.
Qed.
Lemma avg_at m x a c : avgDB_body m x (a, c) x =
  match a with Em0 => (half * (m (Em0, c) x + m (Em, c) x))%R | _ => m (a, c) x end.
Proof.
  unfold avgDB_body. cbn [fold_left]. destruct a; [fr; reflexivity| |fr; reflexivity].
  destruct c; fr; rewrite (set_eq loc_eq_dec); fr; reflexivity.
Qed.
Lemma avg_local : local_body wA avgDB_body.
Proof.
  intros m m' [a c] x _ Hr Ho. rewrite !avg_at. destruct a; rewrite ?(Ho (_, _) I); reflexivity.
Qed.
Lemma far_frames g mt lo md c : frames (wr isB (far_out md)) (far_body g mt lo md c).
Proof. exact (faraday_gr_frames g mt lo md c). Qed.
Lemma amp_frames g mt lo hi top md c : frames (wr isE (amp_out md)) (amp_body g mt lo hi top md c).
Proof. exact (ampere_gr_frames g mt lo hi top md c). Qed.

(** The elements whose value after the kernel does not depend on the order of the loop. *)
Definition kgood (g : Z) (lo hi : bool) (top : Z) (k : fkernel) : arr * comp -> list Z -> Prop :=
  match k with KAmp md _ => amp_good g lo hi top md | _ => fun _ _ => True end.
Definition kwr (k : fkernel) : arr * comp -> bool :=
  match k with KAvg => wA | KAuxE _ => wE | KAuxH _ => wH
  | KFar md _ => wr isB (far_out md) | KAmp md _ => wr isE (amp_out md) end.
Lemma k_frames g M lo hi top k : frames (kwr k) (kbody g M lo hi top k).
Proof.
  destruct k; cbn [kbody kwr].
  - apply avg_frames. - apply auxE_frames. - apply auxH_frames. - apply far_frames. - apply amp_frames.
Qed.
Lemma k_local g M lo hi top k : local_on (kwr k) (kbody g M lo hi top k) (kgood g lo hi top k).
Proof.
  destruct k; cbn [kbody kwr kgood].
  - apply avg_local. - apply auxE_local. - apply auxH_local.
  - exact (faraday_gr_local g (met2 M) lo md coeff).
  - exact (ampere_gr_local g (met2 M) lo hi top md coeff).
Qed.
Lemma k_run g M lo hi top k cells m c y : NoDup cells -> kgood g lo hi top k c y -> In y cells ->
  par_for (kbody g M lo hi top k) cells m c y = kbody g M lo hi top k m y c y.
Proof.
  intros ND G I. rewrite (par_for_good (kwr k) (kbody g M lo hi top k) (kgood g lo hi top k) (k_frames _ _ _ _ _ _) (k_local _ _ _ _ _ _) _ _ _ _ ND G).
  destruct (in_dec cell_dec y cells); [reflexivity | contradiction].
Qed.

(** ** The same kernel on a subdomain and on the whole domain *)
Lemma set_sh (ml mg : gr_fields) k o1 o2 i1 i2 j1 j2 i1' i2' j1' j2' v v' c :
  i1' = i1 + o1 -> i2' = i2 + o2 -> j1' = j1 + o1 -> j2' = j2 + o2 ->
  ml c [j1; j2] = mg c [j1'; j2'] -> v = v' -> gset ml k [i1; i2] v c [j1; j2] = gset mg k [i1'; i2'] v' c [j1'; j2'].
Proof.
  intros -> -> -> -> H ->. unfold set. destruct (loc_eq_dec c k); [|exact H].
  destruct (list_eq_dec Z.eq_dec [j1; j2] [i1; i2]) as [E|N], (list_eq_dec Z.eq_dec [j1 + o1; j2 + o2] [i1 + o1; i2 + o2]) as [E'|N']; try reflexivity; try exact H; exfalso.
  - apply N'. congruence.
  - apply N. injection E' as A B. f_equal; [lia|f_equal; lia].
Qed.

Section Shift.
  Variables (g o1 o2 : Z) (Ml Mg : grmet) (ml mg : gr_fields) (i1 i2 : Z).
  Hypothesis HM : same_metric Ml Mg o1 o2.
  Hypothesis HA : agree_around [Em; Em0; Aux] o1 o2 ml mg i1 i2.

  Lemma ag a c j1 j2 j1' j2' : i1 - 1 <= j1 <= i1 + 1 -> i2 - 1 <= j2 <= i2 + 1 -> j1' = j1 + o1 -> j2' = j2 + o2 ->
    ml (a, c) [j1; j2] = mg (a, c) [j1'; j2'].
  Proof. intros R1 R2 -> ->. apply HA; auto. destruct a; cbn; auto. Qed.
  Lemma co i o : coord g (i + o) = (coord g i + IZR o)%R.
  Proof. unfold coord. rewrite <- plus_IZR. f_equal. lia. Qed.

  Ltac pt := f_equal; f_equal; rewrite ?co; try ring; unfold half; first [lra | match goal with H : o2 = 0 |- _ => rewrite H end; lra].
  Ltac mm := match goal with
    | |- m_h_ Ml ?i ?j (?x, ?y) = m_h_ Mg ?i ?j _ => rewrite (proj1 HM i j x y); pt
    | |- m_alpha Ml (?x, ?y) = _ => rewrite (proj1 (proj2 HM) x y); pt
    | |- m_beta1 Ml (?x, ?y) = _ => rewrite (proj1 (proj2 (proj2 HM)) x y); pt
    | |- m_sqrt_det_h Ml (?x, ?y) = _ => rewrite (proj1 (proj2 (proj2 (proj2 HM))) x y); pt
    | |- m_sqrt_det_h_tilde Ml (?x, ?y) = _ => rewrite (proj2 (proj2 (proj2 (proj2 HM))) x y); pt
    end.
  Ltac go := match goal with
    | |- ?x = ?x => reflexivity
    | |- gset _ _ _ _ _ _ = gset _ _ _ _ _ _ => apply (set_sh _ _ _ o1 o2); [lia|lia|lia|lia|go|go]
    | |- ml _ _ = mg _ _ => apply ag; lia
    | |- (?a + ?b = ?c + ?d)%R => apply f_equal2; go
    | |- (?a - ?b = ?c - ?d)%R => apply f_equal2; go
    | |- (?a * ?b = ?c * ?d)%R => apply f_equal2; go
    | |- (?a / ?b = ?c / ?d)%R => apply f_equal2; go
    | _ => mm
    end.

  Lemma sh_auxE md c : auxE_body g Ml md ml [i1; i2] c [i1; i2] = auxE_body g Mg md mg [i1 + o1; i2 + o2] c [i1 + o1; i2 + o2].
  Proof.
    unfold auxE_body, body2. destruct c as [a c]. destruct md; cbn [getE_args]; unfold aux_E; cbv zeta; go.
  Qed.
  Lemma sh_auxH md c : auxH_body g Ml md ml [i1; i2] c [i1; i2] = auxH_body g Mg md mg [i1 + o1; i2 + o2] c [i1 + o1; i2 + o2].
  Proof.
    unfold auxH_body, body2. destruct c as [a c]. destruct md; cbn [getH_args]; unfold aux_H; cbv zeta; go.
  Qed.
  Lemma sh_avg c : avgDB_body ml [i1; i2] c [i1; i2] = avgDB_body mg [i1 + o1; i2 + o2] c [i1 + o1; i2 + o2].
  Proof.
    destruct c as [a c]. rewrite !avg_at. destruct a; go.
  Qed.
  Variables (lo hi lo' hi' : bool) (top top' : Z).
  Hypothesis SD : subdom g o2 lo hi lo' hi' top top'.
  Hypothesis G2 : g <= i2 <= top.
  Lemma low_eq : (i2 =? g) && lo = (i2 + o2 =? g) && lo'.
  Proof.
    destruct SD as [h1 h2 -> h4]. destruct lo'; cbn [andb]; rewrite ?andb_false_r, ?andb_true_r; [|reflexivity].
    destruct (Z.eqb_spec i2 g), (Z.eqb_spec o2 0), (Z.eqb_spec (i2 + o2) g); cbn; try reflexivity; exfalso; lia.
  Qed.
  Lemma high_eq : (i2 =? top) && hi = (i2 + o2 =? top') && hi'.
  Proof.
    destruct SD as [h1 h2 h3 ->]. destruct hi'; cbn [andb]; rewrite ?andb_false_r, ?andb_true_r; [|reflexivity].
    destruct (Z.eqb_spec i2 top), (Z.eqb_spec (top + o2) top'), (Z.eqb_spec (i2 + o2) top'); cbn; try reflexivity; exfalso; lia.
  Qed.
  Lemma sh_far md k c : far_body g (met2 Ml) lo md k ml [i1; i2] c [i1; i2]
    = far_body g (met2 Mg) lo' md k mg [i1 + o1; i2 + o2] c [i1 + o1; i2 + o2].
  Proof.
    unfold far_body, body2. destruct c as [a c]. destruct md; cbn [far_args]; unfold faraday_gr; cbv zeta; cbn [sdh met2];
      rewrite low_eq; destruct (_ && _); go.
  Qed.
  Lemma sh_amp md k c : amp_body g (met2 Ml) lo hi top md k ml [i1; i2] c [i1; i2]
    = amp_body g (met2 Mg) lo' hi' top' md k mg [i1 + o1; i2 + o2] c [i1 + o1; i2 + o2].
  Proof.
    unfold amp_body, body2. destruct c as [a c]. destruct md; cbn [amp_args]; unfold ampere_gr; cbv zeta; cbn [sdh met2];
      rewrite low_eq, high_eq; destruct ((i2 + o2 =? g) && lo') eqn:L;
      try (assert (Z0 : o2 = 0) by (apply andb_true_iff in L; destruct L as [L _]; apply Z.eqb_eq in L; pose proof (sd_o2 _ _ _ _ _ _ _ _ SD); lia));
      try destruct ((i2 + _ =? top') && hi'); go.
  Qed.

  Lemma sh_body k c : kbody g Ml lo hi top k ml [i1; i2] c [i1; i2] = kbody g Mg lo' hi' top' k mg [i1 + o1; i2 + o2] c [i1 + o1; i2 + o2].
  Proof.
    destruct k; cbn [kbody].
    - apply sh_avg. - apply sh_auxE. - apply sh_auxH. - apply sh_far. - apply sh_amp.
  Qed.
  Lemma sh_good k c : kgood g lo hi top k c [i1; i2] -> kgood g lo' hi' top' k c [i1 + o1; i2 + o2].
  Proof.
    destruct k; cbn [kgood]; try exact (fun H => H). unfold amp_good. intros [H|[H|H]]; auto. right; right.
    destruct H as [N1 N2]. destruct SD as [h1 h2 h3 h4]. split; intros [e1 e2].
    - apply N1. rewrite h3, e1. split; [apply Z.eqb_eq|]; lia.
    - apply N2. rewrite h4, e1. split; [apply Z.eqb_eq|]; lia.
  Qed.
End Shift.

(** One launch on the subdomain gives, in the cell, what the same launch gives on the whole
    domain, in any order of either loop. *)
Lemma kernel_indep g o1 o2 Ml Mg lo hi lo' hi' top top' k cl cg ml mg i1 i2 :
  same_metric Ml Mg o1 o2 -> subdom g o2 lo hi lo' hi' top top' -> g <= i2 <= top ->
  agree_around [Em; Em0; Aux] o1 o2 ml mg i1 i2 ->
  NoDup cl -> In [i1; i2] cl -> NoDup cg -> In [i1 + o1; i2 + o2] cg ->
  (match k with KAmp (AmpAux | AmpInit) _ => node_inside g lo hi top i2 | _ => True end) ->
  agree [Em; Em0; Aux] o1 o2 (par_for (kbody g Ml lo hi top k) cl ml) (par_for (kbody g Mg lo' hi' top' k) cg mg) i1 i2.
Proof.
  intros HM SD G2 HA N1 I1 N2 I2 HG a c _.
  assert (kg : kgood g lo hi top k (a, c) [i1; i2]).
  { destruct k; cbn [kgood]; try exact I. unfold amp_good. destruct md; auto. }
  rewrite (k_run _ _ _ _ _ _ cl) by assumption.
  rewrite (k_run _ _ _ _ _ _ cg); [|assumption|apply (sh_good g o1 o2 i1 i2 lo hi lo' hi' top top'); assumption|assumption].
  apply sh_body; assumption.
Qed.

(** ** The average and the electric field computed from it *)
Open Scope R_scope.

Lemma avg_run cells m a c y : NoDup cells ->
  par_for avgDB_body cells m (a, c) y =
    match a with
    | Em0 => if in_dec cell_dec y cells then half * (m (Em0, c) y + m (Em, c) y) else m (Em0, c) y
    | _ => m (a, c) y
    end.
Proof.
  intro ND. rewrite (par_for_spec wA avgDB_body avg_frames avg_local) by assumption.
  destruct (in_dec cell_dec y cells); [apply avg_at|]. destruct a; reflexivity.
Qed.
Lemma avgJ_run cells (m : gr_currents) b c y : NoDup cells ->
  par_for avgJ_body cells m (b, c) y =
    if b then m (true, c) y
    else if in_dec cell_dec y cells then half * (m (true, c) y + m (false, c) y) else m (false, c) y.
Proof.
  intro ND.
  assert (F : frames (fun k : bool * jcomp => negb (fst k)) avgJ_body).
  { intros m' x [a c'] z H. unfold avgJ_body. cbn [fold_left].
    destruct H as [H|H].
    - destruct a; [|discriminate]. rewrite !(set_neq_c jloc_eq_dec) by congruence. reflexivity.
    - rewrite !(set_neq_x jloc_eq_dec) by congruence. reflexivity. }
  assert (At : forall (m' : gr_currents) x a c', avgJ_body m' x (a, c') x = if a then m' (true, c') x else half * (m' (true, c') x + m' (false, c') x)).
  { intros m' x a c'. unfold avgJ_body. cbn [fold_left]. destruct a.
    - rewrite !(set_neq_c jloc_eq_dec) by congruence. reflexivity.
    - destruct c'; repeat first [rewrite (set_eq jloc_eq_dec) | rewrite (set_neq_c jloc_eq_dec) by congruence]; reflexivity. }
  assert (L : local_body (fun k : bool * jcomp => negb (fst k)) avgJ_body).
  { intros m' m'' [a c'] x _ Hr Ho. rewrite !At. destruct a; rewrite ?(Ho (_, _) I); reflexivity. }
  rewrite (par_for_spec _ _ F L) by assumption.
  destruct (in_dec cell_dec y cells); [apply At|]. destruct b; reflexivity.
Qed.

Lemma auxE_1 g M md m i1 i2 : let '(d, _) := getE_args md in
  let a := coord g i1 in let b := coord g i2 in
  auxE_body g M md m [i1; i2] (Aux, Ex1) [i1; i2] =
    m_alpha M (a + half, b) * (m_h_ M 1 1 (a + half, b) * m (d, Ex1) [i1; i2]
      + (m_sqrt_det_h_tilde M (a, b) * m_h_ M 1 3 (a, b) * m (d, Ex3) [i1; i2]
         + m_sqrt_det_h_tilde M (a + 1, b) * m_h_ M 1 3 (a + 1, b) * m (d, Ex3) [(i1 + 1)%Z; i2])
        / (2 * m_sqrt_det_h_tilde M (a + half, b))).
Proof.
  unfold auxE_body, body2. destruct md; cbn [getE_args]; unfold aux_E; cbv zeta;
    rewrite 2 (set_neq_c loc_eq_dec) by congruence; rewrite (set_eq loc_eq_dec); reflexivity.
Qed.

Definition avg_then_E (g : Z) (M : grmet) (avg_cells aux_cells : list (list Z)) (m : gr_fields) : gr_fields :=
  par_for (auxE_body g M E_D0_B) aux_cells (par_for avgDB_body avg_cells m).
Lemma avg_E_1 g M A C m i1 i2 : NoDup A -> NoDup C -> In [i1; i2] C ->
  let a := coord g i1 in let b := coord g i2 in
  let D0 c y := if in_dec cell_dec y A then half * (m (Em0, c) y + m (Em, c) y) else m (Em0, c) y in
  avg_then_E g M A C m (Aux, Ex1) [i1; i2] =
    m_alpha M (a + half, b) * (m_h_ M 1 1 (a + half, b) * D0 Ex1 [i1; i2]
      + (m_sqrt_det_h_tilde M (a, b) * m_h_ M 1 3 (a, b) * D0 Ex3 [i1; i2]
         + m_sqrt_det_h_tilde M (a + 1, b) * m_h_ M 1 3 (a + 1, b) * D0 Ex3 [(i1 + 1)%Z; i2])
        / (2 * m_sqrt_det_h_tilde M (a + half, b))).
Proof.
  intros NA NC IC. cbv zeta. unfold avg_then_E.
  rewrite (k_run g M true true 0%Z (KAuxE E_D0_B) C) by (try assumption; exact I). cbn [kbody].
  pose proof (auxE_1 g M E_D0_B (par_for avgDB_body A m) i1 i2) as E. cbn [getE_args] in E. cbv zeta in E. rewrite E.
  rewrite !(avg_run A m) by assumption. reflexivity.
Qed.

Section Border.
  Variables (g n1 n2 k : Z) (Ml Mg : grmet) (Al Ag Cl Cg : list (list Z)) (m : gr_fields) (i2 : Z).
  Hypothesis (SM : same_metric Ml Mg 0 0) (Hk : (0 < k)%Z) (Hi : (g <= i2 < n2 + g)%Z) (Hn : (0 < n1)%Z).
  Hypothesis (NAl : NoDup Al) (NAg : NoDup Ag) (NCl : NoDup Cl) (NCg : NoDup Cg).
  Hypothesis (HAl : forall x, In x Al <-> active g n1 n2 x) (HAg : forall x, In x Ag <-> active g (n1 + k) n2 x).
  Notation last := (n1 + g - 1)%Z.
  Hypothesis (HCl : In [last; i2] Cl) (HCg : In [last; i2] Cg).

  Lemma act n j1 j2 : active g n n2 [j1; j2] <-> (g <= j1 < n + g)%Z /\ (g <= j2 < n2 + g)%Z.
  Proof.
    split; [intros (a & b & e & r); injection e as -> ->; exact r|]. intro r. exists j1, j2. auto.
  Qed.
  Lemma border :
    let a := coord g last in let b := coord g i2 in
    avg_then_E g Ml Al Cl m (Aux, Ex1) [last; i2] - avg_then_E g Mg Ag Cg m (Aux, Ex1) [last; i2] =
      m_alpha Mg (a + half, b) * (m_sqrt_det_h_tilde Mg (a + 1, b) * m_h_ Mg 1 3 (a + 1, b)
        / (2 * m_sqrt_det_h_tilde Mg (a + half, b)))
      * (half * (m (Em0, Ex3) [(n1 + g)%Z; i2] - m (Em, Ex3) [(n1 + g)%Z; i2])).
  Proof.
    cbv zeta. rewrite !avg_E_1 by assumption. cbv zeta.
    destruct SM as (s1 & s2 & s3 & s4 & s5).
    assert (e : forall f f' : coord2 -> R, (forall x y, f (x, y) = f' (x + IZR 0, y + IZR 0)) -> forall x y, f (x, y) = f' (x, y)).
    { intros f f' E x y. rewrite E. f_equal. f_equal; ring. }
    rewrite ?(e _ _ (s1 1%nat 1%nat)), ?(e _ _ (s1 1%nat 3%nat)), ?(e _ _ s2), ?(e _ _ s5).
    assert (in1 : active g n1 n2 [last; i2]) by (apply act; lia).
    assert (in2 : active g (n1 + k) n2 [last; i2]) by (apply act; lia).
    replace (last + 1)%Z with (n1 + g)%Z by lia.
    assert (out1 : ~ active g n1 n2 [(n1 + g)%Z; i2]) by (rewrite act; lia).
    assert (in3 : active g (n1 + k) n2 [(n1 + g)%Z; i2]) by (apply act; lia).
    rewrite <- HAl in in1, out1. rewrite <- HAg in in2, in3.
    destruct (in_dec cell_dec [last; i2] Al); [|contradiction].
    destruct (in_dec cell_dec [last; i2] Ag); [|contradiction].
    destruct (in_dec cell_dec [(n1 + g)%Z; i2] Al); [contradiction|].
    destruct (in_dec cell_dec [(n1 + g)%Z; i2] Ag); [|contradiction].
    unfold Rdiv. match goal with |- context [/ (2 * ?w)] => generalize (/ (2 * w)); intro q end.
    generalize (m_alpha Mg (coord g last + half, coord g i2)), (m_h_ Mg 1 1 (coord g last + half, coord g i2)). intros. unfold half. field.
  Qed.
End Border.

(** The row of nodes on the two axes. *)
Section Poles.
  Variables (g n1 n2 : Z) (M : grmet) (A C : list (list Z)) (m : gr_fields) (i1 : Z).
  Hypothesis (Hi : (g <= i1 < n1 + g)%Z) (Hn : (0 < n2)%Z).
  Hypothesis (NA : NoDup A) (NC : NoDup C) (HA : forall x, In x A <-> active g n1 n2 x).

  Lemma low_row c : par_for avgDB_body A m (Em0, c) [i1; g] = half * (m (Em0, c) [i1; g] + m (Em, c) [i1; g]).
  Proof.
    rewrite avg_run by assumption. destruct (in_dec cell_dec _ A) as [I|N]; [reflexivity|].
    exfalso. apply N. apply HA. exists i1, g. split; [reflexivity|]. lia.
  Qed.
  Lemma high_row c : par_for avgDB_body A m (Em0, c) [i1; (n2 + g)%Z] = m (Em0, c) [i1; (n2 + g)%Z].
  Proof.
    rewrite avg_run by assumption. destruct (in_dec cell_dec _ A) as [I|N]; [|reflexivity].
    exfalso. apply HA in I. destruct I as (a & b & e & r). injection e as <- <-. lia.
  Qed.
End Poles.

(** ** Kerr-Schild *)
Lemma ks_same eps a g g' o1 o2 : s_dr g' = s_dr g -> s_dth g' = s_dth g ->
  x1_min g' = x1_min g + IZR o1 * s_dr g -> x2_min g' = x2_min g + IZR o2 * s_dth g ->
  same_metric (ks eps a g') (ks eps a g) o1 o2.
Proof.
  intros h1 h2 h3 h4.
  assert (er : forall x, k_r g' x = k_r g (x + IZR o1)) by (intro x; unfold k_r; rewrite h1, h3; ring).
  assert (et : forall x, k_th g' x = k_th g (x + IZR o2)) by (intro x; unfold k_th; rewrite h2, h4; ring).
  red. cbv zeta. repeat split; intros.
  - cbn [m_h_ ks]. unfold k_h_. cbn [fst snd]. rewrite er, et, h1, h2. reflexivity.
  - cbn [m_alpha ks]. unfold k_alpha. cbn [fst snd]. rewrite er, et. reflexivity.
  - cbn [m_beta1 ks]. unfold k_beta1, s_dr_inv. cbn [fst snd]. rewrite er, et, h1. reflexivity.
  - cbn [m_sqrt_det_h ks]. unfold k_sqrt_det_h. cbn [fst snd]. rewrite er, et, h1, h2. reflexivity.
  - cbn [m_sqrt_det_h_tilde ks]. unfold k_sqrt_det_h_tilde. cbn [fst snd]. rewrite er, et, h1, h2. reflexivity.
Qed.

Lemma ks_parts eps a g x : 0 < s_dr g -> 0 < s_dth g -> 0 < k_r g (fst x) ->
  0 < m_alpha (ks eps a g) x /\ 0 < m_sqrt_det_h_tilde (ks eps a g) x /\
  (a <> 0 -> 0 < sin (k_th g (snd x)) -> m_h_ (ks eps a g) 1 3 x <> 0).
Proof.
  intros h1 h2 hr. cbn [m_alpha m_sqrt_det_h_tilde m_h_ ks].
  unfold k_alpha, k_sqrt_det_h_tilde, k_h_. cbn [fst snd].
  set (r := k_r g (fst x)) in *. set (th := k_th g (snd x)).
  assert (S : 0 < k_Sigma a r th). { unfold k_Sigma, sqr. pose proof (Rle_0_sqr a). pose proof (Rle_0_sqr (cos th)). unfold Rsqr in *.
    pose proof (Rmult_le_pos _ _ H H0). nra. }
  assert (Zp : 0 < k_z a r th). { unfold k_z. apply Rdiv_lt_0_compat; lra. }
  assert (Q : 0 < sqrt (1 + k_z a r th)) by (apply sqrt_lt_R0; lra).
  split; [apply Rdiv_lt_0_compat; lra|]. split.
  - apply Rmult_lt_0_compat; [|exact Q]. apply Rmult_lt_0_compat; [|exact S]. apply Rmult_lt_0_compat; assumption.
  - intros Ha Hs. assert (0 < sqr (sin th)) by (unfold sqr; apply Rmult_lt_0_compat; assumption).
    repeat apply Rmult_integral_contrapositive_currified; lra.
Qed.

(** Without rotation (h_13 = 0) the average needs no exchange. *)
Definition avg_all (m : gr_fields) : gr_fields :=
  fun k x => match k with (Em0, c) => half * (m (Em0, c) x + m (Em, c) x) | _ => m k x end.
Lemma auxE_own g M m m' y c : (forall x, m_h_ M 1 3 x = 0) ->
  (forall c x, m (Em, c) x = m' (Em, c) x) -> (forall k, m k y = m' k y) ->
  auxE_body g M E_D0_B m y c y = auxE_body g M E_D0_B m' y c y.
Proof.
  intros H13 HE Hy. unfold auxE_body, body2. destruct y as [|i1 [|i2 [|? ?]]]; try apply Hy.
  cbn [getE_args]. unfold aux_E. cbv zeta. rewrite !H13.
  repeat (apply set_same; [|reflexivity|]); try apply Hy;
    rewrite ?Rmult_0_r, ?Rmult_0_l, ?Rplus_0_r, ?HE, ?Hy; reflexivity.
Qed.
Lemma no_rotation g o1 o2 Ml Mg Al Ag Cl Cg ml mg i1 i2 c :
  same_metric Ml Mg o1 o2 -> (forall x, m_h_ Mg 1 3 x = 0) ->
  agree_around [Em; Em0; Aux] o1 o2 ml mg i1 i2 ->
  NoDup Al -> NoDup Ag -> NoDup Cl -> NoDup Cg ->
  In [i1; i2] Al -> In [(i1 + o1)%Z; (i2 + o2)%Z] Ag -> In [i1; i2] Cl -> In [(i1 + o1)%Z; (i2 + o2)%Z] Cg ->
  avg_then_E g Ml Al Cl ml c [i1; i2] = avg_then_E g Mg Ag Cg mg c [(i1 + o1)%Z; (i2 + o2)%Z].
Proof.
  intros HM H13 HA N1 N2 N3 N4 I1 I2 I3 I4. unfold avg_then_E.
  assert (H13' : forall x, m_h_ Ml 1 3 x = 0).
  { intros [x y]. rewrite (proj1 HM 1%nat 3%nat x y). apply H13. }
  rewrite (k_run g Ml true true 0%Z (KAuxE E_D0_B) Cl) by (try assumption; exact I).
  rewrite (k_run g Mg true true 0%Z (KAuxE E_D0_B) Cg) by (try assumption; exact I). cbn [kbody].
  assert (own : forall A (m : gr_fields) y k, NoDup A -> In y A -> par_for avgDB_body A m k y = avg_all m k y).
  { intros A m y [a c'] NA IA. rewrite avg_run by assumption. unfold avg_all. destruct a; try reflexivity.
    destruct (in_dec cell_dec y A); [reflexivity|contradiction]. }
  assert (em : forall A (m : gr_fields) y c, NoDup A -> par_for avgDB_body A m (Em, c) y = avg_all m (Em, c) y).
  { intros A m y c' NA. rewrite avg_run by assumption. reflexivity. }
  rewrite (auxE_own g Ml (par_for avgDB_body Al ml) (avg_all ml)) by (auto).
  rewrite (auxE_own g Mg (par_for avgDB_body Ag mg) (avg_all mg)) by (auto).
  apply sh_auxE; [assumption|].
  intros j1 j2 r1 r2 a c' _. pose proof (HA j1 j2 r1 r2) as Q. unfold agree in Q. unfold avg_all.
  destruct a; rewrite ?(Q _ _ (or_introl eq_refl)), ?(Q _ _ (or_intror (or_introl eq_refl))), ?(Q _ _ (or_intror (or_intror (or_introl eq_refl)))); reflexivity.
Qed.

Lemma ks_border eps a gr g n1 n2 k Ml Al Ag Cl Cg m i2 :
  let last := (n1 + g - 1)%Z in
  0 < s_dr gr -> 0 < s_dth gr -> a <> 0 -> 0 < k_r gr (coord g last) -> 0 < k_th gr (coord g i2) < PI ->
  same_metric Ml (ks eps a gr) 0 0 -> (0 < k)%Z -> (g <= i2 < n2 + g)%Z -> (0 < n1)%Z ->
  NoDup Al -> NoDup Ag -> NoDup Cl -> NoDup Cg ->
  (forall x, In x Al <-> active g n1 n2 x) -> (forall x, In x Ag <-> active g (n1 + k) n2 x) ->
  In [last; i2] Cl -> In [last; i2] Cg ->
  m (Em0, Ex3) [(n1 + g)%Z; i2] <> m (Em, Ex3) [(n1 + g)%Z; i2] ->
  avg_then_E g Ml Al Cl m (Aux, Ex1) [last; i2] <> avg_then_E g (ks eps a gr) Ag Cg m (Aux, Ex1) [last; i2].
Proof.
  cbv zeta. intros h1 h2 Ha hr ht SM Hk Hi Hn N1 N2 N3 N4 A1 A2 I1 I2 D E.
  pose proof (border g n1 n2 k Ml (ks eps a gr) Al Ag Cl Cg m i2 SM Hk Hi Hn N1 N2 N3 N4 A1 A2 I1 I2) as B. cbv zeta in B.
  rewrite E, Rminus_diag_eq in B by reflexivity.
  set (A := coord g (n1 + g - 1)) in *. set (b := coord g i2) in *.
  assert (hr' : forall u, 0 <= u -> 0 < k_r gr (A + u)) by (intros u Hu; unfold k_r in *; pose proof (Rmult_le_pos _ _ Hu (Rlt_le _ _ h1)); lra).
  assert (sn : 0 < sin (k_th gr b)) by (apply sin_gt_0; lra).
  destruct (ks_parts eps a gr (A + half, b) h1 h2 (hr' half ltac:(unfold half; lra))) as (p1 & p2 & _).
  destruct (ks_parts eps a gr (A + 1, b) h1 h2 (hr' 1 ltac:(lra))) as (_ & p3 & p4). specialize (p4 Ha sn).
  symmetry in B. apply Rmult_integral in B. destruct B as [B|B].
  - apply Rmult_integral in B. destruct B as [B|B]; [lra|]. unfold Rdiv in B.
    apply Rmult_integral in B. destruct B as [B|B].
    + apply Rmult_integral in B. destruct B as [B|B]; [lra|contradiction].
    + revert B. apply Rinv_neq_0_compat. lra.
  - apply D. unfold half in B. lra.
Qed.

Lemma first_current : forall cells (J : gr_currents) c y, NoDup cells -> In y cells ->
  (forall c y, J (false, c) y = 0) ->
  par_for avgJ_body cells J (false, c) y = J (true, c) y / 2.
Proof.
  intros cells J c y ND I Z0. rewrite avgJ_run by assumption. destruct (in_dec cell_dec y cells); [|contradiction].
  rewrite Z0. unfold half. lra.
Qed.
Lemma poles : forall g n1 n2 cells m i1 c, (g <= i1 < n1 + g)%Z -> (0 < n2)%Z -> NoDup cells ->
  (forall x, In x cells <-> active g n1 n2 x) ->
  let m' := par_for avgDB_body cells m in
  m' (Em0, c) [i1; g] = (m (Em0, c) [i1; g] + m (Em, c) [i1; g]) / 2 /\
  m' (Em0, c) [i1; (n2 + g)%Z] = m (Em0, c) [i1; (n2 + g)%Z].
Proof.
  intros g n1 n2 cells m i1 c Hi Hn ND HA. split.
  - rewrite (low_row g n1 n2) by assumption. unfold half. lra.
  - apply (high_row g n1 n2); assumption.
Qed.
