From Coq Require Import Reals ZArith List Bool Lra Lia Psatz.
From Verif Require Import Base MetModel MetSpec MetProofs KsModel KsSpec KsProofs KsTop SpctTop EckModel EckSpec.
Import ListNotations.
Open Scope R_scope.

Lemma engine_form M x : engine_metric M x -> gr_regular M x /\ exists mu a e1 e2, form mu a M x e1 e2.
Proof.
  intros [eps a g y S Rg|g y S Rg|eps a g r0 h m y Q MK Rg]; (split; [exact Rg|]).
  - exists 1, a, (s_dr g), (s_dth g). apply ks_form; assumption.
  - exists 0, 0, (s_dr g), (s_dth g). apply ks0_form; assumption.
  - eexists 1, a, _, _. eapply qks_form; eassumption.
Qed.

(** ** An orthonormal frame *)
Record tetrad (M : grmet) (x : coord2) (al be A b c q : R) : Prop := {
  te_al : 0 < al; te_A : 0 < A; te_b : 0 < b; te_c : 0 < c;
  te_alpha : m_alpha M x = al; te_beta : m_beta1 M x = be;
  te_inner : forall v w, inner M x v w =
    - (al * at4 v 0) * (al * at4 w 0) + (A * (at4 v 1 + be * at4 v 0)) * (A * (at4 w 1 + be * at4 w 0))
    + (b * at4 v 2) * (b * at4 w 2)
    + (c * at4 v 3 + q * (at4 v 1 + be * at4 v 0)) * (c * at4 w 3 + q * (at4 w 1 + be * at4 w 0));
  te_lower : forall v i, (i < 4)%nat -> at4 (gr_cntrv_to_cov4 M x v) i = sum4 (fun j => m_g_ M i j x * at4 v j)
}.

Lemma engine_tetrad M x : engine_metric M x -> exists al be A b c q, tetrad M x al be A b c q.
Proof.
  intros EM. destruct (engine_form M x EM) as (Rg & mu & a & e1 & e2 & F).
  destruct (form_triangular _ _ _ _ _ _ F Rg) as (A0 & b & c & q & hA & hb & hc & _ & _ & _ & _ & _ & _ & _ & _ & H1 & H2 & H3 & H4 & H5).
  destruct (form_adm _ _ _ _ _ _ F Rg) as (ha & G00 & G0 & G).
  exists (m_alpha M x), (m_beta1 M x), (/ A0), b, c, (q / c).
  assert (z1 : m_h_ M 1 2 x = 0) by (rewrite (fo_h_ _ _ _ _ _ _ F); reflexivity).
  assert (z2 : m_h_ M 2 1 x = 0) by (rewrite (fo_h_ _ _ _ _ _ _ F); reflexivity).
  assert (z3 : m_h_ M 2 3 x = 0) by (rewrite (fo_h_ _ _ _ _ _ _ F); reflexivity).
  assert (z4 : m_h_ M 3 2 x = 0) by (rewrite (fo_h_ _ _ _ _ _ _ F); reflexivity).
  unfold sum3, shift in G00, G0. rewrite H1 in G00.
  destruct (G0 1%nat ltac:(lia)) as [g01 g10]. destruct (G0 2%nat ltac:(lia)) as [g02 g20]. destruct (G0 3%nat ltac:(lia)) as [g03 g30].
  pose proof (G 1%nat 1%nat ltac:(lia) ltac:(lia)) as g11. pose proof (G 1%nat 2%nat ltac:(lia) ltac:(lia)) as g12. pose proof (G 1%nat 3%nat ltac:(lia) ltac:(lia)) as g13.
  pose proof (G 2%nat 1%nat ltac:(lia) ltac:(lia)) as g21. pose proof (G 2%nat 2%nat ltac:(lia) ltac:(lia)) as g22. pose proof (G 2%nat 3%nat ltac:(lia) ltac:(lia)) as g23.
  pose proof (G 3%nat 1%nat ltac:(lia) ltac:(lia)) as g31. pose proof (G 3%nat 2%nat ltac:(lia) ltac:(lia)) as g32. pose proof (G 3%nat 3%nat ltac:(lia) ltac:(lia)) as g33.
  rewrite ?z1, ?z2, ?z3, ?z4, ?H1, ?H2, ?H3, ?H4, ?H5 in *.
  assert (f02 : m_g_ M 0 2 x = 0) by (rewrite g02; ring). assert (f20 : m_g_ M 2 0 x = 0) by (rewrite g20; exact f02).
  assert (f01 : m_g_ M 0 1 x = (1 / (A0 * A0) + q * q / (c * c)) * m_beta1 M x) by (rewrite g01; ring).
  assert (f03 : m_g_ M 0 3 x = q * m_beta1 M x) by (rewrite g03; ring).
  rewrite f01 in g10. rewrite f03 in g30.
  constructor; try assumption; try reflexivity.
  - apply Rinv_0_lt_compat. exact hA.
  - intros [[[v0 v1] v2] v3] [[[w0 w1] w2] w3]. unfold inner, sum4. cbn [at4]. rewrite G00, f01, f02, f03, g10, f20, g30, g11, g12, g13, g21, g22, g23, g31, g32, g33. field. lra.
  - intros [[[v0 v1] v2] v3] i Hi. unfold gr_cntrv_to_cov4, sum4.
    destruct i as [|[|[|[|i]]]]; [| | | |lia]; cbn [at4]; rewrite ?f02, ?f20, ?g12, ?g21, ?g23, ?g32; ring.
Qed.

Section Frame.
  Variables (M : grmet) (x : coord2) (al be A b c q : R).
  Hypothesis T : tetrad M x al be A b c q.

  Lemma norm_sq v : let d := gr_cntrv_to_cov4 M x v in
    at4 d 0 * at4 v 0 + at4 d 1 * at4 v 1 + at4 d 2 * at4 v 2 + at4 d 3 * at4 v 3 = inner M x v v.
  Proof. cbv zeta. rewrite !(te_lower _ _ _ _ _ _ _ _ T) by lia. unfold inner, sum4. ring. Qed.

  Lemma zamo_normal : normal_observer M x (zamo_fallback M x).
  Proof.
    pose proof (te_al _ _ _ _ _ _ _ _ T) as ha. unfold normal_observer, future_unit, zamo_fallback. cbv zeta.
    rewrite (te_alpha _ _ _ _ _ _ _ _ T), (te_beta _ _ _ _ _ _ _ _ T). split; [split|].
    - rewrite (te_inner _ _ _ _ _ _ _ _ T). cbn [at4]. field. lra.
    - cbn [at4]. apply Rdiv_lt_0_compat; lra.
    - intros w W. rewrite (te_inner _ _ _ _ _ _ _ _ T), W. cbn [at4]. field. lra.
  Qed.

  Lemma timelike_fast v : inner M x v v <= 0 -> 0 <= at4 v 0 -> inner M x v v = 0 \/ 0 < at4 v 0.
  Proof.
    intros I P. destruct (Rle_lt_or_eq_dec _ _ P) as [L|E]; [right; exact L|]. left.
    rewrite (te_inner _ _ _ _ _ _ _ _ T) in *. rewrite <- E in *.
    pose proof (Rle_0_sqr (A * (at4 v 1 + be * 0))) as s1. pose proof (Rle_0_sqr (b * at4 v 2)) as s2.
    pose proof (Rle_0_sqr (c * at4 v 3 + q * (at4 v 1 + be * 0))) as s3. unfold Rsqr in *. lra.
  Qed.

  Lemma cauchy3 a1 a2 a3 b1 b2 b3 s t : 0 <= s -> 0 <= t -> a1 * a1 + a2 * a2 + a3 * a3 <= s * s -> b1 * b1 + b2 * b2 + b3 * b3 <= t * t ->
    a1 * b1 + a2 * b2 + a3 * b3 <= s * t.
  Proof.
    intros Hs Ht HA HB. destruct (Rle_dec (a1 * b1 + a2 * b2 + a3 * b3) (s * t)) as [L|L]; [exact L|exfalso]. apply Rnot_le_lt in L.
    assert (0 <= s * t) by (apply Rmult_le_pos; assumption).
    assert (Q : (s * t) * (s * t) < (a1 * b1 + a2 * b2 + a3 * b3) * (a1 * b1 + a2 * b2 + a3 * b3)) by (apply Rmult_le_0_lt_compat; assumption).
    assert (C : (a1 * b1 + a2 * b2 + a3 * b3) * (a1 * b1 + a2 * b2 + a3 * b3) <= (a1 * a1 + a2 * a2 + a3 * a3) * (b1 * b1 + b2 * b2 + b3 * b3)).
    { pose proof (Rle_0_sqr (a1 * b2 - a2 * b1)). pose proof (Rle_0_sqr (a1 * b3 - a3 * b1)). pose proof (Rle_0_sqr (a2 * b3 - a3 * b2)). unfold Rsqr in *. lra. }
    assert (N : 0 <= a1 * a1 + a2 * a2 + a3 * a3) by (pose proof (Rle_0_sqr a1); pose proof (Rle_0_sqr a2); pose proof (Rle_0_sqr a3); unfold Rsqr in *; lra).
    assert (N' : 0 <= b1 * b1 + b2 * b2 + b3 * b3) by (pose proof (Rle_0_sqr b1); pose proof (Rle_0_sqr b2); pose proof (Rle_0_sqr b3); unfold Rsqr in *; lra).
    assert (P : (a1 * a1 + a2 * a2 + a3 * a3) * (b1 * b1 + b2 * b2 + b3 * b3) <= (s * s) * (t * t)) by (apply Rmult_le_compat; assumption).
    lra.
  Qed.

  Definition add4 (v w : vec4) : vec4 :=
    let '(v0, v1, v2, v3) := v in let '(w0, w1, w2, w3) := w in (v0 + w0, v1 + w1, v2 + w2, v3 + w3).
  Lemma inner_add v w : inner M x (add4 v w) (add4 v w) = inner M x v v + inner M x w w + 2 * inner M x v w.
  Proof. rewrite !(te_inner _ _ _ _ _ _ _ _ T). destruct v as [[[v0 v1] v2] v3], w as [[[w0 w1] w2] w3]. cbn [at4 add4]. ring. Qed.
  Lemma inner_scale k v : inner M x (scale4 k v) (scale4 k v) = k * k * inner M x v v.
  Proof. rewrite !(te_inner _ _ _ _ _ _ _ _ T). destruct v as [[[v0 v1] v2] v3]. cbn [at4 scale4]. ring. Qed.
  Lemma causal_inner v w : inner M x v v <= 0 -> inner M x w w <= 0 -> 0 <= at4 v 0 -> 0 <= at4 w 0 -> inner M x v w <= 0.
  Proof.
    intros Iv Iw Pv Pw. rewrite (te_inner _ _ _ _ _ _ _ _ T) in *. pose proof (te_al _ _ _ _ _ _ _ _ T) as ha.
    match goal with |- - (?s) * ?t + ?a1 * ?b1 + ?a2 * ?b2 + ?a3 * ?b3 <= 0 =>
      assert (K : a1 * b1 + a2 * b2 + a3 * b3 <= s * t); [apply cauchy3; [apply Rmult_le_pos; lra|apply Rmult_le_pos; lra|lra|lra]|lra] end.
  Qed.
  Definition causal v := inner M x v v <= 0 /\ 0 <= at4 v 0.
  Lemma at4_add v w i : (i < 4)%nat -> at4 (add4 v w) i = at4 v i + at4 w i.
  Proof. destruct v as [[[v0 v1] v2] v3], w as [[[w0 w1] w2] w3]. destruct i as [|[|[|[|i]]]]; intros; try lia; reflexivity. Qed.
  Lemma at4_scale k v i : at4 (scale4 k v) i = k * at4 v i.
  Proof. destruct v as [[[v0 v1] v2] v3]. destruct i as [|[|[|i]]]; reflexivity. Qed.
  Lemma causal_add v w : causal v -> causal w -> causal (add4 v w).
  Proof. intros [I P] [I' P']. split; [rewrite inner_add; pose proof (causal_inner v w I I' P P'); lra|rewrite at4_add by lia; lra]. Qed.
  Lemma timelike_add v w : causal v -> causal w -> inner M x v v < 0 -> inner M x (add4 v w) (add4 v w) < 0.
  Proof. intros [I P] [I' P'] L. rewrite inner_add. pose proof (causal_inner v w I I' P P'). lra. Qed.
  Lemma add4_comm v w : add4 v w = add4 w v.
  Proof. destruct v as [[[v0 v1] v2] v3], w as [[[w0 w1] w2] w3]. cbn [add4]. apply quad_eq; ring. Qed.
  Lemma timelike_add_r v w : causal v -> causal w -> inner M x w w < 0 -> inner M x (add4 v w) (add4 v w) < 0.
  Proof. intros. rewrite add4_comm. apply timelike_add; assumption. Qed.
End Frame.

(** ** The normalisation *)
Lemma normalize_cases eps M x N : engine_metric M x -> 0 <= eps -> 0 <= at4 N 0 ->
  (eps < at4 N 0 /\ inner M x N N < - (eps * eps) /\ normalize eps M x N = scale4 (/ sqrt (- inner M x N N)) N) \/
  ((at4 N 0 <= eps \/ - (eps * eps) <= inner M x N N) /\ normalize eps M x N = zamo_fallback M x).
Proof.
  intros EM He HN. destruct (engine_tetrad M x EM) as (al & be & A & b & c & q & T).
  pose proof (norm_sq _ _ _ _ _ _ _ _ T N) as Q. cbv zeta in Q.
  unfold normalize. destruct N as [[[n0 n1] n2] n3]. destruct (gr_cntrv_to_cov4 M x (n0, n1, n2, n3)) as [[[d0 d1] d2] d3]. cbn [at4] in *. rewrite Q.
  unfold almost_zero. destruct (Rle_dec (Rabs n0) eps) as [L|L].
  { right. split; [left; rewrite Rabs_pos_eq in L by exact HN; exact L|reflexivity]. }
  rewrite Rabs_pos_eq in L by exact HN. apply Rnot_le_lt in L.
  destruct (Rlt_dec (inner M x (n0, n1, n2, n3) (n0, n1, n2, n3)) 0) as [L1|L1].
  2: { right. split; [right|reflexivity]. apply Rnot_lt_le in L1. pose proof (Rle_0_sqr eps) as s. unfold Rsqr in s. lra. }
  set (I := inner M x (n0, n1, n2, n3) (n0, n1, n2, n3)) in *.
  pose proof (sqrt_pos (- I)) as sp. pose proof (sqrt_sqrt (- I) ltac:(lra)) as ss.
  rewrite Rabs_pos_eq by exact sp. destruct (Rle_dec (sqrt (- I)) eps) as [L2|L2].
  - right. split; [right|reflexivity]. assert (sqrt (- I) * sqrt (- I) <= eps * eps) by (apply Rmult_le_compat; assumption). lra.
  - left. apply Rnot_le_lt in L2. split; [exact L|]. split.
    + assert (eps * eps < sqrt (- I) * sqrt (- I)) by (apply Rmult_le_0_lt_compat; assumption). lra.
    + cbn [scale4]. apply quad_eq; unfold Rdiv; ring.
Qed.

Lemma normalize_unit eps M x N : engine_metric M x -> 0 <= eps -> 0 <= at4 N 0 -> future_unit M x (normalize eps M x N).
Proof.
  intros EM He HN. destruct (engine_tetrad M x EM) as (al & be & A & b & c & q & T).
  destruct (normalize_cases eps M x N EM He HN) as [(L & L1 & ->)|(_ & ->)].
  - pose proof (Rle_0_sqr eps) as s. unfold Rsqr in s.
    assert (sp : 0 < sqrt (- inner M x N N)) by (apply sqrt_lt_R0; lra). pose proof (sqrt_sqrt (- inner M x N N) ltac:(lra)) as ss.
    split.
    + rewrite (inner_scale _ _ _ _ _ _ _ _ T). set (k := sqrt (- inner M x N N)) in *. replace (inner M x N N) with (- (k * k)) by lra. field. lra.
    + rewrite at4_scale. apply Rmult_lt_0_compat; [apply Rinv_0_lt_compat; exact sp|lra].
  - exact (proj1 (zamo_normal _ _ _ _ _ _ _ _ T)).
Qed.

Lemma scale_scale k l v : scale4 k (scale4 l v) = scale4 (k * l) v.
Proof. destruct v as [[[v0 v1] v2] v3]. cbn [scale4]. apply quad_eq; ring. Qed.
Lemma scale_1 v : scale4 1 v = v.
Proof. destruct v as [[[v0 v1] v2] v3]. cbn [scale4]. apply quad_eq; ring. Qed.

Lemma normalize_direction eps M x N : engine_metric M x -> 0 <= eps -> eps < at4 N 0 -> inner M x N N < - (eps * eps) ->
  N = scale4 (sqrt (- inner M x N N)) (normalize eps M x N) /\
  forall k V, future_unit M x V -> N = scale4 k V -> V = normalize eps M x N /\ k = sqrt (- inner M x N N).
Proof.
  intros EM He HN HI. destruct (engine_tetrad M x EM) as (al & be & A & b & c & q & T).
  assert (s : 0 <= eps * eps) by (apply Rmult_le_pos; exact He).
  assert (sp : 0 < sqrt (- inner M x N N)) by (apply sqrt_lt_R0; lra).
  destruct (normalize_cases eps M x N EM He ltac:(lra)) as [(_ & _ & E)|([B|B] & _)]; [|lra|lra].
  rewrite E. split.
  - rewrite scale_scale, Rinv_r, scale_1 by lra. reflexivity.
  - intros k V [VI VP] EN.
    assert (K : 0 < k). { rewrite EN, at4_scale in HN. apply Rmult_lt_reg_r with (at4 V 0); [exact VP|]. lra. }
    assert (I : inner M x N N = - (k * k)) by (rewrite EN, (inner_scale _ _ _ _ _ _ _ _ T), VI; ring).
    assert (S : sqrt (- inner M x N N) = k) by (rewrite I, Ropp_involutive; apply sqrt_square; lra).
    rewrite S. split; [|reflexivity]. rewrite EN at 1. rewrite scale_scale, Rinv_l, scale_1 by lra. reflexivity.
Qed.

Lemma normalize_fallback eps M x N : engine_metric M x -> 0 <= eps -> 0 <= at4 N 0 ->
  at4 N 0 <= eps \/ - (eps * eps) <= inner M x N N -> normal_observer M x (normalize eps M x N).
Proof.
  intros EM He HN HI. destruct (engine_tetrad M x EM) as (al & be & A & b & c & q & T).
  destruct (normalize_cases eps M x N EM He HN) as [(L & L1 & _)|(_ & ->)]; [lra|].
  exact (zamo_normal _ _ _ _ _ _ _ _ T).
Qed.

(** ** Particles *)
Lemma lower_upper M x : engine_metric M x -> forall v, gr_cov_to_cntrv4 M x (gr_cntrv_to_cov4 M x v) = v /\ gr_cntrv_to_cov4 M x (gr_cov_to_cntrv4 M x v) = v.
Proof. intros EM v. destruct (engine_form M x EM) as (Rg & mu & a & e1 & e2 & F). destruct (form_4d _ _ _ _ _ _ F Rg v) as [P Q]. split; assumption. Qed.

Definition pnorm (p : contributor) : R := if Req_EM_T (q_mass p) 0 then 0 else 1.

Lemma gamma_pos M p : engine_metric M (q_x p) -> moves p -> 0 < at4 (up4 M p) 0.
Proof.
  intros EM Mv. destruct (engine_form _ _ EM) as (Rg & mu & a & e1 & e2 & F).
  destruct (form_triangular _ _ _ _ _ _ F Rg) as (A0 & b & c & q & hA & hb & hc & _ & _ & _ & H1 & H2 & H3 & H4 & H5 & _).
  unfold up4. destruct (q_u p) as [[u1 u2] u3] eqn:EU. unfold gr_cov_to_cntrv4. cbn [at4].
  fold (pnorm p).
  destruct (form_gamma _ _ _ _ _ _ F Rg u1 u2 u3 (pnorm p)) as [G Q].
  destruct (form_adm _ _ _ _ _ _ F Rg) as (ha & _).
  apply Rmult_lt_reg_l with (m_alpha M (q_x p)); [exact ha|]. rewrite Rmult_0_r, G. unfold gr_gamma. apply sqrt_lt_R0.
  unfold pnorm. destruct (Req_EM_T (q_mass p) 0) as [Z|Z]; [|lra].
  destruct Mv as [Mv|Mv]; [contradiction|]. rewrite Rplus_0_l.
  destruct (Rle_lt_or_eq_dec _ _ Q) as [L|E]; [exact L|exfalso].
  apply Mv. rewrite EU.
  assert (z : m_h M 1 2 (q_x p) = 0 /\ m_h M 2 1 (q_x p) = 0 /\ m_h M 2 3 (q_x p) = 0 /\ m_h M 3 2 (q_x p) = 0) by (rewrite !(fo_h _ _ _ _ _ _ F); repeat split; reflexivity).
  destruct z as (z1 & z2 & z3 & z4).
  unfold quad3, sum3, comp4, c1, c2, c3 in E. cbn [fst snd] in E. rewrite z1, z2, z3, z4, H1, H2, H3, H4, H5 in E.
  assert (S : 0 = (A0 * u1 - q * A0 / (c * c) * u3) * (A0 * u1 - q * A0 / (c * c) * u3) + u2 / b * (u2 / b) + u3 / c * (u3 / c)) by (rewrite E; field; lra).
  pose proof (Rle_0_sqr (A0 * u1 - q * A0 / (c * c) * u3)) as s1. pose proof (Rle_0_sqr (u2 / b)) as s2. pose proof (Rle_0_sqr (u3 / c)) as s3. unfold Rsqr in *.
  assert (Z1 : (A0 * u1 - q * A0 / (c * c) * u3) * (A0 * u1 - q * A0 / (c * c) * u3) = 0) by lra.
  assert (Z2 : u2 / b * (u2 / b) = 0) by lra. assert (Z3 : u3 / c * (u3 / c) = 0) by lra.
  apply Rsqr_0_uniq in Z1, Z2, Z3.
  assert (Y2 : u2 = 0) by (replace u2 with (u2 / b * b) by (field; lra); rewrite Z2; ring).
  assert (Y3 : u3 = 0) by (replace u3 with (u3 / c * c) by (field; lra); rewrite Z3; ring).
  rewrite Y3 in Z1. assert (Y1 : u1 = 0) by (replace u1 with ((A0 * u1 - q * A0 / (c * c) * 0) / A0) by (field; lra); rewrite Z1; unfold Rdiv; ring).
  rewrite Y1, Y2, Y3. reflexivity.
Qed.
