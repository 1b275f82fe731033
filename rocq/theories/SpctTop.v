(** Energies seen by local observers; rounding of the index. *)
From Coq Require Import Reals ZArith List Bool Lia Lra Psatz.
From Flocq Require Import Core.
From Verif Require Import Base MetModel MetSpec MetProofs KsModel KsSpec KsProofs KsTop SpctModel SpctSpec SpctProofs Fp32.
Open Scope R_scope.

Lemma form_gamma mu a M x e1 e2 : form mu a M x e1 e2 -> gr_regular M x -> forall u1 u2 u3 norm,
  m_alpha M x * (gr_u_0 M x (u1, u2, u3) norm * m_g M 0 0 x + u1 * m_g M 0 1 x) = gr_gamma M x norm (u1, u2, u3) /\
  0 <= quad3 (fun i j => m_h M i j x) (u1, u2, u3).
Proof.
  intros F Rg u1 u2 u3 norm.
  destruct (form_triangular _ _ _ _ _ _ F Rg) as (A0 & b & c & q & hA & hb & hc & _ & _ & _ & H1 & H2 & H3 & H4 & H5 & _).
  pose proof (fo_e1 _ _ _ _ _ _ F) as p1. pose proof (gS_pos a (m_r M (fst x)) (m_th M (snd x)) (proj1 Rg)) as Sp. pose proof (gZ_nonneg mu a (m_r M (fst x)) (m_th M (snd x)) (fo_mu _ _ _ _ _ _ F) (proj1 Rg)) as Zp.
  assert (Rp : 0 < gS a (m_r M (fst x)) (m_th M (snd x)) + 2 * mu * m_r M (fst x)).
  { pose proof (Rmult_le_pos _ _ (fo_mu _ _ _ _ _ _ F) (Rlt_le _ _ (proj1 Rg))). lra. }
  set (r := m_r M (fst x)) in *. set (th := m_th M (snd x)) in *. set (Z := gZ mu a r th) in *.
  assert (z : m_h M 1 2 x = 0 /\ m_h M 2 1 x = 0 /\ m_h M 2 3 x = 0 /\ m_h M 3 2 x = 0) by (rewrite !(fo_h _ _ _ _ _ _ F); repeat split; reflexivity).
  destruct z as (z1 & z2 & z3 & z4).
  assert (G00 : m_g M 0 0 x = - (1 + Z)) by (rewrite (fo_g _ _ _ _ _ _ F); reflexivity).
  assert (G01 : m_g M 0 1 x = Z / e1) by (rewrite (fo_g _ _ _ _ _ _ F); reflexivity).
  assert (G22 : m_g M 2 2 x = m_h M 2 2 x) by (rewrite (fo_g _ _ _ _ _ _ F), (fo_h _ _ _ _ _ _ F); reflexivity).
  assert (G33 : m_g M 3 3 x = m_h M 3 3 x) by (rewrite (fo_g _ _ _ _ _ _ F), (fo_h _ _ _ _ _ _ F); reflexivity).
  assert (G13 : m_g M 1 3 x = m_h M 1 3 x) by (rewrite (fo_g _ _ _ _ _ _ F), (fo_h _ _ _ _ _ _ F); reflexivity).
  assert (G11 : m_g M 1 1 x = m_h M 1 1 x - Z / e1 * (Z / e1) / (1 + Z)).
  { rewrite (fo_g _ _ _ _ _ _ F), (fo_h _ _ _ _ _ _ F). cbn [gg gh]. fold r th. pose proof (sin2_cos2 th) as et. unfold Rsqr in et.
    assert (sq : gS a r th = r * r + a * a - a * a * (sin th * sin th)).
    { unfold gS. replace (cos th * cos th) with (1 - sin th * sin th) by lra. ring. }
    unfold Z, gA, gZ. rewrite sq in *. field. repeat split; lra. }
  assert (q2 : sqrt (1 + Z) * sqrt (1 + Z) = 1 + Z) by (apply sqrt_sqrt; lra).
  assert (qp : 0 < sqrt (1 + Z)) by (apply sqrt_lt_R0; lra).
  assert (al2 : m_alpha M x * m_alpha M x = 1 / (1 + Z)).
  { rewrite (fo_alpha _ _ _ _ _ _ F). fold r th Z. rewrite <- q2 at 3. field. lra. }
  assert (alp : 0 < m_alpha M x).
  { rewrite (fo_alpha _ _ _ _ _ _ F). fold r th Z. apply Rdiv_lt_0_compat; lra. }
  assert (Hh : quad3 (fun i j => m_h M i j x) (u1, u2, u3) =
    m_h M 1 1 x * (u1 * u1) + m_h M 2 2 x * (u2 * u2) + m_h M 3 3 x * (u3 * u3) + 2 * m_h M 1 3 x * u1 * u3).
  { unfold quad3, sum3, comp4, c1, c2, c3. cbn [fst snd]. rewrite z1, z2, z3, z4, H2, H3. ring. }
  split.
  - unfold gr_u_0, gr_gamma, sqr. rewrite Hh. set (B := - 2 * m_g M 0 1 x * u1).
    match goal with |- context [sqrt (B * B - 4 * ?A * ?C)] => set (D := B * B - 4 * A * C) end.
    transitivity (m_alpha M x / 2 * sqrt D).
    { rewrite G00, G01. unfold B. rewrite G01. field. split; lra. }
    rewrite <- (sqrt_square (m_alpha M x / 2)) by lra. rewrite <- sqrt_mult_alt by (apply Rmult_le_pos; lra). f_equal.
    replace (m_alpha M x / 2 * (m_alpha M x / 2)) with (1 / (1 + Z) / 4) by (rewrite <- al2; field).
    unfold D, B. rewrite G00, G01, G11, G22, G33, G13. field. split; lra.
  - rewrite Hh, H1, H2, H4, H5.
    replace (_ + _) with ((A0 * u1 - q * A0 / (c * c) * u3) * (A0 * u1 - q * A0 / (c * c) * u3) + u2 / b * (u2 / b) + u3 / c * (u3 / c)) by (field; lra).
    pose proof (Rle_0_sqr (A0 * u1 - q * A0 / (c * c) * u3)) as s1. pose proof (Rle_0_sqr (u2 / b)) as s2. pose proof (Rle_0_sqr (u3 / c)) as s3. unfold Rsqr in *. lra.
Qed.
Lemma form_energy mu a M e1 e2 p massive : form mu a M (p_x p) e1 e2 -> gr_regular M (p_x p) ->
  energy (GRPIC M) massive p = kinetic (GRPIC M) massive p /\ 0 <= energy (GRPIC M) massive p.
Proof.
  intros F Rg. unfold energy, kinetic. destruct (p_u p) as [[u1 u2] u3]. unfold gr_cov_to_cntrv4.
  destruct massive.
  - destruct (form_gamma _ _ _ _ _ _ F Rg u1 u2 u3 1) as [E Q]. cbv zeta. rewrite E. split; [reflexivity|].
    unfold gr_gamma. assert (1 <= sqrt (1 + quad3 (fun i j => m_h M i j (p_x p)) (u1, u2, u3))); [|lra]. rewrite <- sqrt_1 at 1. apply sqrt_le_1; lra.
  - destruct (form_gamma _ _ _ _ _ _ F Rg u1 u2 u3 0) as [E Q]. cbv zeta. rewrite E. split; [ring|]. apply sqrt_pos.
Qed.
Lemma sr_energy massive p : energy SRPIC massive p = kinetic SRPIC massive p /\ 0 <= energy SRPIC massive p.
Proof.
  unfold energy, kinetic, dot3, c1, c2, c3. destruct (p_u p) as [[u1 u2] u3]. cbn [fst snd].
  pose proof (Rle_0_sqr u1) as s1. pose proof (Rle_0_sqr u2) as s2. pose proof (Rle_0_sqr u3) as s3. unfold Rsqr in *. destruct massive.
  - split; [reflexivity|]. assert (1 <= sqrt (1 + (u1 * u1 + u2 * u2 + u3 * u3))); [|lra]. rewrite <- sqrt_1 at 1. apply sqrt_le_1; lra.
  - split; [rewrite Rplus_0_l; ring|]. apply sqrt_pos.
Qed.

(** ** Rounding *)
Lemma tie6 : rnd32 (6 - bpow radix2 (-22)) = 6.
Proof.
  assert (B : bpow radix2 (-22) = / 4194304) by reflexivity.
  assert (Mg : mag radix2 (6 - bpow radix2 (-22)) = 3%Z :> Z).
  { apply mag_unique_pos. rewrite B. change (bpow radix2 (3 - 1)) with 4. change (bpow radix2 3) with 8. lra. }
  unfold rnd32, round, scaled_mantissa, cexp. rewrite Mg. change (fexp32 3) with (-21)%Z. change (bpow radix2 (- -21)) with 2097152. change (F2R _) with (IZR (ZnearestE ((6 - bpow radix2 (-22)) * 2097152)) * bpow radix2 (-21)).
  assert (E : ZnearestE ((6 - bpow radix2 (-22)) * 2097152) = 12582912%Z).
  { rewrite B. replace ((6 - / 4194304) * 2097152) with (12582911 + / 2) by lra.
    assert (Fl : Zfloor (12582911 + / 2) = 12582911%Z) by (apply Zfloor_imp; rewrite plus_IZR; lra).
    assert (Ce : Zceil (12582911 + / 2) = 12582912%Z) by (apply Zceil_imp; rewrite minus_IZR; lra).
    unfold Znearest. rewrite Fl, Ce, Rcompare_Eq by lra. reflexivity. }
  rewrite E. change (bpow radix2 (-21)) with (/ 2097152). lra.
Qed.
Lemma index_past : let v := 3 - bpow radix2 (-22) in rnd32 v = v /\ -3 < v < 3 /\ index32 200 (-3) 3 v = 200%Z.
Proof.
  cbv zeta. assert (B : bpow radix2 (-22) = / 4194304) by reflexivity. split; [|split].
  - replace (3 - bpow radix2 (-22)) with (IZR 12582911 * bpow radix2 (-22)) by (rewrite B; lra). apply rnd32_format; lia.
  - rewrite B. lra.
  - unfold index32. replace (3 - bpow radix2 (-22) - -3) with (6 - bpow radix2 (-22)) by ring. rewrite tie6.
    replace (INR 200 * 6) with (IZR 1200) by (rewrite INR_IZR_INZ; change (Z.of_nat 200) with 200%Z; lra). rewrite rnd32_Z by lia.
    replace (3 - -3) with (IZR 6) by lra. rewrite (rnd32_Z 6) by lia. replace (1200 / 6) with (IZR 200) by lra. rewrite rnd32_Z by lia.
    replace (IZR 200) with (INR 200) by (rewrite INR_IZR_INZ; reflexivity). rewrite Int_part_INR. reflexivity.
Qed.
