(** Rounding to IEEE single precision (prtldx_t = float), round to nearest even; overflow is not
    modelled. *)
From Coq Require Import ZArith Reals Lia Lra.
From Flocq Require Import Core.
Open Scope R_scope.

Definition fexp32 := FLT_exp (-149) 24.
Definition rnd32 (x : R) : R := round radix2 fexp32 ZnearestE x.

Global Instance prec24 : Prec_gt_0 24.
Proof. reflexivity. Qed.
Global Instance fexp32_valid : Valid_exp fexp32 := FLT_exp_valid (-149) 24.
Global Instance fexp32_mono : Monotone_exp fexp32 := FLT_exp_monotone (-149) 24.

Lemma rnd32_le x y : x <= y -> rnd32 x <= rnd32 y.
Proof. intros H. apply round_le; [apply fexp32_valid|apply valid_rnd_N|exact H]. Qed.

Lemma format32 m e : (Z.abs m < 2 ^ 24)%Z -> (-149 <= e)%Z -> generic_format radix2 fexp32 (IZR m * bpow radix2 e).
Proof.
  intros H1 H2. apply generic_format_FLT. exists (Float radix2 m e); auto.
Qed.
Lemma rnd32_format m e : (Z.abs m < 2 ^ 24)%Z -> (-149 <= e)%Z -> rnd32 (IZR m * bpow radix2 e) = IZR m * bpow radix2 e.
Proof. intros. apply round_generic; [apply valid_rnd_N|]. apply format32; auto. Qed.
Lemma rnd32_Z z : (Z.abs z < 2 ^ 24)%Z -> rnd32 (IZR z) = IZR z.
Proof. intros H. pose proof (rnd32_format z 0 H ltac:(lia)) as E. change (bpow radix2 0) with 1 in E. rewrite !Rmult_1_r in E. exact E. Qed.

(** Half a unit in the last place. *)
Lemma rnd32_err x e : (-149 <= e - 24)%Z -> Rabs x <= bpow radix2 e -> Rabs (rnd32 x - x) <= bpow radix2 (e - 25).
Proof.
  intros He H. destruct (Req_dec x 0) as [Z|Z].
  { subst x. unfold rnd32. rewrite round_0 by apply valid_rnd_N. rewrite Rminus_0_r, Rabs_R0. apply bpow_ge_0. }
  destruct (Rle_lt_or_eq_dec _ _ H) as [L|E].
  - eapply Rle_trans; [apply error_le_half_ulp; apply fexp32_valid|].
    assert (U : ulp radix2 fexp32 x <= bpow radix2 (e - 24)).
    { rewrite ulp_neq_0 by auto. apply bpow_le. unfold cexp, fexp32, FLT_exp.
      pose proof (mag_le_bpow radix2 x e Z L). lia. }
    replace (e - 24)%Z with (1 + (e - 25))%Z in U by lia. rewrite bpow_plus in U. change (bpow radix2 1) with 2 in U. lra.
  - assert (G : generic_format radix2 fexp32 x).
    { apply generic_format_abs_inv. rewrite E. apply generic_format_bpow. unfold fexp32, FLT_exp. lia. }
    unfold rnd32. rewrite round_generic; [|apply valid_rnd_N|exact G]. rewrite Rminus_diag_eq by auto. rewrite Rabs_R0. apply bpow_ge_0.
Qed.

(** Values between 1 and 2 minus 1 are exact. *)
Lemma rnd32_minus1 x : generic_format radix2 fexp32 x -> 1 <= x <= 2 -> rnd32 (x - 1) = x - 1.
Proof.
  intros F [H1 H2]. apply round_generic; [apply valid_rnd_N|].
  destruct (Req_dec x 2) as [->|N]. { replace (2 - 1) with (IZR 1 * bpow radix2 0) by (cbn; lra). apply format32; lia. }
  assert (M : mag radix2 x = 1%Z :> Z).
  { apply mag_unique. cbn. rewrite Rabs_pos_eq by lra. lra. }
  unfold generic_format in F. rewrite F. unfold F2R. cbn [Fnum Fexp].
  unfold cexp. rewrite M. change (fexp32 1) with (-23)%Z. set (m := Ztrunc _).
  assert (Hm : (2 ^ 23 <= m < 2 ^ 24)%Z).
  { rewrite F in H1, N, H2. unfold F2R in H1, N, H2. cbn [Fnum Fexp] in H1, N, H2. unfold cexp in H1, N, H2. rewrite M in H1, N, H2.
    change (fexp32 1) with (-23)%Z in H1, N, H2. fold m in H1, N, H2.
    assert (B : bpow radix2 (-23) * IZR (2 ^ 23) = 1).
    { change (IZR (2 ^ 23)) with (bpow radix2 23). rewrite <- bpow_plus. reflexivity. }
    pose proof (bpow_gt_0 radix2 (-23)) as P.
    split.
    - apply le_IZR. apply (Rmult_le_reg_r (bpow radix2 (-23))); lra.
    - apply lt_IZR. apply (Rmult_lt_reg_r (bpow radix2 (-23))); auto.
      replace (IZR (2 ^ 24)) with (2 * IZR (2 ^ 23)) by (rewrite <- mult_IZR; f_equal). lra. }
  replace (IZR m * bpow radix2 (-23) - 1) with (IZR (m - 2 ^ 23) * bpow radix2 (-23)).
  - apply format32; lia.
  - rewrite minus_IZR. assert (B : IZR (2 ^ 23) * bpow radix2 (-23) = 1).
    { change (IZR (2 ^ 23)) with (bpow radix2 23). rewrite <- bpow_plus. reflexivity. }
    lra.
Qed.

(** Numbers just below and just above one are rounded to one. *)
Lemma rnd32_near_below x : 1 - bpow radix2 (-26) <= x <= 1 -> rnd32 x = 1.
Proof.
  intros [H1 H2]. assert (bpow radix2 (-26) < / 4) by (cbn; lra).
  destruct (Req_dec x 1) as [->|N]; [apply (rnd32_Z 1); lia|].
  assert (M : mag radix2 x = 0%Z :> Z).
  { apply mag_unique. rewrite Rabs_pos_eq by lra. cbn. split; lra. }
  unfold rnd32, round, F2R. cbn [Fnum Fexp]. unfold scaled_mantissa, cexp. rewrite M. change (fexp32 0) with (-24)%Z.
  change (- -24)%Z with 24%Z.
  rewrite (Znearest_imp _ _ (2 ^ 24)).
  - change (IZR (2 ^ 24)) with (bpow radix2 24). rewrite <- bpow_plus. reflexivity.
  - change (IZR (2 ^ 24)) with (bpow radix2 24). 
    replace (x * bpow radix2 24 - bpow radix2 24) with (- ((1 - x) * bpow radix2 24)) by ring. rewrite Rabs_Ropp, Rabs_pos_eq.
    + apply Rle_lt_trans with (bpow radix2 (-26) * bpow radix2 24).
      * apply Rmult_le_compat_r; [apply bpow_ge_0|lra].
      * rewrite <- bpow_plus. cbn. lra.
    + apply Rmult_le_pos; [lra|apply bpow_ge_0].
Qed.
Lemma rnd32_near_above x : 1 <= x <= 1 + bpow radix2 (-25) -> rnd32 x = 1.
Proof.
  intros [H1 H2]. assert (bpow radix2 (-25) < / 4) by (cbn; lra).
  assert (M : mag radix2 x = 1%Z :> Z).
  { apply mag_unique. rewrite Rabs_pos_eq by lra. cbn. split; lra. }
  unfold rnd32, round, F2R. cbn [Fnum Fexp]. unfold scaled_mantissa, cexp. rewrite M. change (fexp32 1) with (-23)%Z.
  change (- -23)%Z with 23%Z.
  rewrite (Znearest_imp _ _ (2 ^ 23)).
  - change (IZR (2 ^ 23)) with (bpow radix2 23). rewrite <- bpow_plus. reflexivity.
  - change (IZR (2 ^ 23)) with (bpow radix2 23). 
    replace (x * bpow radix2 23 - bpow radix2 23) with ((x - 1) * bpow radix2 23) by ring. rewrite Rabs_pos_eq.
    + apply Rle_lt_trans with (bpow radix2 (-25) * bpow radix2 23).
      * apply Rmult_le_compat_r; [apply bpow_ge_0|lra].
      * rewrite <- bpow_plus. cbn. lra.
    + apply Rmult_le_pos; [lra|apply bpow_ge_0].
Qed.
