(** The cell count per block is computed in the code as the truncation of a rounded
    double quotient (src/global/utils/tools.h:86).  For 32-bit operands this is the integer
    quotient used in DecompModel. *)
From Coq Require Import ZArith Reals Lia Lra.
From Flocq Require Import Core Relative.
Open Scope R_scope.

(** IEEE binary64, round to nearest even (no underflow or overflow can occur here). *)
Definition round_double (x : R) : R :=
  round radix2 (FLT_exp (-1074) 53) ZnearestE x.

(** [(ncells_t)((double)ncells / (double)ndomains)] *)
Definition double_quotient (ncells ndomains : Z) : Z :=
  Ztrunc (round_double (IZR ncells / IZR ndomains)).

Lemma IZR_generic z :
  (Z.abs z < 2 ^ 53)%Z -> generic_format radix2 (FLT_exp (-1074) 53) (IZR z).
Proof.
  intros H. apply generic_format_FLT.
  exists (Float radix2 z 0).
  - unfold F2R; simpl. ring.
  - exact H.
  - simpl; lia.
Qed.

Lemma double_quotient_exact c n :
  (0 <= c < 2 ^ 32)%Z -> (1 <= n < 2 ^ 32)%Z -> double_quotient c n = (c / n)%Z.
Proof.
  intros Hc Hn. unfold double_quotient.
  set (q := (c / n)%Z).
  assert (Hq : (q * n <= c < (q + 1) * n)%Z).
  { unfold q. pose proof (Z.div_mod c n ltac:(lia)).
    pose proof (Z.mod_pos_bound c n ltac:(lia)). lia. }
  assert (Hq0 : (0 <= q <= c)%Z) by nia.
  assert (Hn0 : 0 < IZR n) by (apply IZR_lt; lia).
  assert (Lo : IZR q <= IZR c / IZR n).
  { apply Rmult_le_reg_r with (IZR n); auto.
    unfold Rdiv. rewrite Rmult_assoc, Rinv_l, Rmult_1_r, <- mult_IZR by lra.
    apply IZR_le; lia. }
  assert (Hlo : IZR q <= round_double (IZR c / IZR n)).
  { unfold round_double.
    rewrite <- (round_generic radix2 (FLT_exp (-1074) 53) ZnearestE (IZR q)).
    - apply round_le; [apply FLT_exp_valid; reflexivity|apply valid_rnd_N|exact Lo].
    - apply IZR_generic. lia. }
  assert (Hhi : round_double (IZR c / IZR n) < IZR (q + 1)).
  { destruct (Z.eq_dec c 0) as [->|Hc0].
    - unfold round_double, Rdiv. rewrite Rmult_0_l, round_0 by auto with typeclass_instances.
      apply IZR_lt; lia.
    - set (x := IZR c / IZR n) in *.
      assert (Hc1 : 0 < IZR c) by (apply IZR_lt; lia).
      assert (Hxn : x * IZR n = IZR c).
      { unfold x, Rdiv. rewrite Rmult_assoc, Rinv_l by lra. ring. }
      assert (Hx0 : 0 < x). { unfold x. apply Rdiv_lt_0_compat; auto. }
      assert (Hxl : bpow radix2 (-1074 + 53 - 1) <= Rabs x).
      { rewrite Rabs_pos_eq by lra.
        apply Rle_trans with (bpow radix2 (-32)).
        - apply bpow_le. lia.
        - apply Rmult_le_reg_r with (IZR n); auto. rewrite Hxn.
          apply Rle_trans with 1.
          + simpl bpow. apply Rmult_le_reg_l with (IZR (2 ^ 32)); [apply IZR_lt; lia|].
            change (Z.pow_pos 2 32) with (2 ^ 32)%Z.
            rewrite <- Rmult_assoc, Rinv_r, Rmult_1_l, Rmult_1_r.
            * apply IZR_le; lia.
            * apply Rgt_not_eq. apply IZR_lt; lia.
          + apply IZR_le; lia. }
      pose proof (relative_error_N_FLT radix2 (-1074) 53 ltac:(lia) (fun z => negb (Z.even z)) x Hxl) as He.
      unfold round_double. set (r := round _ _ _ x) in *.
      rewrite (Rabs_pos_eq x) in He by lra.
      change (- (53) + 1)%Z with (-53 + 1)%Z in He.
      assert (Hr : r <= x + / 2 * bpow radix2 (-53 + 1) * x).
      { pose proof (Rle_abs (r - x)). lra. }
      apply Rmult_lt_reg_r with (IZR n); auto.
      rewrite <- mult_IZR.
      apply Rle_lt_trans with (IZR c + / 2 * bpow radix2 (-53 + 1) * IZR c).
      { rewrite <- Hxn. apply Rmult_le_compat_r with (r := IZR n) in Hr; lra. }
      assert (Hs : / 2 * bpow radix2 (-53 + 1) * IZR c < 1).
      { apply Rlt_le_trans with (/ 2 * bpow radix2 (-53 + 1) * IZR (2 ^ 32)).
        - apply Rmult_lt_compat_l; [|apply IZR_lt; lia].
          apply Rmult_lt_0_compat; [lra|apply bpow_gt_0].
        - change (IZR (2 ^ 32)) with (bpow radix2 32).
          rewrite Rmult_assoc, <- bpow_plus.
          apply Rle_trans with (/ 2 * bpow radix2 0); [|simpl; lra].
          apply Rmult_le_compat_l; [lra|]. apply bpow_le. lia. }
      apply Rlt_le_trans with (IZR c + 1); [lra|].
      rewrite <- plus_IZR. apply IZR_le. lia. }
  assert (H0 : 0 <= round_double (IZR c / IZR n)).
  { apply Rle_trans with (IZR q); auto. apply IZR_le; lia. }
  rewrite Ztrunc_floor by auto. apply Zfloor_imp. rewrite plus_IZR in *. simpl in *. lra.
Qed.
