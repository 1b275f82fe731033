From Coq Require Import Reals Lra ZArith Lia Bool.
From Flocq Require Import Core.
From Verif Require Import VelModel Fp32.
Open Scope R_scope.

(** comparators.h:53-57 for float. *)
Definition almost_zero32 (x : R) : bool := if Rle_dec (Rabs x) (bpow radix2 (-23)) then true else false.

Lemma rotation_divides_by_zero : exists d,
  drift_dir almost_zero32 d = 4%Z /\ v1 (unit_dir_rounded rnd32 d) + 1 = 0.
Proof.
  exists (-1, bpow radix2 (-13), 0). split.
  - unfold drift_dir, almost_zero32. cbn [v1 v2 v3 fst snd].
    assert (N : 1 <= norm (-1, bpow radix2 (-13), 0)).
    { unfold norm, norm_sqr. cbn [v1 v2 v3 fst snd]. rewrite <- sqrt_1 at 1. apply sqrt_le_1_alt.
      pose proof (bpow_ge_0 radix2 (-13)). nra. }
    destruct (Rle_dec (Rabs (norm _)) _) as [C|_].
    { assert (B : bpow radix2 (-23) < 1) by (cbn; lra). rewrite Rabs_pos_eq in C by lra. lra. }
    destruct (Rle_dec (Rabs (bpow radix2 (-13))) _) as [C|_].
    { rewrite Rabs_pos_eq in C by apply bpow_ge_0. cbn in C. lra. }
    rewrite Rabs_R0. destruct (Rle_dec 0 _) as [_|C]; [|exfalso; apply C, bpow_ge_0]. cbn [andb].
    destruct (Rle_dec (Rabs (-1)) _) as [C|_]; auto.
    rewrite Rabs_left in C by lra. cbn in C. lra.
  - unfold unit_dir_rounded, norm_rounded. cbn [v1 v2 v3 fst snd].
    replace (-1 * -1) with 1 by ring. rewrite (rnd32_Z 1) by lia.
    rewrite <- bpow_plus. change (-13 + -13)%Z with (-26)%Z.
    assert (E : rnd32 (bpow radix2 (-26)) = bpow radix2 (-26)).
    { pose proof (rnd32_format 1 (-26) ltac:(lia) ltac:(lia)) as E. rewrite Rmult_1_l in E. exact E. }
    rewrite E. rewrite (rnd32_near_above (1 + bpow radix2 (-26))) by (cbn; lra).
    replace (0 * 0) with 0 by ring. rewrite (rnd32_Z 0) by lia. rewrite Rplus_0_r, (rnd32_Z 1), sqrt_1, (rnd32_Z 1) by lia.
    replace (-1 / 1) with (-1) by field. rewrite (rnd32_Z (-1)) by lia. lra.
Qed.
