(** Total of the deposited current. *)
From Coq Require Import ZArith List Reals Lra Lia Permutation.
From Verif Require Import FieldModel FieldSpec ShapeModel ShapeSpec ShapeProofs ShapeTop DepositModel DepositSpec DepositProofs EsirkProofs DepositTop UnSpec.
Import ListNotations.
Open Scope R_scope.

(** Sum of the contributions to one component. *)
Definition part (c : jcomp) (t : contrib) : R := if jcomp_eq_dec c (fst (fst t)) then snd t else 0.
Definition gathered (c : jcomp) (cs : list contrib) : R := sumf (part c) cs.
Lemma sumf_app {A} (f : A -> R) a b : sumf f (a ++ b) = sumf f a + sumf f b.
Proof. induction a as [|x a IH]; cbn; [ring|rewrite IH; ring]. Qed.
Lemma sumf_perm {A} (f : A -> R) a b : Permutation a b -> sumf f a = sumf f b.
Proof. induction 1; cbn; try congruence; ring. Qed.
Lemma sumf_ext {A} (f g : A -> R) l : (forall a, In a l -> f a = g a) -> sumf f l = sumf g l.
Proof. induction l as [|a l IH]; intros H; [reflexivity|]. cbn. rewrite H by now left. rewrite IH; [reflexivity|]. intros b Hb. apply H. now right. Qed.
Lemma sumf_plus {A} (f g : A -> R) l : sumf (fun a => f a + g a) l = sumf f l + sumf g l.
Proof. induction l as [|a l IH]; cbn; [ring|rewrite IH; ring]. Qed.
Lemma sumf_scal {A} k (f : A -> R) l : sumf (fun a => k * f a) l = k * sumf f l.
Proof. induction l as [|a l IH]; cbn; [ring|rewrite IH; ring]. Qed.
Lemma sumf_zero {A} (f : A -> R) l : (forall a, In a l -> f a = 0) -> sumf f l = 0.
Proof. induction l as [|a l IH]; intros H; [reflexivity|]. cbn. rewrite H by now left. rewrite IH; [ring|]. intros b Hb. apply H. now right. Qed.
Lemma sumf_flat {A} (f : contrib -> R) (g : A -> list contrib) l : sumf f (flat_map g l) = sumf (fun a => sumf f (g a)) l.
Proof. induction l as [|a l IH]; cbn; [reflexivity|now rewrite sumf_app, IH]. Qed.

Lemma hit_once c t X : NoDup X -> In (snd (fst t)) X -> sumf (fun x => hit c x t) X = part c t.
Proof.
  destruct t as [[c' x'] v]. unfold hit, part. cbn [fst snd]. intros N I. induction X as [|x X IH]; [destruct I|].
  apply NoDup_cons_iff in N. destruct N as [Nx N]. cbn [sumf]. destruct I as [->|I].
  - rewrite sumf_zero; [destruct (jcomp_eq_dec c c'), (list_eq_dec Z.eq_dec x' x') as [|Q]; try ring; now destruct Q|].
    intros y Hy. destruct (jcomp_eq_dec c c'); [|reflexivity]. destruct (list_eq_dec Z.eq_dec y x') as [->|]; [tauto|reflexivity].
  - rewrite (IH N I). destruct (jcomp_eq_dec c c'); [|ring]. destruct (list_eq_dec Z.eq_dec x x') as [->|]; [tauto|ring].
Qed.
Lemma total_sum c cs X : NoDup X -> Forall (fun t => In (snd (fst t)) X) cs -> sumf (total cs c) X = gathered c cs.
Proof.
  intros N. induction cs as [|t cs IH]; intros F; unfold gathered; cbn [sumf].
  - apply sumf_zero. reflexivity.
  - apply Forall_cons_iff in F. destruct F as [Ft F]. change (sumf (part c) cs) with (gathered c cs). rewrite <- (IH F), <- (hit_once c t X N Ft).
    rewrite <- sumf_plus. apply sumf_ext. reflexivity.
Qed.
Lemma scatter_sum c cs J X : NoDup X -> Forall (fun t => In (snd (fst t)) X) cs ->
  sumf (scatter cs J c) X = sumf (J c) X + gathered c cs.
Proof.
  intros N F. rewrite <- (total_sum c cs X N F), <- sumf_plus. apply sumf_ext. intros x _. apply scatter_total.
Qed.

(** The zig-zag scheme. *)
Lemma zz_whole m q t : zz_F1 m q t + zz_F2 m q t = (now m - before m) * q * t.
Proof.
  unfold zz_F1, zz_F2, now, before, bit. rewrite !minus_IZR. destruct (Z.ltb (pi m) (ci m)); cbn [Z.b2z]; ring.
Qed.
Lemma zigzag_sum g third t p c : (1 <= length (mvs p) <= 3)%nat -> dead p = false ->
  gathered c (deposit g 0 third t p) = qw p * speed t c p.
Proof.
  intros L D. unfold deposit. rewrite D. unfold speed.
  destruct (mvs p) as [|m1 [|m2 [|m3 [|]]]]; cbn in L; try lia; unfold zigzag1, zigzag2, zigzag3, gathered;
    cbn [sumf]; unfold part; cbn [fst snd]; rewrite !jd_dec; destruct c; cbn [jd];
    try (transitivity (zz_F1 m1 (qw p) t + zz_F2 m1 (qw p) t); [ring|rewrite zz_whole; ring]);
    try (transitivity (zz_F1 m2 (qw p) t + zz_F2 m2 (qw p) t); [ring|rewrite zz_whole; ring]);
    try (transitivity (zz_F1 m3 (qw p) t + zz_F2 m3 (qw p) t); [ring|rewrite zz_whole; ring]); try field.
Qed.

(** The Esirkepov scheme. *)
Lemma gathered_map_seq n : forall s (G : Z -> contrib) c,
  gathered c (map G (map Z.of_nat (seq s n))) = zsum (fun i => part c (G i)) (Z.of_nat s) n.
Proof.
  unfold gathered. induction n as [|n IH]; intros s G c; [reflexivity|]. cbn [seq map sumf zsum].
  rewrite IH. now replace (Z.of_nat s + 1)%Z with (Z.of_nat (S s)) by lia.
Qed.
Lemma gathered_map n (G : Z -> contrib) c : gathered c (map G (upto n)) = zsum (fun i => part c (G i)) 0 (Z.to_nat n).
Proof. unfold upto. now rewrite gathered_map_seq. Qed.
Lemma gathered_flat_seq n : forall s (G : Z -> list contrib) c,
  gathered c (flat_map G (map Z.of_nat (seq s n))) = zsum (fun i => gathered c (G i)) (Z.of_nat s) n.
Proof.
  unfold gathered. induction n as [|n IH]; intros s G c; [reflexivity|]. cbn [seq map flat_map zsum].
  rewrite sumf_app, IH. now replace (Z.of_nat s + 1)%Z with (Z.of_nat (S s)) by lia.
Qed.
Lemma gathered_flat n (G : Z -> list contrib) c : gathered c (flat_map G (upto n)) = zsum (fun i => gathered c (G i)) 0 (Z.to_nat n).
Proof. unfold upto. now rewrite gathered_flat_seq. Qed.
Lemma gathered_app c a b : gathered c (a ++ b) = gathered c a + gathered c b.
Proof. apply sumf_app. Qed.

Definition same (c c' : jcomp) : R := if jcomp_eq_dec c c' then 1 else 0.
Lemma g1 c c' n (x : Z -> list Z) (f : Z -> R) :
  gathered c (map (fun i => (c', x i, f i)) (upto n)) = same c c' * zsum f 0 (Z.to_nat n).
Proof.
  rewrite gathered_map. rewrite <- zsum_scal. apply zsum_ext. intros k _. unfold part, same. cbn [fst snd].
  destruct (jcomp_eq_dec c c'); ring.
Qed.
Lemma g2 c c' n1 n2 (x : Z -> Z -> list Z) (f : Z -> Z -> R) :
  gathered c (flat_map (fun i => map (fun j => (c', x i j, f i j)) (upto n2)) (upto n1))
  = same c c' * zsum (fun i => zsum (f i) 0 (Z.to_nat n2)) 0 (Z.to_nat n1).
Proof. rewrite gathered_flat, <- zsum_scal. apply zsum_ext. intros k _. now rewrite g1. Qed.
Lemma g3 c c' n1 n2 n3 (x : Z -> Z -> Z -> list Z) (f : Z -> Z -> Z -> R) :
  gathered c (flat_map (fun i => flat_map (fun j => map (fun k => (c', x i j k, f i j k)) (upto n3)) (upto n2)) (upto n1))
  = same c c' * zsum (fun i => zsum (fun j => zsum (f i j) 0 (Z.to_nat n3)) 0 (Z.to_nat n2)) 0 (Z.to_nat n1).
Proof. rewrite gathered_flat, <- zsum_scal. apply zsum_ext. intros k _. now rewrite g2. Qed.

Lemma running_total n : forall Q W, zsum (fun i => running Q W (Z.to_nat i)) 0 n
  = - Q * (INR n * zsum W 0 (S n) - zsum (fun k => IZR k * W k) 0 (S n)).
Proof.
  induction n as [|n IH]; intros Q W; [cbn; ring|].
  rewrite zsum_last, IH, Z.add_0_l, Nat2Z.id, running_sum, S_INR, (zsum_last (S n) 0 W), (zsum_last (S n) 0 (fun k => IZR k * W k)).
  rewrite Z.add_0_l, <- INR_IZR_INZ, S_INR. ring.
Qed.
Lemma running_scal n : forall Q c W, running Q (fun i => c * W i) n = c * running Q W n.
Proof. induction n as [|n IH]; intros; cbn [running]; [ring|rewrite IH; ring]. Qed.

Lemma shapes_moments o m lo hi iS fS : shapes o m = Some (lo, hi, iS, fS) -> short_move m ->
  (1 <= hi - lo)%Z /\ let n := Z.to_nat (hi - lo + 1) in
  zsum iS 0 n = 1 /\ zsum fS 0 n = 1
  /\ (forall Q, zsum (fun i => running Q (fun k => fS k - iS k) (Z.to_nat i)) 0 (Z.to_nat (hi - lo)) = Q * (now m - before m)).
Proof.
  intros H ((H1 & H2 & H3) & H4). unfold shapes in H.
  assert (Ho : (0 < o)%nat). { destruct o; [discriminate|lia]. }
  unfold now, before in *.
  destruct (for_deposit_ok _ _ _ _ _ _ _ _ _ H H2 H1 H3 H4) as (Hh & HS & HO & (HB1 & HB2) & (HB3 & HB4)).
  split; [lia|]. cbv zeta. replace (Z.to_nat (hi - lo + 1)) with (S (Z.to_nat (hi - lo))) by lia.
  set (n := Z.to_nat (hi - lo)). assert (Hn : (lo + Z.of_nat n)%Z = hi) by (unfold n; lia).
  assert (U : forall x, IZR lo <= x - INR (pred o) / 2 -> x + INR (pred o) / 2 <= IZR hi ->
             zsum (fun i => bspline o (x - IZR (lo + i))) 0 (S n) = 1
             /\ zsum (fun i => IZR i * bspline o (x - IZR (lo + i))) 0 (S n) = x - IZR lo).
  { intros x X1 X2. rewrite <- Hn in X2.
    pose proof (bspline_unity o x lo n Ho X1 X2) as A. pose proof (bspline_centre o x lo n Ho X1 X2) as B.
    rewrite <- (Z.add_0_r lo) in A at 1. rewrite <- (Z.add_0_r lo) in B at 1. rewrite zsum_rebase in A, B. split; [exact A|].
    rewrite (zsum_ext _ _ _ (fun i => (x - IZR lo) * bspline o (x - IZR (lo + i)) + -1 * (IZR i * bspline o (x - IZR (lo + i))))) in B
      by (intros k _; rewrite plus_IZR; ring).
    rewrite zsum_plus, !zsum_scal, A in B. lra. }
  destruct (U _ HB1 HB2) as [A1 A2]. destruct (U _ HB3 HB4) as [C1 C2].
  assert (E1 : forall k, (0 <= k < 0 + Z.of_nat (S n))%Z -> iS k = bspline o (IZR (pi m) + pdx m - IZR (lo + k))) by (intros k Hk; apply HS; lia).
  assert (E2 : forall k, (0 <= k < 0 + Z.of_nat (S n))%Z -> fS k = bspline o (IZR (ci m) + cdx m - IZR (lo + k))) by (intros k Hk; apply HS; lia).
  assert (I1 : zsum iS 0 (S n) = 1) by (rewrite <- A1; now apply zsum_ext).
  assert (F1 : zsum fS 0 (S n) = 1) by (rewrite <- C1; now apply zsum_ext).
  split; [exact I1|]. split; [exact F1|]. intros Q. rewrite running_total.
  assert (W0 : zsum (fun k => fS k - iS k) 0 (S n) = 0).
  { rewrite (zsum_ext _ _ _ (fun k => fS k + -1 * iS k)) by (intros; ring). rewrite zsum_plus, zsum_scal, I1, F1. ring. }
  assert (W1 : zsum (fun k => IZR k * (fS k - iS k)) 0 (S n) = IZR (ci m) + cdx m - (IZR (pi m) + pdx m)).
  { rewrite (zsum_ext _ _ _ (fun k => IZR k * bspline o (IZR (ci m) + cdx m - IZR (lo + k)) + -1 * (IZR k * bspline o (IZR (pi m) + pdx m - IZR (lo + k))))).
    - rewrite zsum_plus, zsum_scal, A2, C2. ring.
    - intros k Hk. rewrite E1, E2 by exact Hk. ring. }
  rewrite W0, W1. ring.
Qed.

Section Sums.
  Variables (o : nat) (t third : R) (p : prtl).
  Hypothesis third_is : third = 1 / 3.
  Ltac moments H Hm n := let N := fresh "N" in let I := fresh "I" in let F := fresh "F" in let W := fresh "W" in
    destruct (shapes_moments _ _ _ _ _ _ H Hm) as (N & I & F & W).

  (** Half the sum of both shapes, and the products used in 3D. *)
  Lemma half_sum n (f i : Z -> R) : zsum f 0 n = 1 -> zsum i 0 n = 1 -> zsum (fun k => f k + i k) 0 n = 2.
  Proof. intros A B. rewrite zsum_plus, A, B. ring. Qed.
  Lemma zsum_scal_r n lo f (c : R) : zsum (fun k => f k * c) lo n = zsum f lo n * c.
  Proof. rewrite (zsum_ext _ _ _ (fun k => c * f k)) by (intros; ring). rewrite zsum_scal. ring. Qed.
  Lemma pair_sum n1 n2 (a b f i : Z -> R) : zsum a 0 n1 = 1 -> zsum b 0 n1 = 1 -> zsum f 0 n2 = 1 -> zsum i 0 n2 = 1 ->
    zsum (fun j => zsum (fun k => third * (i k * (1/2 * b j + a j) + f k * (1/2 * a j + b j))) 0 n2) 0 n1 = 1.
  Proof.
    intros A B F I.
    rewrite (zsum_ext _ _ _ (fun j => third * (3/2) * a j + third * (3/2) * b j)).
    - rewrite zsum_plus, !zsum_scal, A, B, third_is. field.
    - intros j _. rewrite (zsum_ext _ _ _ (fun k => third * (1/2 * b j + a j) * i k + third * (1/2 * a j + b j) * f k)) by (intros; ring).
      rewrite zsum_plus, !zsum_scal, F, I. field.
  Qed.

  Lemma run_mult Q w (c : R) (W : Z -> R) n : (forall k, W k = c * w k) -> running Q W n = c * running Q w n.
  Proof. intros H. rewrite <- running_scal, !running_sum. f_equal. apply zsum_ext. intros k _. apply H. Qed.

  Lemma esirkepov1_sum g m1 s1 c : shapes o m1 = Some s1 -> short_move m1 -> mvs p = [m1] ->
    gathered c (esirkepov1 g t p s1) = qw p * speed t c p.
  Proof.
    destruct s1 as [[[lo hi] iS] fS]. intros H Hm E. moments H Hm n. unfold esirkepov1, speed. rewrite E.
    replace (hi + g - (lo + g))%Z with (hi - lo)%Z by lia.
    rewrite !gathered_app, !g1, W.
    rewrite !zsum_scal, zsum_plus, I, F. unfold same. rewrite !jd_dec. destruct c; cbn [jd]; field.
  Qed.

  Lemma esirkepov2_sum g m1 m2 s1 s2 c : shapes o m1 = Some s1 -> shapes o m2 = Some s2 -> short_move m1 -> short_move m2 -> mvs p = [m1; m2] ->
    gathered c (esirkepov2 g third t p s1 s2) = qw p * speed t c p.
  Proof.
    destruct s1 as [[[lo1 hi1] iS1] fS1], s2 as [[[lo2 hi2] iS2] fS2]. intros H1 H2 Hm1 Hm2 E.
    moments H1 Hm1 n. moments H2 Hm2 n. unfold esirkepov2, speed. rewrite E.
    replace (hi1 + g - (lo1 + g))%Z with (hi1 - lo1)%Z by lia. replace (hi2 + g - (lo2 + g))%Z with (hi2 - lo2)%Z by lia.
    rewrite !gathered_app, !g2.
    rewrite (zsum_ext _ _ (fun i => zsum (fun j => running (qw p * t) (fun i' => 1 / 2 * (fS1 i' - iS1 i') * (fS2 j + iS2 j)) (Z.to_nat i)) 0 _)
               (fun i => running (qw p * t) (fun k => fS1 k - iS1 k) (Z.to_nat i))).
    2:{ intros i _. rewrite (zsum_ext _ _ _ (fun j => (1/2 * running (qw p * t) (fun k => fS1 k - iS1 k) (Z.to_nat i)) * (fS2 j + iS2 j))).
        - rewrite zsum_scal, half_sum by assumption. field.
        - intros j _. rewrite (run_mult _ (fun k => fS1 k - iS1 k) (1/2 * (fS2 j + iS2 j))) by (intros; ring). ring. }
    rewrite (zsum_ext _ _ (fun i => zsum (fun j => running (qw p * t) (fun j' => 1 / 2 * (fS1 i + iS1 i) * (fS2 j' - iS2 j')) (Z.to_nat j)) 0 _)
               (fun i => 1/2 * (qw p * t * (now m2 - before m2)) * (fS1 i + iS1 i))).
    2:{ intros i _. rewrite (zsum_ext _ _ _ (fun j => (1/2 * (fS1 i + iS1 i)) * running (qw p * t) (fun k => fS2 k - iS2 k) (Z.to_nat j))).
        - rewrite zsum_scal, W0. ring.
        - intros j _. now rewrite <- running_scal. }
    rewrite zsum_scal, half_sum, W by assumption.
    rewrite (zsum_ext _ _ (fun i => zsum (fun j => qw p * vp2 p * _) 0 _) (fun i => qw p * vp2 p * zsum (fun j => third * (fS2 j * (1/2 * iS1 i + fS1 i) + iS2 j * (1/2 * fS1 i + iS1 i))) 0 (Z.to_nat (hi2 - lo2 + 1))))
      by (intros i _; now rewrite zsum_scal).
    rewrite zsum_scal, pair_sum by assumption.
    unfold same. rewrite !jd_dec. destruct c; cbn [jd]; field.
  Qed.

  (** Swapping loops. *)
  Lemma zsum_swap n1 : forall n2 l1 l2 (f : Z -> Z -> R), zsum (fun i => zsum (fun j => f i j) l2 n2) l1 n1 = zsum (fun j => zsum (fun i => f i j) l1 n1) l2 n2.
  Proof.
    induction n1 as [|n1 IH]; intros n2 l1 l2 f; cbn [zsum]; [rewrite zsum_zero; [reflexivity|reflexivity]|].
    rewrite IH. now rewrite <- zsum_plus.
  Qed.
  (** The weight of a move across the others, in 3D. *)
  Lemma cross_sum n2 n3 (i2 f2 i3 f3 : Z -> R) : zsum i2 0 n2 = 1 -> zsum f2 0 n2 = 1 -> zsum i3 0 n3 = 1 -> zsum f3 0 n3 = 1 ->
    zsum (fun j => zsum (fun k => third * ((i2 j * i3 k + f2 j * f3 k) + 1/2 * (i3 k * f2 j + i2 j * f3 k))) 0 n3) 0 n2 = 1.
  Proof.
    intros A B C D. refine (eq_trans _ (pair_sum n2 n3 i2 f2 f3 i3 A B D C)). apply zsum_ext. intros j _. apply zsum_ext. intros k _. ring.
  Qed.
  Lemma plane n1 n2 (f : Z -> Z -> R) c : zsum (fun j => zsum (fun k => f j k) 0 n2) 0 n1 = 1 ->
    zsum (fun j => zsum (fun k => f j k * c) 0 n2) 0 n1 = c.
  Proof.
    intros H. rewrite (zsum_ext _ _ _ (fun j => zsum (fun k => f j k) 0 n2 * c)) by (intros; apply zsum_scal_r).
    rewrite zsum_scal_r, H. ring.
  Qed.
  Lemma esirkepov3_sum g m1 m2 m3 s1 s2 s3 c : shapes o m1 = Some s1 -> shapes o m2 = Some s2 -> shapes o m3 = Some s3 ->
    short_move m1 -> short_move m2 -> short_move m3 -> mvs p = [m1; m2; m3] ->
    gathered c (esirkepov3 g third t p s1 s2 s3) = qw p * speed t c p.
  Proof.
    destruct s1 as [[[lo1 hi1] iS1] fS1], s2 as [[[lo2 hi2] iS2] fS2], s3 as [[[lo3 hi3] iS3] fS3]. intros H1 H2 H3 Hm1 Hm2 Hm3 E.
    moments H1 Hm1 n. moments H2 Hm2 n. moments H3 Hm3 n. unfold esirkepov3, speed. rewrite E.
    replace (hi1 + g - (lo1 + g))%Z with (hi1 - lo1)%Z by lia. replace (hi2 + g - (lo2 + g))%Z with (hi2 - lo2)%Z by lia.
    replace (hi3 + g - (lo3 + g))%Z with (hi3 - lo3)%Z by lia.
    rewrite !gathered_app, !g3.
    set (n1 := Z.to_nat (hi1 - lo1)) in *. set (n1' := Z.to_nat (hi1 - lo1 + 1)) in *.
    set (n2 := Z.to_nat (hi2 - lo2)) in *. set (n2' := Z.to_nat (hi2 - lo2 + 1)) in *.
    set (n3 := Z.to_nat (hi3 - lo3)) in *. set (n3' := Z.to_nat (hi3 - lo3 + 1)) in *.
    assert (X1 : zsum (fun i => zsum (fun j => zsum (fun k => running (qw p * t) (fun i' => third * (fS1 i' - iS1 i') *
        ((iS2 j * iS3 k + fS2 j * fS3 k) + 1/2 * (iS3 k * fS2 j + iS2 j * fS3 k))) (Z.to_nat i)) 0 n3') 0 n2') 0 n1 = qw p * t * (now m1 - before m1)).
    { rewrite <- W. apply zsum_ext. intros i _.
      rewrite <- (plane n2' n3' (fun j k => third * ((iS2 j * iS3 k + fS2 j * fS3 k) + 1/2 * (iS3 k * fS2 j + iS2 j * fS3 k)))) by (apply cross_sum; assumption).
      apply zsum_ext. intros j _. apply zsum_ext. intros k _. apply run_mult. intros; ring. }
    assert (X2 : zsum (fun i => zsum (fun j => zsum (fun k => running (qw p * t) (fun j' => third * (fS2 j' - iS2 j') *
        (iS1 i * iS3 k + fS1 i * fS3 k + 1/2 * (iS3 k * fS1 i + iS1 i * fS3 k))) (Z.to_nat j)) 0 n3') 0 n2) 0 n1' = qw p * t * (now m2 - before m2)).
    { rewrite zsum_swap. rewrite <- W0. apply zsum_ext. intros j _.
      rewrite <- (plane n1' n3' (fun i k => third * ((iS1 i * iS3 k + fS1 i * fS3 k) + 1/2 * (iS3 k * fS1 i + iS1 i * fS3 k)))) by (apply cross_sum; assumption).
      apply zsum_ext. intros i _. apply zsum_ext. intros k _. apply run_mult. intros; ring. }
    assert (X3 : zsum (fun i => zsum (fun j => zsum (fun k => running (qw p * t) (fun k' => third * (fS3 k' - iS3 k') *
        (iS1 i * iS2 j + fS1 i * fS2 j + 1/2 * (iS1 i * fS2 j + iS2 j * fS1 i))) (Z.to_nat k)) 0 n3) 0 n2') 0 n1' = qw p * t * (now m3 - before m3)).
    { rewrite (zsum_ext n1' 0 _ (fun i => zsum (fun k => zsum (fun j => running (qw p * t) (fun k' => third * (fS3 k' - iS3 k') *
        (iS1 i * iS2 j + fS1 i * fS2 j + 1/2 * (iS1 i * fS2 j + iS2 j * fS1 i))) (Z.to_nat k)) 0 n2') 0 n3)) by (intros; apply zsum_swap).
      rewrite zsum_swap. rewrite <- W1. apply zsum_ext. intros k _.
      rewrite <- (plane n1' n2' (fun i j => third * ((iS1 i * iS2 j + fS1 i * fS2 j) + 1/2 * (iS2 j * fS1 i + iS1 i * fS2 j)))) by (apply cross_sum; assumption).
      apply zsum_ext. intros i _. apply zsum_ext. intros j _. apply run_mult. intros; ring. }
    rewrite X1, X2, X3. unfold same. rewrite !jd_dec. destruct c; cbn [jd]; ring.
  Qed.
End Sums.

(** All orders and dimensions. *)
Lemma deposit_sum o g third t p c : (o <= 11)%nat -> (o <> 0%nat -> third = 1 / 3) -> (1 <= length (mvs p) <= 3)%nat -> Forall short_move (mvs p) -> dead p = false ->
  gathered c (deposit g o third t p) = qw p * speed t c p.
Proof.
  intros Ho H3 L F D. destruct o as [|o]; [now apply zigzag_sum|]. specialize (H3 ltac:(discriminate)).
  unfold deposit. rewrite D. destruct (mvs p) as [|m1 [|m2 [|m3 [|]]]] eqn:E; cbn in L; try lia;
    repeat match goal with H : Forall _ (_ :: _) |- _ => apply Forall_cons_iff in H; let X := fresh "M" in destruct H as [X H] end.
  - destruct (shapes_some (S o) m1) as [s1 S1]; [lia|]. rewrite S1. now apply (esirkepov1_sum (S o) t p g m1).
  - destruct (shapes_some (S o) m1) as [s1 S1]; [lia|]. destruct (shapes_some (S o) m2) as [s2 S2]; [lia|]. rewrite S1, S2.
    now apply (esirkepov2_sum (S o) t third p H3 g m1 m2).
  - destruct (shapes_some (S o) m1) as [s1 S1]; [lia|]. destruct (shapes_some (S o) m2) as [s2 S2]; [lia|]. destruct (shapes_some (S o) m3) as [s3 S3]; [lia|].
    rewrite S1, S2, S3. now apply (esirkepov3_sum (S o) t third p H3 g m1 m2 m3).
Qed.

Theorem total_current o g third t ps cs J X c : (o <= 11)%nat -> (o <> 0%nat -> third = 1 / 3) ->
  Forall (fun p => (1 <= length (mvs p) <= 3)%nat /\ Forall short_move (mvs p)) ps ->
  Permutation cs (flat_map (deposit g o third t) ps) -> NoDup X -> Forall (fun d => In (snd (fst d)) X) cs ->
  sumf (scatter cs J c) X = sumf (J c) X + flux t c ps.
Proof.
  intros Ho H3 F P N I. rewrite scatter_sum by assumption. f_equal. unfold gathered. rewrite (sumf_perm _ _ _ P), sumf_flat.
  unfold flux. apply sumf_ext. intros p Hp. rewrite Forall_forall in F. destruct (F p Hp) as [L M]. destruct (dead p) eqn:D.
  - unfold deposit. rewrite D. reflexivity.
  - now apply deposit_sum.
Qed.
