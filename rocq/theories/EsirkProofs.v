(** The Esirkepov deposit. *)
From Coq Require Import ZArith List Reals Lra Lia.
From Verif Require Import FieldModel FieldSpec ShapeModel ShapeSpec ShapeProofs ShapeTop DepositModel DepositSpec DepositProofs.
Import ListNotations.
Open Scope R_scope.

(** ** Totals over loops *)
Lemma total_map_seq : forall n s (G : Z -> contrib) c x,
  total (map G (map Z.of_nat (seq s n))) c x = zsum (fun i => hit c x (G i)) (Z.of_nat s) n.
Proof.
  induction n as [|n IH]; intros s G c x; [reflexivity|]. cbn [seq map total zsum].
  rewrite IH. now replace (Z.of_nat s + 1)%Z with (Z.of_nat (S s)) by lia.
Qed.
Lemma total_map : forall n (G : Z -> contrib) c x,
  total (map G (upto n)) c x = zsum (fun i => hit c x (G i)) 0 (Z.to_nat n).
Proof. intros. unfold upto. now rewrite total_map_seq. Qed.

Lemma total_flat_seq : forall n s (G : Z -> list contrib) c x,
  total (flat_map G (map Z.of_nat (seq s n))) c x = zsum (fun i => total (G i) c x) (Z.of_nat s) n.
Proof.
  induction n as [|n IH]; intros s G c x; [reflexivity|]. cbn [seq map flat_map zsum].
  rewrite total_app, IH. now replace (Z.of_nat s + 1)%Z with (Z.of_nat (S s)) by lia.
Qed.
Lemma total_flat : forall n (G : Z -> list contrib) c x,
  total (flat_map G (upto n)) c x = zsum (fun i => total (G i) c x) 0 (Z.to_nat n).
Proof. intros. unfold upto. now rewrite total_flat_seq. Qed.

(** Value at [k] of an array of length [n] placed at [lo]. *)
Definition win (lo n : Z) (f : Z -> R) (k : Z) : R :=
  if Z_le_dec lo k then if Z_lt_dec k (lo + n) then f (k - lo)%Z else 0 else 0.

Lemma zsum_kd_out : forall n s lo k f, (k < lo + s \/ lo + s + Z.of_nat n <= k)%Z ->
  zsum (fun i => f i * kd k (lo + i)) s n = 0.
Proof.
  intros n s lo k f H. apply zsum_zero. intros i Hi. unfold kd. destruct (Z.eq_dec k (lo + i)); [lia|ring].
Qed.

Lemma zsum_kd : forall n lo k f, zsum (fun i => f i * kd k (lo + i)) 0 (Z.to_nat n) = win lo n f k.
Proof.
  intros n lo k f. unfold win.
  destruct (Z_le_dec lo k) as [L|L]; [|apply zsum_kd_out; lia].
  destruct (Z_lt_dec k (lo + n)) as [U|U]; [|apply zsum_kd_out; lia].
  replace (Z.to_nat n) with (Z.to_nat (k - lo) + (1 + Z.to_nat (lo + n - k - 1)))%nat by lia.
  rewrite zsum_app, zsum_kd_out by lia. rewrite zsum_app. cbn [zsum].
  rewrite (zsum_kd_out (Z.to_nat (lo + n - k - 1))) by lia.
  replace (0 + Z.of_nat (Z.to_nat (k - lo)))%Z with (k - lo)%Z by lia.
  unfold kd. destruct (Z.eq_dec k (lo + (k - lo))); [ring|lia].
Qed.

Lemma win_ext : forall lo n f g k, (forall i, (0 <= i < n)%Z -> f i = g i) -> win lo n f k = win lo n g k.
Proof. intros lo n f g k H. unfold win. destruct Z_le_dec; [|reflexivity]. destruct Z_lt_dec; [|reflexivity]. apply H. lia. Qed.

Lemma total1 : forall c c' lo n f k,
  total (map (fun i => (c', [(lo + i)%Z], f i)) (upto n)) c [k] = if jd c c' then win lo n f k else 0.
Proof.
  intros. rewrite total_map. erewrite zsum_ext by (intros; rewrite hit1, jd_dec; reflexivity).
  destruct (jd c c'); [apply zsum_kd|]. now apply zsum_zero.
Qed.

Lemma total2 : forall c c' lo1 n1 lo2 n2 (f : Z -> Z -> R) k1 k2,
  total (flat_map (fun i => map (fun j => (c', [(lo1 + i)%Z; (lo2 + j)%Z], f i j)) (upto n2)) (upto n1)) c [k1; k2] =
  if jd c c' then win lo1 n1 (fun i => win lo2 n2 (f i) k2) k1 else 0.
Proof.
  intros. rewrite total_flat. rewrite (zsum_ext _ _ _ (fun i => (if jd c c' then win lo2 n2 (f i) k2 else 0) * kd k1 (lo1 + i))).
  - rewrite zsum_kd. destruct (jd c c'); [reflexivity|]. unfold win. destruct Z_le_dec; [destruct Z_lt_dec|]; reflexivity.
  - intros i Hi. rewrite total_map.
    rewrite (zsum_ext _ _ _ (fun j => (if jd c c' then 1 else 0) * kd k1 (lo1 + i) * (f i j * kd k2 (lo2 + j)))).
    + rewrite zsum_scal, zsum_kd. destruct (jd c c'); ring.
    + intros j Hj. rewrite hit2, jd_dec. destruct (jd c c'); ring.
Qed.

Lemma total3 : forall c c' lo1 n1 lo2 n2 lo3 n3 (f : Z -> Z -> Z -> R) k1 k2 k3,
  total (flat_map (fun i => flat_map (fun j => map (fun l =>
     (c', [(lo1 + i)%Z; (lo2 + j)%Z; (lo3 + l)%Z], f i j l)) (upto n3)) (upto n2)) (upto n1)) c [k1; k2; k3] =
  if jd c c' then win lo1 n1 (fun i => win lo2 n2 (fun j => win lo3 n3 (f i j) k3) k2) k1 else 0.
Proof.
  intros. rewrite total_flat.
  rewrite (zsum_ext _ _ _ (fun i => (if jd c c' then win lo2 n2 (fun j => win lo3 n3 (f i j) k3) k2 else 0) * kd k1 (lo1 + i))).
  - rewrite zsum_kd. destruct (jd c c'); [reflexivity|]. unfold win. destruct Z_le_dec; [destruct Z_lt_dec|]; reflexivity.
  - intros i Hi. rewrite total_flat.
    rewrite (zsum_ext _ _ _ (fun j => (if jd c c' then 1 else 0) * kd k1 (lo1 + i) * (win lo3 n3 (f i j) k3 * kd k2 (lo2 + j)))).
    + rewrite zsum_scal, zsum_kd. destruct (jd c c'); ring.
    + intros j Hj. rewrite total_map.
      rewrite (zsum_ext _ _ _ (fun l => (if jd c c' then 1 else 0) * kd k1 (lo1 + i) * kd k2 (lo2 + j) * (f i j l * kd k3 (lo3 + l)))).
      * rewrite zsum_scal, zsum_kd. destruct (jd c c'); ring.
      * intros l Hl. rewrite hit3, jd_dec. destruct (jd c c'); ring.
Qed.

(** ** Running sums *)
Lemma running_sum : forall n Q W, running Q W n = - Q * zsum W 0 (S n).
Proof.
  induction n as [|n IH]; intros Q W; [cbn; ring|].
  cbn [running]. rewrite IH, (zsum_last (S n)). rewrite Z.add_0_l. ring.
Qed.

Lemma win_running : forall lo n Q W k, (1 <= n)%Z -> zsum W 0 (Z.to_nat (n + 1)) = 0 ->
  win lo n (fun i => running Q W (Z.to_nat i)) k - win lo n (fun i => running Q W (Z.to_nat i)) (k - 1) =
  - Q * win lo (n + 1) W k.
Proof.
  intros lo n Q W k Hn HW. unfold win.
  destruct (Z_le_dec lo k) as [L|L].
  2:{ destruct (Z_le_dec lo (k - 1)); [lia|]. ring. }
  destruct (Z_le_dec lo (k - 1)) as [L1|L1].
  - destruct (Z_lt_dec (k - 1) (lo + n)) as [U1|U1].
    2:{ destruct (Z_lt_dec k (lo + n)); [lia|]. destruct (Z_lt_dec k (lo + (n + 1))); [lia|]. ring. }
    destruct (Z_lt_dec k (lo + (n + 1))) as [U2|U2]; [|lia].
    assert (HR : running Q W (Z.to_nat (k - lo)) = running Q W (Z.to_nat (k - 1 - lo)) - Q * W (k - lo)%Z).
    { replace (Z.to_nat (k - lo)) with (S (Z.to_nat (k - 1 - lo))) by lia. cbn [running].
      do 3 f_equal. lia. }
    destruct (Z_lt_dec k (lo + n)) as [U|U]; [rewrite HR; ring|].
    assert (k = lo + n)%Z by lia. subst k.
    assert (H0 : running Q W (Z.to_nat (lo + n - lo)) = 0).
    { rewrite running_sum. replace (S (Z.to_nat (lo + n - lo))) with (Z.to_nat (n + 1)) by lia. rewrite HW. ring. }
    rewrite H0 in HR. lra.
  - assert (k = lo) by lia. subst k.
    destruct (Z_lt_dec lo (lo + n)); [|lia]. destruct (Z_lt_dec lo (lo + (n + 1))); [|lia].
    rewrite Z.sub_diag. cbn. ring.
Qed.

(** ** One coordinate *)
Definition B0 (o : nat) (g : Z) (m : mv) (k : Z) : R := bspline o (before m - IZR (k - g)).
Definition B1 (o : nat) (g : Z) (m : mv) (k : Z) : R := bspline o (now m - IZR (k - g)).

Lemma shapes_facts : forall o g m lo hi iS fS, shapes o m = Some (lo, hi, iS, fS) -> short_move m ->
  (1 <= hi - lo)%Z /\
  (forall i, (0 <= i <= hi - lo)%Z -> iS i = B0 o g m (lo + g + i) /\ fS i = B1 o g m (lo + g + i)) /\
  (forall k, (k < lo + g \/ hi + g < k)%Z -> B0 o g m k = 0 /\ B1 o g m k = 0) /\
  zsum (fun i => fS i - iS i) 0 (Z.to_nat (hi - lo + 1)) = 0.
Proof.
  intros o g m lo hi iS fS H ((H1 & H2 & H3) & H4). unfold shapes in H.
  assert (Ho : (0 < o)%nat). { destruct o; [discriminate|lia]. }
  unfold now, before in H4.
  destruct (for_deposit_ok _ _ _ _ _ _ _ _ _ H H2 H1 H3 H4) as (Hh & HS & HO & (HB1 & HB2) & (HB3 & HB4)).
  split; [lia|]. split; [|split].
  - intros i Hi. destruct (HS i) as [Hi1 Hi2]; [lia|]. unfold B0, B1, now, before.
    replace (lo + g + i - g)%Z with (lo + i)%Z by lia. now split.
  - intros k Hk. unfold B0, B1, now, before. apply HO. lia.
  - rewrite (zsum_ext _ _ _ (fun i => fS i + -1 * iS i)) by (intros; ring).
    rewrite zsum_plus, zsum_scal.
    replace (Z.to_nat (hi - lo + 1)) with (S (Z.to_nat (hi - lo))) by lia.
    rewrite (zsum_ext _ _ fS (fun i => bspline o (IZR (ci m) + cdx m - IZR (lo + i)))) by (intros i Hi; apply HS; lia).
    rewrite (zsum_ext _ _ iS (fun i => bspline o (IZR (pi m) + pdx m - IZR (lo + i)))) by (intros i Hi; apply HS; lia).
    rewrite <- (zsum_rebase _ 0 lo (fun k => bspline o (IZR (ci m) + cdx m - IZR k))).
    rewrite <- (zsum_rebase _ 0 lo (fun k => bspline o (IZR (pi m) + pdx m - IZR k))).
    rewrite Z.add_0_r. rewrite !bspline_unity; try assumption; try ring;
      replace (lo + Z.of_nat (Z.to_nat (hi - lo)))%Z with hi by lia; assumption.
Qed.

Lemma win_full : forall o g m lo hi iS fS h k, shapes o m = Some (lo, hi, iS, fS) -> short_move m ->
  h 0 0 = 0 ->
  win (lo + g) (hi - lo + 1) (fun i => h (iS i) (fS i)) k = h (B0 o g m k) (B1 o g m k).
Proof.
  intros o g m lo hi iS fS h k H Hm Hh. destruct (shapes_facts o g m lo hi iS fS H Hm) as (H1 & H2 & H3 & _).
  unfold win. destruct (Z_le_dec (lo + g) k) as [L|L].
  - destruct (Z_lt_dec k (lo + g + (hi - lo + 1))) as [U|U].
    + destruct (H2 (k - (lo + g))%Z) as [-> ->]; [lia|].
      now replace (lo + g + (k - (lo + g)))%Z with k by lia.
    + destruct (H3 k) as [-> ->]; [lia|]. now rewrite Hh.
  - destruct (H3 k) as [-> ->]; [lia|]. now rewrite Hh.
Qed.

(** Difference along one coordinate of a running sum whose weight is [c] times the change of
    the shape in that coordinate. *)
Lemma win_step : forall o g m lo hi iS fS Q (c : R) (W : Z -> R) k, shapes o m = Some (lo, hi, iS, fS) -> short_move m ->
  (forall i, W i = c * (fS i - iS i)) ->
  win (lo + g) (hi - lo) (fun i => running Q W (Z.to_nat i)) k
  - win (lo + g) (hi - lo) (fun i => running Q W (Z.to_nat i)) (k - 1) =
  - Q * (c * (B1 o g m k - B0 o g m k)).
Proof.
  intros o g m lo hi iS fS Q c W k H Hm HW. destruct (shapes_facts o g m lo hi iS fS H Hm) as (H1 & H2 & H3 & H4).
  rewrite win_running.
  - rewrite (win_ext _ _ _ (fun i => (fun a b => c * (b - a)) (iS i) (fS i))) by (intros; apply HW).
    rewrite (win_full o g m lo hi iS fS (fun a b => c * (b - a))); [reflexivity|assumption|assumption|ring].
  - lia.
  - rewrite (zsum_ext _ _ _ (fun i => c * (fS i - iS i))) by (intros; apply HW). rewrite zsum_scal, H4. ring.
Qed.

Lemma win_zero : forall lo n k, win lo n (fun _ => 0) k = 0.
Proof. intros. unfold win. destruct Z_le_dec; [destruct Z_lt_dec|]; reflexivity. Qed.
Lemma win_swap : forall lo1 n1 lo2 n2 (f : Z -> Z -> R) k1 k2,
  win lo1 n1 (fun i => win lo2 n2 (f i) k2) k1 = win lo2 n2 (fun j => win lo1 n1 (fun i => f i j) k1) k2.
Proof. intros. unfold win. repeat (destruct Z_le_dec || destruct Z_lt_dec); reflexivity. Qed.
Lemma win_minus : forall lo n f g k, win lo n f k - win lo n g k = win lo n (fun i => f i - g i) k.
Proof. intros. unfold win. repeat (destruct Z_le_dec || destruct Z_lt_dec); ring. Qed.

Lemma esirkepov1_div : forall o g t p m1 s1 k1, shapes o m1 = Some s1 -> short_move m1 ->
  divJ (total (esirkepov1 g t p s1)) [k1] = - (qw p * t) * (B1 o g m1 k1 - B0 o g m1 k1).
Proof.
  intros o g t p m1 [[[lo hi] iS] fS] k1 H Hm. unfold esirkepov1. cbv zeta. cbn [divJ].
  rewrite !total_app, !total1. cbn [jd]. rewrite !Rplus_0_r.
  replace (hi + g - (lo + g))%Z with (hi - lo)%Z by lia.
  rewrite (win_step o g m1 lo hi iS fS (qw p * t) 1); [ring|assumption|assumption|intros; ring].
Qed.

Lemma esirkepov2_div : forall o g third t p m1 m2 s1 s2 k1 k2,
  shapes o m1 = Some s1 -> shapes o m2 = Some s2 -> short_move m1 -> short_move m2 ->
  divJ (total (esirkepov2 g third t p s1 s2)) [k1; k2] =
  - (qw p * t) * (B1 o g m1 k1 * B1 o g m2 k2 - B0 o g m1 k1 * B0 o g m2 k2).
Proof.
  intros o g third t p m1 m2 [[[lo1 hi1] iS1] fS1] [[[lo2 hi2] iS2] fS2] k1 k2 H1 H2 V1 V2.
  unfold esirkepov2. cbv zeta. cbn [divJ].
  rewrite !total_app, !total2. cbn [jd]. rewrite !Rplus_0_r, !Rplus_0_l.
  replace (hi1 + g - (lo1 + g))%Z with (hi1 - lo1)%Z by lia.
  replace (hi2 + g - (lo2 + g))%Z with (hi2 - lo2)%Z by lia.
  (* first coordinate *)
  rewrite !(win_swap (lo1 + g) (hi1 - lo1)). rewrite win_minus.
  rewrite (win_ext (lo2 + g) (hi2 - lo2 + 1) _
     (fun j => (fun a b => - (qw p * t) * ((1/2) * (b + a) * (B1 o g m1 k1 - B0 o g m1 k1))) (iS2 j) (fS2 j))).
  2:{ intros j Hj. rewrite (win_step o g m1 lo1 hi1 iS1 fS1 (qw p * t) ((1/2) * (fS2 j + iS2 j))); [ring|assumption|assumption|intros; ring]. }
  rewrite (win_full o g m2 lo2 hi2 iS2 fS2 (fun a b => - (qw p * t) * ((1/2) * (b + a) * (B1 o g m1 k1 - B0 o g m1 k1))) k2); [|assumption|assumption|ring].
  (* second coordinate *)
  rewrite win_minus.
  rewrite (win_ext (lo1 + g) (hi1 - lo1 + 1) _
     (fun i => (fun a b => - (qw p * t) * ((1/2) * (b + a) * (B1 o g m2 k2 - B0 o g m2 k2))) (iS1 i) (fS1 i))).
  2:{ intros i Hi. rewrite (win_step o g m2 lo2 hi2 iS2 fS2 (qw p * t) ((1/2) * (fS1 i + iS1 i))); [ring|assumption|assumption|intros; ring]. }
  rewrite (win_full o g m1 lo1 hi1 iS1 fS1 (fun a b => - (qw p * t) * ((1/2) * (b + a) * (B1 o g m2 k2 - B0 o g m2 k2))) k1); [|assumption|assumption|ring].
  field.
Qed.

Lemma esirkepov3_div : forall o g third t p m1 m2 m3 s1 s2 s3 k1 k2 k3,
  shapes o m1 = Some s1 -> shapes o m2 = Some s2 -> shapes o m3 = Some s3 ->
  short_move m1 -> short_move m2 -> short_move m3 ->
  divJ (total (esirkepov3 g third t p s1 s2 s3)) [k1; k2; k3] =
  - (qw p * t) * (3 * third) *
    (B1 o g m1 k1 * (B1 o g m2 k2 * B1 o g m3 k3) - B0 o g m1 k1 * (B0 o g m2 k2 * B0 o g m3 k3)).
Proof.
  intros o g third t p m1 m2 m3 [[[lo1 hi1] iS1] fS1] [[[lo2 hi2] iS2] fS2] [[[lo3 hi3] iS3] fS3] k1 k2 k3 H1 H2 H3 V1 V2 V3.
  unfold esirkepov3. cbv zeta. cbn [divJ].
  rewrite !total_app, !total3. cbn [jd]. rewrite !Rplus_0_r, !Rplus_0_l.
  replace (hi1 + g - (lo1 + g))%Z with (hi1 - lo1)%Z by lia.
  replace (hi2 + g - (lo2 + g))%Z with (hi2 - lo2)%Z by lia.
  replace (hi3 + g - (lo3 + g))%Z with (hi3 - lo3)%Z by lia.
  set (Q := qw p * t).
  set (w := fun a2 b2 a3 b3 => (a2 * a3 + b2 * b3) + (1/2) * (a3 * b2 + a2 * b3)).
  (* jx1 *)
  match goal with |- ?a - ?b + _ + _ = _ => assert (E1 : a - b =
     - Q * (third * (B1 o g m1 k1 - B0 o g m1 k1) * w (B0 o g m2 k2) (B1 o g m2 k2) (B0 o g m3 k3) (B1 o g m3 k3))) end.
  { rewrite !(win_swap (lo1 + g) (hi1 - lo1)). rewrite win_minus.
    rewrite (win_ext (lo2 + g) (hi2 - lo2 + 1) _ (fun j => (fun a2 b2 =>
       - Q * (third * (B1 o g m1 k1 - B0 o g m1 k1) * w a2 b2 (B0 o g m3 k3) (B1 o g m3 k3))) (iS2 j) (fS2 j))).
    - rewrite (win_full o g m2 lo2 hi2 iS2 fS2 (fun a2 b2 => - Q * (third * (B1 o g m1 k1 - B0 o g m1 k1) * w a2 b2 (B0 o g m3 k3) (B1 o g m3 k3))) k2); [reflexivity|assumption|assumption|unfold w; ring].
    - intros j Hj. rewrite !(win_swap (lo1 + g) (hi1 - lo1)). rewrite win_minus.
      rewrite (win_ext (lo3 + g) (hi3 - lo3 + 1) _ (fun l => (fun a3 b3 =>
         - Q * (third * (B1 o g m1 k1 - B0 o g m1 k1) * w (iS2 j) (fS2 j) a3 b3)) (iS3 l) (fS3 l))).
      + rewrite (win_full o g m3 lo3 hi3 iS3 fS3 (fun a3 b3 => - Q * (third * (B1 o g m1 k1 - B0 o g m1 k1) * w (iS2 j) (fS2 j) a3 b3)) k3); [reflexivity|assumption|assumption|unfold w; ring].
      + intros l Hl. rewrite (win_step o g m1 lo1 hi1 iS1 fS1 Q (third * w (iS2 j) (fS2 j) (iS3 l) (fS3 l))); [ring|assumption|assumption|intros; unfold w; ring]. }
  rewrite E1. clear E1.
  (* jx2 *)
  match goal with |- _ + (?a - ?b) + _ = _ => assert (E2 : a - b =
     - Q * (third * (B1 o g m2 k2 - B0 o g m2 k2) * w (B0 o g m1 k1) (B1 o g m1 k1) (B0 o g m3 k3) (B1 o g m3 k3))) end.
  { rewrite win_minus.
    rewrite (win_ext (lo1 + g) (hi1 - lo1 + 1) _ (fun i => (fun a1 b1 =>
       - Q * (third * (B1 o g m2 k2 - B0 o g m2 k2) * w a1 b1 (B0 o g m3 k3) (B1 o g m3 k3))) (iS1 i) (fS1 i))).
    - rewrite (win_full o g m1 lo1 hi1 iS1 fS1 (fun a1 b1 => - Q * (third * (B1 o g m2 k2 - B0 o g m2 k2) * w a1 b1 (B0 o g m3 k3) (B1 o g m3 k3))) k1); [reflexivity|assumption|assumption|unfold w; ring].
    - intros i Hi. rewrite !(win_swap (lo2 + g) (hi2 - lo2)). rewrite win_minus.
      rewrite (win_ext (lo3 + g) (hi3 - lo3 + 1) _ (fun l => (fun a3 b3 =>
         - Q * (third * (B1 o g m2 k2 - B0 o g m2 k2) * w (iS1 i) (fS1 i) a3 b3)) (iS3 l) (fS3 l))).
      + rewrite (win_full o g m3 lo3 hi3 iS3 fS3 (fun a3 b3 => - Q * (third * (B1 o g m2 k2 - B0 o g m2 k2) * w (iS1 i) (fS1 i) a3 b3)) k3); [reflexivity|assumption|assumption|unfold w; ring].
      + intros l Hl. rewrite (win_step o g m2 lo2 hi2 iS2 fS2 Q (third * w (iS1 i) (fS1 i) (iS3 l) (fS3 l))); [ring|assumption|assumption|intros; unfold w; ring]. }
  rewrite E2. clear E2.
  (* jx3 *)
  match goal with |- _ + _ + (?a - ?b) = _ => assert (E3 : a - b =
     - Q * (third * (B1 o g m3 k3 - B0 o g m3 k3) * w (B0 o g m1 k1) (B1 o g m1 k1) (B0 o g m2 k2) (B1 o g m2 k2))) end.
  { rewrite win_minus.
    rewrite (win_ext (lo1 + g) (hi1 - lo1 + 1) _ (fun i => (fun a1 b1 =>
       - Q * (third * (B1 o g m3 k3 - B0 o g m3 k3) * w a1 b1 (B0 o g m2 k2) (B1 o g m2 k2))) (iS1 i) (fS1 i))).
    - rewrite (win_full o g m1 lo1 hi1 iS1 fS1 (fun a1 b1 => - Q * (third * (B1 o g m3 k3 - B0 o g m3 k3) * w a1 b1 (B0 o g m2 k2) (B1 o g m2 k2))) k1); [reflexivity|assumption|assumption|unfold w; ring].
    - intros i Hi. rewrite win_minus.
      rewrite (win_ext (lo2 + g) (hi2 - lo2 + 1) _ (fun j => (fun a2 b2 =>
         - Q * (third * (B1 o g m3 k3 - B0 o g m3 k3) * w (iS1 i) (fS1 i) a2 b2)) (iS2 j) (fS2 j))).
      + rewrite (win_full o g m2 lo2 hi2 iS2 fS2 (fun a2 b2 => - Q * (third * (B1 o g m3 k3 - B0 o g m3 k3) * w (iS1 i) (fS1 i) a2 b2)) k2); [reflexivity|assumption|assumption|unfold w; ring].
      + intros j Hj. rewrite (win_step o g m3 lo3 hi3 iS3 fS3 Q (third * w (iS1 i) (fS1 i) (iS2 j) (fS2 j))); [ring|assumption|assumption|intros; unfold w; ring]. }
  rewrite E3. clear E3. unfold w. field.
Qed.
