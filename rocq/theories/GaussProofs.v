From Coq Require Import ZArith List Reals Lra Lia Permutation Bool FunctionalExtensionality.
From Verif Require Import Base ListLemmas DecompModel DecompSpec HaloModel HaloSpec HaloProofs SyncProofs TopoModel FieldModel FieldSpec ShapeSpec ShapeProofs
  DepositModel DepositSpec DepositProofs DepositTop InterpSpec DepositBounds StepModel StepSpec StepProofs EnergySpec EnergyProofs FilterSpec GaussSpec.
Import ListNotations.
Open Scope R_scope.

(** ** Sums *)
Lemma rsum_one {A} (l : list A) f x : NoDup l -> In x l -> (forall y, In y l -> y <> x -> f y = 0) -> rsum l f = f x.
Proof.
  induction 1 as [|a l Hn Hd IH]; intros Hx Hz; [destruct Hx|].
  change (f a + rsum l f = f x). destruct Hx as [->|Hx].
  - rewrite (rsum_ext l f (fun _ => 0)); [rewrite rsum_zero; ring|].
    intros y Hy. apply Hz; [right; auto|]. intros ->. contradiction.
  - rewrite IH; auto; [|intros; apply Hz; simpl; auto].
    rewrite Hz; [ring|left; auto|]. intros ->. contradiction.
Qed.
Lemma rsum_none {A} (l : list A) f : (forall y, In y l -> f y = 0) -> rsum l f = 0.
Proof. intro H. rewrite (rsum_ext l f (fun _ => 0)) by exact H. apply rsum_zero. Qed.

Lemma zrange_app a b c : (a <= b <= c)%Z -> zrange a c = zrange a b ++ zrange b c.
Proof.
  intro H. unfold zrange. replace (Z.to_nat (c - a)) with (Z.to_nat (b - a) + Z.to_nat (c - b))%nat by lia.
  rewrite seq_app, map_app. f_equal.
  replace (0 + Z.to_nat (b - a))%nat with (Z.to_nat (b - a) + 0)%nat by lia.
  generalize 0%nat. generalize (Z.to_nat (c - b)). induction n as [|n IH]; intro m; [reflexivity|].
  cbn [seq map]. f_equal; [lia|]. rewrite <- IH. f_equal. f_equal. lia.
Qed.
Lemma rsum_sub (f : Z -> R) lo lo' hi' hi : (lo <= lo')%Z -> (lo' <= hi')%Z -> (hi' <= hi)%Z ->
  (forall k, (k < lo' \/ hi' <= k)%Z -> f k = 0) -> rsum (zrange lo hi) f = rsum (zrange lo' hi') f.
Proof.
  intros H1 H2 H3 Hz. rewrite (zrange_app lo lo' hi), (zrange_app lo' hi' hi), !rsum_app by lia.
  rewrite (rsum_none (zrange lo lo')), (rsum_none (zrange hi' hi)); [ring| |];
  intros k Hk; apply in_zrange in Hk; apply Hz; lia.
Qed.
Lemma rsum_reindex (f : Z -> R) s lo hi : rsum (zrange lo hi) (fun k => f (k + s)%Z) = rsum (zrange (lo + s) (hi + s)) f.
Proof.
  replace (zrange (lo + s) (hi + s)) with (map (fun k => k + s)%Z (zrange lo hi)); [rewrite rsum_map; reflexivity|].
  unfold zrange. rewrite map_map. replace (hi + s - (lo + s))%Z with (hi - lo)%Z by ring. apply map_ext. intro. ring.
Qed.

Lemma bounded {A} (l : list A) (P : A -> Z -> Prop) :
  (forall a m m', P a m -> (m <= m')%Z -> P a m') -> (forall a, In a l -> exists m, P a m) ->
  exists m, forall a, In a l -> P a m.
Proof.
  intros HM. induction l as [|a l IH]; intro H.
  - exists 0%Z. intros a [].
  - destruct IH as [m Hm]; [intros; apply H; right; auto|]. destruct (H a) as [m' Hm']; [left; auto|].
    exists (Z.max m m'). intros b [<-|Hb]; [apply (HM a m')|apply (HM b m)]; auto; lia.
Qed.

(** ** Weights *)
Lemma spline_far o x k : (1 <= o <= 11)%nat -> (k < Int_part x - 6 \/ Int_part x + 8 <= k)%Z -> bspline o (x - IZR k) = 0.
Proof.
  intros Ho Hk. apply bspline_out; [lia|].
  assert (INR (S o) <= 12) by (replace 12 with (INR 12) by (cbn; ring); apply le_INR; lia).
  destruct (base_Int_part x) as [B1 B2].
  destruct Hk as [Hk|Hk].
  - assert (IZR k + 7 <= IZR (Int_part x)) by (rewrite <- plus_IZR; apply IZR_le; lia).
    rewrite Rabs_right; lra.
  - assert (IZR (Int_part x) + 8 <= IZR k) by (rewrite <- plus_IZR; apply IZR_le; lia).
    rewrite Rabs_left1; lra.
Qed.

Lemma Int_part_shift x k : Int_part (x + IZR k) = (Int_part x + k)%Z.
Proof.
  destruct (base_Int_part x) as [B1 B2]. destruct (base_Int_part (x + IZR k)) as [C1 C2].
  assert (H1 : (Int_part (x + IZR k) < Int_part x + k + 1)%Z) by (apply lt_IZR; rewrite !plus_IZR; lra).
  assert (H2 : (Int_part x + k < Int_part (x + IZR k) + 1)%Z) by (apply lt_IZR; rewrite !plus_IZR; lra).
  lia.
Qed.

Lemma axis_periodic o n x X k : axis_weight o n (x + IZR (k * n)) X = axis_weight o n x X.
Proof.
  unfold axis_weight. rewrite Int_part_shift.
  replace (Int_part x + k * n - 6)%Z with (Int_part x - 6 + k * n)%Z by ring.
  replace (Int_part x + k * n + 8)%Z with (Int_part x + 8 + k * n)%Z by ring.
  rewrite <- rsum_reindex. apply rsum_ext. intros i _.
  replace ((i + k * n) mod n)%Z with (i mod n)%Z.
  - replace (x + IZR (k * n) - IZR (i + k * n)) with (x - IZR i) by (rewrite plus_IZR; ring). reflexivity.
  - destruct (Z.eq_dec n 0) as [->|Hn]; [rewrite Z.mul_0_r, Z.add_0_r; reflexivity|]. rewrite Z.mod_add; auto.
Qed.

Lemma axis_box o n x X a g M : (1 <= o <= 11)%nat ->
  (- M + a - g <= Int_part (IZR a + x) - 6)%Z -> (Int_part (IZR a + x) + 8 <= M + a - g)%Z ->
  rsum (zrange (- M) M) (fun k => if Z.eqb ((a + (k - g)) mod n) (X mod n) then bspline o (x - IZR (k - g)) else 0)
  = axis_weight o n (IZR a + x) X.
Proof.
  intros Ho H1 H2.
  set (F := fun k => if Z.eqb (k mod n) (X mod n) then bspline o (IZR a + x - IZR k) else 0).
  rewrite (rsum_ext _ _ (fun k => F (k + (a - g))%Z)).
  2:{ intros k _. unfold F. replace (a + (k - g))%Z with (k + (a - g))%Z by ring.
      replace (IZR a + x - IZR (k + (a - g))) with (x - IZR (k - g)); [reflexivity|].
      rewrite plus_IZR, !minus_IZR. ring. }
  rewrite rsum_reindex. unfold axis_weight. fold F.
  apply rsum_sub; try lia. intros k Hk. unfold F. rewrite spline_far by auto. destruct (Z.eqb _ _); reflexivity.
Qed.

(** Array index [k] of the subdomain with offset [ofs] stands for node [X]. *)
Fixpoint hits (g : Z) (ofs N X k : list Z) : bool :=
  match ofs, N, X, k with
  | a :: ofs', n :: N', x :: X', k0 :: k' => Z.eqb ((a + (k0 - g)) mod n) (x mod n) && hits g ofs' N' X' k'
  | _, _, _, _ => true
  end.

Definition fits (o : nat) (g M : Z) (ofs : list Z) (x : list R) : Prop :=
  Forall2 (fun a x => (- M + a - g <= Int_part (IZR a + x) - 6 /\ Int_part (IZR a + x) + 8 <= M + a - g)%Z) ofs x.

Lemma weight_box o g M : (1 <= o <= 11)%nat -> forall ofs N x X,
  length N = length ofs -> length X = length ofs -> fits o g M ofs x ->
  rsum (box (repeat (- M, M)%Z (length ofs)))
       (fun k => if hits g ofs N X k then weight o x (map (fun a => (a - g)%Z) k) else 0)
  = node_weight o N (map2 (fun a x => IZR a + x) ofs x) X.
Proof.
  intro Ho. induction ofs as [|a ofs IH]; intros N x X LN LX HF; inversion HF as [|? x0 ? x' [H1 H2] HF']; subst.
  - destruct N, X; try discriminate. cbn. ring.
  - destruct N as [|n N], X as [|X0 X]; try discriminate. injection LN as LN. injection LX as LX.
    cbn [length repeat box map2 node_weight].
    rewrite rsum_flat_map.
    rewrite <- (axis_box o n x0 X0 a g M Ho H1 H2), <- (IH N x' X LN LX HF').
    rewrite Rmult_comm, <- rsum_scal. apply rsum_ext. intros k _. rewrite rsum_map.
    rewrite Rmult_comm, <- rsum_scal. apply rsum_ext. intros t _. cbn [hits map weight].
    destruct (Z.eqb _ _); cbn [andb]; destruct (hits _ _ _ _ _); ring.
Qed.

Definition alive (ps : list prtl) : list prtl := filter (fun p => negb (dead p)) ps.

Lemma rho_sum o g pos ps k : rho o g pos ps k =
  rsum (alive ps) (fun p => qw p * weight o (map pos (mvs p)) (map (fun a => (a - g)%Z) k)).
Proof.
  unfold alive. rewrite rsum_filter. induction ps as [|p ps IH]; [reflexivity|]. cbn [rho]. rewrite IH.
  change (rsum (p :: ps) ?f) with (f p + rsum ps f). cbv beta. destruct (dead p); reflexivity.
Qed.

Lemma map2_map_r {A B C E} (f : A -> C -> E) (h : B -> C) : forall l k, map2 f l (map h k) = map2 (fun a b => f a (h b)) l k.
Proof. induction l as [|a l IH]; intros [|b k]; cbn; auto. f_equal. apply IH. Qed.

Lemma rho_box o g M pos ps d N X : (1 <= o <= 11)%nat ->
  length N = length (sub_offset_ncells d) -> length X = length (sub_offset_ncells d) ->
  (forall p, In p ps -> fits o g M (sub_offset_ncells d) (map pos (mvs p))) ->
  rsum (box (repeat (- M, M)%Z (length (sub_offset_ncells d))))
       (fun k => if hits g (sub_offset_ncells d) N X k then rho o g pos ps k else 0)
  = charge_at o N (map (placed pos d) (alive ps)) X.
Proof.
  intros Ho LN LX HF. unfold charge_at. rewrite rsum_map.
  transitivity (rsum (box (repeat (- M, M)%Z (length (sub_offset_ncells d)))) (fun k => rsum (alive ps) (fun p =>
     qw p * (if hits g (sub_offset_ncells d) N X k then weight o (map pos (mvs p)) (map (fun a => (a - g)%Z) k) else 0)))).
  - apply rsum_ext. intros k _. rewrite rho_sum. destruct (hits _ _ _ _ _); [reflexivity|].
 symmetry. apply rsum_none. intros. ring.
  - rewrite rsum_swap. apply rsum_ext. intros p Hp. rewrite rsum_scal. cbn [placed fst snd]. f_equal.
    rewrite weight_box; auto.
    + rewrite map2_map_r. reflexivity.
    + apply HF. unfold alive in Hp. apply filter_In in Hp. tauto.
Qed.

(** ** Currents of one subdomain on the whole grid *)
Definition proj (g : Z) (ofs N : list Z) (cs : list contrib) (c : jcomp) (X : list Z) : R :=
  rsum cs (fun t => let '(c', x, v) := t in
    if jcomp_eq_dec c c' then if hits g ofs N X x then v else 0 else 0).

Lemma total_sum cs c x : DepositProofs.total cs c x = rsum cs (hit c x).
Proof. induction cs as [|t cs IH]; [reflexivity|]. cbn [DepositProofs.total]. rewrite IH. reflexivity. Qed.

Lemma hits_shift g a s : forall ofs N X k, length N = length ofs -> length X = length ofs -> length k = length ofs ->
  hits g ofs N X (shift a s k) = hits g ofs N (shift a (- s) X) k.
Proof.
  induction a as [|a IH]; intros [|o ofs] [|n N] [|X0 X] [|k0 k] L1 L2 L3; try discriminate; try reflexivity; cbn [shift hits].
  - f_equal. replace (o + (k0 + s - g))%Z with (o + (k0 - g) + s)%Z by ring.
    apply Bool.eq_iff_eq_true. rewrite !Z.eqb_eq. set (u := (o + (k0 - g))%Z).
    destruct (Z.eq_dec n 0) as [->|Hn]; [rewrite !Zmod_0_r; lia|].
    split; intro E.
    + replace u with (u + s - s)%Z by ring. rewrite Zminus_mod, E, <- Zminus_mod. reflexivity.
    + replace X0 with (X0 + - s + s)%Z by ring. rewrite (Zplus_mod (X0 + - s)), <- E, <- Zplus_mod. reflexivity.
  - rewrite IH; auto.
Qed.

Lemma list_in_box M x : Forall (fun a => (- M <= a < M)%Z) x -> In x (box (repeat (- M, M)%Z (length x))).
Proof. intro H. apply in_boxl. induction H; cbn; constructor; auto. Qed.

Lemma shift_len a s x : length (shift a s x) = length x.
Proof. revert a; induction x as [|i x IH]; intros [|a]; cbn; auto. Qed.

Lemma shift_small a s M : forall x, Forall (fun i => (- M <= i - 1 /\ i + 1 < M)%Z) x -> (-1 <= s <= 1)%Z ->
  Forall (fun i => (- M <= i < M)%Z) (shift a s x).
Proof.
  intros x H Hs. revert a. induction H as [|i x Hi H IH]; intros [|a]; cbn; constructor; auto; try lia.
  eapply Forall_impl; [|exact H]. cbn. intros; lia.
Qed.

Lemma shift_back a s x : shift a s (shift a (- s) x) = x.
Proof. revert a; induction x as [|i x IH]; intros [|a]; cbn; auto; f_equal; auto; ring. Qed.

(** The current at a neighbour, collected from a box that contains all contributions. *)
Lemma proj_box g ofs N cs c X a s M D : D = length ofs -> length N = D -> length X = D -> (-1 <= s <= 1)%Z ->
  (forall t, In t cs -> length (index_of t) = D /\ Forall (fun i => (- M <= i - 1 /\ i + 1 < M)%Z) (index_of t)) ->
  rsum (box (repeat (- M, M)%Z D)) (fun k => if hits g ofs N X k then DepositProofs.total cs c (shift a s k) else 0)
  = proj g ofs N cs c (shift a s X).
Proof.
  intros -> LN LX Hs HC.
  transitivity (rsum (box (repeat (- M, M)%Z (length ofs))) (fun k => rsum cs (fun t =>
     if hits g ofs N X k then hit c (shift a s k) t else 0))).
  - apply rsum_ext. intros k _. rewrite total_sum. destruct (hits _ _ _ _ _); [reflexivity|]. symmetry. apply rsum_zero.
  - rewrite rsum_swap. apply rsum_ext. intros [[c' x] v] Ht. destruct (HC _ Ht) as [LX' HB]. cbn in LX', HB.
    rewrite (rsum_one _ _ (shift a (- s) x)).
    + rewrite hits_shift by auto. rewrite Z.opp_involutive. unfold hit. rewrite shift_back.
      destruct (jcomp_eq_dec c c'); [|destruct (hits _ _ _ _ _); reflexivity].
      destruct (list_eq_dec Z.eq_dec x x); [reflexivity|congruence].
    + apply nodup_box.
    + rewrite <- LX', <- (shift_len a (- s) x). apply list_in_box. apply shift_small; auto; lia.
    + intros y Hy Hne. unfold hit. destruct (hits _ _ _ _ _); [|reflexivity].
      destruct (jcomp_eq_dec c c'); [|reflexivity]. destruct (list_eq_dec Z.eq_dec (shift a s y) x) as [E|]; [|reflexivity].
      exfalso. apply Hne. rewrite <- E. symmetry. rewrite <- (shift_back a (- s) y) at 2.
      rewrite Z.opp_involutive. reflexivity.
Qed.

Lemma shift_0' a x : shift a 0 x = x.
Proof. revert a; induction x as [|i x IH]; intros [|a]; cbn; auto; f_equal; auto; ring. Qed.

Lemma proj_div g ofs N cs X M D : D = length ofs -> length N = D -> length X = D ->
  (forall t, In t cs -> length (index_of t) = D /\ Forall (fun i => (- M <= i - 1 /\ i + 1 < M)%Z) (index_of t)) ->
  divergence (fun a => proj g ofs N cs (J a)) X =
  rsum (box (repeat (- M, M)%Z D))
    (fun k => if hits g ofs N X k then divergence (fun a => DepositProofs.total cs (J a)) k else 0).
Proof.
  intros E LN LX HC. unfold divergence, bwd.
  assert (Q : forall a, proj g ofs N cs (J a) X - proj g ofs N cs (J a) (shift a (-1) X) =
    rsum (box (repeat (- M, M)%Z D)) (fun k => if hits g ofs N X k then DepositProofs.total cs (J a) k else 0)
    - rsum (box (repeat (- M, M)%Z D)) (fun k => if hits g ofs N X k then DepositProofs.total cs (J a) (shift a (-1) k) else 0)).
  { intro a. rewrite (proj_box g ofs N cs (J a) X a (-1) M D) by (auto; lia).
    rewrite <- (shift_0' a X) at 1. rewrite <- (proj_box g ofs N cs (J a) X a 0 M D) by (auto; lia).
    f_equal. apply rsum_ext. intros k _. rewrite shift_0'. reflexivity. }
  rewrite !Q.
  assert (P : forall f h : list Z -> R, rsum (box (repeat (- M, M)%Z D)) f - rsum (box (repeat (- M, M)%Z D)) h
     = rsum (box (repeat (- M, M)%Z D)) (fun k => f k - h k)).
  { intros f h. transitivity (rsum (box (repeat (- M, M)%Z D)) f + (-1) * rsum (box (repeat (- M, M)%Z D)) h); [ring|].
    rewrite <- rsum_scal, <- rsum_plus. apply rsum_ext. intros. ring. }
  rewrite !P, <- !rsum_plus. apply rsum_ext. intros k _. destruct (hits _ _ _ _ _); ring.
Qed.

Lemma bwd_out a f x : (length x <= a)%nat -> bwd a f x = 0.
Proof. intro H. unfold bwd. rewrite shift_out by assumption. ring. Qed.

Lemma divJ_div F x : (1 <= length x <= 3)%nat -> divJ F x = divergence (fun a => F (J a)) x.
Proof.
  intro H. destruct x as [|i [|j [|k [|? ?]]]]; cbn in H; try lia; unfold divergence, bwd; cbn [divJ shift J];
  unfold Z.sub; cbn [Z.opp]; ring.
Qed.
Lemma divE_div F x : (1 <= length x <= 3)%nat -> divE F x = divergence (elec F) x.
Proof.
  intro H. destruct x as [|i [|j [|k [|? ?]]]]; cbn in H; try lia; unfold divergence, bwd, elec; cbn [divE shift E];
  unfold Z.sub; cbn [Z.opp]; ring.
Qed.
