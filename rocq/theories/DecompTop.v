(** Lemmas combining the pieces of DecompProofs into the statements of DecompProps. *)
From Coq Require Import ZArith List Bool Lia.
From Verif Require Import Base ListLemmas DecompModel DecompSpec DecompProofs.
Import ListNotations.
Open Scope Z_scope.
Ltac Zify.zify_post_hook ::= Z.div_mod_to_equations.

Lemma unsigned_weaken fp : unsigned_seeds fp -> seeds_unsigned fp.
Proof. intros [A B]. split; intros; [apply A|apply B]. Qed.

Lemma mul_divides n d : 1 <= d -> n mod d = 0 -> n = d * (n / d).
Proof. intros. rewrite (Z.div_mod n d) at 1 by lia. lia. Qed.

Lemma counts2_ok fp n s1 s2 d1 d2 a b :
  seeds_unsigned fp -> 1 <= n < 2 ^ 32 ->
  - 2 ^ 31 <= d1 < 2 ^ 31 -> - 2 ^ 31 <= d2 < 2 ^ 31 ->
  counts2 fp n s1 s2 d1 d2 = Ok (a, b) ->
  0 <= a < 2 ^ 32 /\ 0 <= b < 2 ^ 32 /\ w32 (a * b) = n.
Proof.
  intros Hf Hn H1 H2. unfold counts2.
  destruct (Z.ltb_spec 0 d1), (Z.ltb_spec 0 d2), (Z.ltb_spec d1 0), (Z.ltb_spec d2 0);
    cbn [andb]; try lia; try discriminate.
  - destruct (Z.eqb_spec (w32 (d1 * d2)) n); cbn [negb]; [|discriminate].
    intros E; inversion E; subst. lia.
  - destruct (Z.eqb_spec (n mod d1) 0) as [E1|]; cbn [negb]; [|discriminate].
    destruct (Z.eqb_spec (w32 (d1 * (n / d1))) n); cbn [negb]; [|discriminate].
    intros E; inversion E; subst.
    assert (n = a * (n / a)) by (apply mul_divides; lia). split; [lia|]. split; [|lia]. nia.
  - destruct (Z.eqb_spec (n mod d2) 0) as [E1|]; cbn [negb]; [|discriminate].
    intros E; inversion E; subst.
    assert (E2 : n = b * (n / b)) by (apply mul_divides; lia). split; [nia|].
    split; [lia|]. rewrite Z.mul_comm, <- E2. apply w32_small; lia.
  - destruct (Z.eq_dec s2 0) as [->|Hs2]. { cbn. discriminate. }
    destruct (divide2D_ok fp n s1 s2 Hf Hs2 Hn) as [x [y [D1 [D2 [D3 D4]]]]].
    rewrite D1. cbn [rbind fst snd].
    destruct (Z.eqb_spec (w32 (x * y)) n); cbn [negb]; [|discriminate].
    intros E; inversion E; subst. split; [nia|]. split; [nia|auto].
Qed.

Lemma w32_mul_l a b : w32 (w32 a * b) = w32 (a * b).
Proof. unfold w32. apply Z.mul_mod_idemp_l. lia. Qed.

Lemma w32_range x : 0 <= w32 x < 2 ^ 32.
Proof. apply Z.mod_pos_bound. lia. Qed.

Lemma counts3_ok fp n s1 s2 s3 d1 d2 d3 a b c :
  seeds_unsigned fp -> 1 <= n < 2 ^ 32 ->
  - 2 ^ 31 <= d1 < 2 ^ 31 -> - 2 ^ 31 <= d2 < 2 ^ 31 -> - 2 ^ 31 <= d3 < 2 ^ 31 ->
  counts3 fp n s1 s2 s3 d1 d2 d3 = Ok (a, b, c) ->
  0 <= a < 2 ^ 32 /\ 0 <= b < 2 ^ 32 /\ 0 <= c < 2 ^ 32 /\ w32 (a * b * c) = n.
Proof.
  intros Hf Hn H1 H2 H3. unfold counts3.
  assert (Q : forall p k r,
    divided n p k = Ok r -> exists q, 1 <= q < 2 ^ 32 /\ k q = Ok r).
  { intros p k r. unfold divided. destruct (Z.eqb_spec (w32 p) 0); [discriminate|].
    destruct (Z.eqb_spec (n mod w32 p) 0) as [E|E]; cbn [negb]; [|discriminate].
    intros Hk. pose proof (w32_range p).
    assert (n = w32 p * (n / w32 p)) by (apply mul_divides; lia).
    exists (n / w32 p). split; [nia|auto]. }
  assert (D : forall q x y k r,
     1 <= q < 2 ^ 32 -> rbind (divide2D fp q x y) k = @Ok (Z * Z * Z) r ->
     exists u v, 0 <= u < 2 ^ 32 /\ 0 <= v < 2 ^ 32 /\ k (u, v) = Ok r).
  { intros q x y k r Hq. destruct (Z.eq_dec y 0) as [->|Hy]. { cbn. discriminate. }
    destruct (divide2D_ok fp q x y Hf Hy Hq) as [u [v [D1 [D2 [D3 D4]]]]].
    rewrite D1. cbn [rbind]. intros Hk. exists u, v. split; [nia|]. split; [nia|auto]. }
  assert (C : forall n1 n2 n3 r,
     checked3 n n1 n2 n3 = Ok r ->
     r = (n1, n2, n3) /\ w32 (n1 * n2 * n3) = n).
  { intros n1 n2 n3 r. unfold checked3. destruct (Z.eqb_spec (w32 (w32 (n1 * n2) * n3)) n); cbn [negb]; [|discriminate].
    intros E; inversion E. split; auto. rewrite <- w32_mul_l. auto. }
  cbv zeta.
  destruct (Z.ltb_spec 0 d1), (Z.ltb_spec 0 d2), (Z.ltb_spec 0 d3),
           (Z.ltb_spec d1 0), (Z.ltb_spec d2 0), (Z.ltb_spec d3 0);
    cbn [andb]; try lia; intros E;
    try (apply Q in E as [q [Q1 E]]);
    try (apply D in E as [u [v [U1 [U2 E]]]]; [|exact Q1]; cbn [fst snd] in E).
  all: try (apply C in E as [E1 E2]; inversion E1; subst; repeat split; lia).
  destruct (Z.eq_dec (w32 (s2 * s3)) 0) as [Z0|Z0].
  { unfold divide3D in E. rewrite Z0 in E. cbn in E. discriminate. }
  destruct (divide3D_ok fp n s1 s2 s3 Hf Z0 Hn) as [x [y [z [D1 [D2 [D3 [D4 D5]]]]]]].
  rewrite D1 in E. cbn [rbind fst snd] in E.
  apply C in E as [E1 E2]. inversion E1; subst. split; [nia|]. split; [nia|]. split; [nia|auto].
Qed.

Lemma decompose_ok fp n ncells dec ls :
  unsigned_seeds fp -> valid_request n ncells dec ->
  decompose fp n ncells dec = Ok ls ->
  exists ns, Forall2 (fun k c => 1 <= k < 2 ^ 32 /\ 5 * k <= c < 2 ^ 32) ns ncells /\
             ls = map2 blocks ns ncells /\ w32 (prodZ ns) = n.
Proof.
  intros Hf [Hn [Hc Hd]] H. apply unsigned_weaken in Hf.
  unfold decompose in H.
  destruct (Nat.eqb (length ncells) (length dec)); cbn [negb] in H; [|discriminate].
  assert (B : forall k c l, 0 <= k < 2 ^ 32 -> 0 <= c < 2 ^ 32 -> decompose1D k c = Ok l ->
            (1 <= k < 2 ^ 32 /\ 5 * k <= c < 2 ^ 32) /\ l = blocks k c).
  { intros k c l Hk Hc' E. apply decompose1D_ok in E; auto. split; [lia|tauto]. }
  destruct ncells as [|c1 [|c2 [|c3 [|]]]], dec as [|d1 [|d2 [|d3 [|]]]]; try discriminate.
  - destruct (decompose1D n c1) eqn:E; try discriminate. inversion H; subst.
    inversion Hc; subst. apply B in E as [E1 ->]; [|lia|lia].
    exists [n]. split; [constructor; auto|]. split; [reflexivity|].
    unfold prodZ; simpl. rewrite Z.mul_1_r. apply w32_small; lia.
  - inversion Hc as [|? ? C1 Hc']; inversion Hc' as [|? ? C2 _]; subst.
    inversion Hd as [|? ? D1 Hd']; inversion Hd' as [|? ? D2 _]; subst.
    destruct (counts2 fp n c1 c2 d1 d2) as [[a b]| |] eqn:E; try discriminate.
    apply counts2_ok in E as [Ha [Hb Hab]]; auto. cbn [rbind fst snd] in H.
    destruct (decompose1D a c1) eqn:E1; try discriminate. cbn [rbind] in H.
    destruct (decompose1D b c2) eqn:E2; try discriminate. cbn [rbind] in H.
    inversion H; subst.
    apply B in E1 as [F1 ->]; [|lia|lia]. apply B in E2 as [F2 ->]; [|lia|lia].
    exists [a; b]. split; [repeat constructor; lia|]. split; [reflexivity|].
    unfold prodZ; cbn [fold_right]. rewrite Z.mul_1_r. auto.
  - inversion Hc as [|? ? C1 Hc']; inversion Hc' as [|? ? C2 Hc'']; inversion Hc'' as [|? ? C3 _]; subst.
    inversion Hd as [|? ? D1 Hd']; inversion Hd' as [|? ? D2 Hd'']; inversion Hd'' as [|? ? D3 _]; subst.
    destruct (counts3 fp n c1 c2 c3 d1 d2 d3) as [[[a b] c]| |] eqn:E; try discriminate.
    apply counts3_ok in E as [Ha [Hb [Hb' Hab]]]; auto. cbn [rbind fst snd] in H.
    destruct (decompose1D a c1) eqn:E1; try discriminate. cbn [rbind] in H.
    destruct (decompose1D b c2) eqn:E2; try discriminate. cbn [rbind] in H.
    destruct (decompose1D c c3) eqn:E3; try discriminate. cbn [rbind] in H.
    inversion H; subst.
    apply B in E1 as [F1 ->]; [|lia|lia]. apply B in E2 as [F2 ->]; [|lia|lia].
    apply B in E3 as [F3 ->]; [|lia|lia].
    exists [a; b; c]. split; [repeat constructor; lia|]. split; [reflexivity|].
    unfold prodZ; cbn [fold_right]. rewrite Z.mul_1_r, Z.mul_assoc. auto.
Qed.

Lemma counts_blocks ns cs :
  Forall2 (fun k c => 1 <= k < 2 ^ 32 /\ 5 * k <= c < 2 ^ 32) ns cs ->
  counts (map2 blocks ns cs) = ns.
Proof.
  unfold counts. induction 1 as [|k c ns cs H H' IH]; simpl; auto.
  rewrite blocks_length by lia. f_equal; auto.
Qed.

Lemma sums_blocks ns cs :
  Forall2 (fun k c => 1 <= k < 2 ^ 32 /\ 5 * k <= c < 2 ^ 32) ns cs ->
  map sumZ (map2 blocks ns cs) = cs.
Proof.
  induction 1 as [|k c ns cs H H' IH]; simpl; auto.
  rewrite blocks_sum by lia. f_equal; auto.
Qed.

Lemma blocks_ge5 k c a : 1 <= k -> 5 * k <= c -> In a (blocks k c) -> 5 <= a.
Proof.
  intros Hk Hc Ha. apply blocks_in in Ha.
  assert (5 <= c / k) by (apply Z.div_le_lower_bound; lia). lia.
Qed.

Lemma nonneg_blocks ns cs :
  Forall2 (fun k c => 1 <= k < 2 ^ 32 /\ 5 * k <= c < 2 ^ 32) ns cs ->
  Forall (Forall (fun a => 0 <= a)) (map2 blocks ns cs).
Proof.
  induction 1 as [|k c ns cs H H' IH]; simpl; constructor; auto.
  apply Forall_forall. intros a Ha. apply blocks_ge5 in Ha; lia.
Qed.

Lemma good_blocks_ok ns cs :
  Forall2 (fun k c => 1 <= k < 2 ^ 32 /\ 5 * k <= c < 2 ^ 32) ns cs ->
  Forall2 good_blocks (map2 blocks ns cs) cs.
Proof.
  induction 1 as [|k c ns cs H H' IH]; simpl; constructor; auto.
  split; [apply blocks_sum; lia|]. split.
  - intros a Ha. apply blocks_ge5 in Ha; lia.
  - intros a b Ha Hb. apply blocks_in in Ha. apply blocks_in in Hb. lia.
Qed.

(** Lists of subdomains of an arbitrary per-dimension block structure. *)
Lemma nth_error_sub ls n :
  n = prodZ (counts ls) ->
  forall idx d, nth_error (create_domains n ls) idx = Some d ->
  exists k, nth_error (indices (map (@length Z) ls)) idx = Some k /\ d = sub_at ls k /\
            Forall2 (fun a m => (a < m)%nat) k (map (@length Z) ls).
Proof.
  intros En idx d H. rewrite create_domains_indices in H by auto.
  rewrite nth_error_map in H.
  destruct (nth_error (indices (map (@length Z) ls)) idx) as [k|] eqn:E; [|discriminate].
  inversion H; subst. exists k. split; auto. split; auto.
  apply in_indices. eapply nth_error_In; eauto.
Qed.

Lemma sub_nth_error ls n k :
  n = prodZ (counts ls) ->
  Forall2 (fun a m => (a < m)%nat) k (map (@length Z) ls) ->
  exists idx, nth_error (indices (map (@length Z) ls)) idx = Some k /\
              nth_error (create_domains n ls) idx = Some (sub_at ls k).
Proof.
  intros En Hk. apply in_indices in Hk. apply In_nth_error in Hk as [idx Hi].
  exists idx. split; auto. rewrite create_domains_indices by auto.
  rewrite nth_error_map, Hi. auto.
Qed.

Lemma tiles_cover ls n :
  n = prodZ (counts ls) -> Forall (Forall (fun a => 0 <= a)) ls ->
  forall g, in_box g (map sumZ ls) ->
  exists! p : nat * list Z,
    exists d, nth_error (create_domains n ls) (fst p) = Some d /\ is_global_cell d (snd p) g.
Proof.
  intros En Hls g Hg.
  destruct (tiling_exists ls Hls g Hg) as [k [K1 [x [X1 X2]]]].
  destruct (sub_nth_error ls n k En K1) as [idx [I1 I2]].
  exists (idx, x). split.
  - exists (sub_at ls k). split; [auto|]. split; auto.
  - intros [idx' x'] [d [D1 [D2 D3]]]. cbn [fst snd] in *.
    destruct (nth_error_sub ls n En idx' d D1) as [k' [I1' [-> K1']]].
    destruct (tiling_unique ls Hls k k' x x') as [-> ->]; auto.
    { rewrite <- X2, <- D3; auto. }
    f_equal. pose proof (nodup_indices (map (@length Z) ls)) as N.
    rewrite NoDup_nth_error in N. apply N; [|congruence].
    apply nth_error_Some. congruence.
Qed.

Lemma tiles_inside ls n :
  n = prodZ (counts ls) -> Forall (Forall (fun a => 0 <= a)) ls ->
  forall idx d x g, nth_error (create_domains n ls) idx = Some d ->
  is_global_cell d x g -> in_box g (map sumZ ls).
Proof.
  intros En Hls idx d x g Hd [Hx ->].
  destruct (nth_error_sub ls n En idx d Hd) as [k [_ [-> K]]].
  clear -Hls Hx K. simpl in *. revert k x K Hx.
  induction Hls as [|l ls Hl Hls IH]; intros k x K Hx; simpl in *.
  - inversion K; subst. inversion Hx; subst. constructor.
  - inversion K as [|i ? k1 ? Hi K1]; subst. inversion Hx as [|a ? x1 ? Ha X1]; subst.
    simpl. constructor; [|apply IH; auto].
    rewrite nth_running by auto.
    pose proof (firstn_sum_mono l i (length l) Hl ltac:(lia) ltac:(lia)) as M.
    rewrite firstn_all in M.
    assert (0 <= sumZ (firstn i l)); [|lia].
    apply sumZ_nonneg. rewrite Forall_forall in *. intros y Hy. apply Hl.
    rewrite <- (firstn_skipn i l). apply in_or_app; auto.
Qed.

Lemma C01_main fp n ncells dec ls :
  unsigned_seeds fp -> valid_request n ncells dec ->
  decompose fp n ncells dec = Ok ls -> prodZ (counts ls) < 2 ^ 32 ->
  Forall2 good_blocks ls ncells /\
  Z.of_nat (length (create_domains n ls)) = n /\
  (forall g, in_box g ncells ->
     exists! p : nat * list Z, exists d,
       nth_error (create_domains n ls) (fst p) = Some d /\ is_global_cell d (snd p) g) /\
  (forall idx d x g, nth_error (create_domains n ls) idx = Some d ->
     is_global_cell d x g -> in_box g ncells).
Proof.
  intros Hf Hv H Hp.
  destruct (decompose_ok fp n ncells dec ls Hf Hv H) as [ns [N1 [-> N2]]].
  assert (Ec : counts (map2 blocks ns ncells) = ns) by (apply counts_blocks; auto).
  assert (Es : map sumZ (map2 blocks ns ncells) = ncells) by (apply sums_blocks; auto).
  assert (Hnn := nonneg_blocks ns ncells N1).
  assert (En : n = prodZ (counts (map2 blocks ns ncells))).
  { rewrite Ec in *. rewrite w32_small in N2; auto. split; auto.
    clear -N1. induction N1; simpl; [unfold prodZ; simpl; lia|].
    change (0 <= x * prodZ l). destruct H. nia. }
  split; [apply good_blocks_ok; auto|]. split.
  { rewrite create_domains_indices by auto. rewrite map_length, length_indices, map_map.
    symmetry. exact En. }
  split.
  - intros g Hg. apply tiles_cover; auto. rewrite Es; auto.
  - intros idx d x g Hd Hc. rewrite <- Es. eapply tiles_inside; eauto.
Qed.

(** * Free decompositions *)

Lemma decompose1D_accepts k c :
  1 <= k < 2 ^ 32 -> 0 <= c < 2 ^ 32 -> 5 * k <= c ->
  decompose1D k c = Ok (blocks k c).
Proof.
  intros. rewrite decompose1D_spec by auto. destruct (Z.leb_spec (5 * k) c); [auto|lia].
Qed.

Lemma decompose1D_not_UB k c :
  1 <= k < 2 ^ 32 -> 0 <= c < 2 ^ 32 -> decompose1D k c <> UB.
Proof.
  intros. rewrite decompose1D_spec by auto. destruct (5 * k <=? c); discriminate.
Qed.

Lemma C02_1d fp n c d :
  1 <= n < 2 ^ 32 -> 0 <= c < 2 ^ 32 ->
  decompose fp n [c] [d] <> UB /\
  (5 * n <= c -> exists l, decompose fp n [c] [d] = Ok [l] /\ Z.of_nat (length l) = n).
Proof.
  intros Hn Hc. unfold decompose. cbn [length Nat.eqb negb]. split.
  - pose proof (decompose1D_not_UB n c Hn Hc). destruct (decompose1D n c); cbn; congruence.
  - intros H5. rewrite decompose1D_accepts by auto. exists (blocks n c). split; [auto|].
    apply blocks_length; lia.
Qed.

Lemma C02_2d fp n c1 c2 d1 d2 :
  unsigned_seeds fp -> 1 <= n < 2 ^ 32 -> 1 <= c1 < 2 ^ 32 -> 1 <= c2 < 2 ^ 32 ->
  d1 < 0 -> d2 < 0 ->
  exists n1 n2, 1 <= n1 /\ 1 <= n2 /\ n1 * n2 = n /\
    decompose fp n [c1; c2] [d1; d2] <> UB /\
    (5 * n1 <= c1 -> 5 * n2 <= c2 -> exists l1 l2,
       decompose fp n [c1; c2] [d1; d2] = Ok [l1; l2] /\
       Z.of_nat (length l1) = n1 /\ Z.of_nat (length l2) = n2).
Proof.
  intros Hf Hn H1 H2 Hd1 Hd2. apply unsigned_weaken in Hf.
  destruct (divide2D_ok fp n c1 c2 Hf ltac:(lia) Hn) as [a [b [D1 [D2 [D3 D4]]]]].
  assert (a < 2 ^ 32) by nia. assert (b < 2 ^ 32) by nia.
  exists a, b. split; [auto|]. split; [auto|]. split; [auto|].
  unfold decompose. cbn [length Nat.eqb negb]. unfold counts2.
  destruct (Z.ltb_spec 0 d1), (Z.ltb_spec 0 d2), (Z.ltb_spec d1 0), (Z.ltb_spec d2 0);
    cbn [andb]; try lia.
  rewrite D1. cbn [rbind fst snd]. rewrite D4, w32_small, Z.eqb_refl by lia. cbn [negb rbind fst snd].
  split.
  - pose proof (decompose1D_not_UB a c1 ltac:(lia) ltac:(lia)).
    pose proof (decompose1D_not_UB b c2 ltac:(lia) ltac:(lia)).
    destruct (decompose1D a c1), (decompose1D b c2); cbn; congruence.
  - intros. rewrite !decompose1D_accepts by lia. cbn [rbind].
    exists (blocks a c1), (blocks b c2). split; [auto|]. split; apply blocks_length; lia.
Qed.

Lemma C02_3d fp n c1 c2 c3 d1 d2 d3 :
  unsigned_seeds fp -> 1 <= n < 2 ^ 32 ->
  1 <= c1 < 2 ^ 32 -> 1 <= c2 < 2 ^ 32 -> 1 <= c3 < 2 ^ 32 -> w32 (c2 * c3) <> 0 ->
  d1 < 0 -> d2 < 0 -> d3 < 0 ->
  exists n1 n2 n3, 1 <= n1 /\ 1 <= n2 /\ 1 <= n3 /\ n1 * n2 * n3 = n /\
    decompose fp n [c1; c2; c3] [d1; d2; d3] <> UB /\
    (5 * n1 <= c1 -> 5 * n2 <= c2 -> 5 * n3 <= c3 -> exists l1 l2 l3,
       decompose fp n [c1; c2; c3] [d1; d2; d3] = Ok [l1; l2; l3] /\
       Z.of_nat (length l1) = n1 /\ Z.of_nat (length l2) = n2 /\ Z.of_nat (length l3) = n3).
Proof.
  intros Hf Hn H1 H2 H3 Hw Hd1 Hd2 Hd3. apply unsigned_weaken in Hf.
  destruct (divide3D_ok fp n c1 c2 c3 Hf Hw Hn) as [a [b [c [D1 [D2 [D3 [D4 D5]]]]]]].
  assert (a * b < 2 ^ 32) by nia.
  assert (a < 2 ^ 32) by nia. assert (b < 2 ^ 32) by nia. assert (c < 2 ^ 32) by nia.
  exists a, b, c. split; [auto|]. split; [auto|]. split; [auto|]. split; [auto|].
  unfold decompose. cbn [length Nat.eqb negb]. unfold counts3. cbv zeta.
  destruct (Z.ltb_spec 0 d1), (Z.ltb_spec 0 d2), (Z.ltb_spec 0 d3),
           (Z.ltb_spec d1 0), (Z.ltb_spec d2 0), (Z.ltb_spec d3 0);
    cbn [andb]; try lia.
  rewrite D1. cbn [rbind fst snd]. unfold checked3. rewrite w32_mul_l, D5, w32_small, Z.eqb_refl by lia.
  cbn [negb rbind fst snd].
  split.
  - pose proof (decompose1D_not_UB a c1 ltac:(lia) ltac:(lia)).
    pose proof (decompose1D_not_UB b c2 ltac:(lia) ltac:(lia)).
    pose proof (decompose1D_not_UB c c3 ltac:(lia) ltac:(lia)).
    destruct (decompose1D a c1), (decompose1D b c2), (decompose1D c c3); cbn; congruence.
  - intros. rewrite !decompose1D_accepts by lia. cbn [rbind].
    exists (blocks a c1), (blocks b c2), (blocks c c3). split; [auto|].
    split; [|split]; apply blocks_length; lia.
Qed.

(** Requests with some counts fixed. *)
Lemma counts2_decompose fp n c1 c2 d1 d2 a b :
  counts2 fp n c1 c2 d1 d2 = Ok (a, b) -> 1 <= a -> 1 <= b -> a * b = n -> n < 2 ^ 32 ->
  1 <= c1 < 2 ^ 32 -> 1 <= c2 < 2 ^ 32 ->
  decompose fp n [c1; c2] [d1; d2] <> UB /\
  (5 * a <= c1 -> 5 * b <= c2 -> exists l1 l2,
       decompose fp n [c1; c2] [d1; d2] = Ok [l1; l2] /\
       Z.of_nat (length l1) = a /\ Z.of_nat (length l2) = b).
Proof.
  intros E Ha Hb P Hn H1 H2. assert (a < 2 ^ 32) by nia. assert (b < 2 ^ 32) by nia.
  unfold decompose. cbn [length Nat.eqb negb]. rewrite E. cbn [rbind fst snd]. split.
  - pose proof (decompose1D_not_UB a c1 ltac:(lia) ltac:(lia)).
    pose proof (decompose1D_not_UB b c2 ltac:(lia) ltac:(lia)).
    destruct (decompose1D a c1), (decompose1D b c2); cbn; congruence.
  - intros. rewrite !decompose1D_accepts by lia. cbn [rbind].
    exists (blocks a c1), (blocks b c2). split; [auto|]. split; apply blocks_length; lia.
Qed.
Lemma counts3_decompose fp n c1 c2 c3 d1 d2 d3 a b c :
  counts3 fp n c1 c2 c3 d1 d2 d3 = Ok (a, b, c) -> 1 <= a -> 1 <= b -> 1 <= c -> a * b * c = n -> n < 2 ^ 32 ->
  1 <= c1 < 2 ^ 32 -> 1 <= c2 < 2 ^ 32 -> 1 <= c3 < 2 ^ 32 ->
  decompose fp n [c1; c2; c3] [d1; d2; d3] <> UB /\
  (5 * a <= c1 -> 5 * b <= c2 -> 5 * c <= c3 -> exists l1 l2 l3,
       decompose fp n [c1; c2; c3] [d1; d2; d3] = Ok [l1; l2; l3] /\
       Z.of_nat (length l1) = a /\ Z.of_nat (length l2) = b /\ Z.of_nat (length l3) = c).
Proof.
  intros E Ha Hb Hc P Hn H1 H2 H3. assert (a * b < 2 ^ 32) by nia.
  assert (a < 2 ^ 32) by nia. assert (b < 2 ^ 32) by nia. assert (c < 2 ^ 32) by nia.
  unfold decompose. cbn [length Nat.eqb negb]. rewrite E. cbn [rbind fst snd]. split.
  - pose proof (decompose1D_not_UB a c1 ltac:(lia) ltac:(lia)).
    pose proof (decompose1D_not_UB b c2 ltac:(lia) ltac:(lia)).
    pose proof (decompose1D_not_UB c c3 ltac:(lia) ltac:(lia)).
    destruct (decompose1D a c1), (decompose1D b c2), (decompose1D c c3); cbn; congruence.
  - intros. rewrite !decompose1D_accepts by lia. cbn [rbind].
    exists (blocks a c1), (blocks b c2), (blocks c c3). split; [auto|].
    split; [|split]; apply blocks_length; lia.
Qed.

Lemma divides_mod p n : 1 <= p -> (p | n) -> n mod p = 0 /\ p * (n / p) = n.
Proof.
  intros Hp [q ->]. rewrite Z.mod_mul, Z.div_mul by lia. lia.
Qed.
Lemma requests_2d fp n c1 c2 d1 d2 :
  unsigned_seeds fp -> 1 <= n < 2 ^ 32 -> 1 <= c1 < 2 ^ 32 -> 1 <= c2 < 2 ^ 32 ->
  d1 <> 0 -> d2 <> 0 -> (fixed d1 * fixed d2 | n) -> (0 < d1 -> 0 < d2 -> d1 * d2 = n) ->
  exists n1 n2, respects d1 n1 /\ respects d2 n2 /\ n1 * n2 = n /\
    decompose fp n [c1; c2] [d1; d2] <> UB /\
    (5 * n1 <= c1 -> 5 * n2 <= c2 -> exists l1 l2,
       decompose fp n [c1; c2] [d1; d2] = Ok [l1; l2] /\
       Z.of_nat (length l1) = n1 /\ Z.of_nat (length l2) = n2).
Proof.
  intros Hf Hn H1 H2 N1 N2 Hd Hb.
  enough (exists n1 n2, respects d1 n1 /\ respects d2 n2 /\ n1 * n2 = n /\ counts2 fp n c1 c2 d1 d2 = Ok (n1, n2)) as (a & b & Ra & Rb & P & E).
  { exists a, b. destruct Ra, Rb. repeat split; auto; eapply counts2_decompose; eauto; lia. }
  unfold respects, counts2, fixed in *. apply unsigned_weaken in Hf.
  destruct (Z.ltb_spec 0 d1), (Z.ltb_spec 0 d2), (Z.ltb_spec d1 0), (Z.ltb_spec d2 0); cbn [andb]; try lia.
  - exists d1, d2. rewrite Hb, w32_small, Z.eqb_refl by lia. cbn [negb]. repeat split; auto; lia.
  - rewrite Z.mul_1_r in Hd. destruct (divides_mod d1 n) as [M Q]; [lia|auto|]. exists d1, (n / d1). rewrite M, Z.eqb_refl. cbn [negb].
    rewrite Q, w32_small, Z.eqb_refl by lia. cbn [negb]. repeat split; auto; try lia; nia.
  - rewrite Z.mul_1_l in Hd. destruct (divides_mod d2 n) as [M Q]; [lia|auto|]. exists (n / d2), d2. rewrite M, Z.eqb_refl. cbn [negb].
    repeat split; auto; try lia; nia.
  - destruct (divide2D_ok fp n c1 c2 Hf ltac:(lia) Hn) as [a [b [D1 [D2 [D3 D4]]]]]. exists a, b. rewrite D1. cbn [rbind fst snd].
    rewrite D4, w32_small, Z.eqb_refl by lia. cbn [negb]. repeat split; auto; lia.
Qed.

Lemma divided_ok n p k : 1 <= p -> (p | n) -> 1 <= n < 2 ^ 32 ->
  divided n p k = k (n / p) /\ p * (n / p) = n /\ 1 <= n / p <= n.
Proof.
  intros Hp Hd Hn. destruct (divides_mod p n Hp Hd) as [M Q]. unfold divided.
  assert (p <= n) by (apply Z.divide_pos_le; auto; lia). rewrite w32_small by lia.
  destruct (Z.eqb_spec p 0); [lia|]. rewrite M, Z.eqb_refl. cbn [negb]. repeat split; auto; nia.
Qed.
Lemma checked3_ok n a b c : 1 <= n < 2 ^ 32 -> a * b * c = n -> checked3 n a b c = Ok (a, b, c).
Proof. intros Hn E. unfold checked3. rewrite w32_mul_l, E, w32_small, Z.eqb_refl by lia. auto. Qed.

Lemma requests_3d fp n c1 c2 c3 d1 d2 d3 :
  unsigned_seeds fp -> 1 <= n < 2 ^ 32 ->
  1 <= c1 < 2 ^ 32 -> 1 <= c2 < 2 ^ 32 -> 1 <= c3 < 2 ^ 32 ->
  d1 <> 0 -> d2 <> 0 -> d3 <> 0 ->
  (d1 < 0 -> d2 < 0 -> d3 < 0 -> w32 (c2 * c3) <> 0) ->
  (fixed d1 * fixed d2 * fixed d3 | n) -> (0 < d1 -> 0 < d2 -> 0 < d3 -> d1 * d2 * d3 = n) ->
  exists n1 n2 n3, respects d1 n1 /\ respects d2 n2 /\ respects d3 n3 /\ n1 * n2 * n3 = n /\
    decompose fp n [c1; c2; c3] [d1; d2; d3] <> UB /\
    (5 * n1 <= c1 -> 5 * n2 <= c2 -> 5 * n3 <= c3 -> exists l1 l2 l3,
       decompose fp n [c1; c2; c3] [d1; d2; d3] = Ok [l1; l2; l3] /\
       Z.of_nat (length l1) = n1 /\ Z.of_nat (length l2) = n2 /\ Z.of_nat (length l3) = n3).
Proof.
  intros Hf Hn H1 H2 H3 N1 N2 N3 Hw Hd Hb.
  enough (exists n1 n2 n3, respects d1 n1 /\ respects d2 n2 /\ respects d3 n3 /\ n1 * n2 * n3 = n /\
     counts3 fp n c1 c2 c3 d1 d2 d3 = Ok (n1, n2, n3)) as (a & b & c & Ra & Rb & Rc & P & E).
  { exists a, b, c. destruct Ra, Rb, Rc. repeat split; auto; eapply counts3_decompose; eauto; lia. }
  unfold respects, counts3, fixed in *. cbv zeta. apply unsigned_weaken in Hf.
  destruct (Z.ltb_spec 0 d1), (Z.ltb_spec 0 d2), (Z.ltb_spec 0 d3), (Z.ltb_spec d1 0), (Z.ltb_spec d2 0), (Z.ltb_spec d3 0); cbn [andb]; try lia;
  rewrite ?Z.mul_1_r, ?Z.mul_1_l in Hd.
  - exists d1, d2, d3. rewrite checked3_ok by auto. repeat split; auto; lia.
  - destruct (divided_ok n (d1 * d2) (fun q => checked3 n d1 d2 q)) as (E & Q & B); auto; [nia|]. rewrite E.
    exists d1, d2, (n / (d1 * d2)). rewrite checked3_ok by auto. repeat split; auto; lia.
  - destruct (divided_ok n (d1 * d3) (fun q => checked3 n d1 q d3)) as (E & Q & B); auto; [nia|]. rewrite E.
    exists d1, (n / (d1 * d3)), d3. rewrite checked3_ok by (auto; nia). repeat split; auto; nia.
  - match goal with |- context [divided n d1 ?f] => destruct (divided_ok n d1 f) as (E & Q & B) end; auto; [lia|]. rewrite E.
    destruct (divide2D_ok fp (n / d1) c2 c3 Hf ltac:(lia) ltac:(lia)) as [a [b [D1 [D2 [D3 D4]]]]]. rewrite D1. cbn [rbind fst snd].
    exists d1, a, b. rewrite checked3_ok by (auto; nia). repeat split; auto; nia.
  - destruct (divided_ok n (d2 * d3) (fun q => checked3 n q d2 d3)) as (E & Q & B); auto; [nia|]. rewrite E.
    exists (n / (d2 * d3)), d2, d3. rewrite checked3_ok by (auto; nia). repeat split; auto; nia.
  - match goal with |- context [divided n d2 ?f] => destruct (divided_ok n d2 f) as (E & Q & B) end; auto; [lia|]. rewrite E.
    destruct (divide2D_ok fp (n / d2) c1 c3 Hf ltac:(lia) ltac:(lia)) as [a [b [D1 [D2 [D3 D4]]]]]. rewrite D1. cbn [rbind fst snd].
    exists a, d2, b. rewrite checked3_ok by (auto; nia). repeat split; auto; nia.
  - match goal with |- context [divided n d3 ?f] => destruct (divided_ok n d3 f) as (E & Q & B) end; auto; [lia|]. rewrite E.
    destruct (divide2D_ok fp (n / d3) c1 c2 Hf ltac:(lia) ltac:(lia)) as [a [b [D1 [D2 [D3 D4]]]]]. rewrite D1. cbn [rbind fst snd].
    exists a, b, d3. rewrite checked3_ok by (auto; nia). repeat split; auto; nia.
  - destruct (divide3D_ok fp n c1 c2 c3 Hf ltac:(auto) Hn) as [a [b [c [D1 [D2 [D3 [D4 D5]]]]]]]. rewrite D1. cbn [rbind fst snd].
    exists a, b, c. rewrite checked3_ok by auto. repeat split; auto; lia.
Qed.

(** Witness: 65536 x 65536 cells in the last two dimensions. *)
Lemma C02_3d_witness fp n c1 d1 d2 d3 :
  d1 < 0 -> d2 < 0 -> d3 < 0 ->
  decompose fp n [c1; 65536; 65536] [d1; d2; d3] = UB.
Proof.
  intros. unfold decompose. cbn [length Nat.eqb negb]. unfold counts3. cbv zeta.
  destruct (Z.ltb_spec 0 d1), (Z.ltb_spec 0 d2), (Z.ltb_spec 0 d3),
           (Z.ltb_spec d1 0), (Z.ltb_spec d2 0), (Z.ltb_spec d3 0);
    cbn [andb]; try lia.
  reflexivity.
Qed.

(** A requested decomposition 65536 x 65537 is accepted for 65536 subdomains. *)
Lemma C02_wrap_witness fp :
  exists l1 l2,
    decompose fp 65536 [400000; 400000] [65536; 65537] = Ok [l1; l2] /\
    Z.of_nat (length l1) * Z.of_nat (length l2) <> 65536.
Proof.
  exists (blocks 65536 400000), (blocks 65537 400000). split.
  - unfold decompose. cbn [length Nat.eqb negb]. unfold counts2.
    replace ((0 <? 65536) && (0 <? 65537)) with true by reflexivity.
    replace (w32 (65536 * 65537) =? 65536) with true by reflexivity.
    cbn [negb rbind fst snd]. rewrite !decompose1D_accepts by lia. reflexivity.
  - rewrite !blocks_length by lia. lia.
Qed.

(** * Numbering and neighbours *)

Lemma offsets_create ls n :
  n = prodZ (counts ls) ->
  map sub_offset_ndomains (create_domains n ls) =
  map (map Z.of_nat) (indices (map (@length Z) ls)).
Proof.
  intros En. rewrite create_domains_indices by auto. rewrite map_map. auto.
Qed.

Lemma nodup_offsets ls n :
  n = prodZ (counts ls) -> NoDup (map sub_offset_ndomains (create_domains n ls)).
Proof.
  intros En. rewrite offsets_create by auto.
  apply FinFun.Injective_map_NoDup; [|apply nodup_indices].
  intros a. induction a; intros [|b bs]; simpl; intros E; try discriminate; auto.
  inversion E. f_equal; [lia|auto].
Qed.

Lemma in_box_of_nat k ls :
  Forall2 (fun a m => (a < m)%nat) k (map (@length Z) ls) <->
  in_box (map Z.of_nat k) (counts ls).
Proof.
  unfold counts, in_box. revert k; induction ls as [|l ls IH]; intros [|a k]; simpl.
  - split; constructor.
  - split; intros H; inversion H.
  - split; intros H; inversion H.
  - split; intros H; inversion H; subst; constructor; try lia; apply IH; auto.
Qed.

Lemma in_box_nat o ns : in_box o ns -> exists k, o = map Z.of_nat k.
Proof.
  induction 1 as [|a b o ns Ha H [k ->]]; [exists []; auto|].
  exists (Z.to_nat a :: k). simpl. f_equal. lia.
Qed.

Lemma C03_bijection ls n :
  n = prodZ (counts ls) ->
  (forall idx, (Z.of_nat idx < n) -> exists d,
     nth_error (create_domains n ls) idx = Some d /\
     in_box (sub_offset_ndomains d) (counts ls) /\
     offset2index (create_domains n ls) (sub_offset_ndomains d) = Some idx) /\
  (forall o, in_box o (counts ls) -> exists idx d,
     offset2index (create_domains n ls) o = Some idx /\
     nth_error (create_domains n ls) idx = Some d /\ sub_offset_ndomains d = o).
Proof.
  intros En.
  assert (L : Z.of_nat (length (create_domains n ls)) = n).
  { rewrite create_domains_indices by auto. rewrite map_length, length_indices, map_map.
    symmetry. exact En. }
  split.
  - intros idx Hidx.
    destruct (nth_error (create_domains n ls) idx) as [d|] eqn:E.
    2:{ apply nth_error_None in E. lia. }
    exists d. split; auto.
    destruct (nth_error_sub ls n En idx d E) as [k [K1 [-> K2]]].
    split; [apply in_box_of_nat; auto|].
    unfold offset2index.
    rewrite (offset2index_from_some 0 _ idx (nodup_offsets ls n En)) by
      (try lia; rewrite nth_error_map, E; reflexivity).
    reflexivity.
  - intros o Ho. destruct (in_box_nat _ _ Ho) as [k ->].
    apply in_box_of_nat in Ho.
    destruct (sub_nth_error ls n k En Ho) as [idx [I1 I2]].
    exists idx, (sub_at ls k). split; [|auto].
    unfold offset2index.
    rewrite (offset2index_from_some 0 _ idx (nodup_offsets ls n En)); auto.
    + apply nth_error_Some. congruence.
    + rewrite nth_error_map, I2. reflexivity.
Qed.

Lemma direction_Forall2 d (ns : list Z) :
  direction (length ns) d -> Forall2 (fun a _ => -1 <= a <= 1) d ns.
Proof.
  intros [E H]. revert ns E; induction H; intros [|n ns] E; try discriminate; constructor; auto.
Qed.

Lemma C03_neighbors ls n :
  n = prodZ (counts ls) ->
  forall idx dir, Z.of_nat idx < n -> direction (length ls) dir ->
  exists nb da db,
    neighbor_index (counts ls) (create_domains n ls) idx dir = Ok nb /\
    neighbor_index (counts ls) (create_domains n ls) nb (map Z.opp dir) = Ok idx /\
    nth_error (create_domains n ls) idx = Some da /\
    nth_error (create_domains n ls) nb = Some db /\
    Forall2 (fun od nm => fst od = (fst nm + snd od) mod snd nm)
      (combine (sub_offset_ndomains db) dir)
      (combine (sub_offset_ndomains da) (counts ls)).
Proof.
  intros En idx dir Hidx Hdir.
  destruct (C03_bijection ls n En) as [B1 B2].
  destruct (B1 idx Hidx) as [d [D1 [D2 D3]]].
  assert (Hd2 : Forall2 (fun a _ => -1 <= a <= 1) dir (counts ls)).
  { apply direction_Forall2. unfold counts. rewrite map_length. auto. }
  assert (Hop : Forall2 (fun a _ => -1 <= a <= 1) (map Z.opp dir) (counts ls)).
  { clear -Hd2. induction Hd2; simpl; constructor; auto. lia. }
  pose proof (neighbor_offset_in_box (counts ls) _ _ D2 Hd2) as Hb.
  destruct (B2 _ Hb) as [nb [e [N1 [N2 N3]]]].
  assert (Hlen : forall i x, nth_error (create_domains n ls) i = Some x ->
                 Nat.leb (length (create_domains n ls)) i = false).
  { intros i x Hx. apply Nat.leb_gt. apply nth_error_Some. congruence. }
  exists nb, d, e. split.
  { unfold neighbor_index. rewrite D1, N1, (Hlen _ _ N2). auto. }
  split.
  { unfold neighbor_index. rewrite N2, N3, neighbor_offset_inv by auto.
    rewrite D3, (Hlen _ _ D1). auto. }
  split; [auto|]. split; [auto|].
  rewrite N3. clear -D2 Hd2. unfold neighbor_offset.
  revert D2 Hd2. generalize (sub_offset_ndomains d) as o. generalize (counts ls) as ns.
  intros ns o Ho. revert dir. induction Ho as [|a m o ns Ha Ho IH]; intros dir Hd.
  - inversion Hd; subst. constructor.
  - inversion Hd; subst. simpl. constructor; [|apply IH; auto].
    cbn [fst snd]. apply neighbor1_mod; auto.
Qed.
