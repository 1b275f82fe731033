From Coq Require Import ZArith List Bool Lia.
From Verif Require Import Base ListLemmas DecompModel.
Import ListNotations.
Open Scope Z_scope.
Ltac Zify.zify_post_hook ::= Z.div_mod_to_equations.

(** * One dimension *)

Lemma w32_small x : 0 <= x < 2 ^ 32 -> w32 x = x.
Proof. intros; unfold w32; apply Z.mod_small; auto. Qed.

Lemma bump_ok k s n :
  0 <= s < 2 ^ 32 - 1 -> (k <= n)%nat ->
  bump k (repeat s n) = Ok (repeat (s + 1) k ++ repeat s (n - k)).
Proof.
  revert n; induction k; intros n Hs Hk; simpl.
  - rewrite Nat.sub_0_r; auto.
  - destruct n; [lia|]. simpl. rewrite IHk by lia. simpl.
    rewrite w32_small by lia. auto.
Qed.

(** Explicit result of a successful one-dimensional decomposition. *)
Definition blocks (n c : Z) : list Z :=
  repeat (c / n + 1) (Z.to_nat (c mod n)) ++ repeat (c / n) (Z.to_nat (n - c mod n)).

Lemma blocks_sum n c : 1 <= n -> 0 <= c -> sumZ (blocks n c) = c.
Proof.
  intros. unfold blocks. rewrite sumZ_app, !sumZ_repeat.
  assert (0 <= c mod n < n) by (apply Z.mod_pos_bound; lia).
  rewrite !Z2Nat.id by lia.
  pose proof (Z.div_mod c n). nia.
Qed.

Lemma blocks_length n c : 1 <= n -> 0 <= c -> Z.of_nat (length (blocks n c)) = n.
Proof.
  intros. unfold blocks. rewrite app_length, !repeat_length.
  assert (0 <= c mod n < n) by (apply Z.mod_pos_bound; lia). lia.
Qed.

Lemma blocks_in n c a : In a (blocks n c) -> a = c / n \/ a = c / n + 1.
Proof.
  unfold blocks. rewrite in_app_iff. intros [H|H]; apply repeat_spec in H; auto.
Qed.

Lemma decompose1D_spec n c :
  1 <= n < 2 ^ 32 -> 0 <= c < 2 ^ 32 ->
  decompose1D n c = if 5 * n <=? c then Ok (blocks n c) else Err.
Proof.
  intros Hn Hc. unfold decompose1D.
  destruct (Z.eqb_spec n 0); [lia|].
  assert (Hm : 0 <= c mod n < n) by (apply Z.mod_pos_bound; lia).
  assert (Hd : c = n * (c / n) + c mod n) by (apply Z.div_mod; lia).
  assert (Hq0 : 0 <= c / n) by (apply Z.div_pos; lia).
  assert (Hq : c / n <= c) by nia.
  assert (Hx : w32 (c - w32 (quot_cells c n * n)) = c mod n).
  { unfold quot_cells. rewrite (w32_small (c / n * n)) by nia.
    rewrite w32_small; nia. }
  rewrite Hx. unfold quot_cells.
  destruct (Z.eq_dec (c / n) (2 ^ 32 - 1)) as [Em|Em].
  { (* a single block of maximal size *)
    assert (c = 2 ^ 32 - 1) by nia. assert (n = 1) by nia. subst n c.
    reflexivity. }
  rewrite bump_ok by lia. unfold rbind.
  replace (Z.to_nat n - Z.to_nat (c mod n))%nat with (Z.to_nat (n - c mod n)) by lia.
  fold (blocks n c).
  rewrite blocks_sum, w32_small, Z.eqb_refl by lia. cbn [negb].
  rewrite blocks_length, Z.eqb_refl by lia. cbn [negb].
  destruct (Z.leb_spec (5 * n) c) as [L|L].
  - destruct (existsb _ _) eqn:E; auto.
    apply existsb_exists in E as [a [Ha Hb]]. apply blocks_in in Ha.
    apply Z.ltb_lt in Hb.
    assert (5 <= c / n) by (apply Z.div_le_lower_bound; lia). lia.
  - destruct (existsb _ _) eqn:E; auto. exfalso.
    assert (c / n < 5) by (apply Z.div_lt_upper_bound; lia).
    assert (existsb (fun m => m <? 5) (blocks n c) = true); [|congruence].
    apply existsb_exists. exists (c / n). split; [|apply Z.ltb_lt; lia].
    unfold blocks. apply in_app_iff. right.
    destruct (Z.to_nat (n - c mod n)) eqn:E2; [lia|]. simpl; auto.
Qed.

Lemma decompose1D_ok n c l :
  0 <= n < 2 ^ 32 -> 0 <= c < 2 ^ 32 -> decompose1D n c = Ok l ->
  1 <= n /\ 5 * n <= c /\ l = blocks n c.
Proof.
  intros Hn Hc H.
  destruct (Z.eq_dec n 0). { subst; discriminate. }
  rewrite decompose1D_spec in H by lia.
  destruct (Z.leb_spec (5 * n) c); [|discriminate]. inversion H; split; [lia|auto].
Qed.

(** * Divisor search *)

Lemma next_divisor_ok fuel ntot n1 :
  1 <= n1 <= ntot -> ntot < 2 ^ 32 -> (Z.to_nat (ntot - n1) < fuel)%nat ->
  exists d, next_divisor fuel ntot n1 = Ok d /\ n1 <= d <= ntot /\ ntot mod d = 0 /\
            forall e, n1 <= e < d -> ntot mod e <> 0.
Proof.
  revert n1. induction fuel; intros n1 H1 H2 Hf; [lia|].
  cbn [next_divisor]. destruct (Z.eqb_spec (ntot mod n1) 0) as [E|E].
  - exists n1. split; [auto|split; [lia|split; [auto|intros; lia]]].
  - destruct (Z.eq_dec n1 ntot) as [->|Hne]. { rewrite Z.mod_same in E; lia. }
    rewrite w32_small by lia.
    destruct (Z.ltb_spec ntot (n1 + 1)); [lia|].
    destruct (IHfuel (n1 + 1)) as [d [D1 [D2 [D3 D4]]]]; [lia|lia|lia|].
    exists d. split; [auto|split; [lia|split; [auto|]]].
    intros e He. destruct (Z.eq_dec e n1); [subst; auto|apply D4; lia].
Qed.

(** The only thing used about the floating-point seeds: they are unsigned. *)
Definition seeds_unsigned (fp : fp_seeds) : Prop :=
  (forall n a b, 0 <= fp_sqrt fp n a b) /\ (forall n a b, 0 <= fp_cbrt fp n a b).

Lemma divide2D_ok fp ntot s1 s2 :
  seeds_unsigned fp -> s2 <> 0 -> 1 <= ntot < 2 ^ 32 ->
  exists a b, divide2D fp ntot s1 s2 = Ok (a, b) /\ 1 <= a /\ 1 <= b /\ a * b = ntot.
Proof.
  intros [Hs _] Hs2 Hn. unfold divide2D.
  destruct (Z.eqb_spec s2 0); [lia|].
  specialize (Hs ntot s1 s2). set (seed := fp_sqrt fp ntot s1 s2) in *.
  destruct (Z.eqb_spec seed 0). { exists 1, ntot. repeat split; lia. }
  destruct (Z.ltb_spec ntot seed). { exists ntot, 1. repeat split; lia. }
  destruct (next_divisor_ok (S (Z.to_nat (ntot - seed))) ntot seed)
    as [d [D1 [D2 [D3 _]]]]; [lia|lia|lia|].
  rewrite D1. cbn [rbind]. exists d, (ntot / d).
  split; [auto|]. assert (ntot = d * (ntot / d)) by (rewrite (Z.div_mod ntot d) at 1; lia).
  split; [lia|]. split; nia.
Qed.

Lemma divide3D_ok fp ntot s1 s2 s3 :
  seeds_unsigned fp -> w32 (s2 * s3) <> 0 -> 1 <= ntot < 2 ^ 32 ->
  exists a b c, divide3D fp ntot s1 s2 s3 = Ok (a, b, c) /\
                1 <= a /\ 1 <= b /\ 1 <= c /\ a * b * c = ntot.
Proof.
  intros Hs H23 Hn. unfold divide3D.
  destruct (Z.eqb_spec (w32 (s2 * s3)) 0); [lia|].
  pose proof (proj2 Hs ntot (w32 (s1 * s1)) (w32 (s2 * s3))) as Hc.
  set (seed3 := fp_cbrt fp ntot _ _) in *.
  destruct (Z.ltb_spec ntot seed3). { exists ntot, 1, 1. repeat split; lia. }
  set (n1 := if seed3 =? 0 then 1 else seed3).
  assert (1 <= n1 <= ntot) by (unfold n1; destruct (Z.eqb_spec seed3 0); lia).
  cbv zeta.
  destruct (next_divisor_ok (S (Z.to_nat (ntot - n1))) ntot n1)
    as [d [D1 [D2 [D3 _]]]]; [lia|lia|lia|].
  rewrite D1. cbn [rbind].
  assert (E : ntot = d * (ntot / d)) by (rewrite (Z.div_mod ntot d) at 1; lia).
  assert (1 <= ntot / d) by nia.
  assert (s3 <> 0).
  { intros ->. apply H23. rewrite Z.mul_0_r. reflexivity. }
  destruct (divide2D_ok fp (ntot / d) s2 s3) as [b [c [B1 [B2 [B3 B4]]]]]; auto.
  { split; [lia|]. nia. }
  rewrite B1. cbn [rbind fst snd]. exists d, b, c.
  split; [auto|]. split; [lia|]. split; [lia|]. split; [lia|]. nia.
Qed.

(** * Tensor products *)

Lemma tensor_product_snoc {T} (ls : list (list T)) l :
  tensor_product (ls ++ [l]) =
  flat_map (fun e => map (fun r => r ++ [e]) (tensor_product ls)) l.
Proof. unfold tensor_product. rewrite fold_left_app. reflexivity. Qed.

Lemma in_tensor_product {T} (ls : list (list T)) x :
  In x (tensor_product ls) <-> Forall2 (fun a l => In a l) x ls.
Proof.
  revert x; induction ls as [|l ls IH] using rev_ind; intros x.
  - simpl. split; [intros [<-|[]]; constructor|]. intros H; inversion H; auto.
  - rewrite tensor_product_snoc, in_flat_map. split.
    + intros [e [He Hx]]. apply in_map_iff in Hx as [r [<- Hr]].
      apply Forall2_app; [apply IH; auto|auto].
    + intros H.
      destruct x as [|a x _] using rev_ind.
      { apply Forall2_length in H. rewrite app_length in H. simpl in H. lia. }
      apply Forall2_app_inv_snoc in H as [H1 H2].
      exists a. split; auto. apply in_map_iff. exists x. split; auto. apply IH; auto.
Qed.

Lemma nodup_tensor_product {T} (ls : list (list T)) :
  Forall (@NoDup T) ls -> NoDup (tensor_product ls).
Proof.
  induction ls as [|l ls IH] using rev_ind; intros H.
  - simpl. constructor; [auto|constructor].
  - apply Forall_app in H as [H1 H2]. inversion H2; subst.
    rewrite tensor_product_snoc. apply in_flat_map_nodup; auto.
    + intros a Ha. apply FinFun.Injective_map_NoDup; auto.
      intros x y E. apply app_inj_tail in E; tauto.
    + intros a b x Ha Hb Hx Hy.
      apply in_map_iff in Hx as [r [<- _]]. apply in_map_iff in Hy as [s [E _]].
      apply app_inj_tail in E. symmetry; tauto.
Qed.

Lemma length_tensor_product {T} (ls : list (list T)) :
  Z.of_nat (length (tensor_product ls)) = prodZ (map (fun l => Z.of_nat (length l)) ls).
Proof.
  induction ls as [|l ls IH] using rev_ind; [reflexivity|].
  rewrite tensor_product_snoc, map_app, prodZ_app, <- IH. simpl.
  assert (forall m, length (flat_map (fun e => map (fun r => r ++ [e]) (tensor_product ls)) m)
                    = length m * length (tensor_product ls))%nat as E.
  { induction m; simpl; auto. rewrite app_length, map_length, IHm. lia. }
  rewrite E. lia.
Qed.

(** Applying one function per dimension commutes with the product. *)
Lemma tensor_product_map2 {S T} (fs : list (S -> T)) (ls : list (list S)) :
  length fs = length ls ->
  tensor_product (map2 (fun f l => map f l) fs ls) =
  map (map2 (fun f a => f a) fs) (tensor_product ls).
Proof.
  revert ls; induction fs as [|f fs IH] using rev_ind; intros ls E.
  - destruct ls; [reflexivity|discriminate].
  - destruct ls as [|l ls _] using rev_ind.
    { rewrite app_length in E; simpl in E; lia. }
    rewrite !app_length in E; simpl in E.
    rewrite map2_app by lia. simpl map2 at 2.
    rewrite !tensor_product_snoc, IH by lia.
    assert (L : forall r, In r (tensor_product ls) -> length r = length fs).
    { intros r Hr. apply in_tensor_product, Forall2_length in Hr. lia. }
    revert L. generalize (tensor_product ls) as R. intros R L.
    induction l as [|a l IHl]; simpl; [reflexivity|].
    rewrite map_app, IHl. f_equal.
    rewrite !map_map. apply map_ext_in. intros r Hr.
    rewrite map2_app by (symmetry; apply L; auto). reflexivity.
Qed.

(** All multi-indices of a grid, in the order of the code. *)
Definition indices (ns : list nat) : list (list nat) :=
  tensor_product (map (seq 0) ns).

Lemma map_nth_seq {T} (l : list T) d :
  l = map (fun k => nth k l d) (seq 0 (length l)).
Proof.
  induction l; simpl; auto. f_equal. rewrite <- seq_shift, map_map. exact IHl.
Qed.

Lemma tensor_product_nth {T} (ls : list (list T)) (d : T) :
  tensor_product ls =
  map (map2 (fun l k => nth k l d) ls) (indices (map (@length T) ls)).
Proof.
  unfold indices.
  transitivity (tensor_product
     (map2 (fun f l => map f l) (map (fun l k => nth k l d) ls)
           (map (seq 0) (map (@length T) ls)))).
  - f_equal. induction ls; simpl; auto. f_equal; auto. apply map_nth_seq.
  - rewrite tensor_product_map2 by (rewrite !map_length; auto).
    apply map_ext. intros k. clear. revert k. induction ls; destruct k; simpl; auto.
    f_equal; auto.
Qed.

Lemma in_indices ns k : In k (indices ns) <-> Forall2 (fun a n => (a < n)%nat) k ns.
Proof.
  unfold indices. rewrite in_tensor_product. split; intros H.
  - remember (map (seq 0) ns) as m. revert ns Heqm.
    induction H; intros [|n ns] E; try discriminate; constructor.
    + inversion E; subst. apply in_seq in H. lia.
    + inversion E; subst. apply IHForall2; auto.
  - induction H; simpl; constructor; auto. apply in_seq. lia.
Qed.

Lemma nodup_indices ns : NoDup (indices ns).
Proof.
  apply nodup_tensor_product. apply Forall_forall. intros x Hx.
  apply in_map_iff in Hx as [n [<- _]]. apply seq_NoDup.
Qed.

Lemma length_indices ns :
  Z.of_nat (length (indices ns)) = prodZ (map Z.of_nat ns).
Proof.
  unfold indices. rewrite length_tensor_product, map_map.
  f_equal. apply map_ext. intros. rewrite seq_length. auto.
Qed.

(** * The list of subdomains *)

Lemma length_running acc l : length (running acc l) = length l.
Proof. revert acc; induction l; simpl; auto. Qed.

Lemma length_dom_numbers l : length (dom_numbers l) = length l.
Proof. unfold dom_numbers. rewrite map_length, seq_length. auto. Qed.

Definition sub_at (ls : list (list Z)) (k : list nat) : subdomain :=
  {| sub_offset_ndomains := map Z.of_nat k;
     sub_offset_ncells := map2 (fun l i => nth i (running 0 l) 0) ls k;
     sub_ncells := map2 (fun l i => nth i l 0) ls k |}.

Lemma map_nth_seq_eq {A} (l : list A) (n : nat) d :
  n = length l -> map (fun i => nth i l d) (seq 0 n) = l.
Proof. intros ->. symmetry. apply map_nth_seq. Qed.

Lemma map2_map_l {A B C D} (f : B -> C -> D) (g : A -> B) l k :
  map2 f (map g l) k = map2 (fun a c => f (g a) c) l k.
Proof. revert k; induction l; destruct k; simpl; auto. f_equal; auto. Qed.

Lemma create_domains_indices ls n :
  n = prodZ (map (fun l => Z.of_nat (length l)) ls) ->
  create_domains n ls = map (sub_at ls) (indices (map (@length Z) ls)).
Proof.
  intros En.
  set (I := indices (map (@length Z) ls)).
  assert (EI : Z.to_nat n = length I).
  { unfold I. pose proof (length_indices (map (@length Z) ls)) as H.
    rewrite map_map in H. lia. }
  unfold create_domains. rewrite EI.
  rewrite (tensor_product_nth ls 0), (tensor_product_nth (map (running 0) ls) 0),
          (tensor_product_nth (map dom_numbers ls) 0).
  rewrite !map_map.
  rewrite (map_ext (fun l => length (running 0 l)) (@length Z)) by (intros; apply length_running).
  rewrite (map_ext (fun l => length (dom_numbers l)) (@length Z)) by (intros; apply length_dom_numbers).
  fold I.
  transitivity (map (fun idx => sub_at ls (nth idx I [])) (seq 0 (length I))).
  2:{ rewrite <- (map_map (fun idx => nth idx I []) (sub_at ls)).
      rewrite <- map_nth_seq. reflexivity. }
  apply map_ext_in. intros idx Hidx. apply in_seq in Hidx.
  assert (Hk : In (nth idx I []) I) by (apply nth_In; lia).
  set (k := nth idx I []) in *.
  assert (N : forall (f : list nat -> list Z), nth idx (map f I) [] = f k).
  { intros f. rewrite nth_indep with (d' := f []) by (rewrite map_length; lia).
    apply map_nth. }
  rewrite !N. unfold sub_at. f_equal.
  - unfold I in Hk. apply in_indices in Hk. clear -Hk.
    rewrite map2_map_l.
    remember (map (@length Z) ls) as m. revert ls Heqm.
    induction Hk as [|a n kk nn Ha Hk IH]; intros [|c cs] E; try discriminate; simpl; auto.
    inversion E; subst. f_equal; auto.
    unfold dom_numbers.
    rewrite nth_indep with (d' := Z.of_nat 0) by (rewrite map_length, seq_length; auto).
    rewrite map_nth, seq_nth by auto. auto.
  - rewrite map2_map_l. auto.
Qed.

(** * Blocks of one dimension *)

Lemma nth_running l k acc :
  (k < length l)%nat ->
  nth k (running acc l) 0 = acc + sumZ (firstn k l).
Proof.
  revert k acc; induction l; intros k acc Hk; simpl in Hk; [lia|].
  destruct k; simpl; [lia|]. rewrite IHl by lia. lia.
Qed.

Lemma block_exists l :
  Forall (fun a => 0 <= a) l ->
  forall g, 0 <= g < sumZ l ->
  exists k, (k < length l)%nat /\
    sumZ (firstn k l) <= g < sumZ (firstn k l) + nth k l 0.
Proof.
  induction 1 as [|a l Ha Hl IH]; simpl; intros g Hg; [lia|].
  destruct (Z_lt_ge_dec g a).
  - exists O. simpl. lia.
  - destruct (IH (g - a)) as [k [H1 H2]]; [lia|].
    exists (S k). simpl. lia.
Qed.

Lemma firstn_sum_mono l i j :
  Forall (fun a => 0 <= a) l -> (i < j)%nat -> (i < length l)%nat ->
  sumZ (firstn i l) + nth i l 0 <= sumZ (firstn j l).
Proof.
  intros Hl; revert i j; induction Hl as [|a l Ha Hl IH]; intros i j Hij Hi; simpl in Hi; [lia|].
  destruct j; [lia|]. destruct i; simpl.
  - assert (0 <= sumZ (firstn j l)); [|lia].
    apply sumZ_nonneg. clear -Hl. revert j; induction Hl; intros [|j]; simpl; auto.
  - pose proof (IH i j ltac:(lia) ltac:(lia)). lia.
Qed.

Lemma block_unique l i j g :
  Forall (fun a => 0 <= a) l -> (i < length l)%nat -> (j < length l)%nat ->
  sumZ (firstn i l) <= g < sumZ (firstn i l) + nth i l 0 ->
  sumZ (firstn j l) <= g < sumZ (firstn j l) + nth j l 0 -> i = j.
Proof.
  intros Hl Hi Hj H1 H2.
  destruct (Nat.lt_trichotomy i j) as [L|[L|L]]; auto.
  - pose proof (firstn_sum_mono l i j Hl L Hi). lia.
  - pose proof (firstn_sum_mono l j i Hl L Hj). lia.
Qed.

(** * Tiling in D dimensions *)

Lemma tiling_exists ls :
  Forall (Forall (fun a => 0 <= a)) ls ->
  forall g, in_box g (map sumZ ls) ->
  exists k, Forall2 (fun a n => (a < n)%nat) k (map (@length Z) ls) /\
    exists x, in_box x (sub_ncells (sub_at ls k)) /\
              g = map2 Z.add (sub_offset_ncells (sub_at ls k)) x.
Proof.
  simpl. induction 1 as [|l ls Hl Hls IH]; intros g Hg; simpl in *.
  - inversion Hg; subst. exists []. split; [constructor|]. exists []. split; constructor.
  - inversion Hg as [|a ? g' ? Ha Hg']; subst.
    destruct (IH g' Hg') as [k [K1 [x [X1 X2]]]].
    destruct (block_exists l Hl a Ha) as [i [I1 I2]].
    exists (i :: k). split; [constructor; auto|].
    exists (a - sumZ (firstn i l) :: x). simpl. split.
    + constructor; auto. lia.
    + rewrite nth_running by auto. f_equal; [lia|auto].
Qed.

Lemma tiling_unique ls :
  Forall (Forall (fun a => 0 <= a)) ls ->
  forall k k' x x',
    Forall2 (fun a n => (a < n)%nat) k (map (@length Z) ls) ->
    Forall2 (fun a n => (a < n)%nat) k' (map (@length Z) ls) ->
    in_box x (sub_ncells (sub_at ls k)) -> in_box x' (sub_ncells (sub_at ls k')) ->
    map2 Z.add (sub_offset_ncells (sub_at ls k)) x =
    map2 Z.add (sub_offset_ncells (sub_at ls k')) x' ->
    k = k' /\ x = x'.
Proof.
  simpl. induction 1 as [|l ls Hl Hls IH]; intros k k' x x' K K' X X' E; simpl in *.
  - inversion K; inversion K'; subst. inversion X; inversion X'; subst. auto.
  - inversion K as [|i ? k1 ? Hi K1]; inversion K' as [|i' ? k1' ? Hi' K1']; subst.
    inversion X as [|a ? x1 ? Ha X1]; inversion X' as [|a' ? x1' ? Ha' X1']; subst.
    simpl in E. inversion E as [[E1 E2]].
    rewrite !nth_running in E1 by auto.
    assert (i = i').
    { eapply (block_unique l i i' (sumZ (firstn i l) + a)); eauto; lia. }
    subst i'. assert (a = a') by lia. subst a'.
    destruct (IH k1 k1' x1 x1') as [-> ->]; auto.
Qed.

(** * Neighbours *)

Lemma neighbor1_range n o d :
  0 <= o < n -> -1 <= d <= 1 -> 0 <= neighbor1 n o d < n.
Proof.
  intros. unfold neighbor1.
  destruct (Z.eqb_spec d (-1)), (Z.eqb_spec o 0), (Z.eqb_spec d 1), (Z.eqb_spec o (n - 1));
    simpl; lia.
Qed.

Lemma neighbor1_mod n o d :
  0 <= o < n -> -1 <= d <= 1 -> neighbor1 n o d = (o + d) mod n.
Proof.
  intros. unfold neighbor1.
  destruct (Z.eqb_spec d (-1)), (Z.eqb_spec o 0), (Z.eqb_spec d 1), (Z.eqb_spec o (n - 1));
    simpl; try lia;
    first [ apply (Z.mod_unique_pos _ _ 0); lia
          | apply (Z.mod_unique_pos _ _ 1); lia
          | apply (Z.mod_unique_pos _ _ (-1)); lia ].
Qed.

Lemma neighbor1_inv n o d :
  0 <= o < n -> -1 <= d <= 1 -> neighbor1 n (neighbor1 n o d) (- d) = o.
Proof.
  intros. unfold neighbor1.
  destruct (Z.eqb_spec d (-1)), (Z.eqb_spec o 0), (Z.eqb_spec d 1), (Z.eqb_spec o (n - 1));
    simpl;
  repeat match goal with
  | |- context [Z.eqb ?a ?b] => destruct (Z.eqb_spec a b); simpl
  end; lia.
Qed.

Lemma neighbor_offset_inv ns : forall o d,
  in_box o ns -> Forall2 (fun a b => -1 <= a <= 1) d ns ->
  neighbor_offset ns (neighbor_offset ns o d) (map Z.opp d) = o.
Proof.
  unfold neighbor_offset. induction ns as [|n ns IH]; intros o d Ho Hd.
  - inversion Ho; auto.
  - inversion Ho; inversion Hd; subst. simpl. f_equal; auto.
    apply neighbor1_inv; auto.
Qed.

Lemma neighbor_offset_in_box ns : forall o d,
  in_box o ns -> Forall2 (fun a b => -1 <= a <= 1) d ns ->
  in_box (neighbor_offset ns o d) ns.
Proof.
  unfold neighbor_offset. induction ns as [|n ns IH]; intros o d Ho Hd.
  - inversion Ho; subst. inversion Hd; subst. simpl. constructor.
  - inversion Ho; inversion Hd; subst. simpl. constructor.
    + apply neighbor1_range; auto.
    + apply IH; auto.
Qed.

(** * Index <-> position *)

Lemma offset2index_from_none i doms o :
  (forall d, In d doms -> sub_offset_ndomains d <> o) ->
  offset2index_from i doms o = None.
Proof.
  revert i; induction doms as [|d ds IH]; intros i H; simpl; auto.
  rewrite IH by (intros; apply H; simpl; auto).
  unfold list_eqb. destruct (list_eq_dec _ _ _); auto.
  exfalso; eapply H; simpl; eauto.
Qed.

Lemma offset2index_from_some i doms k :
  NoDup (map sub_offset_ndomains doms) -> (k < length doms)%nat ->
  forall o, nth_error (map sub_offset_ndomains doms) k = Some o ->
  offset2index_from i doms o = Some (i + k)%nat.
Proof.
  revert i k; induction doms as [|d ds IH]; intros i k Hn Hk o Ho; simpl in *; [lia|].
  inversion Hn; subst. destruct k; simpl in Ho.
  - inversion Ho; subst. rewrite offset2index_from_none.
    + unfold list_eqb. destruct (list_eq_dec _ _ _); [f_equal; lia|congruence].
    + intros e He E. apply H1. rewrite <- E. apply in_map; auto.
  - rewrite (IH (S i) k) by (auto; lia). f_equal; lia.
Qed.

Lemma offset2index_from_sound i doms o k :
  offset2index_from i doms o = Some k ->
  (i <= k)%nat /\ exists d, nth_error doms (k - i) = Some d /\ sub_offset_ndomains d = o.
Proof.
  revert i; induction doms as [|d ds IH]; intros i H; simpl in *; [discriminate|].
  destruct (offset2index_from (S i) ds o) eqn:E.
  - inversion H; subst. apply IH in E as [E1 [e [E2 E3]]].
    split; [lia|]. exists e. split; auto.
    replace (k - i)%nat with (S (k - S i)) by lia. auto.
  - unfold list_eqb in H. destruct (list_eq_dec _ _ _); [|discriminate].
    inversion H; subst. split; [lia|]. exists d. rewrite Nat.sub_diag. auto.
Qed.
