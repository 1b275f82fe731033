(** Proofs about [fill], [gather], removal of dead particles and spatial sorting. *)
From Coq Require Import ZArith List Bool Arith Lia Permutation FinFun Sorting.Sorted.
From Verif Require Import Base ListLemmas PrtlModel PrtlSpec.
Import ListNotations.

(** ** Lists *)
Lemma set_nth_length {A} (l : list A) i v : length (set_nth l i v) = length l.
Proof. revert i. induction l; intros [|i]; cbn; auto. Qed.

Lemma nth_error_set_nth {A} (l : list A) i j v : i < length l ->
  nth_error (set_nth l i v) j = if Nat.eqb j i then Some v else nth_error l j.
Proof.
  revert i j. induction l as [|a l IH]; intros i j H; [cbn in H; lia|].
  destruct i, j; cbn; auto. apply IH. cbn in H. lia.
Qed.

Lemma nth_error_ext {A} (l l' : list A) : (forall i, nth_error l i = nth_error l' i) -> l = l'.
Proof.
  revert l'. induction l as [|a l IH]; intros [|b l'] H; auto.
  - specialize (H 0). discriminate.
  - specialize (H 0). discriminate.
  - f_equal; [specialize (H 0); cbn in H; congruence|]. apply IH. intros i. apply (H (S i)).
Qed.

Lemma filter_length_split {A} (f : A -> bool) l1 p l2 : f p = true ->
  length (filter f l1) < length (filter f (l1 ++ p :: l2)).
Proof. intros H. rewrite filter_app, app_length. cbn. rewrite H. cbn. lia. Qed.

(** ** [fill] *)
Section Fill.
  Variables (bin : nat -> option nat) (off : nat -> nat) (size : nat).
  Definition isbin (b p : nat) : bool := match bin p with Some b' => Nat.eqb b' b | None => false end.

  Variables (bs : list nat) (order : list nat).
  Let L := flat_map (fun b => filter (isbin b) order) bs.
  Hypothesis bs_nodup : NoDup bs.
  Hypothesis bs_all : forall p b, In p order -> bin p = Some b -> In b bs.
  Hypothesis off_ok : forall pre b post, bs = pre ++ b :: post ->
    off b = length (flat_map (fun b => filter (isbin b) order) pre).
  Hypothesis size_ok : size = length L.

  Lemma slot_ok : forall pre b post k, bs = pre ++ b :: post -> k < length (filter (isbin b) order) ->
    off b + k < size /\ nth_error L (off b + k) = nth_error (filter (isbin b) order) k.
  Proof.
    intros pre b post k E Hk. rewrite size_ok, (off_ok pre b post E). unfold L. rewrite E, flat_map_app. cbn [flat_map].
    split; [rewrite !app_length; lia|].
    rewrite nth_error_app2 by lia. rewrite nth_error_app1 by lia. f_equal. lia.
  Qed.

  Lemma fill_prefix : forall l1 l2, order = l1 ++ l2 -> exists cur arr,
    fold_left (fill_step bin off size) l1 (Ok (fun _ => 0, repeat 0 size)) = Ok (cur, arr) /\
    length arr = size /\
    (forall b, cur b = length (filter (isbin b) l1)) /\
    (forall b k, In b bs -> k < cur b -> nth_error arr (off b + k) = nth_error L (off b + k)).
  Proof.
    induction l1 as [|p l1 IH] using rev_ind; intros l2 E.
    - exists (fun _ => 0), (repeat 0 size). repeat split; [apply repeat_length|]. intros; lia.
    - rewrite <- app_assoc in E. destruct (IH _ E) as (cur & arr & E1 & E2 & E3 & E4).
      rewrite fold_left_app, E1. cbn [fold_left fill_step rbind].
      destruct (bin p) as [b|] eqn:Eb.
      + assert (Hp : In p order) by (rewrite E; apply in_app_iff; right; now left).
        assert (Hb : In b bs) by (eapply bs_all; eauto).
        assert (Hi : isbin b p = true) by (unfold isbin; rewrite Eb; apply Nat.eqb_refl).
        destruct (in_split _ _ Hb) as (pre & post & Es).
        assert (Hk : cur b < length (filter (isbin b) order)).
        { rewrite E3, E. now apply filter_length_split. }
        destruct (slot_ok pre b post (cur b) Es Hk) as [S1 S2].
        assert (S3 : nth_error L (off b + cur b) = Some p).
        { rewrite S2, E, filter_app, E3. rewrite nth_error_app2 by lia. cbn [filter app]. rewrite Hi.
          now rewrite Nat.sub_diag. }
        rewrite (proj2 (Nat.ltb_lt _ _)) by assumption.
        exists (upd cur b (S (cur b))), (set_nth arr (off b + cur b) p). split; [reflexivity|].
        split; [now rewrite set_nth_length|]. split.
        * intros b'. unfold upd. rewrite filter_app, app_length, <- E3. cbn [filter].
          destruct (Nat.eqb_spec b' b) as [->|N]; [rewrite Hi; cbn; lia|].
          unfold isbin. rewrite Eb. rewrite (proj2 (Nat.eqb_neq _ _)) by congruence. cbn. lia.
        * intros b' k Hb' Hk'. rewrite nth_error_set_nth by lia.
          destruct (Nat.eqb_spec (off b' + k) (off b + cur b)) as [E5|N]; [now rewrite E5, S3|].
          unfold upd in Hk'. destruct (Nat.eqb_spec b' b) as [->|N']; [apply E4; [assumption|lia]|now apply E4].
      + exists cur, arr. repeat split; try assumption. intros b. rewrite filter_app, app_length, <- E3.
        cbn [filter]. unfold isbin. rewrite Eb. cbn. lia.
  Qed.

  Lemma in_flat_split : forall i, i < length L -> exists pre b post k,
    bs = pre ++ b :: post /\ k < length (filter (isbin b) order) /\ i = off b + k.
  Proof.
    intros i Hi. unfold L in Hi.
    assert (G : forall l pre0, bs = pre0 ++ l -> length (flat_map (fun b => filter (isbin b) order) pre0) <= i ->
      i < length (flat_map (fun b => filter (isbin b) order) (pre0 ++ l)) ->
      exists pre b post k, bs = pre ++ b :: post /\ k < length (filter (isbin b) order) /\ i = off b + k).
    { induction l as [|b l IH]; intros pre0 E H1 H2.
      - rewrite app_nil_r in H2. lia.
      - set (n := length (filter (isbin b) order)).
        destruct (le_lt_dec (length (flat_map (fun b => filter (isbin b) order) pre0) + n) i) as [C|C].
        + apply (IH (pre0 ++ [b])); [now rewrite <- app_assoc| |now rewrite <- app_assoc].
          rewrite flat_map_app, app_length. cbn [flat_map]. rewrite app_nil_r. exact C.
        + exists pre0, b, l, (i - off b). rewrite (off_ok _ _ _ E). unfold n in C. split; [assumption|lia]. }
    apply (G bs []); [reflexivity|cbn; lia|assumption].
  Qed.

  Theorem fill_ok : exists cur, fill bin off size order = Ok (cur, L) /\
    forall b, cur b = length (filter (isbin b) order).
  Proof.
    destruct (fill_prefix order []) as (cur & arr & E1 & E2 & E3 & E4); [now rewrite app_nil_r|].
    exists cur. unfold fill. split; [|assumption]. rewrite E1. do 2 f_equal.
    apply nth_error_ext. intros i. destruct (le_lt_dec size i) as [C|C].
    - rewrite (proj2 (nth_error_None arr i)) by lia. rewrite (proj2 (nth_error_None L i)) by lia. reflexivity.
    - rewrite size_ok in C. destruct (in_flat_split i C) as (pre & b & post & k & Es & Hk & ->).
      apply E4; [rewrite Es; apply in_app_iff; right; now left|]. now rewrite E3.
  Qed.
End Fill.

(** ** [gather] *)
Definition moved (idx : list nat) (f : nat -> Z) (q : nat) : Z :=
  match nth_error idx q with Some p => f p | None => f q end.

Lemma gather_ar : forall idx s a b q, ar (gather idx s a) b q =
  if attr_eq_dec b a then moved idx (ar s a) q else ar s b q.
Proof.
  intros. unfold gather, upd_attr, moved. cbn. destruct attr_eq_dec as [->|]; auto.
  destruct (nth_error idx q) as [p|] eqn:E.
  - now rewrite (map_nth_error _ _ _ E).
  - destruct (nth_error (map (ar s a) idx) q) eqn:E'; auto.
    apply nth_error_None in E. assert (q < length (map (ar s a) idx)) by (apply nth_error_Some; congruence).
    rewrite map_length in *. lia.
Qed.

Lemma gather_all : forall idx L s, NoDup L -> forall b q, ar (fold_left (gather idx) L s) b q =
  if in_dec attr_eq_dec b L then moved idx (ar s b) q else ar s b q.
Proof.
  intros idx L. induction L as [|a L IH]; intros s ND b q; [reflexivity|].
  inversion ND as [|? ? N ND']; subst. cbn [fold_left]. rewrite IH by assumption.
  destruct (in_dec attr_eq_dec b L) as [Hi|Hi]; destruct (in_dec attr_eq_dec b (a :: L)) as [Hj|Hj];
    try (exfalso; apply Hj; now right).
  - unfold moved. destruct (nth_error idx q) eqn:E; rewrite gather_ar; destruct attr_eq_dec as [->|]; congruence.
  - rewrite gather_ar. destruct attr_eq_dec as [->|Nb]; [reflexivity|].
    destruct Hj as [->|]; congruence.
  - rewrite gather_ar. destruct attr_eq_dec as [->|Nb]; [exfalso; apply Hj; now left|reflexivity].
Qed.

Lemma gather_rest : forall idx L s, let s' := fold_left (gather idx) L s in
  np s' = np s /\ maxp s' = maxp s /\ tg s' = tg s.
Proof.
  intros idx L. induction L as [|a L IH]; intros s; [cbn; auto|]. cbn [fold_left].
  destruct (IH (gather idx s a)) as (A & B & C). cbn in *. now rewrite A, B, C.
Qed.

Ltac nodup_attrs := repeat first [ apply NoDup_nil | apply NoDup_cons; [cbn; intuition (discriminate || congruence)|] ].


Lemma NoDup_app_intro {A} (l1 l2 : list A) : NoDup l1 -> NoDup l2 -> (forall x, In x l1 -> ~ In x l2) -> NoDup (l1 ++ l2).
Proof.
  induction l1 as [|a l1 IH]; intros H1 H2 H; cbn; [assumption|]. inversion H1; subst. constructor.
  - rewrite in_app_iff. intros [C|C]; [contradiction|]. apply (H a); [now left|assumption].
  - apply IH; auto. intros x Hx. apply H. now right.
Qed.

Lemma nodup_pld : forall n m, NoDup (map PldR (seq 0 n) ++ map PldI (seq 0 m)).
Proof.
  intros n m. apply NoDup_app_intro.
  - apply Injective_map_NoDup; [intros x y; congruence|apply seq_NoDup].
  - apply Injective_map_NoDup; [intros x y; congruence|apply seq_NoDup].
  - intros x H1 H2. apply in_map_iff in H1, H2. destruct H1 as (? & <- & _), H2 as (? & ? & _). discriminate.
Qed.

Definition fixed_attrs (c : cfg) : list attr :=
  when (ge_dim c 1) [I 1; Iprev 1; Dx 1; Dxprev 1] ++
  when (ge_dim c 2) [I 2; Iprev 2; Dx 2; Dxprev 2] ++
  when (ge_dim c 3) [I 3; Iprev 3; Dx 3; Dxprev 3] ++
  [Ux 1; Ux 2; Ux 3; Weight] ++ when (has_phi c) [Phi].

Lemma nodup_fixed : forall c, NoDup (fixed_attrs c).
Proof.
  intros c. unfold fixed_attrs, when. destruct (ge_dim c 1), (ge_dim c 2), (ge_dim c 3), (has_phi c); cbn; nodup_attrs.
Qed.

Lemma fixed_no_pld : forall c x, In x (fixed_attrs c) -> ~ In x (map PldR (seq 0 (npld_r c)) ++ map PldI (seq 0 (npld_i c))).
Proof.
  intros c x H K. apply in_app_iff in K. rewrite !in_map_iff in K. unfold fixed_attrs, when in H.
  destruct (ge_dim c 1), (ge_dim c 2), (ge_dim c 3), (has_phi c); cbn in H;
  destruct K as [(l & <- & _)|(l & <- & _)]; intuition discriminate.
Qed.

Lemma compacted_eq : forall c, compacted c = fixed_attrs c ++ map PldR (seq 0 (npld_r c)) ++ map PldI (seq 0 (npld_i c)).
Proof.
  intros c. unfold compacted, fixed_attrs. rewrite <- !app_assoc. do 5 f_equal.
  destruct (npld_r c), (npld_i c); reflexivity.
Qed.
Lemma sorted_eq : forall c, sorted_arrays c = fixed_attrs c ++ map PldR (seq 0 (npld_r c)) ++ map PldI (seq 0 (npld_i c)).
Proof. intros c. unfold sorted_arrays, fixed_attrs. now rewrite <- !app_assoc. Qed.
Lemma nodup_compacted : forall c, NoDup (compacted c).
Proof.
  intros c. rewrite compacted_eq. apply NoDup_app_intro; [apply nodup_fixed|apply nodup_pld|apply fixed_no_pld].
Qed.
Lemma sorted_compacted : forall c, sorted_arrays c = compacted c.
Proof. intros. now rewrite compacted_eq, sorted_eq. Qed.
Lemma attrs_compacted : forall c a, In a (attrs c) -> In a (compacted c).
Proof.
  intros c a H. rewrite compacted_eq. unfold attrs, fixed_attrs in *. rewrite !in_app_iff in *.
  unfold when in *. destruct (ge_dim c 1), (ge_dim c 2), (ge_dim c 3), (has_phi c); cbn in *; tauto.
Qed.

(** ** RemoveDead *)
Lemma Permutation_filter {A} (f : A -> bool) l l' : Permutation l l' -> Permutation (filter f l) (filter f l').
Proof.
  induction 1; cbn.
  - constructor.
  - destruct (f x); [now constructor|assumption].
  - destruct (f x), (f y); try apply Permutation_refl. apply perm_swap.
  - eapply Permutation_trans; eassumption.
Qed.
Lemma filter_len_le {A} (f : A -> bool) l : length (filter f l) <= length l.
Proof. induction l as [|a l IH]; cbn; [lia|]. destruct (f a); cbn; lia. Qed.
Lemma count_le : forall f n, count f n <= n.
Proof. intros. unfold count. pose proof (filter_len_le f (seq 0 n)) as H. now rewrite seq_length in H. Qed.

Lemma count_perm : forall f n order, Permutation order (seq 0 n) -> length (filter f order) = count f n.
Proof. intros f n order H. unfold count. apply Permutation_length. now apply Permutation_filter. Qed.

Lemma view_ext : forall c s s' p q, (forall a, In a (attrs c) -> ar s a p = ar s' a q) -> view c s p = view c s' q.
Proof. intros c s s' p q H. unfold view. apply map_ext_in. exact H. Qed.

Lemma map_nth_seq {A B} (f : nat -> B) (l : list A) (h : A -> B) :
  (forall q a, nth_error l q = Some a -> f q = h a) -> map f (seq 0 (length l)) = map h l.
Proof.
  intros H. apply nth_error_ext. intros i. rewrite !nth_error_map.
  destruct (nth_error l i) as [a|] eqn:E.
  - assert (i < length l) by (apply nth_error_Some; congruence).
    replace (nth_error (seq 0 (length l)) i) with (Some i); [cbn; f_equal; now apply H|].
    symmetry. rewrite (nth_error_nth' (seq 0 (length l)) 0) by now rewrite seq_length. now rewrite seq_nth.
  - apply nth_error_None in E. replace (nth_error (seq 0 (length l)) i) with (@None nat); [reflexivity|].
    symmetry. apply nth_error_None. now rewrite seq_length.
Qed.

Theorem remove_dead_ok : forall c order s, Permutation order (seq 0 (np s)) ->
  (forall p, p < np s -> tg s p = 0%Z \/ tg s p = 1%Z) -> np s <= maxp s ->
  exists s', remove_dead c order s = Ok s' /\
  Permutation (map (view c s') (seq 0 (np s'))) (map (view c s) (live s)) /\
  np s' = length (live s) /\ maxp s' = maxp s /\
  (forall p, p < np s' -> tg s' p = 1%Z) /\
  (forall p, np s' <= p < np s -> tg s' p = 0%Z) /\
  (forall p, np s <= p -> tagged_view c s' p = tagged_view c s p).
Proof.
  intros c order s HP Ht Hm. unfold remove_dead.
  set (na := count (is_tag s alive_tag) (np s)). set (nd := count (is_tag s dead_tag) (np s)).
  assert (T : forallb (fun p => is_tag s alive_tag p || is_tag s dead_tag p) (seq 0 (np s)) = true).
  { apply forallb_forall. intros p Hp. apply in_seq in Hp. unfold is_tag.
    destruct (Ht p ltac:(lia)) as [-> | ->]; reflexivity. }
  rewrite T. cbn [negb].
  assert (Hsum : na + nd = np s).
  { unfold na, nd, count. rewrite <- (seq_length (np s) 0) at 3.
    assert (G : forall l, (forall p, In p l -> tg s p = 0%Z \/ tg s p = 1%Z) ->
      length (filter (is_tag s alive_tag) l) + length (filter (is_tag s dead_tag) l) = length l).
    { induction l as [|p l IH]; intros H; [reflexivity|]. cbn [filter length].
      specialize (IH (fun q Hq => H q (or_intror Hq))). assert (A : is_tag s alive_tag p = Z.eqb (tg s p) 1) by reflexivity.
      assert (B : is_tag s dead_tag p = Z.eqb (tg s p) 0) by reflexivity. rewrite A, B.
      destruct (H p (or_introl eq_refl)) as [-> | ->]; cbn [Z.eqb Pos.eqb length]; lia. }
    apply G. intros p Hp. apply in_seq in Hp. apply Ht. lia. }
  set (bin := fun p => if is_tag s alive_tag p then Some 0 else None).
  assert (Ib : forall p, isbin bin 0 p = is_tag s alive_tag p).
  { intros p. unfold isbin, bin. now destruct (is_tag s alive_tag p). }
  destruct (fill_ok bin (fun _ => 0) na [0] order) as (cur & E1 & E2).
  - intros p b _. unfold bin. destruct is_tag; [|discriminate]. intros [= <-]. now left.
  - intros pre b post E. destruct pre as [|x pre]; [reflexivity|]. destruct pre; discriminate.
  - cbn [flat_map]. rewrite app_nil_r. rewrite (filter_ext _ _ Ib). symmetry. now apply count_perm.
  - rewrite E1. cbn [rbind flat_map]. rewrite app_nil_r. rewrite (filter_ext _ _ Ib).
    rewrite E2, (filter_ext _ _ Ib). rewrite (count_perm _ _ _ HP). fold na. rewrite Nat.eqb_refl. cbn [negb].
    set (idx := filter (is_tag s alive_tag) order).
    destruct (gather_rest idx (compacted c) s) as (G1 & G2 & G3).
    pose proof (gather_all idx (compacted c) s (nodup_compacted c)) as G4.
    set (s1 := fold_left (gather idx) (compacted c) s) in *.
    unfold set_npart. cbn [maxp with_tg]. rewrite G2.
    assert (na <= np s) by apply count_le.
    rewrite (proj2 (Nat.ltb_ge _ _)) by lia.
    eexists. split; [reflexivity|]. cbn [np maxp tg ar with_tg].
    assert (Li : length idx = na) by (apply count_perm; assumption).
    assert (Ll : live s = filter (is_tag s alive_tag) (seq 0 (np s))) by reflexivity.
    repeat split.
    + transitivity (map (view c s) idx).
      * rewrite <- Li. erewrite map_nth_seq; [apply Permutation_refl|].
        intros q a Hq. apply view_ext. intros x Hx. cbn [ar with_tg]. rewrite G4.
        destruct in_dec as [_|N]; [|elim N; now apply attrs_compacted]. unfold moved. now rewrite Hq.
      * apply Permutation_map. rewrite Ll. unfold idx. now apply Permutation_filter.
    + intros p Hp. now rewrite (proj2 (Nat.ltb_lt _ _)).
    + intros p Hp. rewrite (proj2 (Nat.ltb_ge _ _)) by lia. now rewrite (proj2 (Nat.ltb_lt _ _)) by lia.
    + intros p Hp. unfold tagged_view. cbn [tg with_tg]. f_equal.
      * rewrite !(proj2 (Nat.ltb_ge _ _)) by lia. now rewrite G3.
      * apply view_ext. intros x Hx. cbn [ar with_tg]. rewrite G4.
        destruct in_dec; auto. unfold moved. rewrite (proj2 (nth_error_None idx p)) by lia. reflexivity.
Qed.

Theorem remove_dead_error : forall c order s, Permutation order (seq 0 (np s)) -> np s <= maxp s ->
  (remove_dead c order s = Err <-> exists p, p < np s /\ tg s p <> 0%Z /\ tg s p <> 1%Z).
Proof.
  intros c order s HP Hm. split.
  - intros H. destruct (Forall_Exists_dec (fun p => tg s p = 0%Z \/ tg s p = 1%Z)
       (fun p => ltac:(destruct (Z.eq_dec (tg s p) 0); [left; tauto|]; destruct (Z.eq_dec (tg s p) 1); [left|right]; tauto))
       (seq 0 (np s))) as [F|F].
    + exfalso. rewrite Forall_forall in F. destruct (remove_dead_ok c order s HP) as (s' & E & _); auto; [|congruence].
      intros p Hp. apply F. apply in_seq. lia.
    + apply Exists_exists in F. destruct F as (p & Hp & N). apply in_seq in Hp. exists p. split; [lia|tauto].
  - intros (p & Hp & N0 & N1). unfold remove_dead.
    replace (forallb _ _) with false; [reflexivity|]. symmetry.
    destruct (forallb _ _) eqn:E; [|reflexivity]. rewrite forallb_forall in E.
    specialize (E p ltac:(apply in_seq; lia)). unfold is_tag, alive_tag, dead_tag in E.
    apply orb_true_iff in E. rewrite !Z.eqb_eq in E. tauto.
Qed.

(** ** SortSpatially *)
Lemma filter_ext_in' {A} (f g : A -> bool) l : (forall x, In x l -> f x = g x) -> filter f l = filter g l.
Proof.
  induction l as [|a l IH]; intros H; cbn; [reflexivity|]. rewrite (H a (or_introl eq_refl)), IH; [reflexivity|].
  intros x Hx. apply H. now right.
Qed.

(** Concatenating the bins [0..n) gives the elements with a bin below [n]. *)
Lemma flat_bins : forall (bin : nat -> nat) order n,
  Permutation (flat_map (fun b => filter (isbin (fun p => Some (bin p)) b) order) (seq 0 n))
              (filter (fun p => Nat.ltb (bin p) n) order).
Proof.
  intros bin order n. induction n as [|n IH].
  - cbn. replace (filter _ order) with (@nil nat); [constructor|]. induction order; cbn; auto.
  - rewrite seq_S, flat_map_app. cbn [flat_map]. rewrite app_nil_r, IH. clear IH. cbn [plus].
    induction order as [|p l IH]; [constructor|]. cbn [filter]. unfold isbin at 1.
    destruct (Nat.ltb_spec (bin p) n), (Nat.eqb_spec (bin p) n), (Nat.ltb_spec (bin p) (S n)); try lia; cbn.
    + now constructor.
    + rewrite <- IH. apply Permutation_sym, Permutation_middle.
    + exact IH.
Qed.

Lemma seq_split : forall n pre b post, seq 0 n = pre ++ b :: post -> pre = seq 0 b /\ b < n.
Proof.
  intros n pre b post E. assert (L : length (seq 0 n) = length (pre ++ b :: post)) by now rewrite E.
  rewrite seq_length, app_length in L. cbn in L.
  assert (B : b = length pre).
  { assert (X : nth_error (seq 0 n) (length pre) = Some b) by (rewrite E, nth_error_app2, Nat.sub_diag by lia; reflexivity).
    apply nth_error_nth with (d := 0) in X. rewrite seq_nth in X by lia. lia. }
  split; [|lia]. subst b. replace n with (length pre + (n - length pre)) in E by lia. rewrite seq_app in E.
  apply (f_equal (firstn (length pre))) in E.
  rewrite <- (seq_length (length pre) 0) in E at 1. rewrite firstn_app, firstn_all, Nat.sub_diag, app_nil_r in E.
  rewrite firstn_app, firstn_all, Nat.sub_diag, app_nil_r in E. now symmetry.
Qed.

Lemma permute_vector_ok : forall total key n order, Permutation order (seq 0 n) -> (-2 <= total)%Z ->
  (forall p, p < n -> (0 <= key p < total + 2)%Z) -> exists v, permute_vector total key n order = Ok v /\
  Permutation v (seq 0 n) /\ StronglySorted (fun p q => (key p <= key q)%Z) v.
Proof.
  intros total key n order HP Ht Hk. unfold permute_vector.
  assert (T : forallb (fun p => Z.leb 0 (key p) && Z.ltb (key p) (total + 2)) (seq 0 n) = true).
  { apply forallb_forall. intros p Hp. apply in_seq in Hp. specialize (Hk p ltac:(lia)).
    apply andb_true_iff. rewrite Z.leb_le, Z.ltb_lt. lia. }
  rewrite T. set (bin := fun p => Z.to_nat (key p)). set (m := Z.to_nat (total + 2)).
  assert (Hin : forall p, In p order -> p < n).
  { intros p Hp. apply (Permutation_in p HP) in Hp. apply in_seq in Hp. lia. }
  assert (Hb : forall p, In p order -> bin p < m).
  { intros p Hp. specialize (Hk p (Hin p Hp)). unfold bin, m. lia. }
  set (L := flat_map (fun b => filter (isbin (fun p => Some (bin p)) b) order) (seq 0 m)).
  assert (PL : Permutation L (seq 0 n)).
  { unfold L. rewrite flat_bins. rewrite (filter_ext_in' _ (fun _ => true)).
    - replace (filter (fun _ => true) order) with order; [assumption|].
      clear. induction order; cbn; congruence.
    - intros p Hp. apply Nat.ltb_lt. now apply Hb. }
  destruct (fill_ok (fun p => Some (bin p)) (bin_offset bin n) n (seq 0 m) order) as (cur & E & _).
  - intros p b Hp [= <-]. apply in_seq. specialize (Hb p Hp). lia.
  - intros pre b post E. apply seq_split in E. destruct E as [-> Eb].
    rewrite (Permutation_length (flat_bins bin order b)). unfold bin_offset. symmetry. now apply count_perm.
  - fold L. rewrite (Permutation_length PL). now rewrite seq_length.
  - fold L in E. exists L. split; [cbv zeta; change (rbind (fill (fun p => Some (bin p)) (bin_offset bin n) n order) (fun '(_, v) => Ok v) = Ok L); rewrite E; reflexivity|]. split; [assumption|].
    unfold L. generalize 0. generalize m at 1. clear -Hin Hk. intros j. induction j as [|j IH]; intros i; [constructor|].
    cbn [seq flat_map].
    assert (G : forall l, (forall p, In p l -> p < n) -> forall rest,
      StronglySorted (fun p q => (key p <= key q)%Z) rest ->
      (forall q, In q rest -> i <= bin q /\ q < n) ->
      StronglySorted (fun p q => (key p <= key q)%Z) (filter (isbin (fun p => Some (bin p)) i) l ++ rest)).
    { induction l as [|p l IHl]; intros Hl rest Hs Hr; cbn; [assumption|]. unfold isbin at 1.
      destruct (Nat.eqb_spec (bin p) i) as [Ep|Np]; [|apply IHl; auto; intros; apply Hl; now right].
      cbn. constructor; [apply IHl; auto; intros; apply Hl; now right|].
      apply Forall_forall. intros q Hq.
      assert (Q : i <= bin q /\ q < n).
      { apply in_app_iff in Hq. destruct Hq as [Hq|Hq]; [|now apply Hr].
        apply filter_In in Hq. destruct Hq as [Hq Eq]. unfold isbin in Eq. apply Nat.eqb_eq in Eq.
        split; [lia|]. apply Hl. now right. }
      pose proof (Hk p (Hl p (or_introl eq_refl))). pose proof (Hk q (proj2 Q)). unfold bin in *. lia. }
    apply G; [assumption|apply IH|].
    intros q Hq. apply in_flat_map in Hq. destruct Hq as (b & B1 & B2). apply in_seq in B1.
    apply filter_In in B2. destruct B2 as [B2 B3]. unfold isbin in B3. apply Nat.eqb_eq in B3.
    split; [lia|auto].
Qed.

(** Row-major numbering of cells. *)
Fixpoint horner (a : Z) (ns is : list Z) : Z :=
  match ns, is with n :: ns', i :: is' => horner (a * n + i) ns' is' | _, _ => a end.

Lemma horner_bound : forall ns is, Forall2 (fun n i => 0 <= i < n)%Z ns is -> forall a m, (0 <= a < m)%Z ->
  (0 <= horner a ns is < m * prodZ ns)%Z.
Proof.
  induction 1 as [|n i ns is H F IH]; intros a m Ha; cbn [horner prodZ fold_right].
  - lia.
  - replace (m * (n * fold_right Z.mul 1 ns))%Z with ((m * n) * prodZ ns)%Z by (unfold prodZ; ring). apply IH. nia.
Qed.
Lemma horner_mono : forall ns is, Forall2 (fun n i => 0 <= i < n)%Z ns is -> forall js,
  Forall2 (fun n i => 0 <= i < n)%Z ns js -> forall a b, (a < b)%Z -> (horner a ns is < horner b ns js)%Z.
Proof.
  induction 1 as [|n i ns is H F IH]; intros js G; inversion G; subst; intros a b Hab; cbn [horner]; [assumption|].
  apply IH; [assumption|]. nia.
Qed.
Lemma horner_lex : forall ns is, Forall2 (fun n i => 0 <= i < n)%Z ns is -> forall js,
  Forall2 (fun n i => 0 <= i < n)%Z ns js -> forall a, (horner a ns is <= horner a ns js)%Z -> lex_le is js.
Proof.
  induction 1 as [|n i ns is H F IH]; intros js G; inversion G as [|? j ? js' H' F']; subst; intros a Hab; [exact Logic.I|].
  cbn [horner] in Hab. cbn [lex_le]. destruct (Z.lt_trichotomy i j) as [C|[C|C]]; [now left| |].
  - right. subst. split; [reflexivity|]. now apply (IH _ F' (a * n + j)%Z).
  - exfalso. assert (a * n + j < a * n + i)%Z by lia. pose proof (horner_mono _ _ F' _ F _ _ H0). lia.
Qed.

Lemma total_tiles_ok : forall ns, Forall (fun n => 0 < n)%Z ns -> (prodZ ns < 2 ^ 32)%Z -> total_tiles ns = prodZ ns.
Proof.
  intros ns F H. unfold total_tiles.
  assert (G : forall ns a, Forall (fun n => 0 < n)%Z ns -> (0 < a)%Z -> (a * prodZ ns < 2 ^ 32)%Z ->
    fold_left (fun a n => w32 (a * n)) ns a = (a * prodZ ns)%Z).
  { clear. induction ns as [|n ns IH]; intros a F Ha H; cbn [fold_left prodZ fold_right]; [lia|].
    inversion F as [|? ? F1 F2]; subst. cbn [prodZ fold_right] in H. fold (prodZ ns) in *.
    assert (P : (0 < prodZ ns)%Z). { clear -F2. induction F2; cbn; [lia|]. unfold prodZ in IHF2. nia. }
    assert (a * n * prodZ ns < 2 ^ 32)%Z by lia.
    assert (w32 (a * n) = a * n)%Z as -> by (apply Z.mod_small; nia).
    rewrite IH; [ring|assumption|nia|assumption]. }
  rewrite G; [lia|assumption|lia|lia].
Qed.

Lemma w32_id : forall x, (0 <= x < 2 ^ 32)%Z -> w32 x = x.
Proof. intros. now apply Z.mod_small. Qed.

Lemma tile_horner : forall c ns s p, length ns = dim c -> 1 <= dim c <= 3 -> tg s p = 1%Z ->
  Forall2 (fun n i => 0 <= i < n)%Z ns (cell c s p) -> (prodZ ns < 2 ^ 32)%Z ->
  tile_index ns s p = horner 0 ns (cell c s p).
Proof.
  intros c ns s p L Hd Ht F Hb. pose proof (horner_bound ns _ F 0 1 ltac:(lia)) as B.
  unfold tile_index, is_tag. rewrite Ht. cbn [alive_tag Z.eqb Pos.eqb negb].
  unfold cell in *. rewrite <- L in *. unfold prodZ in *.
  destruct ns as [|n1 [|n2 [|n3 [|n4 ns]]]]; cbn [length] in *; try lia; cbn [seq map horner fold_right] in *;
  repeat match goal with H : Forall2 _ (_ :: _) _ |- _ => inversion H; subst; clear H end.
  - rewrite w32_id; lia.
  - assert (n1 <= n1 * n2)%Z by nia. assert (n2 <= n1 * n2)%Z by nia.
    rewrite (w32_id (ar s (I 1) p)) by lia. rewrite (w32_id (ar s (I 2) p)) by lia. rewrite w32_id; lia.
  - assert (0 <= ar s (I 1) p * n2 + ar s (I 2) p < n1 * n2)%Z by nia.
    assert (n1 <= n1 * n2)%Z by nia. assert (n2 <= n1 * n2)%Z by nia.
    assert (n1 * n2 <= n1 * n2 * n3)%Z by nia. assert (n3 <= n1 * n2 * n3)%Z by nia.
    rewrite (w32_id (ar s (I 1) p)) by lia. rewrite (w32_id (ar s (I 2) p)) by lia.
    rewrite (w32_id (ar s (I 3) p)) by lia.
    rewrite (w32_id (ar s (I 1) p * n2 + _)) by lia. rewrite w32_id; lia.
Qed.

Lemma StronglySorted_map {A B} (R : A -> A -> Prop) (Q : B -> B -> Prop) (f : B -> A) l :
  (forall x y, In x l -> In y l -> R (f x) (f y) -> Q x y) -> StronglySorted (fun x y => R (f x) (f y)) l -> StronglySorted Q l.
Proof.
  intros H S. induction S as [|a l S IH F]; constructor.
  - apply IH. intros x y Hx Hy. apply H; now right.
  - rewrite Forall_forall in *. intros y Hy. apply H; [now left|now right|]. now apply F.
Qed.

Lemma StronglySorted_nth {A} (R : A -> A -> Prop) l : StronglySorted R l -> forall i j x y, i < j ->
  nth_error l i = Some x -> nth_error l j = Some y -> R x y.
Proof.
  induction 1 as [|a l S IH F]; intros i j x y Hij Hx Hy; [destruct i; discriminate|].
  destruct j; [lia|]. cbn in Hy. destruct i; cbn in Hx.
  - injection Hx as ->. rewrite Forall_forall in F. apply F. now apply nth_error_In in Hy.
  - apply (IH i j); auto; lia.
Qed.

Theorem sort_spatially_ok : forall c ns order s, Permutation order (seq 0 (np s)) ->
  length ns = dim c -> 1 <= dim c <= 3 -> Forall (fun n => 0 < n)%Z ns -> (prodZ ns < 2 ^ 31 - 1)%Z ->
  (forall p, In p (live s) -> Forall2 (fun n i => 0 <= i < n)%Z ns (cell c s p)) ->
  exists s', sort_spatially c ns order s = Ok s' /\
  Permutation (map (tagged_view c s') (seq 0 (np s'))) (map (tagged_view c s) (seq 0 (np s))) /\
  np s' = np s /\ maxp s' = maxp s /\
  (forall p, np s <= p -> tagged_view c s' p = tagged_view c s p) /\
  (forall p q, p < q < np s' -> tg s' q = 1%Z -> tg s' p = 1%Z /\ lex_le (cell c s' p) (cell c s' q)).
Proof.
  intros c ns order s HP L Hd Hn Hb Hc. unfold sort_spatially.
  rewrite total_tiles_ok by (assumption || lia).
  assert (P0 : (0 < prodZ ns)%Z). { clear -Hn. induction Hn; cbn; [lia|]. unfold prodZ in IHHn. nia. }
  assert (Hl : forall p, p < np s -> tg s p = 1%Z -> In p (live s)).
  { intros p Hp Ht. apply filter_In. split; [apply in_seq; lia|]. now rewrite Ht. }
  assert (K1 : forall p, p < np s -> tg s p = 1%Z ->
     (tile_index ns s p = horner 0 ns (cell c s p) /\ 0 <= tile_index ns s p < prodZ ns)%Z).
  { intros p Hp Ht. specialize (Hc p (Hl p Hp Ht)). rewrite (tile_horner c) by (assumption || lia).
    split; [reflexivity|]. pose proof (horner_bound ns _ Hc 0 1). lia. }
  assert (K2 : forall p, tg s p <> 1%Z -> tile_index ns s p = (prodZ ns + 1)%Z).
  { intros p Ht. unfold tile_index, is_tag, alive_tag. apply Z.eqb_neq in Ht. rewrite Ht. cbn [negb].
    rewrite total_tiles_ok by (assumption || lia). apply w32_id. lia. }
  destruct (permute_vector_ok (prodZ ns) (tile_index ns s) (np s) order HP) as (v & E & Pv & Sv); [lia| |].
  { intros p Hp. destruct (Z.eq_dec (tg s p) 1) as [C|C]; [destruct (K1 p Hp C); lia|rewrite K2 by assumption; lia]. }
  rewrite E. cbn [rbind]. rewrite sorted_compacted.
  destruct (gather_rest v (compacted c) s) as (G1 & G2 & G3).
  pose proof (gather_all v (compacted c) s (nodup_compacted c)) as G4.
  set (s1 := fold_left (gather v) (compacted c) s) in *.
  eexists. split; [reflexivity|]. cbn [np maxp tg ar with_tg]. rewrite G1, G2, G3.
  assert (Lv : length v = np s) by (rewrite (Permutation_length Pv); apply seq_length).
  set (s' := with_tg s1 _).
  assert (V : forall q p, nth_error v q = Some p -> tagged_view c s' q = tagged_view c s p).
  { intros q p Hq. unfold tagged_view. f_equal.
    - unfold s'. cbn. now rewrite (map_nth_error _ _ _ Hq).
    - apply view_ext. intros x Hx. unfold s'. cbn [ar with_tg]. rewrite G4.
      destruct in_dec as [_|N]; [|elim N; now apply attrs_compacted]. unfold moved. now rewrite Hq. }
  assert (Vc : forall q p, nth_error v q = Some p -> cell c s' q = cell c s p).
  { intros q p Hq. unfold cell. apply map_ext_in. intros d Hdd. apply in_seq in Hdd.
    unfold s'. cbn [ar with_tg]. rewrite G4.
    destruct in_dec as [_|N]; [unfold moved; now rewrite Hq|]. elim N. apply attrs_compacted.
    unfold attrs, ge_dim. rewrite !in_app_iff. clear -Hdd Hd.
    assert (C : d = 1 \/ d = 2 \/ d = 3) by lia.
    destruct C as [->|[->| ->]].
    - left. rewrite (proj2 (Nat.leb_le 1 (dim c))) by lia. now left.
    - right; left. rewrite (proj2 (Nat.leb_le 2 (dim c))) by lia. now left.
    - right; right; left. rewrite (proj2 (Nat.leb_le 3 (dim c))) by lia. now left. }
  split; [|split; [reflexivity|split; [reflexivity|split]]].
  - rewrite <- Lv at 1. rewrite (map_nth_seq _ _ _ V). now apply Permutation_map.
  - intros p Hp. unfold tagged_view. f_equal.
    + unfold s'. cbn. destruct (nth_error (map (tg s) v) p) eqn:E'; [|try rewrite G3; reflexivity].
      assert (p < length (map (tg s) v)) by (apply nth_error_Some; congruence). rewrite map_length in *. lia.
    + apply view_ext. intros x Hx. unfold s'. cbn [ar with_tg]. rewrite G4.
      destruct in_dec; auto. unfold moved. rewrite (proj2 (nth_error_None v p)) by lia. reflexivity.
  - intros p q Hpq Hq.
    destruct (nth_error v p) as [p0|] eqn:Ep; [|apply nth_error_None in Ep; lia].
    destruct (nth_error v q) as [q0|] eqn:Eq; [|apply nth_error_None in Eq; lia].
    pose proof (StronglySorted_nth _ _ Sv p q p0 q0 ltac:(lia) Ep Eq) as Hle. cbv beta in Hle.
    assert (Ip : p0 < np s) by (apply nth_error_In in Ep; apply (Permutation_in p0 Pv) in Ep; apply in_seq in Ep; lia).
    assert (Iq : q0 < np s) by (apply nth_error_In in Eq; apply (Permutation_in q0 Pv) in Eq; apply in_seq in Eq; lia).
    assert (Tp : tg s' p = tg s p0) by (pose proof (V _ _ Ep) as X; unfold tagged_view in X; congruence).
    assert (Tq : tg s' q = tg s q0) by (pose proof (V _ _ Eq) as X; unfold tagged_view in X; congruence).
    change (match nth_error (map (tg s) v) q with Some v0 => v0 | None => tg s1 q end) with (tg s' q) in Hq.
    try rewrite Tp. rewrite (Vc _ _ Ep), (Vc _ _ Eq).
    assert (Hq' : tg s q0 = 1%Z).
    { rewrite <- Tq. unfold s'. cbn. rewrite (map_nth_error _ _ _ Eq) in *. exact Hq. }
    assert (Hp' : tg s p0 = 1%Z).
    { destruct (Z.eq_dec (tg s p0) 1) as [C|C]; [assumption|]. rewrite (K2 p0 C) in Hle. destruct (K1 q0 Iq Hq'). lia. }
    split; [rewrite (map_nth_error _ _ _ Ep) || idtac; assumption|].
    apply (horner_lex ns _ (Hc p0 (Hl p0 Ip Hp')) _ (Hc q0 (Hl q0 Iq Hq')) 0).
    destruct (K1 p0 Ip Hp') as [<- _], (K1 q0 Iq Hq') as [<- _]. exact Hle.
Qed.
