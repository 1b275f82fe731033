(** Proofs about the output of particles. *)
From Coq Require Import ZArith List Bool Arith Lia Permutation.
From Verif Require Import Base ListLemmas PrtlModel PrtlSpec PrtlProofs PoutModel PoutSpec.
Import ListNotations.

(** ** Buffers *)
Lemma upd_fold (v : nat -> Z) q : forall l b, fold_left (fun b q => upd b q (v q)) l b q = if in_dec Nat.eq_dec q l then v q else b q.
Proof.
  induction l as [|a l IH]; intro b; [reflexivity|]. cbn [fold_left]. rewrite IH. unfold upd.
  destruct (in_dec Nat.eq_dec q l) as [I|I]; destruct (in_dec Nat.eq_dec q (a :: l)) as [J|J]; auto.
  - exfalso. apply J. right. exact I.
  - destruct (Nat.eqb_spec q a) as [->|N]; [reflexivity|]. destruct J as [J|J]; [congruence|contradiction].
  - destruct (Nat.eqb_spec q a) as [->|N]; [exfalso; apply J; left; reflexivity|reflexivity].
Qed.
Lemma buffers_ok c gr tr mpi xph uph order s idx k q : (forall l, Permutation (order l) l) -> q < length idx ->
  buffers c gr tr mpi xph uph order s idx k q = kernel_value c gr tr mpi xph uph s (nth q idx 0) k.
Proof.
  intros HO Hq. unfold buffers. rewrite (upd_fold (fun q => kernel_value c gr tr mpi xph uph s (nth q idx 0) k)).
  destruct in_dec as [_|N]; [reflexivity|]. exfalso. apply N. eapply Permutation_in; [apply Permutation_sym, HO|]. apply in_seq. lia.
Qed.
Lemma value_says c gr tr mpi xph uph s p k :
  kernel_value c gr tr mpi xph uph s p k = says (dim c) (has_phi c) gr (num_track_plds tr mpi) xph uph (fun a => ar s a p) k.
Proof.
  destruct k; cbn; try reflexivity.
  - destruct d as [|[|[|[|d]]]]; cbn; rewrite ?andb_false_r; try reflexivity. rewrite andb_true_r. reflexivity.
  - f_equal. unfold kernel_pos, place_of. rewrite flat_map_concat_map. f_equal. destruct (has_phi c), gr; reflexivity.
  - f_equal. f_equal. lia.
Qed.

(** ** Columns *)
Lemma in_when {A} b (l : list A) x : In x (when b l) <-> b = true /\ In x l.
Proof. unfold when. destruct b; cbn; intuition discriminate. Qed.
Lemma same_columns c tr mpi k : 1 <= dim c <= 3 -> (In k (declared c tr mpi) <-> In k (written c tr mpi)).
Proof.
  intro HD. unfold declared, written. rewrite !in_app_iff.
  assert (A : In k (map (fun d => PX (d + 1)) (seq 0 (dim c + (if has_phi c then 1 else 0)))) \/ In k (map (fun d => PU (d + 1)) (seq 0 3)) \/ In k [PW] <->
              In k [PW; PU 1; PU 2; PU 3] \/ In k (when (ge_dim c 1) [PX 1]) \/ In k (when (ge_dim c 2) [PX 2]) \/ In k (when (Nat.eqb (dim c) 3 || has_phi c) [PX 3])).
  { unfold ge_dim, has_phi. destruct c as [d ca n m]. cbn [dim cart] in *. assert (E : d = 1 \/ d = 2 \/ d = 3) by lia. destruct E as [-> | [-> | ->]]; destruct ca; cbn; tauto. }
  tauto.
Qed.

(** ** The attributes a row depends on *)
Lemma map_eq_in {A B} (f g : A -> B) l : map f l = map g l -> forall a, In a l -> f a = g a.
Proof. induction l as [|x l IH]; [contradiction|]. cbn. intros E a [<-|I]; injection E as E1 E2; auto. Qed.
Lemma says_ext c gr tr mpi xph uph f g k : 1 <= dim c <= 3 -> num_track_plds tr mpi <= npld_i c -> In k (declared c tr mpi) ->
  (forall a, In a (attrs c) -> f a = g a) ->
  says (dim c) (has_phi c) gr (num_track_plds tr mpi) xph uph f k = says (dim c) (has_phi c) gr (num_track_plds tr mpi) xph uph g k.
Proof.
  intros HD HT HK H.
  assert (HX : forall d, 1 <= d <= dim c -> f (I d) = g (I d) /\ f (Dx d) = g (Dx d)).
  { intros d Hd. unfold attrs in H. split; apply H; rewrite !in_app_iff, !in_when; unfold ge_dim; rewrite !Nat.leb_le; cbn [In];
      destruct d as [|[|[|[|d]]]]; try lia; [left|right; left|right; right; left|left|right; left|right; right; left]; split; try lia; tauto. }
  assert (HP : has_phi c = true -> f Phi = g Phi).
  { intro E. apply H. unfold attrs. rewrite !in_app_iff, !in_when. do 6 right. split; [exact E|left; reflexivity]. }
  assert (HU : forall d, 1 <= d <= 3 -> f (Ux d) = g (Ux d)).
  { intros d Hd. apply H. unfold attrs. rewrite !in_app_iff. do 3 right. left. destruct d as [|[|[|[|d]]]]; cbn; try lia; tauto. }
  assert (HW : f Weight = g Weight).
  { apply H. unfold attrs. rewrite !in_app_iff. do 3 right. left. cbn. tauto. }
  assert (HR : forall l, l < npld_r c -> f (PldR l) = g (PldR l)).
  { intros l Hl. apply H. unfold attrs. rewrite !in_app_iff. do 4 right. left. apply in_map, in_seq. lia. }
  assert (HI : forall l, l < npld_i c -> f (PldI l) = g (PldI l)).
  { intros l Hl. apply H. unfold attrs. rewrite !in_app_iff. do 5 right. left. apply in_map, in_seq. lia. }
  assert (HPl : place_of (dim c) (has_phi c) gr f = place_of (dim c) (has_phi c) gr g).
  { unfold place_of. f_equal.
    - f_equal. apply map_ext_in. intros d Hd. apply in_seq in Hd. destruct (HX d ltac:(lia)) as [-> ->]. reflexivity.
    - destruct (has_phi c) eqn:E; [|reflexivity]. rewrite HP by reflexivity. reflexivity. }
  unfold declared in HK. rewrite !in_app_iff, !in_when in HK.
  destruct HK as [HK|[HK|[HK|[[_ HK]|[[Et HK]|[El HK]]]]]].
  - apply in_map_iff in HK as [d [<- Hd]]. apply in_seq in Hd. cbn [says].
    destruct (has_phi c) eqn:E.
    + assert (dim c = 2) by (unfold has_phi in E; apply andb_prop in E as [E _]; apply Nat.eqb_eq; exact E).
      assert (Ed : d = 0 \/ d = 1 \/ d = 2) by lia. destruct Ed as [->|[->| ->]]; cbn;
        [destruct (HX 1 ltac:(lia)) as [-> ->]; reflexivity|destruct (HX 2 ltac:(lia)) as [-> ->]; reflexivity|apply HP; reflexivity].
    + destruct (HX (d + 1) ltac:(lia)) as [E1 E2]. destruct d as [|[|[|d]]]; cbn in *; try lia; rewrite E1, E2; reflexivity.
  - apply in_map_iff in HK as [d [<- Hd]]. apply in_seq in Hd. cbn [says map]. rewrite HPl, !HU by lia. reflexivity.
  - destruct HK as [<-|[]]. exact HW.
  - apply in_map_iff in HK as [l [<- Hl]]. apply in_seq in Hl. apply HR. lia.
  - unfold num_track_plds in HT. rewrite Et in HT. destruct HK as [<-|HK]; [apply HI; destruct mpi; lia|].
    apply in_when in HK as [Em HK]. rewrite Em in HT. destruct HK as [<-|[]]. apply HI. lia.
  - apply in_map_iff in HK as [l [<- Hl]]. apply in_seq in Hl. cbn [says]. apply HI. lia.
Qed.

(** ** One rank *)
Section Rank.
  Variables (c : cfg) (gr tr mpi : bool) (xph : nat -> Z -> Z -> Z) (uph : nat -> list Z -> list Z -> Z).
  Hypothesis HD : 1 <= dim c <= 3.
  Hypothesis HT : num_track_plds tr mpi <= npld_i c.
  Notation cols := (declared c tr mpi).
  Definition row (s : parts) (p : nat) : list Z := map (says (dim c) (has_phi c) gr (num_track_plds tr mpi) xph uph (fun a => ar s a p)) cols.
  Lemma row_ext s s' p q : view c s p = view c s' q -> row s p = row s' q.
  Proof.
    intro E. unfold row. apply map_ext_in. intros k Hk. apply says_ext; auto. intros a Ha. exact (map_eq_in _ _ _ E a Ha).
  Qed.
  Lemma live_all s : (forall p, p < np s -> tg s p = 1%Z) -> live s = seq 0 (np s).
  Proof.
    intro H. unfold live. assert (G : forall l, (forall p, In p l -> tg s p = 1%Z) -> filter (fun p => Z.eqb (tg s p) 1) l = l).
    { induction l as [|a l IH]; intro A; [reflexivity|]. cbn. rewrite (A a) by (left; reflexivity). cbn. f_equal. apply IH. intros p Hp. apply A. right. exact Hp. }
    apply G. intros p Hp. apply in_seq in Hp. apply H. lia.
  Qed.
  (** After the compaction. *)
  Lemma compact order sorted s : (forall l, Permutation (order l) l) -> tidy s -> honest (sorted, s) ->
    exists s1 l, (if sorted then Ok s else remove_dead c (order (seq 0 (np s))) s) = Ok s1 /\ Permutation l (live s) /\
    map (view c s1) (seq 0 (np s1)) = map (view c s) l /\ (forall p, p < np s1 -> tg s1 p = 1%Z).
  Proof.
    intros HO [Ht Hm] Hh. destruct sorted.
    - exists s, (seq 0 (np s)). specialize (Hh eq_refl). cbn [snd] in Hh. repeat split; auto. rewrite live_all by exact Hh. apply Permutation_refl.
    - destruct (remove_dead_ok c (order (seq 0 (np s))) s (HO _) Ht Hm) as (s' & E & P & N & _ & A & _).
      apply Permutation_map_inv in P as [l [El Pl]]. exists s', l. repeat split; auto. apply Permutation_sym. exact Pl.
  Qed.
  Lemma view_at s1 s l q : map (view c s1) (seq 0 (np s1)) = map (view c s) l -> q < np s1 -> view c s1 q = view c s (nth q l 0).
  Proof.
    intros E Hq. assert (L : length l = np s1) by (apply (f_equal (@length _)) in E; rewrite !map_length, seq_length in E; auto).
    apply (f_equal (fun x => nth q x [])) in E. rewrite nth_indep with (d' := view c s1 0) in E by (rewrite map_length, seq_length; exact Hq).
    rewrite map_nth, seq_nth in E by exact Hq. rewrite nth_indep with (d' := view c s 0) in E by (rewrite map_length; lia). rewrite map_nth in E. exact E.
  Qed.

  (** Without tracking. *)
  Lemma untracked stride order sorted s : tr = false -> 0 < stride -> (forall l, Permutation (order l) l) -> tidy s -> honest (sorted, s) ->
    exists s1 idx l, prepare c tr stride order (sorted, s) = Ok (s1, idx) /\ Permutation l (live s) /\ map (row s1) idx = map (row s) (every stride l).
  Proof.
    intros Et Hs HO Hy Hh. destruct (compact order sorted s HO Hy Hh) as (s1 & l & E & P & V & A).
    exists s1, (map (fun p => p * stride) (seq 0 (np s1 / stride))), l. split; [|split; [exact P|]].
    - unfold prepare. rewrite E. cbn [rbind]. unfold select. rewrite Et. destruct (Nat.eqb_spec stride 0); [lia|]. reflexivity.
    - assert (L : length l = np s1) by (apply (f_equal (@length _)) in V; rewrite !map_length, seq_length in V; auto).
      unfold every. rewrite L, !map_map. apply map_ext_in. intros j Hj. apply in_seq in Hj. rewrite (Nat.mul_comm stride j). apply row_ext, view_at; [exact V|].
      pose proof (Nat.mul_div_le (np s1) stride ltac:(lia)). nia.
  Qed.

  (** With tracking. *)
  Definition wanted (stride : nat) (s : parts) (p : nat) : bool := Z.eqb (ar s (PldI 0) p mod Z.of_nat stride) 0.
  Lemma select_tracked stride order s : tr = true -> 0 < stride -> (forall l, Permutation (order l) l) ->
    exists idx, select tr stride order s = Ok idx /\ Permutation idx (filter (wanted stride s) (live s)).
  Proof.
    intros Et Hs HO. unfold select. rewrite Et. destruct (Nat.eqb_spec stride 0); [lia|].
    set (bin := fun p => if chosen stride s p then Some 0 else None).
    assert (Ib : forall p, isbin bin 0 p = chosen stride s p) by (intro p; unfold isbin, bin; destruct (chosen stride s p); reflexivity).
    destruct (fill_ok bin (fun _ => 0) (count (chosen stride s) (np s)) [0] (order (seq 0 (np s)))) as (cur & E1 & E2).
    - intros p b _. unfold bin. destruct chosen; [|discriminate]. intros [= <-]. now left.
    - intros pre b post E. destruct pre as [|x pre]; [reflexivity|]. destruct pre; discriminate.
    - cbn [flat_map]. rewrite app_nil_r. rewrite (filter_ext _ _ Ib). symmetry. apply count_perm. apply HO.
    - rewrite E1. cbn [rbind flat_map]. rewrite app_nil_r, (filter_ext _ _ Ib). eexists. split; [reflexivity|].
      transitivity (filter (chosen stride s) (seq 0 (np s))); [apply Permutation_filter, HO|].
      unfold live. replace (filter (wanted stride s) (filter (fun p => Z.eqb (tg s p) 1) (seq 0 (np s)))) with (filter (chosen stride s) (seq 0 (np s))); [apply Permutation_refl|].
      generalize (seq 0 (np s)). intro l. induction l as [|a l IH]; [reflexivity|]. cbn. unfold chosen at 1, is_tag, alive_tag. destruct (Z.eqb (tg s a) 1); cbn; [|exact IH].
      unfold wanted at 1. destruct (Z.eqb _ 0); cbn; [f_equal|]; exact IH.
  Qed.
  Lemma tracked stride order sorted s : tr = true -> 0 < stride -> (forall l, Permutation (order l) l) -> tidy s ->
    exists s1 idx, prepare c tr stride order (sorted, s) = Ok (s1, idx) /\ Permutation (map (row s1) idx) (map (row s) (filter (wanted stride s) (live s))).
  Proof.
    intros Et Hs HO Hy. destruct sorted.
    - destruct (select_tracked stride order s Et Hs HO) as (idx & E & P). exists s, idx. split; [|apply Permutation_map; exact P].
      unfold prepare. cbn [rbind]. rewrite E. reflexivity.
    - destruct (compact order false s HO Hy ltac:(intro; discriminate)) as (s1 & l & E & P & V & A).
      destruct (select_tracked stride order s1 Et Hs HO) as (idx & E1 & P1). exists s1, idx. split.
      + unfold prepare. rewrite E. cbn [rbind]. rewrite E1. reflexivity.
      + transitivity (map (row s1) (filter (wanted stride s1) (live s1))); [apply Permutation_map; exact P1|].
        rewrite live_all by exact A.
        assert (L : length l = np s1) by (apply (f_equal (@length _)) in V; rewrite !map_length, seq_length in V; auto).
        assert (HI : In (PldI 0) (attrs c)).
        { unfold attrs. rewrite !in_app_iff. do 5 right. left. apply in_map, in_seq. unfold num_track_plds in HT. rewrite Et in HT. destruct mpi; lia. }
        assert (Q : map (row s1) (filter (wanted stride s1) (seq 0 (np s1))) = map (row s) (filter (wanted stride s) l)).
        { rewrite <- L. assert (G : forall q, q < length l -> row s1 q = row s (nth q l 0) /\ wanted stride s1 q = wanted stride s (nth q l 0)).
          { intros q Hq. pose proof (view_at s1 s l q V ltac:(lia)) as W. split; [apply row_ext; exact W|]. unfold wanted. rewrite (map_eq_in _ _ _ W (PldI 0) HI). reflexivity. }
          revert G. generalize (row s1), (wanted stride s1), (row s), (wanted stride s). clear. intros f g f' g' G.
          assert (M : forall m, map f (filter g (seq m (length l - m))) = map f' (filter g' (skipn m l))).
          { intro m. remember (length l - m) as n eqn:En. revert m En. induction n as [|n IH]; intros m En.
            - rewrite skipn_all2 by lia. reflexivity.
            - cbn [seq filter]. destruct (G m ltac:(lia)) as [G1 G2].
              assert (K : skipn m l = nth m l 0 :: skipn (S m) l).
              { assert (Hm : m < length l) by lia. clear - Hm. revert m Hm. induction l as [|a l IH]; intros [|m] Hm; cbn in *; try lia; [reflexivity|]. apply IH. lia. }
              rewrite K. cbn [filter]. rewrite G2. destruct (g' (nth m l 0)); cbn [map]; rewrite ?G1, IH by lia; reflexivity. }
          specialize (M 0). rewrite Nat.sub_0_r in M. exact M. }
        rewrite Q. apply Permutation_map, Permutation_filter. exact P.
  Qed.
End Rank.

(** ** The file *)
Lemma concat_find {A} : forall (ll : list (list A)) q, q < length (concat ll) ->
  exists r l, nth_error ll r = Some l /\ list_sum (map (@length _) (firstn r ll)) <= q < list_sum (map (@length _) (firstn r ll)) + length l.
Proof.
  induction ll as [|l ll IH]; intros q Hq; [cbn in Hq; lia|]. cbn [concat] in Hq. rewrite app_length in Hq.
  destruct (Nat.lt_ge_cases q (length l)) as [H|H].
  - exists 0, l. cbn. split; [reflexivity|lia].
  - destruct (IH (q - length l) ltac:(lia)) as (r & l' & E & B). exists (S r), l'. cbn. split; [exact E|]. unfold list_sum in *. lia.
Qed.
Lemma concat_at {A} : forall (ll : list (list A)) r l q, nth_error ll r = Some l -> list_sum (map (@length _) (firstn r ll)) <= q < list_sum (map (@length _) (firstn r ll)) + length l ->
  nth_error (concat ll) q = nth_error l (q - list_sum (map (@length _) (firstn r ll))).
Proof.
  induction ll as [|x ll IH]; intros [|r] l q E B; try discriminate.
  - injection E as ->. cbn [firstn map list_sum fold_right concat] in *. rewrite Nat.sub_0_r. apply nth_error_app1. cbn in B. lia.
  - cbn [nth_error firstn map concat] in *. change (list_sum (length x :: map (@length _) (firstn r ll))) with (length x + list_sum (map (@length _) (firstn r ll))) in *.
    rewrite nth_error_app2 by lia. rewrite (IH r l) by (auto; lia). f_equal. lia.
Qed.
Lemma windows {A} : forall (ll : list (list A)) r r' l l' q, nth_error ll r = Some l -> nth_error ll r' = Some l' ->
  list_sum (map (@length _) (firstn r ll)) <= q < list_sum (map (@length _) (firstn r ll)) + length l ->
  list_sum (map (@length _) (firstn r' ll)) <= q < list_sum (map (@length _) (firstn r' ll)) + length l' -> r = r'.
Proof.
  induction ll as [|x ll IH]; intros [|r] [|r'] l l' q E E' B B'; try discriminate; [reflexivity| | |].
  - injection E as ->. cbn [firstn map] in *. change (list_sum (length l :: map (@length _) (firstn r' ll))) with (length l + list_sum (map (@length _) (firstn r' ll))) in *. cbn in B. lia.
  - injection E' as ->. cbn [firstn map] in *. change (list_sum (length l' :: map (@length _) (firstn r ll))) with (length l' + list_sum (map (@length _) (firstn r ll))) in *. cbn in B'. lia.
  - cbn [nth_error firstn map] in *. f_equal.
    change (list_sum (length x :: map (@length _) (firstn r ll))) with (length x + list_sum (map (@length _) (firstn r ll))) in *.
    change (list_sum (length x :: map (@length _) (firstn r' ll))) with (length x + list_sum (map (@length _) (firstn r' ll))) in *.
    apply (IH r r' l l' (q - length x)); auto; lia.
Qed.
Lemma puts n total first b k : forall cols f,
  shape (fold_left (fun f k => put k n total first (b k) f) cols f) k = (if in_dec column_eq_dec k cols then Some total else shape f k) /\
  forall q, data (fold_left (fun f k => put k n total first (b k) f) cols f) k q =
    if in_dec column_eq_dec k cols then if Nat.leb first q && Nat.ltb q (first + n) then Some (b k (q - first)) else data f k q else data f k q.
Proof.
  induction cols as [|a cols IH]; intro f; [split; reflexivity|]. cbn [fold_left].
  destruct (IH (put a n total first (b a) f)) as [I1 I2]. split; [rewrite I1|intro q; rewrite I2]; clear I1 I2 IH; cbn [put shape data].
  - destruct (in_dec column_eq_dec k cols) as [J|J]; destruct (in_dec column_eq_dec k (a :: cols)) as [K|K]; auto.
    + exfalso. apply K. now right.
    + destruct column_eq_dec as [|N]; [reflexivity|]. destruct K as [K|K]; congruence.
    + destruct column_eq_dec as [->|N]; [exfalso; apply K; now left|reflexivity].
  - destruct (in_dec column_eq_dec k cols) as [J|J]; destruct (in_dec column_eq_dec k (a :: cols)) as [K|K];
      destruct (column_eq_dec k a) as [E|N]; subst; auto; try (exfalso; apply K; now (left + right)); try (destruct K; congruence).
    destruct (_ && _); reflexivity.
Qed.
Section File.
  Variables (cols : list column) (b : nat -> column -> nat -> Z) (ns : list nat).
  Let total := list_sum ns.
  Definition write_rank (f : ofile) (r : nat) : ofile :=
    match nth_error ns r with Some n => fold_left (fun f k => put k n total (offset_of ns r) (b r k) f) cols f | None => f end.
  Definition covers r q := match nth_error ns r with Some n => Nat.leb (offset_of ns r) q && Nat.ltb q (offset_of ns r + n) | None => false end.
  Lemma write_rank_spec f r k :
    (In k cols -> (r < length ns -> shape (write_rank f r) k = Some total) /\ (shape f k = Some total -> shape (write_rank f r) k = Some total) /\
      forall q, data (write_rank f r) k q = if covers r q then Some (b r k (q - offset_of ns r)) else data f k q) /\
    (~ In k cols -> shape (write_rank f r) k = shape f k /\ forall q, data (write_rank f r) k q = data f k q).
  Proof.
    unfold write_rank, covers. destruct (nth_error ns r) as [n|] eqn:E.
    - destruct (puts n total (offset_of ns r) (b r) k cols f) as [P1 P2]. destruct in_dec as [J|J]; split; intro K; try contradiction.
      + repeat split; auto.
      + split; auto.
    - split; intro K; [repeat split; auto|split; reflexivity]. intro L. apply nth_error_None in E. lia.
  Qed.
  Lemma fold_out k : ~ In k cols -> forall ts f, shape (fold_left write_rank ts f) k = shape f k /\ forall q, data (fold_left write_rank ts f) k q = data f k q.
  Proof.
    intro K. induction ts as [|r ts IH]; intro f; [split; reflexivity|]. cbn [fold_left]. destruct (IH (write_rank f r)) as [-> H]. destruct (write_rank_spec f r k) as [_ S].
    destruct (S K) as [-> S2]. split; [reflexivity|]. intro q. rewrite H. apply S2.
  Qed.
  Lemma fold_shape k : In k cols -> forall ts f, (shape f k = Some total \/ exists r, In r ts /\ r < length ns) -> shape (fold_left write_rank ts f) k = Some total.
  Proof.
    intro K. induction ts as [|r ts IH]; intros f [H|[x [H L]]]; [exact H|contradiction| |]; cbn [fold_left]; apply IH; destruct (write_rank_spec f r k) as [S _]; destruct (S K) as (S1 & S2 & _).
    - left. auto.
    - destruct H as [->|H]; [left; auto|right; eauto].
  Qed.
  Lemma fold_data_none k q : In k cols -> (forall r, covers r q = false) -> forall ts f, data (fold_left write_rank ts f) k q = data f k q.
  Proof.
    intros K N. induction ts as [|r ts IH]; intro f; [reflexivity|]. cbn [fold_left]. rewrite IH. destruct (write_rank_spec f r k) as [S _]. destruct (S K) as (_ & _ & S3). rewrite S3, N. reflexivity.
  Qed.
  Lemma fold_data_some k q r0 : In k cols -> (forall r, covers r q = true <-> r = r0) ->
    forall ts f, (data f k q = Some (b r0 k (q - offset_of ns r0)) \/ In r0 ts) -> data (fold_left write_rank ts f) k q = Some (b r0 k (q - offset_of ns r0)).
  Proof.
    intros K N. induction ts as [|r ts IH]; intros f H; [destruct H as [H|[]]; exact H|]. cbn [fold_left]. apply IH. destruct (write_rank_spec f r k) as [S _]. destruct (S K) as (_ & _ & S3). rewrite S3.
    destruct (covers r q) eqn:E; [apply N in E as ->; left; reflexivity|]. destruct H as [H|[->|H]]; [left; exact H| |right; exact H].
    exfalso. rewrite (proj2 (N r0) eq_refl) in E. discriminate.
  Qed.
End File.
Lemma fold_left_ext_in {A B} (f g : A -> B -> A) l : (forall a x, In x l -> f a x = g a x) -> forall a, fold_left f l a = fold_left g l a.
Proof. induction l as [|x l IH]; intros H a; [reflexivity|]. cbn. rewrite (H a x) by (now left). apply IH. intros a' y Hy. apply H. now right. Qed.

Section All.
  Variables (c : cfg) (gr tr mpi : bool) (xph : nat -> Z -> Z -> Z) (uph : nat -> list Z -> list Z -> Z).
  Definition frow (s : parts) (p : nat) (k : column) : Z := kernel_value c gr tr mpi xph uph s p k.
  Definition file_rows (prep : list (parts * list nat)) : list (column -> Z) := concat (map (fun x => map (frow (fst x)) (snd x)) prep).
  Lemma assemble order turns stride (ranks : list (bool * parts)) prep : 1 <= dim c <= 3 -> ranks <> [] ->
    (forall r l, Permutation (order r l) l) -> (forall l, Permutation (turns l) l) ->
    mapM (fun '(r, rank) => prepare c tr stride (order r) rank) (combine (seq 0 (length ranks)) ranks) = Ok prep -> length prep = length ranks ->
    exists f, output c gr tr mpi xph uph stride order turns ranks = Ok f /\ holds f (declared c tr mpi) (file_rows prep).
  Proof.
    intros HD NE HO HTn HM HL. unfold output. rewrite HM. cbn [rbind]. eexists. split; [reflexivity|].
    set (ns := map (fun x => length (snd x)) prep). set (n := length ranks) in *.
    set (b := fun r => match nth_error prep r with Some (s, idx) => buffers c gr tr mpi xph uph (order r) s idx | None => fun _ _ => 0%Z end).
    assert (EF : forall l f, fold_left (fun f r => match nth_error prep r with Some (s, idx) =>
        let b := buffers c gr tr mpi xph uph (order r) s idx in fold_left (fun f k => put k (length idx) (list_sum ns) (offset_of ns r) (b k) f) (written c tr mpi) f | None => f end) l f =
      fold_left (write_rank (written c tr mpi) b ns) l f).
    { intros l f. apply fold_left_ext_in. intros a r _. unfold write_rank, b, ns. rewrite nth_error_map. destruct (nth_error prep r) as [[s idx]|]; reflexivity. }
    rewrite EF. clear EF.
    assert (Ln : length ns = n) by (unfold ns; rewrite map_length; exact HL).
    set (ll := map (fun x => map (frow (fst x)) (snd x)) prep).
    assert (EN : forall r, list_sum (map (@length _) (firstn r ll)) = offset_of ns r).
    { intro r. unfold offset_of, ll, ns. rewrite !firstn_map, map_map. f_equal. apply map_ext. intro x. apply map_length. }
    assert (Tot : length (concat ll) = list_sum ns).
    { clear. unfold ll, ns. induction prep as [|x l IH]; [reflexivity|]. cbn [map concat]. rewrite app_length, IH, map_length. reflexivity. }
    assert (In0 : forall r, r < n -> In r (turns (seq 0 n))).
    { intros r Hr. eapply Permutation_in; [apply Permutation_sym, HTn|]. apply in_seq. lia. }
    assert (Cov : forall r q, covers ns r q = true <-> exists s idx, nth_error prep r = Some (s, idx) /\ offset_of ns r <= q < offset_of ns r + length idx).
    { intros r q. unfold covers, ns at 1. rewrite nth_error_map. destruct (nth_error prep r) as [[s idx]|]; cbn [option_map snd].
      - rewrite andb_true_iff, Nat.leb_le, Nat.ltb_lt. split; [intro H; exists s, idx; auto|]. intros (s' & idx' & [= <- <-] & H). exact H.
      - split; [discriminate|]. intros (s' & idx' & E & _). discriminate. }
    intro k. rewrite (same_columns c tr mpi k HD). split; intro K.
    - split.
      + unfold file_rows. fold ll. rewrite Tot. apply fold_shape; [exact K|]. right. exists 0. assert (0 < n) by (unfold n; destruct ranks; [congruence|cbn; lia]). split; [apply In0; exact H|lia].
      + intro q. unfold file_rows. fold ll. destruct (Nat.lt_ge_cases q (length (concat ll))) as [Hq|Hq].
        * destruct (concat_find ll q Hq) as (r & l & El & B). rewrite (concat_at ll r l q El B). pose proof B as B'. rewrite EN in B' |- *.
          unfold ll in El. rewrite nth_error_map in El. destruct (nth_error prep r) as [[s idx]|] eqn:Ep; [|discriminate]. injection El as <-. cbn [fst snd] in *. rewrite map_length in B'.
          rewrite (fold_data_some (written c tr mpi) b ns k q r K).
          -- unfold b. rewrite Ep, (buffers_ok c gr tr mpi xph uph (order r) s idx k _ (HO r)) by lia.
             rewrite nth_error_map. rewrite (nth_error_nth' idx 0) by lia. reflexivity.
          -- intro r'. rewrite Cov. split.
             ++ intros (s' & idx' & E' & W). apply (windows ll r' r (map (frow s') idx') (map (frow s) idx) q).
                ** unfold ll. rewrite nth_error_map, E'. reflexivity.
                ** unfold ll. rewrite nth_error_map, Ep. reflexivity.
                ** rewrite EN, map_length. exact W.
                ** rewrite EN, map_length. exact B'.
             ++ intros ->. exists s, idx. auto.
          -- right. apply In0. rewrite <- HL. apply nth_error_Some. rewrite Ep. discriminate.
        * rewrite fold_data_none; [|exact K|].
          -- cbn [no_file data]. rewrite (proj2 (nth_error_None _ _)) by exact Hq. reflexivity.
          -- intro r. destruct (covers ns r q) eqn:E; [|reflexivity]. exfalso. apply Cov in E as (s & idx & Ep & W).
             assert (Es : nth_error ll r = Some (map (frow s) idx)) by (unfold ll; rewrite nth_error_map, Ep; reflexivity).
             assert (X : nth_error (concat ll) q = nth_error (map (frow s) idx) (q - offset_of ns r)).
             { rewrite (concat_at ll r _ q Es); [rewrite EN; reflexivity|]. rewrite EN, map_length. exact W. }
             rewrite (proj2 (nth_error_None _ _) Hq) in X. symmetry in X. apply nth_error_None in X. rewrite map_length in X. lia.
    - destruct (fold_out (written c tr mpi) b ns k K (turns (seq 0 n)) no_file) as [F1 F2]. split; [rewrite F1; reflexivity|]. intro q. rewrite F2. reflexivity.
  Qed.
  Lemma mapM_ok {A B} (f : A -> res B) (P : A -> B -> Prop) l : (forall a, In a l -> exists b, f a = Ok b /\ P a b) -> exists bs, mapM f l = Ok bs /\ Forall2 P l bs.
  Proof.
    induction l as [|a l IH]; intro H; [exists []; split; [reflexivity|constructor]|].
    destruct (H a (or_introl eq_refl)) as (b & E & Pb). destruct IH as (bs & E2 & Pbs); [intros x Hx; apply H; now right|].
    exists (b :: bs). cbn. rewrite E. cbn. rewrite E2. split; [reflexivity|constructor; assumption].
  Qed.
  Lemma combine_snd {A B} (P : A -> B -> Prop) : forall (l : list A) k bs, Forall2 (fun x b => P (snd x) b) (combine (seq k (length l)) l) bs -> Forall2 P l bs.
  Proof.
    induction l as [|a l IH]; intros k bs F; cbn in F; inversion F; subst; constructor; auto. eapply IH. eassumption.
  Qed.
  Lemma rows_list (prep : list (parts * list nat)) :
    map (fun r => map r (declared c tr mpi)) (file_rows prep) = flat_map (fun x => map (row c gr tr mpi xph uph (fst x)) (snd x)) prep.
  Proof.
    unfold file_rows. rewrite concat_map, map_map, flat_map_concat_map. f_equal. apply map_ext. intro x. rewrite map_map. apply map_ext. intro p.
    unfold row, frow. apply map_ext. intro k. apply value_says.
  Qed.

  Hypothesis HD : 1 <= dim c <= 3.
  Hypothesis HT : num_track_plds tr mpi <= npld_i c.
  Theorem tracked_output stride order turns ranks : tr = true -> 0 < stride -> ranks <> [] ->
    (forall r l, Permutation (order r l) l) -> (forall l, Permutation (turns l) l) -> (forall rk, In rk ranks -> tidy (snd rk)) ->
    exists f l, output c gr tr mpi xph uph stride order turns ranks = Ok f /\ holds f (declared c tr mpi) l /\
      Permutation (map (fun r => map r (declared c tr mpi)) l) (flat_map (fun rk => map (row c gr tr mpi xph uph (snd rk)) (filter (wanted stride (snd rk)) (live (snd rk)))) ranks).
  Proof.
    intros Et Hs NE HO HTn Hy.
    destruct (mapM_ok (fun '(r, rank) => prepare c tr stride (order r) rank)
      (fun x y => Permutation (map (row c gr tr mpi xph uph (fst y)) (snd y)) (map (row c gr tr mpi xph uph (snd (snd x))) (filter (wanted stride (snd (snd x))) (live (snd (snd x))))))
      (combine (seq 0 (length ranks)) ranks)) as (prep & EM & F).
    { intros [r [so s]] Hin. apply in_combine_r in Hin. destruct (tracked c gr tr mpi xph uph HD HT stride (order r) so s Et Hs (HO r) (Hy _ Hin)) as (s1 & idx & E & P).
      exists (s1, idx). split; [exact E|exact P]. }
    apply (combine_snd (fun x y => Permutation (map (row c gr tr mpi xph uph (fst y)) (snd y)) (map (row c gr tr mpi xph uph (snd x)) (filter (wanted stride (snd x)) (live (snd x)))))) in F.
    destruct (assemble order turns stride ranks prep HD NE HO HTn EM) as (f & E & H); [symmetry; eapply Forall2_length; exact F|].
    exists f, (file_rows prep). repeat split; try exact E; try apply H; try assumption. rewrite rows_list. clear -F. induction F as [|x y l1 l2 P F IH]; [constructor|]. cbn [flat_map]. apply Permutation_app; assumption.
  Qed.
  Theorem untracked_output stride order turns ranks : tr = false -> 0 < stride -> ranks <> [] ->
    (forall r l, Permutation (order r l) l) -> (forall l, Permutation (turns l) l) -> (forall rk, In rk ranks -> tidy (snd rk) /\ honest rk) ->
    exists f l picks, output c gr tr mpi xph uph stride order turns ranks = Ok f /\ holds f (declared c tr mpi) l /\
      Forall2 (fun rk p => Permutation p (live (snd rk))) ranks picks /\
      map (fun r => map r (declared c tr mpi)) l = flat_map (fun x => map (row c gr tr mpi xph uph (snd (fst x))) (every stride (snd x))) (combine ranks picks).
  Proof.
    intros Et Hs NE HO HTn Hy.
    destruct (mapM_ok (fun '(r, rank) => prepare c tr stride (order r) rank)
      (fun x y => exists p, Permutation p (live (snd (snd x))) /\ map (row c gr tr mpi xph uph (fst y)) (snd y) = map (row c gr tr mpi xph uph (snd (snd x))) (every stride p))
      (combine (seq 0 (length ranks)) ranks)) as (prep & EM & F).
    { intros [r [so s]] Hin. apply in_combine_r in Hin. destruct (Hy _ Hin) as [Hy1 Hy2]. destruct (untracked c gr tr mpi xph uph HD HT stride (order r) so s Et Hs (HO r) Hy1 Hy2) as (s1 & idx & p & E & P & R).
      exists (s1, idx). split; [exact E|exists p; auto]. }
    apply (combine_snd (fun x y => exists p, Permutation p (live (snd x)) /\ map (row c gr tr mpi xph uph (fst y)) (snd y) = map (row c gr tr mpi xph uph (snd x)) (every stride p))) in F.
    destruct (assemble order turns stride ranks prep HD NE HO HTn EM) as (f & E & H); [symmetry; eapply Forall2_length; exact F|].
    assert (G : exists picks, Forall2 (fun rk p => Permutation p (live (snd rk))) ranks picks /\
      flat_map (fun x => map (row c gr tr mpi xph uph (fst x)) (snd x)) prep = flat_map (fun x => map (row c gr tr mpi xph uph (snd (fst x))) (every stride (snd x))) (combine ranks picks)).
    { clear -F. induction F as [|x y l1 l2 (p & P & R) F IH]; [exists []; split; [constructor|reflexivity]|]. destruct IH as (picks & P2 & R2).
      exists (p :: picks). split; [constructor; assumption|]. cbn [flat_map combine fst snd]. rewrite R, R2. reflexivity. }
    destruct G as (picks & G1 & G2). exists f, (file_rows prep), picks. rewrite rows_list. auto.
  Qed.
  Theorem whole_output order turns ranks : tr = false -> ranks <> [] ->
    (forall r l, Permutation (order r l) l) -> (forall l, Permutation (turns l) l) -> (forall rk, In rk ranks -> tidy (snd rk) /\ honest rk) ->
    exists f l, output c gr tr mpi xph uph 1 order turns ranks = Ok f /\ holds f (declared c tr mpi) l /\
      Permutation (map (fun r => map r (declared c tr mpi)) l) (flat_map (fun rk => map (row c gr tr mpi xph uph (snd rk)) (live (snd rk))) ranks).
  Proof.
    intros Et NE HO HTn Hy. destruct (untracked_output 1 order turns ranks Et Nat.lt_0_1 NE HO HTn Hy) as (f & l & picks & E & H & F & R).
    exists f, l. split; [exact E|]. split; [exact H|]. rewrite R. clear -F. induction F as [|x p l1 l2 P F IH]; [constructor|]. cbn [combine flat_map fst snd]. apply Permutation_app; [|exact IH].
    apply Permutation_map. replace (every 1 p) with p; [exact P|]. unfold every. rewrite Nat.div_1_r. symmetry. rewrite (map_ext _ (fun j => nth j p 0)) by (intro j; f_equal; lia). rewrite <- (map_id p) at 2. apply map_nth_seq. intros q a Ha. apply nth_error_nth with (d := 0) in Ha. exact Ha.
  Qed.
End All.

Lemma declared_iff c tr mpi k : In k (declared c tr mpi) <-> variable c tr mpi k.
Proof.
  unfold declared. rewrite !in_app_iff, !in_when, !in_map_iff.
  assert (EP : has_phi c = true <-> dim c = 2 /\ cart c = false).
  { unfold has_phi. rewrite andb_true_iff, Nat.eqb_eq, negb_true_iff. reflexivity. }
  split.
  - intros [[d [<- H]]|[[d [<- H]]|[[<-|[]]|[[_ H]|[[Et H]|[_ [l [<- H]]]]]]]].
    + apply in_seq in H. cbn. destruct (has_phi c); [|left; lia]. destruct EP as [EP _]. destruct (EP eq_refl). destruct (Nat.lt_ge_cases d (dim c)); [left; lia|right; repeat split; auto; lia].
    + apply in_seq in H. cbn. lia.
    + exact Logic.I.
    + destruct H as [l [<- H]]. apply in_seq in H. cbn. lia.
    + destruct H as [<-|H]; [exact Et|]. apply in_when in H as [Em [<-|[]]]. split; assumption.
    + apply in_seq in H. fold (num_track_plds tr mpi). cbn. fold (num_track_plds tr mpi). lia.
  - destruct k; cbn [variable].
    + intro H. left. destruct d as [|d]; [lia|]. exists d. split; [f_equal; lia|]. apply in_seq. destruct H as [H|[H1 [H2 H3]]]; [lia|]. rewrite (proj2 EP (conj H1 H2)). lia.
    + intro H. right. left. destruct d as [|d]; [lia|]. exists d. split; [f_equal; lia|]. apply in_seq. lia.
    + intros _. right. right. left. now left.
    + intro H. do 3 right. left. split; [apply Nat.ltb_lt; lia|]. exists l. split; [reflexivity|]. apply in_seq. lia.
    + intros ->. do 4 right. left. split; [reflexivity|now left].
    + intros [-> ->]. do 4 right. left. split; [reflexivity|right; now left].
    + fold (num_track_plds tr mpi). intro H. do 5 right. split; [apply Nat.ltb_lt; lia|]. exists (l + num_track_plds tr mpi). split; [f_equal; lia|apply in_seq; lia].
Qed.
Lemma nodup_map {A B} (f : A -> B) l : (forall x y, In x l -> In y l -> f x = f y -> x = y) -> NoDup l -> NoDup (map f l).
Proof.
  intros H N. induction N as [|a l Na N IH]; [constructor|]. cbn. constructor; [|apply IH; intros x y Hx Hy; apply H; now right].
  intro I. apply in_map_iff in I as [x [E Hx]]. apply Na. rewrite <- (H x a); auto; [now right|now left].
Qed.
Lemma nodup_app {A} (l1 l2 : list A) : NoDup l1 -> NoDup l2 -> (forall x, In x l1 -> In x l2 -> False) -> NoDup (l1 ++ l2).
Proof.
  intros N1 N2 H. induction N1 as [|a l Na N1 IH]; [exact N2|]. cbn. constructor.
  - rewrite in_app_iff. intros [I|I]; [contradiction|]. apply (H a); [now left|exact I].
  - apply IH. intros x Hx. apply H. now right.
Qed.
Lemma declared_nodup c tr mpi : NoDup (declared c tr mpi).
Proof.
  unfold declared. repeat apply nodup_app.
  all: try (intros x H1 H2; rewrite ?in_app_iff, ?in_when, ?in_map_iff in H1; rewrite ?in_app_iff, ?in_when, ?in_map_iff in H2;
    repeat match goal with
    | H : _ \/ _ |- _ => destruct H | H : _ /\ _ |- _ => destruct H | H : exists _, _ |- _ => destruct H
    | H : In _ (when _ _) |- _ => apply in_when in H | H : In _ (_ :: _) |- _ => destruct H | H : In _ [] |- _ => destruct H
    end; subst; discriminate).
  - apply nodup_map; [|apply seq_NoDup]. intros x y _ _ [=]. lia.
  - apply nodup_map; [|apply seq_NoDup]. intros x y _ _ [=]. lia.
  - repeat constructor. intros [].
  - unfold when. destruct Nat.ltb; [|constructor]. apply nodup_map; [|apply seq_NoDup]. intros x y _ _ [=]. lia.
  - unfold when. destruct tr, mpi; repeat constructor; cbn; intuition discriminate.
  - unfold when. destruct Nat.ltb; [|constructor]. apply nodup_map; [|apply seq_NoDup]. intros x y Hx Hy [=]. apply in_seq in Hx, Hy. lia.
Qed.
