From Coq Require Import ZArith List Bool Arith Lia Permutation.
From Verif Require Import Base ListLemmas DecompModel DecompSpec DecompProofs DecompTop
  HaloModel HaloSpec HaloProofs SyncProofs PrtlModel PrtlSpec CkptModel CkptSpec.
Import ListNotations.
Open Scope Z_scope.

(** * Selections *)
Definition span (a n : Z) : Z * Z := (a, a + n).

Lemma selection_box : forall first count, length first = length count ->
  selection first count = box (map2 span first count).
Proof.
  induction first as [|a first IH]; intros [|n count] L; try discriminate; auto.
  cbn [selection map2 box span]. injection L as L. rewrite (IH _ L).
  unfold span at 2. unfold zrange. replace (a + n - a) with n by lia.
  rewrite !flat_map_concat_map, map_map. reflexivity.
Qed.

Lemma in_selection first count x : length first = length count ->
  (In x (selection first count) <-> exists y, in_box y count /\ x = map2 Z.add first y).
Proof.
  intros L. rewrite selection_box by auto. rewrite in_boxl. unfold in_box.
  revert count L x; induction first as [|a first IH]; intros [|n count] L x; try discriminate; cbn [map2].
  - split.
    + intros H; inversion H; subst. exists []. split; constructor.
    + intros [y [H ->]]. constructor.
  - injection L as L. split.
    + intros H. inversion H as [|b r x' m Hb Hx]; subst. apply (IH _ L) in Hx as [y [Y1 ->]].
      unfold span in Hb; cbn [fst snd] in Hb.
      exists (b - a :: y). split; [constructor; auto; lia|]. cbn [map2]. f_equal. lia.
    + intros [y [H ->]]. inversion H as [|b ? y' ? Hb Hy]; subst. cbn [map2]. constructor.
      * unfold span; cbn [fst snd]. lia.
      * apply (IH _ L). eauto.
Qed.

Lemma nodup_selection first count : length first = length count -> NoDup (selection first count).
Proof. intros L. rewrite selection_box by auto. apply nodup_box. Qed.

Lemma flat_map_length {A B} (f : A -> list B) k l : (forall a, length (f a) = k) ->
  length (flat_map f l) = (length l * k)%nat.
Proof. intros H. induction l as [|a l IH]; simpl; auto. rewrite app_length, H, IH. lia. Qed.

Lemma selection_length : forall first count, length first = length count -> Forall (fun n => 0 <= n) count ->
  Z.of_nat (length (selection first count)) = prodZ count.
Proof.
  induction first as [|a first IH]; intros [|n count] L P; try discriminate; auto.
  injection L as L. inversion P as [|? ? P1 P2]; subst.
  cbn [selection]. rewrite (flat_map_length _ (length (selection first count))).
  - rewrite seq_length, Nat2Z.inj_mul, (IH _ L P2), Z2Nat.id by lia. reflexivity.
  - intros i. apply map_length.
Qed.

Section Arrays.
  Context {V : Type}.
  Implicit Types (v : variable V).

  Lemma list_eqb_spec a b : list_eqb a b = true <-> a = b.
  Proof. unfold list_eqb. destruct (list_eq_dec _ _ _); split; congruence. Qed.

  Lemma fold_store_out l v x : ~ In x (map fst l) ->
    fold_left (fun v p => store v (fst p) (snd p)) l v x = v x.
  Proof.
    revert v; induction l as [|[y a] l IH]; intros v H; simpl; auto.
    simpl in H. rewrite IH by tauto. unfold store. simpl.
    destruct (list_eqb x y) eqn:E; auto. apply list_eqb_spec in E. subst. tauto.
  Qed.

  Lemma fold_store_in : forall keys mem v, NoDup keys -> length mem = length keys ->
    map (fold_left (fun v p => store v (fst p) (snd p)) (combine keys mem) v) keys = map Some mem.
  Proof.
    induction keys as [|k keys IH]; intros [|m mem] v N L; try discriminate; auto.
    inversion N as [|? ? N1 N2]; subst. injection L as L. cbn [combine fold_left map]. f_equal.
    - rewrite fold_store_out.
      + unfold store. simpl. assert (list_eqb k k = true) as -> by (apply list_eqb_spec; auto). auto.
      + intros H. apply N1. clear - H L. revert mem L H.
        induction keys as [|a keys IH]; intros [|m mem] L H; simpl in *; try tauto; try discriminate.
        destruct H; auto. right. eapply IH; [|eauto]. congruence.
    - rewrite <- (IH mem (store v (fst (k, m)) (snd (k, m))) N2 L). reflexivity.
  Qed.

  Lemma map_fst_combine {A B} (l : list A) (k : list B) x : In x (map fst (combine l k)) -> In x l.
  Proof.
    revert k; induction l as [|a l IH]; intros [|b k]; simpl; try tauto. intros [H|H]; eauto.
  Qed.

  (** A family of regions [sel i] written one after the other. *)
  Variables (I : Type) (shape : list Z) (first count : I -> list Z) (mem : I -> list V).

  Fixpoint puts (l : list I) v : res (variable V) :=
    match l with
    | [] => Ok v
    | i :: l' => rbind (put shape (first i) (count i) (mem i) v) (puts l')
    end.

  Lemma puts_out l v v' x : puts l v = Ok v' ->
    (forall i, In i l -> ~ In x (selection (first i) (count i))) -> v' x = v x.
  Proof.
    revert v; induction l as [|i l IH]; intros v E H; simpl in E; [congruence|].
    unfold put in E. destruct (fits shape (first i) (count i)); [|discriminate]. simpl in E.
    rewrite (IH _ E) by (intros; apply H; simpl; auto).
    apply fold_store_out. intros C. apply map_fst_combine in C. apply (H i); simpl; auto.
  Qed.

  Lemma puts_ok l v :
    (forall i, In i l -> fits shape (first i) (count i) = true) ->
    exists v', puts l v = Ok v'.
  Proof.
    revert v; induction l as [|i l IH]; intros v H; [exists v; reflexivity|].
    cbn [puts]. unfold put. rewrite H by (simpl; auto). cbn [rbind].
    apply IH. intros; apply H; simpl; auto.
  Qed.

  Lemma puts_get l v v' : puts l v = Ok v' -> NoDup l ->
    (forall i, In i l -> length (first i) = length (count i)) ->
    (forall i, In i l -> length (mem i) = length (selection (first i) (count i))) ->
    (forall i j x, In i l -> In j l -> In x (selection (first i) (count i)) ->
       In x (selection (first j) (count j)) -> i = j) ->
    forall i, In i l -> get shape (first i) (count i) v' = Ok (map Some (mem i)).
  Proof.
    revert v; induction l as [|a l IH]; intros v E N L M D i Hi; [destruct Hi|].
    inversion N as [|? ? N1 N2]; subst. cbn [puts] in E. unfold put in E.
    destruct (fits shape (first a) (count a)) eqn:F; [|discriminate]. cbn [rbind] in E.
    destruct Hi as [<-|Hi].
    - unfold get. rewrite F. f_equal.
      rewrite <- (fold_store_in (selection (first a) (count a)) (mem a) v).
      + apply map_ext_in. intros x Hx. apply (puts_out _ _ _ _ E). intros j Hj C.
        assert (a = j) by (eapply D; simpl; eauto). subst. contradiction.
      + apply nodup_selection. apply L. simpl; auto.
      + apply M. simpl; auto.
    - eapply IH; eauto; intros; try (apply L; simpl; auto); try (apply M; simpl; auto).
      eapply D; simpl; eauto.
  Qed.
End Arrays.

(** * Regions of the subdomains *)
Definition fat (G : Z) (ls : list (list Z)) : list (list Z) := map (map (fun n => n + 2 * G)) ls.

Lemma counts_fat G ls : counts (fat G ls) = counts ls.
Proof. unfold counts, fat. rewrite map_map. apply map_ext. intros. rewrite map_length. auto. Qed.

Lemma sum_fat G l : sumZ (map (fun n => n + 2 * G) l) = sumZ l + 2 * G * Z.of_nat (length l).
Proof.
  induction l as [|a l IH]; [simpl; lia|]. cbn [map length]. unfold sumZ in *. cbn [fold_right].
  rewrite IH. lia.
Qed.

Lemma full_shape_fat G ls : full_shape G ls = map sumZ (fat G ls).
Proof. unfold full_shape, fat. rewrite map_map. auto. Qed.

Lemma storable_fat G ls : storable G ls -> Forall (Forall (fun a => 0 <= a)) (fat G ls).
Proof.
  intros [Hg H]. unfold fat. rewrite Forall_map. eapply Forall_impl; [|exact H]. cbn beta.
  intros l [[_ P] _]. rewrite Forall_map. eapply Forall_impl; [|exact P]. cbn beta. lia.
Qed.

Lemma firstn_sum_le k l : Forall (fun n => 0 < n) l -> 0 <= sumZ (firstn k l) <= sumZ l.
Proof.
  intros H. revert k; induction H as [|a l Ha H IH]; intros [|k]; simpl; [lia|lia| |].
  - specialize (IH O). simpl in IH. lia.
  - specialize (IH k). lia.
Qed.

Lemma off_fat G l a : 0 <= G -> Forall (fun n => 0 < n) l -> sumZ l + 2 * G * len l < 2 ^ 32 -> 0 <= a < len l ->
  off (map (fun n => n + 2 * G) l) a = w32 (off l a + 2 * G * a).
Proof.
  intros Hg P B Ha. unfold len in *.
  rewrite !off_sum by (unfold len; rewrite ?map_length; lia).
  rewrite firstn_map, sum_fat, firstn_length_le by lia. rewrite Z2Nat.id by lia.
  symmetry. apply w32_small. pose proof (firstn_sum_le (Z.to_nat a) l P). nia.
Qed.

Lemma blk_fat G l a : 0 <= a < len l -> blk (map (fun n => n + 2 * G) l) a = blk l a + 2 * G.
Proof.
  intros Ha. unfold blk, len in *. rewrite (nth_indep _ 0 (0 + 2 * G)) by (rewrite map_length; lia).
  rewrite (map_nth (fun n => n + 2 * G)). lia.
Qed.

Lemma fat_geometry G ls : storable G ls -> forall o, in_box o (counts ls) ->
  offs (fat G ls) o = map2 (fun c n => w32 (c + 2 * G * n)) (offs ls o) o /\
  size (fat G ls) o = map (fun n => n + 2 * G) (size ls o).
Proof.
  intros [Hg H]. induction H as [|l ls [[_ P] B] H IH]; intros o Ho; inversion Ho as [|a ? o' ? Ha Ho']; subst.
  - split; reflexivity.
  - destruct (IH _ Ho') as [E1 E2]. unfold offs in *. cbn [fat map map2]. rewrite !size_cons. cbn [map].
    fold (fat G ls). split; f_equal; auto; [apply off_fat|apply blk_fat]; auto.
Qed.

Lemma shape_fat G ls : storable G ls ->
  shape_with_ghosts G (map sumZ ls) (counts ls) = map sumZ (fat G ls).
Proof.
  intros [Hg H]. unfold shape_with_ghosts, counts, fat.
  induction H as [|l ls [[_ P] B] H IH]; cbn [map map2]; auto. f_equal; auto.
  rewrite sum_fat. apply w32_small. assert (0 <= 2 * G * Z.of_nat (length l)) by nia.
  assert (0 <= sumZ l) by (apply sumZ_nonneg; eapply Forall_impl; [|exact P]; cbn beta; lia). lia.
Qed.

(** The subdomain of the fattened grid that corresponds to a subdomain. *)
Lemma fat_dom G ls d : storable G ls -> In d (domains ls) ->
  exists d2, In d2 (domains (fat G ls)) /\ sub_offset_ndomains d2 = sub_offset_ndomains d /\
    sub_offset_ncells d2 = first_with_ghosts G d /\ sub_ncells d2 = n_all G d.
Proof.
  intros S Hd. destruct (dom_pos ls d Hd) as [B [E1 E2]].
  destruct (pos_dom (fat G ls) (sub_offset_ndomains d)) as [d2 [D1 D2]]; [rewrite counts_fat; auto|].
  destruct (dom_pos _ d2 D1) as [B2 [F1 F2]]. destruct (fat_geometry G ls S _ B) as [X1 X2].
  exists d2. split; auto. split; auto. rewrite F1, F2, D2. unfold first_with_ghosts, n_all.
  rewrite E1, E2. auto.
Qed.

Lemma fat_dom_inv G ls d2 : storable G ls -> In d2 (domains (fat G ls)) ->
  exists d, In d (domains ls) /\ sub_offset_ndomains d2 = sub_offset_ndomains d /\
    sub_offset_ncells d2 = first_with_ghosts G d /\ sub_ncells d2 = n_all G d.
Proof.
  intros S H2. destruct (dom_pos _ d2 H2) as [B2 _]. rewrite counts_fat in B2.
  destruct (pos_dom ls _ B2) as [d [D1 D2]].
  destruct (fat_dom G ls d S D1) as [d3 [A1 [A2 [A3 A4]]]].
  assert (d3 = d2) by (eapply dom_inj; eauto; congruence). subst. eauto.
Qed.

Lemma tiles_unique ls : Forall (Forall (fun a => 0 <= a)) ls -> forall d d' y y' x,
  In d (domains ls) -> In d' (domains ls) -> is_global_cell d y x -> is_global_cell d' y' x -> d = d' /\ y = y'.
Proof.
  intros P d d' y y' x Hd Hd' C C'.
  assert (Hx : in_box x (map sumZ ls)).
  { apply In_nth_error in Hd as [i Hi]. eapply tiles_inside; eauto. }
  destruct (tiles_cover ls _ eq_refl P x Hx) as [p [_ U]].
  apply In_nth_error in Hd as [i Hi]. apply In_nth_error in Hd' as [j Hj].
  pose proof (U (i, y) ltac:(exists d; cbn [fst snd]; auto)) as U1.
  pose proof (U (j, y') ltac:(exists d'; cbn [fst snd]; auto)) as U2.
  assert (E : (i, y) = (j, y')) by congruence. injection E as -> ->.
  split; auto. unfold domains in *. congruence.
Qed.

Lemma map2_snoc (f : Z -> Z -> Z) a b x y : length a = length b -> map2 f (a ++ [x]) (b ++ [y]) = map2 f a b ++ [f x y].
Proof. intros L. rewrite map2_app by auto. reflexivity. Qed.

Lemma fits_snoc : forall s f c ns nf nn, length s = length f -> length f = length c ->
  fits (s ++ [ns]) (f ++ [nf]) (c ++ [nn]) = fits s f c && ((0 <=? nf) && (nf + nn <=? ns)).
Proof.
  induction s as [|a s IH]; intros [|b f] [|d c] ns nf nn L1 L2; try discriminate.
  - simpl. destruct ((0 <=? nf) && (nf + nn <=? ns)); auto.
  - cbn [app fits]. rewrite IH by (simpl in *; congruence). rewrite !andb_assoc. auto.
Qed.

Lemma fits_spec : forall s f c, Forall2 (fun p s => 0 <= fst p /\ fst p + snd p <= s) (combine f c) s ->
  length f = length c -> fits s f c = true.
Proof.
  intros s f c H. remember (combine f c) as l eqn:E. revert f c E.
  induction H as [|[a n] t l s Ht H IH]; intros [|b f] [|m c] E L; try discriminate; auto.
  injection E as -> -> ->. cbn [fits fst snd] in *. apply andb_true_intro. split.
  - apply andb_true_intro. split; lia.
  - apply IH; auto.
Qed.

Lemma dom_lens ls d : In d (domains ls) ->
  length (sub_offset_ncells d) = length ls /\ length (sub_ncells d) = length ls /\
  length (sub_offset_ndomains d) = length ls.
Proof.
  intros H. destruct (dom_pos ls d H) as [B [E1 E2]]. apply in_box_length in B as L.
  unfold counts in L. rewrite map_length in L. rewrite E1, E2. unfold offs, size.
  rewrite !map2_length. lia.
Qed.

Lemma first_length G ls d : In d (domains ls) -> length (first_with_ghosts G d) = length ls /\ length (n_all G d) = length ls.
Proof.
  intros H. destruct (dom_lens ls d H) as [A [B C]]. unfold first_with_ghosts, n_all.
  rewrite map2_length, map_length. lia.
Qed.

Lemma dom_fits ls d : Forall (Forall (fun a => 0 < a)) ls -> In d (domains ls) ->
  fits (map sumZ ls) (sub_offset_ncells d) (sub_ncells d) = true.
Proof.
  intros P H. destruct (dom_pos ls d H) as [B [E1 E2]]. rewrite E1, E2.
  revert P B. generalize (sub_offset_ndomains d) as o. clear. intros o P. revert o.
  induction P as [|l ls Pl P IH]; intros o B; inversion B as [|a ? o' ? Ha Ho]; subst; auto.
  unfold offs in *. rewrite size_cons. cbn [map2 map fits]. rewrite (IH _ Ho), andb_true_r.
  assert (W : wide1 0 l) by (eapply Forall_impl; [|exact Pl]; cbn beta; intros; lia).
  pose proof (off_nonneg 0 l a W Ha). pose proof (off_end 0 l a W Ha).
  apply andb_true_intro. split; lia.
Qed.

(** The fattened grid has positive blocks. *)
Lemma fat_pos G ls : storable G ls -> Forall (Forall (fun a => 0 < a)) (fat G ls).
Proof.
  intros [Hg H]. unfold fat. rewrite Forall_map. eapply Forall_impl; [|exact H]. cbn beta.
  intros l [[_ P] _]. rewrite Forall_map. eapply Forall_impl; [|exact P]. cbn beta. lia.
Qed.

Lemma write_fields_puts {V} G r n nc (mem : subdomain -> list V) order v :
  write_fields G r n nc mem order v =
  puts subdomain (shape_with_ghosts G r n ++ [nc]) (fun d => first_with_ghosts G d ++ [0])
    (fun d => n_all G d ++ [nc]) mem order v.
Proof. revert v; induction order as [|d order IH]; intros v; simpl; auto.
  unfold write_field. destruct (put _ _ _ _ _); simpl; auto. Qed.

Lemma fields_roundtrip {V} G ls nc (mem : subdomain -> list V) order v :
  storable G ls -> 0 <= nc -> Permutation order (domains ls) ->
  (forall d, In d (domains ls) -> Z.of_nat (length (mem d)) = prodZ (n_all G d) * nc) ->
  exists v', write_fields G (map sumZ ls) (counts ls) nc mem order v = Ok v' /\
    forall d, In d (domains ls) -> read_field G (map sumZ ls) (counts ls) nc d v' = Ok (map Some (mem d)).
Proof.
  intros S Hnc Pm HM.
  assert (Hin : forall d, In d order -> In d (domains ls)) by (intros; eapply Permutation_in; eauto).
  assert (HP : forall d, In d (domains ls) -> Forall (fun n => 0 <= n) (n_all G d)).
  { intros d Hd. destruct (fat_dom G ls d S Hd) as [d2 [A1 [A2 [A3 A4]]]]. rewrite <- A4.
    destruct (dom_pos _ d2 A1) as [B [E _]]. rewrite E. pose proof (fat_pos G ls S) as P.
    revert P B. generalize (sub_offset_ndomains d2) as o. generalize (fat G ls). clear.
    intros ls o P. revert o. induction P as [|l ls Pl P IH]; intros o B; inversion B as [|a ? o' ? Ha Ho]; subst; [constructor|].
    rewrite size_cons. constructor; auto.
    assert (W : wide1 0 l) by (eapply Forall_impl; [|exact Pl]; cbn beta; intros; lia).
    pose proof (blk_wide 0 l a W Ha). lia. }
  assert (HF : forall d, In d (domains ls) ->
    fits (shape_with_ghosts G (map sumZ ls) (counts ls) ++ [nc]) (first_with_ghosts G d ++ [0]) (n_all G d ++ [nc]) = true).
  { intros d Hd. destruct (fat_dom G ls d S Hd) as [d2 [A1 [A2 [A3 A4]]]].
    destruct (first_length G ls d Hd) as [L1 L2].
    rewrite shape_fat by auto. rewrite fits_snoc.
    - rewrite <- A3, <- A4, (dom_fits (fat G ls) d2 (fat_pos G ls S) A1). simpl. apply Z.leb_refl.
    - rewrite map_length. unfold fat. rewrite map_length. auto.
    - congruence. }
  destruct (puts_ok subdomain (shape_with_ghosts G (map sumZ ls) (counts ls) ++ [nc])
    (fun d => first_with_ghosts G d ++ [0]) (fun d => n_all G d ++ [nc]) mem order v) as [v' E].
  { intros d Hd. apply HF. auto. }
  exists v'. split; [rewrite write_fields_puts; exact E|].
  intros d Hd. unfold read_field.
  apply (puts_get subdomain _ (fun d => first_with_ghosts G d ++ [0]) (fun d => n_all G d ++ [nc]) mem order v v' E).
  - eapply Permutation_NoDup; [apply Permutation_sym; exact Pm|apply nodup_domains].
  - intros i Hi. destruct (first_length G ls i (Hin _ Hi)) as [L1 L2]. rewrite !app_length. simpl. lia.
  - intros i Hi. destruct (first_length G ls i (Hin _ Hi)) as [L1 L2].
    apply Nat2Z.inj. rewrite (HM _ (Hin _ Hi)). rewrite selection_length.
    + rewrite prodZ_app. simpl. lia.
    + rewrite !app_length. simpl. lia.
    + apply Forall_app. split; auto.
  - intros i j x Hi Hj Xi Xj. apply Hin in Hi, Hj.
    destruct (first_length G ls i Hi) as [L1 L2]. destruct (first_length G ls j Hj) as [L3 L4].
    apply in_selection in Xi as [y [Y1 Y2]]; [|rewrite !app_length; simpl; lia].
    apply in_selection in Xj as [z [Z1 Z2]]; [|rewrite !app_length; simpl; lia].
    apply Forall2_app_inv_r in Y1 as [y1 [yt [Y3 [Y4 ->]]]].
    apply Forall2_app_inv_r in Z1 as [z1 [zt [Z3 [Z4 ->]]]].
    inversion Y4 as [|ya ? ? ? Ya Y5]; subst. inversion Y5; subst.
    inversion Z4 as [|za ? ? ? Za Z5]; subst. inversion Z5; subst.
    apply Forall2_length in Y3 as Ly. apply Forall2_length in Z3 as Lz.
    rewrite !map2_snoc in Z2 by congruence. apply app_inj_tail in Z2 as [Z2 _].
    destruct (fat_dom G ls i S Hi) as [d2 [A1 [A2 [A3 A4]]]].
    destruct (fat_dom G ls j S Hj) as [d3 [B1 [B2 [B3 B4]]]].
    destruct (tiles_unique (fat G ls) (storable_fat G ls S) d2 d3 y1 z1 (map2 Z.add (first_with_ghosts G i) y1)) as [Q _]; auto.
    + split; [rewrite A4; auto|rewrite A3; auto].
    + split; [rewrite B4; auto|rewrite B3; auto].
    + apply (dom_inj ls); auto. congruence.
  - eapply Permutation_in; [apply Permutation_sym; exact Pm|auto].
Qed.

(** The elements of a region, stated with the fattened blocks. *)
Lemma element_first G ls d y : storable G ls -> In d (domains ls) ->
  element G ls (sub_offset_ndomains d) y = map2 Z.add (first_with_ghosts G d) y.
Proof.
  intros S Hd. destruct (fat_dom G ls d S Hd) as [d2 [A1 [A2 [A3 A4]]]].
  rewrite <- A3. destruct (dom_pos _ d2 A1) as [B [_ E]]. rewrite E, A2. unfold element. f_equal.
  rewrite A2, counts_fat in B. revert B. generalize (sub_offset_ndomains d) as o. clear.
  induction ls as [|l ls IH]; intros o B; inversion B as [|a ? o' ? Ha Ho]; subst; auto.
  unfold offs in *. cbn [fat map map2]. rewrite off_sum by (unfold len; rewrite map_length; exact Ha).
  rewrite firstn_map. f_equal. apply IH. auto.
Qed.

Lemma regions_tile G ls : storable G ls ->
  (forall x, in_box x (full_shape G ls) ->
     exists! p : subdomain * list Z, In (fst p) (domains ls) /\
       in_box (snd p) (map (fun n => n + 2 * G) (sub_ncells (fst p))) /\
       x = element G ls (sub_offset_ndomains (fst p)) (snd p)) /\
  (forall d, In d (domains ls) ->
     fits (shape_with_ghosts G (map sumZ ls) (counts ls)) (first_with_ghosts G d) (n_all G d) = true /\
     forall x, In x (selection (first_with_ghosts G d) (n_all G d)) <->
       exists y, in_box y (map (fun n => n + 2 * G) (sub_ncells d)) /\
         x = element G ls (sub_offset_ndomains d) y) /\
  shape_with_ghosts G (map sumZ ls) (counts ls) = full_shape G ls.
Proof.
  intros S. split; [|split].
  - intros x Hx. rewrite full_shape_fat in Hx.
    destruct (tiles_cover (fat G ls) _ eq_refl (storable_fat G ls S) x Hx) as [[i y] [[d2 [H1 H2]] _]].
    cbn [fst snd] in *. apply nth_error_In in H1. destruct (fat_dom_inv G ls d2 S H1) as [d [D1 [D2 [D3 D4]]]].
    exists (d, y). cbn [fst snd]. destruct H2 as [H2 H3]. rewrite D4 in H2. rewrite D3 in H3. split.
    + split; auto. split; [exact H2|]. rewrite element_first; auto.
    + intros [d' y'] [K1 [K2 K3]]. cbn [fst snd] in *.
      rewrite element_first in K3 by auto.
      destruct (fat_dom G ls d' S K1) as [d3 [A1 [A2 [A3 A4]]]].
      destruct (tiles_unique (fat G ls) (storable_fat G ls S) d2 d3 y y' x) as [-> ->]; auto.
      * split; [rewrite D4; auto|rewrite D3; auto].
      * split; [rewrite A4; auto|rewrite A3; auto].
      * f_equal. apply (dom_inj ls); auto. congruence.
  - intros d Hd. destruct (fat_dom G ls d S Hd) as [d2 [A1 [A2 [A3 A4]]]]. split.
    + rewrite shape_fat by auto. rewrite <- A3, <- A4. apply dom_fits; auto. apply fat_pos. auto.
    + intros x. destruct (first_length G ls d Hd) as [L1 L2]. rewrite in_selection by congruence.
      split; intros [y [Y1 Y2]]; exists y; (split; [exact Y1|]).
      * rewrite element_first; auto.
      * rewrite element_first in Y2; auto.
  - rewrite full_shape_fat. apply shape_fat. auto.
Qed.

(** * Layout on resuming *)
Lemma set_nth_length {A} (l : list A) i v : length (set_nth l i v) = length l.
Proof. revert i; induction l as [|a l IH]; intros [|i]; simpl; auto. Qed.
Lemma set_nth_nth {A} (l : list A) i j v d : (i < length l)%nat ->
  nth j (set_nth l i v) d = if Nat.eqb j i then v else nth j l d.
Proof.
  revert i j; induction l as [|a l IH]; intros [|i] [|j] H; simpl in *; try lia; auto.
  rewrite IH by lia. auto.
Qed.

Lemma fold_set_nth (w : nat -> Z) (l : list (nat * Z)) acc :
  (forall p, In p l -> (fst p < length acc)%nat /\ snd p = w (fst p)) ->
  let r := fold_left (fun acc p => set_nth acc (fst p) (snd p)) l acc in
  length r = length acc /\
  forall k, nth k r 0 = if existsb (fun p => Nat.eqb k (fst p)) l then w k else nth k acc 0.
Proof.
  cbv zeta. revert acc; induction l as [|[i v] l IH]; intros acc H; [split; auto|].
  cbn [fold_left fst snd existsb]. destruct (H (i, v)) as [H1 H2]; [simpl; auto|]. cbn [fst snd] in *.
  destruct (IH (set_nth acc i v)) as [L N].
  { intros p Hp. rewrite set_nth_length. apply H. simpl; auto. }
  rewrite set_nth_length in L. split; auto. intros k. rewrite N.
  destruct (existsb _ l); rewrite ?orb_true_r; auto. rewrite orb_false_r.
  rewrite set_nth_nth by auto. destruct (Nat.eqb_spec k i); subst; auto.
Qed.

Lemma combine_map2 {A B C} (f : A -> B) (g : A -> C) l : combine (map f l) (map g l) = map (fun a => (f a, g a)) l.
Proof. induction l; simpl; congruence. Qed.

Lemma nth_size ls o d : in_box o (counts ls) -> (d < length ls)%nat ->
  nth d (size ls o) 0 = blk (nth d ls []) (nth d o 0) /\ 0 <= nth d o 0 < len (nth d ls []).
Proof.
  revert o d; induction ls as [|l ls IH]; intros o d B Hd; simpl in Hd; [lia|].
  inversion B as [|a ? o' ? Ha Ho]; subst. rewrite size_cons.
  destruct d as [|d]; simpl; [split; auto|]. apply IH; auto. lia.
Qed.

Lemma some_position ls d k : Forall (fun l => l <> []) ls -> (d < length ls)%nat -> (k < length (nth d ls []))%nat ->
  exists o, in_box o (counts ls) /\ nth d o 0 = Z.of_nat k.
Proof.
  revert d; induction ls as [|l ls IH]; intros d N Hd Hk; simpl in Hd; [lia|].
  inversion N as [|? ? N1 N2]; subst. rewrite counts_cons.
  assert (Z0 : exists o, in_box o (counts ls)).
  { clear - N2. induction N2 as [|l ls N N2 [o IH]]; [exists []; constructor|].
    exists (0 :: o). constructor; auto. destruct l; [congruence|]. simpl. lia. }
  destruct d as [|d]; simpl in Hk.
  - destruct Z0 as [o Ho]. exists (Z.of_nat k :: o). split; [constructor; auto|reflexivity].
    unfold len. lia.
  - destruct (IH d N2 ltac:(lia) Hk) as [o [O1 O2]]. exists (0 :: o). split; auto.
    constructor; auto. destruct l; [congruence|]. unfold len. simpl. lia.
Qed.

Lemma at_pos ls d : Forall (fun l => l <> []) ls -> (d < length ls)%nat ->
  ncells_at_pos (nth d (counts ls) 0) d (map sub_offset_ndomains (domains ls)) (map sub_ncells (domains ls)) =
  nth d ls [].
Proof.
  intros N Hd. unfold ncells_at_pos. rewrite combine_map2.
  set (l := nth d ls []).
  assert (EC : Z.to_nat (nth d (counts ls) 0) = length l).
  { unfold counts. rewrite (nth_indep _ 0 (Z.of_nat (length (@nil Z)))) by (rewrite map_length; auto).
    rewrite (map_nth (fun l => Z.of_nat (length l))). fold l. lia. }
  rewrite EC.
  pose (es := map (fun x => (Z.to_nat (nth d (sub_offset_ndomains x) 0), nth d (sub_ncells x) 0)) (domains ls)).
  assert (EF : forall acc, fold_left (fun acc p => set_nth acc (Z.to_nat (nth d (fst p) 0)) (nth d (snd p) 0))
                (map (fun a => (sub_offset_ndomains a, sub_ncells a)) (domains ls)) acc =
              fold_left (fun acc p => set_nth acc (fst p) (snd p)) es acc).
  { unfold es. generalize (domains ls) as ds. induction ds as [|x ds IH]; intros acc; simpl; auto. }
  rewrite EF. clear EF.
  destruct (fold_set_nth (fun k => nth k l 0) es (repeat 0 (length l))) as [L H].
  { intros p Hp. unfold es in Hp. apply in_map_iff in Hp as [x [<- Hx]]. cbn [fst snd].
    destruct (dom_pos ls x Hx) as [B [E _]]. rewrite E.
    destruct (nth_size ls _ d B Hd) as [E1 E2]. fold l in E1, E2. unfold len in E2.
    rewrite repeat_length. split; [lia|]. rewrite E1. reflexivity. }
  rewrite repeat_length in L.
  apply (nth_ext _ _ 0 0); auto. intros k Hk. rewrite L in Hk. rewrite H.
  assert (X : existsb (fun p => Nat.eqb k (fst p)) es = true).
  { apply existsb_exists. destruct (some_position ls d k N Hd Hk) as [o [O1 O2]].
    destruct (pos_dom ls o O1) as [x [X1 X2]].
    exists (Z.to_nat (nth d (sub_offset_ndomains x) 0), nth d (sub_ncells x) 0). split.
    - unfold es. apply in_map_iff. exists x. auto.
    - cbn [fst]. rewrite X2, O2. apply Nat.eqb_eq. lia. }
  rewrite X. auto.
Qed.

Lemma map_nth_all {A} (l : list A) d : map (fun i => nth i l d) (seq 0 (length l)) = l.
Proof.
  apply (nth_ext _ _ d d); [rewrite map_length, seq_length; auto|].
  intros k Hk. rewrite map_length, seq_length in Hk.
  rewrite (nth_indep _ d (nth 0 l d)) by (rewrite map_length, seq_length; auto).
  rewrite (map_nth (fun i => nth i l d)). rewrite seq_nth by auto. auto.
Qed.

Lemma at_pos_all ls : Forall (fun l => l <> []) ls ->
  map (fun d => ncells_at_pos (nth d (counts ls) 0) d (map sub_offset_ndomains (domains ls)) (map sub_ncells (domains ls)))
    (seq 0 (length (counts ls))) = ls.
Proof.
  intros N. unfold counts at 2. rewrite map_length.
  transitivity (map (fun i => nth i ls []) (seq 0 (length ls))); [|apply map_nth_all].
  apply map_ext_in. intros d Hd. apply in_seq in Hd.
  apply at_pos; auto. lia.
Qed.

Lemma positions_counts ls cur : counts cur = counts ls ->
  map sub_offset_ndomains (domains cur) = map sub_offset_ndomains (domains ls).
Proof.
  intros E. unfold domains. rewrite !offsets_create by auto.
  assert (X : forall l : list (list Z), map (@length Z) l = map Z.to_nat (counts l)).
  { intros l. unfold counts. rewrite map_map. apply map_ext. intros. lia. }
  rewrite !X, E. auto.
Qed.

Lemma redecompose_domains ls res : Forall (fun l => l <> []) ls -> Forall (fun l => 0 <= sumZ l < 2 ^ 32) ls ->
  redecompose res (counts ls) (map sub_offset_ndomains (domains ls)) (map sub_ncells (domains ls)) =
  if list_eqb (map sumZ ls) res then Ok (domains ls) else Err.
Proof.
  intros N B. unfold redecompose. rewrite at_pos_all by auto.
  assert (E : map (fun l => w32 (sumZ l)) ls = map sumZ ls).
  { apply map_ext_in. intros l Hl. apply w32_small. rewrite Forall_forall in B. auto. }
  rewrite E. destruct (list_eqb (map sumZ ls) res); auto. cbn [negb]. f_equal.
  transitivity (map (fun d => d) (domains ls)); [|apply map_id].
  assert (X : forall ds, (forall d, In d ds -> In d (domains ls)) ->
    map2 (fun o n => {| sub_offset_ndomains := o;
       sub_offset_ncells := map2 (fun l a => nth (Z.to_nat a) (running 0 l) 0) ls o; sub_ncells := n |})
      (map sub_offset_ndomains ds) (map sub_ncells ds) = map (fun d => d) ds).
  { induction ds as [|d ds IH]; intros H; cbn [map map2]; auto. f_equal; [|apply IH; intros; apply H; simpl; auto].
    destruct (dom_pos ls d) as [_ [E1 E2]]; [apply H; simpl; auto|].
    destruct d as [a b c]. cbn [sub_offset_ndomains sub_offset_ncells sub_ncells] in *. f_equal. rewrite E2. auto. }
  apply X. auto.
Qed.

Lemma forallb_combine (cur : list subdomain) saved : length cur = length saved ->
  (forallb (fun p => list_eqb (sub_ncells (fst p)) (snd p)) (combine cur saved) = true <-> map sub_ncells cur = saved).
Proof.
  revert saved; induction cur as [|d cur IH]; intros [|s saved] L; try discriminate; simpl; [tauto|].
  injection L as L. rewrite andb_true_iff, list_eqb_spec, (IH _ L). split; [intros [-> ->]; auto|].
  intros H; injection H; auto.
Qed.

Lemma resume_layout_ok ls cur :
  counts cur = counts ls -> Forall (fun l => l <> []) ls -> Forall (fun l => 0 <= sumZ l < 2 ^ 32) ls ->
  resume_layout (map sumZ cur) (counts cur) (domains cur) (map sub_ncells (domains ls)) =
  if list_eqb (map sumZ cur) (map sumZ ls) then Ok (domains ls) else Err.
Proof.
  intros C N B. unfold resume_layout.
  assert (LD : length (domains cur) = length (map sub_ncells (domains ls))).
  { rewrite map_length, <- (map_length sub_offset_ndomains (domains cur)), (positions_counts ls cur C), map_length. auto. }
  destruct (forallb _ _) eqn:F.
  - apply (forallb_combine _ _ LD) in F.
    assert (N' : Forall (fun l => l <> []) cur).
    { clear - C N. revert ls C N. induction cur as [|l cur IH]; intros [|l' ls] C N; try discriminate; constructor.
      - injection C as C _. inversion N; subst. destruct l; [|congruence]. destruct l'; [congruence|]. simpl in C. lia.
      - injection C as _ C. inversion N; subst. eapply IH; eauto. }
    assert (E : cur = ls).
    { rewrite <- (at_pos_all cur N'), <- (at_pos_all ls N).
      rewrite C, F, (positions_counts ls cur C). auto. }
    subst. assert (list_eqb (map sumZ ls) (map sumZ ls) = true) as -> by (apply list_eqb_spec; auto). auto.
  - rewrite C, (positions_counts ls cur C), redecompose_domains by auto.
    assert (X : list_eqb (map sumZ ls) (map sumZ cur) = list_eqb (map sumZ cur) (map sumZ ls)).
    { unfold list_eqb. destruct (list_eq_dec _ _ _), (list_eq_dec _ _ _); congruence. }
    rewrite X. auto.
Qed.

Lemma needed_listed gr a : needed gr a -> listed a (fields_written gr) = Some (components a) /\
  listed a (fields_read gr) = Some (components a).
Proof. intros [-> | ->]; [destruct gr; auto|destruct a; auto]. Qed.

Lemma checkpoint_restored {V} G gr ls (mem : farray -> subdomain -> list V) order f :
  storable G ls -> Permutation order (domains ls) ->
  (forall a d, needed gr a -> In d (domains ls) -> full_memory G a d (mem a d)) ->
  exists f', (forall a, checkpoint_fields G gr (map sumZ ls) (counts ls) mem order f a = Ok (f' a)) /\
    forall d a old, In d (domains ls) -> needed gr a ->
    restore_fields G gr (map sumZ ls) (counts ls) d f' old a = Ok (map Some (mem a d)).
Proof.
  intros S Pm HM.
  assert (X : forall a, exists v, checkpoint_fields G gr (map sumZ ls) (counts ls) mem order f a = Ok v /\
    forall d old, In d (domains ls) -> needed gr a ->
      restore_fields G gr (map sumZ ls) (counts ls) d (fun _ => v) old a = Ok (map Some (mem a d))).
  { intros a. destruct (listed a (fields_written gr)) eqn:E.
    - assert (N : needed gr a) by (destruct a, gr; try discriminate; unfold needed; auto).
      destruct (needed_listed gr a N) as [E1 E2].
      destruct (fields_roundtrip G ls (components a) (mem a) order (f a)) as [v [W R]]; auto.
      + destruct a; cbn; lia.
      + intros d Hd. apply (HM a d N Hd).
      + exists v. unfold checkpoint_fields, restore_fields. rewrite E1, E2. split; auto.
    - exists (f a). unfold checkpoint_fields. rewrite E. split; auto.
      intros d old Hd N. destruct (needed_listed gr a N) as [E1 _]. congruence. }
  destruct (X Em) as [v1 [A1 B1]]. destruct (X Em0) as [v2 [A2 B2]]. destruct (X Cur) as [v3 [A3 B3]].
  exists (fun a => match a with Em => v1 | Em0 => v2 | Cur => v3 end). split.
  - intros []; auto.
  - intros d [] old Hd N.
    + rewrite <- (B1 d old Hd N). unfold restore_fields. reflexivity.
    + rewrite <- (B2 d old Hd N). unfold restore_fields. reflexivity.
    + rewrite <- (B3 d old Hd N). unfold restore_fields. reflexivity.
Qed.
