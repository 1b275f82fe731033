(** The particles of the whole grid under a window move. *)
From Coq Require Import ZArith List Bool Lia Permutation.
From Verif Require Import Base ListLemmas DecompModel DecompSpec DecompProofs DirsModel DirsSpec DirsProofs TopoModel TopoSpec
  TopoProofs TopoTop HaloModel HaloSpec HaloProofs HaloTop PrtlModel PrtlSpec PrtlProofs PrtlCommModel PrtlCommSpec
  PrtlCommTop WindowModel WindowSpec WindowFields WindowTop.
Import ListNotations.
Open Scope Z_scope.

(** ** One rank *)
Lemma move_all k s order : forall st, NoDup order ->
  let st' := fold_left (move_one k s) order st in
  np st' = np st /\ maxp st' = maxp st /\ tg st' = tg st /\
  forall a p, ar st' a p = if attr_eq_dec a (I (S k)) then (if in_dec Nat.eq_dec p order then ar st a p - s else ar st a p) else ar st a p.
Proof.
  induction order as [|q order IH]; intros st ND; cbv zeta.
  - cbn [fold_left]. split; [auto|]. split; [auto|]. split; [auto|]. intros a p. destruct (attr_eq_dec a (I (S k))); auto.
  - inversion ND as [|? ? N1 N2]; subst. cbn [fold_left]. destruct (IH (move_one k s st q) N2) as [A [B [C E]]].
    split; [rewrite A; auto|]. split; [rewrite B; auto|]. split; [rewrite C; auto|].
    intros a p. rewrite E. unfold move_one, shift_at, with_ar, upd_attr, upd. cbn [ar].
    destruct (attr_eq_dec a (I (S k))) as [e|e]; auto.
    destruct (in_dec Nat.eq_dec p order) as [i|i], (in_dec Nat.eq_dec p (q :: order)) as [i'|i'], (Nat.eqb_spec p q) as [->|n];
      try reflexivity; try contradiction; rewrite ?e; try lia.
    + destruct i'. right. auto.
    + destruct i' as [->|i']; congruence.
    + destruct i'. left. auto.
Qed.

Lemma retag_all c n order : forall st T, NoDup order ->
  (forall p, In p order -> retag (tg st p) (cell c st p) n = Ok (T p)) ->
  exists st', fold_left (retag_one c n) order (Ok st) = Ok st' /\ np st' = np st /\ maxp st' = maxp st /\ ar st' = ar st /\
    forall p, tg st' p = if in_dec Nat.eq_dec p order then T p else tg st p.
Proof.
  induction order as [|q order IH]; intros st T ND H.
  - exists st. cbn [fold_left]. auto.
  - inversion ND as [|? ? N1 N2]; subst. cbn [fold_left]. unfold retag_one at 2. cbn [rbind].
    pose proof (H q (or_introl eq_refl)) as Hq. unfold cell in Hq. rewrite Hq. cbn [rbind].
    destruct (IH (with_tg st (upd (tg st) q (T q))) T N2) as [st' [E [A [B [C D]]]]].
    { intros p Hp. unfold with_tg, upd, cell. cbn [tg ar]. destruct (Nat.eqb_spec p q) as [->|]; [contradiction|]. apply H. right. auto. }
    exists st'. split; [exact E|]. split; [exact A|]. split; [exact B|]. split; [exact C|].
    intros p. rewrite D. unfold with_tg, upd. cbn [tg].
    destruct (in_dec Nat.eq_dec p order) as [i|i], (in_dec Nat.eq_dec p (q :: order)) as [i'|i'], (Nat.eqb_spec p q) as [->|n'];
      try reflexivity; try contradiction.
    all: exfalso; cbn [In] in *; intuition congruence.
Qed.

Lemma cell_length c st p : length (cell c st p) = dim c.
Proof. unfold cell. rewrite map_length, seq_length. auto. Qed.
Lemma nth_cell c st p j : (j < dim c)%nat -> nth j (cell c st p) 0 = ar st (I (S j)) p.
Proof.
  intros H. unfold cell. rewrite (nth_indep _ 0 (ar st (I 0) p)) by (rewrite map_length, seq_length; auto).
  rewrite (map_nth (fun d => ar st (I d) p)). rewrite seq_nth by auto. auto.
Qed.
Lemma flip_box n x : Forall2 (fun n i => 0 <= i < n) n x <-> in_box x n.
Proof. unfold in_box. split; induction 1; constructor; auto. Qed.

Lemma moved_cell_at c st st' p k s : (k < dim c)%nat ->
  (forall a, ar st' a p = if attr_eq_dec a (I (S k)) then ar st a p - s else ar st a p) ->
  forall j, (j < dim c)%nat -> nth j (cell c st' p) 0 = if Nat.eqb j k then nth j (cell c st p) 0 - s else nth j (cell c st p) 0.
Proof.
  intros Hk H j Hj. rewrite !nth_cell by auto. rewrite H.
  destruct (attr_eq_dec (I (S j)) (I (S k))) as [e|e]; destruct (Nat.eqb_spec j k); auto; congruence.
Qed.

Theorem move_rank c k s n order order' st :
  dimension (dim c) -> length n = dim c -> Forall (fun a => 0 < a) n -> (k < dim c)%nat -> 0 <= s ->
  well_kept n c st -> Permutation order (seq 0 (np st)) -> Permutation order' (seq 0 (np st)) ->
  exists st1, move_particles c k s n order order' st = Ok st1 /\ np st1 = np st /\ maxp st1 = maxp st /\
    (forall a p, (p < np st)%nat -> ar st1 a p = if attr_eq_dec a (I (S k)) then ar st a p - s else ar st a p) /\
    forall p, (p < np st)%nat ->
      (tg st p = 0 -> tg st1 p = 0) /\
      (tg st p = 1 -> s <= ar st (I (S k)) p -> tg st1 p = 1 /\ in_box (cell c st1 p) n) /\
      (tg st p = 1 -> ar st (I (S k)) p < s -> dir2tag (face (dim c) k (-1)) = Ok (tg st1 p) /\
         map2 side (cell c st1 p) n = face (dim c) k (-1)).
Proof.
  intros HD Ln Pn Hk Hs [W1 [W2 W3]] P1 P2.
  assert (ND : forall o, Permutation o (seq 0 (np st)) -> NoDup o).
  { intros o Po. eapply Permutation_NoDup; [symmetry; exact Po|apply seq_NoDup]. }
  assert (IN : forall o p, Permutation o (seq 0 (np st)) -> (In p o <-> (p < np st)%nat)).
  { intros o p Po. split; intros H.
    - eapply Permutation_in in H; [|exact Po]. apply in_seq in H. lia.
    - eapply Permutation_in; [symmetry; exact Po|]. apply in_seq. lia. }
  pose proof (move_all k s order st (ND _ P1)) as MA. cbv zeta in MA. set (sm := fold_left (move_one k s) order st) in *.
  destruct MA as [A1 [A2 [A3 A4]]].
  assert (A5 : forall a p, (p < np st)%nat -> ar sm a p = if attr_eq_dec a (I (S k)) then ar st a p - s else ar st a p).
  { intros a p Hp. rewrite A4. destruct (attr_eq_dec a (I (S k))); auto. destruct (in_dec Nat.eq_dec p order) as [i|i]; auto.
    destruct i. apply IN; auto. }
  assert (RT : forall p, exists t, (p < np st)%nat -> retag (tg sm p) (cell c sm p) n = Ok t /\
    (tg st p = 0 -> t = 0) /\
    (tg st p = 1 -> s <= ar st (I (S k)) p -> t = 1 /\ in_box (cell c sm p) n) /\
    (tg st p = 1 -> ar st (I (S k)) p < s -> dir2tag (face (dim c) k (-1)) = Ok t /\
         map2 side (cell c sm p) n = face (dim c) k (-1))).
  { intros p. destruct (Nat.ltb_spec p (np st)) as [Hp|Hp]; [|exists 0; lia].
    rewrite A3.
    assert (Fn : Forall (fun a => 0 <= a) n) by (eapply Forall_impl; [|exact Pn]; simpl; lia).
    destruct (tag_of_departure (dim c) (cell c sm p) n HD (cell_length c sm p) Ln Fn) as [R0 [t [R1 [R2 R3]]]].
    destruct (W2 p Hp) as [E|E]; rewrite E.
    - exists 0. intros _. split; [exact R0|]. split; [auto|]. split; intros; lia.
    - exists t. intros _. split; [exact R1|]. split; [intros; lia|].
      assert (LV : In p (live st)). { unfold live. apply filter_In. split; [apply in_seq; lia|]. rewrite E. auto. }
      apply W3, flip_box, in_box_iff in LV as [L1 B]. 
      assert (MC := moved_cell_at c st sm p k s Hk (fun a => A5 a p Hp)).
      split; intros _ X.
      + assert (IB : in_box (cell c sm p) n).
        { apply in_box_iff. rewrite cell_length. split; [auto|]. intros j Hj. rewrite MC by lia. specialize (B j Hj).
          destruct (Nat.eqb_spec j k) as [e|e]; auto. rewrite e in *. rewrite nth_cell in * by auto. lia. }
        auto.
      + assert (SD : map2 side (cell c sm p) n = face (dim c) k (-1)).
        { apply face_eq; auto; [rewrite map2_length, cell_length; lia|].
          intros j Hj. rewrite (nth_map2 side _ _ j 0 0 0) by (rewrite ?cell_length; lia). rewrite MC by auto.
          specialize (B j ltac:(lia)). unfold side. destruct (Nat.eqb_spec j k) as [e|e].
          - rewrite e in *. rewrite nth_cell in * by auto. rewrite (proj2 (Z.ltb_lt _ _)); [auto|lia].
          - destruct (Z.ltb_spec (nth j (cell c st p) 0) 0); [lia|]. destruct (Z.leb_spec (nth j n 0) (nth j (cell c st p) 0)); lia. }
        split; [|exact SD]. rewrite <- SD. apply R3. intros IB. apply in_box_iff in IB as [_ IB]. specialize (IB k ltac:(lia)).
        rewrite MC, Nat.eqb_refl, nth_cell in IB by auto. lia. }
  destruct (choice_list (fun p t => (p < np st)%nat -> retag (tg sm p) (cell c sm p) n = Ok t /\
    (tg st p = 0 -> t = 0) /\
    (tg st p = 1 -> s <= ar st (I (S k)) p -> t = 1 /\ in_box (cell c sm p) n) /\
    (tg st p = 1 -> ar st (I (S k)) p < s -> dir2tag (face (dim c) k (-1)) = Ok t /\
         map2 side (cell c sm p) n = face (dim c) k (-1))) 0 Nat.eq_dec (seq 0 (np st))) as [T HT]; [intros; apply RT|].
  destruct (retag_all c n order' sm T (ND _ P2)) as [st1 [E [B1 [B2 [B3 B4]]]]].
  { intros p Hp. apply IN in Hp; auto. apply HT; [apply in_seq; lia|auto]. }
  exists st1. split; [unfold move_particles; rewrite (proj2 (Nat.ltb_lt _ _) Hk); exact E|].
  split; [congruence|]. split; [congruence|]. split; [intros a p Hp; rewrite B3; auto|].
  intros p Hp. rewrite B4. destruct (in_dec Nat.eq_dec p order') as [_|i]; [|destruct i; apply IN; auto].
  unfold cell. rewrite B3. fold (cell c sm p). destruct (HT p ltac:(apply in_seq; lia) Hp) as [_ H]. exact H.
Qed.

(** ** All ranks *)
Lemma filter_filter {A} (f g : A -> bool) l : filter f (filter g l) = filter (fun x => g x && f x) l.
Proof. induction l as [|a l IH]; cbn; auto. destruct (g a); cbn; [destruct (f a)|]; rewrite IH; auto. Qed.

Lemma existsb_false_iff {A} (f : A -> bool) l : existsb f l = false <-> forall x, In x l -> f x = false.
Proof.
  induction l as [|a l IH]; cbn; [split; [intros _ x []|auto]|]. rewrite orb_false_iff, IH. split.
  - intros [H1 H2] x [<-|H]; auto.
  - intros H. split; auto.
Qed.

Lemma partner_of_tag ls gbc o dir t : dimension (length ls) -> nonzero_direction (length ls) dir -> dir2tag dir = Ok t ->
  has_partner ls gbc o t = is_some (send_to (counts ls) gbc o dir).
Proof.
  intros HD Hd E. unfold has_partner. destruct (send_to (counts ls) gbc o dir) as [b|] eqn:S; cbn [is_some].
  - apply existsb_exists. exists dir. split; [apply all_complete; auto|]. rewrite E, S. apply Z.eqb_refl.
  - destruct (existsb _ _) eqn:X; auto. apply existsb_exists in X as [d [H X]]. apply all_direction in H; auto.
    destruct (dir2tag d) as [t'| |] eqn:E'; try discriminate. destruct (send_to (counts ls) gbc o d) as [b|] eqn:S'; try discriminate.
    apply Z.eqb_eq in X. subst t'. assert (dir = d) by (apply (tag_inj (length ls)); auto; congruence). congruence.
Qed.
Lemma traffic_of_tag ls gbc o dir t : dimension (length ls) -> nonzero_direction (length ls) dir -> dir2tag dir = Ok t ->
  in_traffic ls gbc o t = false -> send_to (counts ls) gbc o dir = None /\ recv_from (counts ls) gbc o dir = None.
Proof.
  intros HD Hd E X. unfold in_traffic in X.
  pose proof (proj1 (existsb_false_iff _ _) X dir ltac:(apply all_complete; auto)) as F. cbv beta in F. rewrite E, Z.eqb_refl in F. cbn [andb] in F.
  destruct (send_to (counts ls) gbc o dir), (recv_from (counts ls) gbc o dir); try discriminate. auto.
Qed.

Lemma off_pos g l a s : wide1 g l -> 0 < a < len l -> Forall (fun n => s <= n) l -> s <= off l a.
Proof.
  intros W Ha Fl. pose proof (off_next l (a - 1) ltac:(lia) ltac:(lia)) as E. replace (a - 1 + 1) with a in E by lia.
  pose proof (off_nonneg g l (a - 1) W). assert (0 <= off l (a - 1)) by (apply H; lia).
  rewrite Forall_forall in Fl. assert (s <= blk l (a - 1)); [|lia]. unfold blk. apply Fl, nth_In. unfold len in Ha. lia.
Qed.

Section Window.
  Variables (ls : list (list Z)) (gbc : list (flds_bc * flds_bc)) (c : cfg) (sc : sched) (k : nat) (s : Z).
  Variables (st : list Z -> parts) (order order' : list Z -> list nat).
  Hypothesis L : length gbc = length ls.
  Hypothesis P : paired_flds gbc.
  Hypothesis HD : dimension (length ls).
  Hypothesis DC : dim c = length ls.
  Hypothesis Hk : (k < length ls)%nat.
  Hypothesis Hs : 0 <= s.
  Hypothesis W : wide 0 ls.
  Hypothesis BK : Forall (fun n => s <= n) (nth k ls []).
  Hypothesis WK : forall o, in_box o (counts ls) -> well_kept (size ls o) c (st o).
  Hypothesis PO1 : forall o, in_box o (counts ls) -> Permutation (order o) (seq 0 (np (st o))).
  Hypothesis PO2 : forall o, in_box o (counts ls) -> Permutation (order' o) (seq 0 (np (st o))).
  Hypothesis PP : forall o n, Permutation (o_prep sc o n) (seq 0 n).
  Hypothesis PPo : forall o dir n, Permutation (o_pop sc o dir n) (seq 0 n).
  Hypothesis PE : forall o n, Permutation (o_ext sc o n) (seq 0 n).

  Let st1 o := match move_particles c k s (size ls o) (order o) (order' o) (st o) with Ok x => x | _ => st o end.
  Let dn := face (length ls) k (-1).

  Lemma moved_rank o : in_box o (counts ls) ->
    move_particles c k s (size ls o) (order o) (order' o) (st o) = Ok (st1 o) /\ np (st1 o) = np (st o) /\ maxp (st1 o) = maxp (st o) /\
    (forall a p, (p < np (st o))%nat -> ar (st1 o) a p = if attr_eq_dec a (I (S k)) then ar (st o) a p - s else ar (st o) a p) /\
    forall p, (p < np (st o))%nat ->
      (tg (st o) p = 0 -> tg (st1 o) p = 0) /\
      (tg (st o) p = 1 -> s <= ar (st o) (I (S k)) p -> tg (st1 o) p = 1 /\ in_box (cell c (st1 o) p) (size ls o)) /\
      (tg (st o) p = 1 -> ar (st o) (I (S k)) p < s -> dir2tag dn = Ok (tg (st1 o) p) /\
         map2 side (cell c (st1 o) p) (size ls o) = dn).
  Proof.
    intros Ho. unfold st1, dn. rewrite <- DC.
    destruct (move_rank c k s (size ls o) (order o) (order' o) (st o)) as [x [E H]]; auto.
    - rewrite DC. auto.
    - rewrite (size_length ls o Ho). auto.
    - eapply wide_pos; eauto.
    - lia.
    - rewrite E. auto.
  Qed.

  Lemma dn_nz : nonzero_direction (length ls) dn.
  Proof. eapply axis_nonzero. apply face_aligned; auto. Qed.

  Lemma moved_tagged o : in_box o (counts ls) -> tagged_ok (length ls) (st1 o).
  Proof.
    intros Ho p Hp. destruct (moved_rank o Ho) as [_ [N [_ [_ T]]]]. rewrite N in Hp. destruct (T p Hp) as [T0 [T1 T2]].
    destruct (WK o Ho) as [_ [W2 _]]. destruct (W2 p Hp) as [E|E]; [left; auto|].
    destruct (Z.le_gt_cases s (ar (st o) (I (S k)) p)) as [X|X].
    - right. left. apply T1; auto.
    - right. right. exists dn. split; [apply dn_nz|]. apply T2; auto.
  Qed.

  Lemma destined_stays o : in_box o (counts ls) ->
    destined ls gbc o (st1 o) = filter (stays gbc k s (offs ls o) (st o)) (live (st o)).
  Proof.
    intros Ho. destruct (moved_rank o Ho) as [_ [N [_ [_ T]]]]. unfold destined, live. rewrite filter_filter, N.
    apply filter_ext_in. intros p Hp. apply in_seq in Hp. assert (Hq : (p < np (st o))%nat) by lia.
    destruct (T p Hq) as [T0 [T1 T2]]. destruct (WK o Ho) as [_ [W2 W3]].
    pose proof (block_facts 0 ls o k W Ho Hk) as BF. cbv zeta in BF. destruct BF as [B1 [B2 [B3 [B4 [B5 B6]]]]].
    destruct (W2 p Hq) as [E|E]; rewrite E.
    - rewrite (T0 E). cbn [Z.eqb orb andb]. destruct (has_partner ls gbc o 0) eqn:X; auto. unfold has_partner in X.
      apply existsb_exists in X as [dir [Hd X]]. apply all_direction in Hd; auto. destruct (tag_nat _ dir HD Hd) as [t [Et B]].
      rewrite Et in X. destruct (send_to (counts ls) gbc o dir); [apply Z.eqb_eq in X; lia|discriminate].
    - change (1 =? 1) with true. cbn [andb]. unfold stays. rewrite nth_offs by auto.
      assert (LV : In p (live (st o))). { unfold live. apply filter_In. split; [apply in_seq; lia|]. rewrite E. auto. }
      apply W3, flip_box, in_box_iff in LV as [L1 B]. specialize (B k ltac:(rewrite (size_length ls o Ho); auto)).
      rewrite nth_cell in B by lia.
      destruct (Z.le_gt_cases s (ar (st o) (I (S k)) p)) as [X|X].
      + destruct (T1 E X) as [-> _]. change (1 =? 1) with true. cbn [orb]. symmetry. rewrite (proj2 (Z.leb_le _ _)) by lia.
        apply orb_true_r.
      + destruct (T2 E X) as [Et _]. destruct (tag_nat _ dn HD dn_nz) as [t [Et' Bt]].
        rewrite (partner_of_tag ls gbc o dn _ HD dn_nz Et). assert (TE : tg (st1 o) p = Z.of_nat t) by congruence. rewrite TE.
        rewrite (proj2 (Z.eqb_neq (Z.of_nat t) 1)) by lia. cbn [orb].
        pose proof (face_send ls gbc L P o k (-1) Ho Hk (or_introl eq_refl)) as FS. fold dn in FS.
        destruct (periodic_in gbc k) eqn:PK; cbn [orb].
        * destruct (send_to (counts ls) gbc o dn); auto. destruct (proj1 FS eq_refl). discriminate.
        * destruct (Z.leb_spec s (off (nth k ls []) (nth k o 0) + ar (st o) (I (S k)) p)) as [Y|Y].
          -- destruct (send_to (counts ls) gbc o dn); auto. exfalso. destruct (proj1 FS eq_refl) as [[[_ Z']|[Z' _]] _]; [|lia].
             rewrite Z' in Y. rewrite off_0 in Y by lia. lia.
          -- destruct (send_to (counts ls) gbc o dn) eqn:S; auto. exfalso.
             assert (Z.of_nat 0 <> Z.of_nat 0 \/ nth k o 0 = 0) as [|O]; [|lia|].
             { right. destruct (Z.eq_dec (nth k o 0) 0) as [|NZ]; auto.
               pose proof (off_pos 0 _ (nth k o 0) s B6 ltac:(lia) BK). lia. }
             discriminate (proj2 FS (conj (or_introl (conj eq_refl O)) eq_refl)).
  Qed.

  Lemma moved_view o p : in_box o (counts ls) -> (p < np (st o))%nat ->
    grid_view ls c (offs ls o) (st1 o) p = window_view ls c k s (offs ls o) (st o) p.
  Proof.
    intros Ho Hp. destruct (moved_rank o Ho) as [_ [_ [_ [A _]]]]. unfold grid_view, window_view, view.
    rewrite map2_map_r. apply map_ext. intros a. rewrite A by auto. auto.
  Qed.

  Lemma windowed_flat : windowed ls gbc c k s st =
    flat_map (fun o => map (window_view ls c k s (offs ls o) (st o)) (filter (stays gbc k s (offs ls o) (st o)) (live (st o)))) (positions ls).
  Proof.
    unfold windowed, positions. fold (domains ls).
    assert (H : forall l, incl l (domains ls) -> flat_map (fun d =>
       map (window_view ls c k s (sub_offset_ncells d) (st (sub_offset_ndomains d)))
         (filter (stays gbc k s (sub_offset_ncells d) (st (sub_offset_ndomains d))) (live (st (sub_offset_ndomains d))))) l =
       flat_map (fun o => map (window_view ls c k s (offs ls o) (st o)) (filter (stays gbc k s (offs ls o) (st o)) (live (st o))))
         (map sub_offset_ndomains l)).
    { induction l as [|d l IH]; intros HI; cbn [flat_map map]; auto. rewrite IH by (intros x Hx; apply HI; right; auto).
      f_equal. destruct (dom_pos ls d (HI d (or_introl eq_refl))) as [_ [_ E]]. rewrite E. auto. }
    apply H. intros x; auto.
  Qed.

  Lemma i_attr d : (1 <= d <= dim c)%nat -> In (I d) (attrs c).
  Proof.
    intros H. unfold attrs. rewrite !in_app_iff. unfold when, ge_dim.
    assert (D : d = 1%nat \/ d = 2%nat \/ d = 3%nat) by (destruct HD; lia).
    destruct D as [D|[D|D]]; subst d; [left|right; left|right; right; left].
    - destruct (Nat.leb_spec 1 (dim c)) as [_|X]; [left; reflexivity|lia].
    - destruct (Nat.leb_spec 2 (dim c)) as [_|X]; [left; reflexivity|lia].
    - destruct (Nat.leb_spec 3 (dim c)) as [_|X]; [left; reflexivity|lia].
  Qed.

  Theorem window_particles :
    (forall o, in_box o (counts ls) -> move_particles c k s (size ls o) (order o) (order' o) (st o) = Ok (st1 o)) /\
    ((forall b, in_box b (counts ls) -> (np (st b) + length (incoming ls gbc c st1 b) < maxp (st b))%nat) ->
     exists st', (forall b, in_box b (counts ls) -> comm_particles ls gbc c sc st1 b = Ok (st' b)) /\
       Permutation (everywhere ls c live st') (windowed ls gbc c k s st) /\
       (forall b p, in_box b (counts ls) -> In p (live (st' b)) -> in_box (cell c (st' b) p) (size ls b)) /\
       (periodic_in gbc k = true \/ (1 < length (nth k ls []))%nat ->
        forall b, in_box b (counts ls) -> well_kept (size ls b) c (st' b))).
  Proof.
    split; [intros o Ho; apply moved_rank; auto|]. intros CAP.
    destruct (exchange_all_full ls gbc c sc st1 L P HD DC PP PPo PE moved_tagged) as [st' H].
    { intros b Hb. destruct (moved_rank b Hb) as [_ [N [M _]]]. rewrite N, M. auto. }
    exists st'. assert (AC : forall b p, in_box b (counts ls) -> In p (live (st' b)) -> in_box (cell c (st' b) p) (size ls b)).
    { intros b p Hb Hp. destruct (H b Hb) as [_ [_ [_ [_ V]]]].
      assert (IV : In (view c (st' b) p) (map (view c (st1 b)) (live (st1 b)) ++ incoming ls gbc c st1 b)).
      { eapply Permutation_in; [exact V|]. apply in_map. auto. }
      apply in_app_iff in IV as [IV|IV].
      - apply in_map_iff in IV as [q [EV Hq]]. unfold view in EV.
        assert (EC : cell c (st' b) p = cell c (st1 b) q).
        { unfold cell. apply map_ext_in. intros d Hd. apply in_seq in Hd. symmetry.
          apply (proj1 map_ext_in_iff EV (I d)). apply i_attr. lia. }
        rewrite EC. unfold live in Hq. apply filter_In in Hq as [Hq Eq]. apply in_seq in Hq. apply Z.eqb_eq in Eq.
        destruct (moved_rank b Hb) as [_ [N [_ [_ T]]]]. assert (Hq' : (q < np (st b))%nat) by lia. destruct (T q Hq') as [T0 [T1 T2]].
        destruct (WK b Hb) as [_ [W2 _]]. destruct (W2 q Hq') as [E|E]; [rewrite (T0 E) in Eq; lia|].
        destruct (Z.le_gt_cases s (ar (st b) (I (S k)) q)) as [X|X]; [apply T1; auto|].
        destruct (T2 E X) as [Et _]. destruct (tag_nat _ dn HD dn_nz) as [t [Et' Bt]].
        assert (TE : tg (st1 b) q = Z.of_nat t) by congruence. lia.
      - unfold incoming in IV. apply in_flat_map in IV as [dir [Hdir IV]]. rewrite DC in Hdir. apply all_direction in Hdir; auto.
        destruct (recv_from (counts ls) gbc b dir) as [o|] eqn:R; [|destruct IV].
        assert (Ho : in_box o (counts ls)) by (eapply recv_from_box; eauto).
        assert (Sd : send_to (counts ls) gbc o dir = Some b) by (apply (match_partner ls gbc L P); auto).
        apply in_map_iff in IV as [q [EV Hq]]. unfold movers in Hq. apply filter_In in Hq as [Hq Eq]. apply in_seq in Hq.
        destruct (dir2tag dir) as [t| |] eqn:ET; try discriminate. apply Z.eqb_eq in Eq.
        destruct (moved_rank o Ho) as [_ [N [_ [A T]]]]. assert (Hq' : (q < np (st o))%nat) by lia. destruct (T q Hq') as [T0 [T1 T2]].
        destruct (tag_nat _ dir HD Hdir) as [t' [Et' Bt]].
        destruct (WK o Ho) as [_ [W2 W3]]. destruct (W2 q Hq') as [E|E]; [rewrite (T0 E) in Eq; exfalso; assert (t = Z.of_nat t') by congruence; lia|].
        destruct (Z.le_gt_cases s (ar (st o) (I (S k)) q)) as [X|X].
        { destruct (T1 E X) as [T1' _]. exfalso. assert (t = Z.of_nat t') by congruence. lia. }
        destruct (T2 E X) as [Et SD].
        assert (DD : dir = dn). { apply (tag_inj (length ls)); auto using dn_nz. congruence. }
        assert (LC : length (cell c (st1 o) q) = length ls) by (rewrite cell_length; auto).
        pose proof (landing_active ls gbc o b (cell c (st1 o) q) L P Ho LC) as LA. cbv zeta in LA. rewrite SD, <- DD in LA.
        assert (Hb' : length (size ls b) = length ls) by (apply size_length; auto).
        assert (Ho' : length (size ls o) = length ls) by (apply size_length; auto).
        assert (EC : cell c (st' b) p = map2 Z.add (cell c (st1 o) q) (map (displacement ls o b dir) (seq 0 (length ls)))).
        { apply list_nth_ext; [rewrite map2_length, map_length, seq_length, !cell_length; lia|].
          rewrite cell_length. intros j Hj. rewrite nth_add by (rewrite map_length, seq_length; auto).
          rewrite (nth_indep (map (displacement ls o b dir) (seq 0 (length ls))) 0 (displacement ls o b dir 0%nat))
            by (rewrite map_length, seq_length; lia).
          rewrite (map_nth (displacement ls o b dir)), seq_nth by lia. rewrite !nth_cell by auto.
          unfold arrived, view in EV. symmetry. rewrite <- (proj1 map_ext_in_iff EV (I (S j))) by (apply i_attr; lia).
          cbn [plus Nat.sub]. rewrite Nat.sub_0_r. auto. }
        rewrite EC. apply LA; auto.
        assert (LV : In q (live (st o))). { unfold live. apply filter_In. split; [apply in_seq; lia|]. rewrite E. auto. }
        apply W3, flip_box, in_box_iff in LV as [L1 B].
        assert (MC := moved_cell_at c (st o) (st1 o) q k s ltac:(lia) (fun a => A a q Hq')).
        apply (Forall2_nth _ _ _ 0 (0, 0)). rewrite combine_length. split; [lia|]. intros j Hj. rewrite LC in Hj.
        rewrite combine_nth by lia. cbn [fst snd]. rewrite MC by lia. specialize (B j ltac:(lia)).
        rewrite (nth_size ls b j) by auto. pose proof (block_facts 0 ls b j W Hb Hj) as BF. cbv zeta in BF.
        destruct (Nat.eqb_spec j k) as [e|e]; [|lia]. rewrite e in *.
        assert (s <= blk (nth k ls []) (nth k b 0)); [|lia].
        rewrite Forall_forall in BK. unfold blk. apply BK, nth_In. unfold len in BF. lia. }
    split; [intros b Hb; apply H; auto|]. split; [|split; [exact AC|]].
    - etransitivity; [apply (exchange_conserves_any ls gbc c st1 st' L P HD DC); intros b Hb; apply H; auto|].
      rewrite positions_flat_at, windowed_flat. apply flat_map_perm. intros o Ho. apply in_positions in Ho.
      rewrite destined_stays by auto. apply Permutation_refl'. apply map_ext_in. intros p Hp.
      apply moved_view; auto. apply filter_In in Hp as [Hp _]. unfold live in Hp. apply filter_In in Hp as [Hp _]. apply in_seq in Hp. lia.
    - intros MR b Hb. destruct (H b Hb) as [_ [M [N [T _]]]]. split; [lia|]. split; [|intros p Hp; apply flip_box; auto].
      intros p Hp. destruct (T p Hp) as [X|[X|[Hq [X Y]]]]; auto.
      destruct (moved_rank b Hb) as [_ [N1 [_ [_ T']]]]. assert (Hq' : (p < np (st b))%nat) by lia. destruct (T' p Hq') as [T0 [T1 T2]].
      destruct (WK b Hb) as [_ [W2 _]]. destruct (W2 p Hq') as [E|E]; [left; rewrite X; auto|].
      destruct (Z.le_gt_cases s (ar (st b) (I (S k)) p)) as [Z'|Z']; [right; rewrite X; apply T1; auto|].
      destruct (T2 E Z') as [Et _]. exfalso. destruct (traffic_of_tag ls gbc b dn _ HD dn_nz Et Y) as [Y1 Y2].
      apply (face_send ls gbc L P b k (-1) Hb Hk (or_introl eq_refl)) in Y1 as [[[_ O1]|[O1 _]] O2]; [|lia].
      pose proof (face_recv ls gbc L P b k 1 Hb Hk (or_intror eq_refl)) as FR. change (- (1)) with (-1) in FR.
      apply FR in Y2 as [[[Y2 _]|[_ Y2]] _]; [lia|]. rewrite nth_counts in Y2 by auto. unfold len in Y2.
      destruct MR as [MR|MR]; [congruence|lia].
  Qed.

  Theorem window_particles_ex : exists st1,
    (forall o, in_box o (counts ls) -> move_particles c k s (size ls o) (order o) (order' o) (st o) = Ok (st1 o)) /\
    ((forall b, in_box b (counts ls) -> (np (st b) + length (incoming ls gbc c st1 b) < maxp (st b))%nat) ->
     exists st', (forall b, in_box b (counts ls) -> comm_particles ls gbc c sc st1 b = Ok (st' b)) /\
       Permutation (everywhere ls c live st') (windowed ls gbc c k s st) /\
       (forall b p, in_box b (counts ls) -> In p (live (st' b)) -> in_box (cell c (st' b) p) (size ls b)) /\
       (periodic_in gbc k = true \/ (1 < length (nth k ls []))%nat ->
        forall b, in_box b (counts ls) -> well_kept (size ls b) c (st' b))).
  Proof. exists st1. exact window_particles. Qed.
End Window.

(** ** Data of the examples *)
(** Two particles in cells 0 and 4. *)
Definition win_st (o : list Z) : parts :=
  {| np := 2; maxp := 8; tg := fun _ => 1;
     ar := fun a p => match a with I 1 => if Nat.eqb p 0 then 0 else 4 | PldI 0 => 100 * nth 0 o 0 + Z.of_nat p | _ => 0 end |}.

Definition win_moved ls (o : list Z) : parts :=
  match move_particles ex_c 0 2 (size ls o) [1%nat; 0%nat] [0%nat; 1%nat] (win_st o) with Ok s => s | _ => win_st o end.

Theorem single_rank_tag : exists st',
  well_kept [6] ex_c (win_st [0]) /\
  comm_particles [[6]] lost_bc ex_c ex_sc (win_moved [[6]]) [0] = Ok st' /\
  (0 < np st')%nat /\ tg st' 0 <> 0 /\ tg st' 0 <> 1.
Proof.
  assert (W : well_kept [6] ex_c (win_st [0])).
  { split; [cbn; lia|]. split; [auto|]. intros p Hp. unfold live in Hp. apply filter_In in Hp as [Hp _]. apply in_seq in Hp.
    cbn in Hp. cbn. constructor; [|constructor]. destruct (Nat.eqb p 0); lia. }
  assert (X : match comm_particles [[6]] lost_bc ex_c ex_sc (win_moved [[6]]) [0] with
              | Ok s => (np s, tg s 0%nat) = (2%nat, 2) | _ => False end) by (vm_compute; reflexivity).
  destruct (comm_particles [[6]] lost_bc ex_c ex_sc (win_moved [[6]]) [0]) as [s'| |]; try tauto.
  exists s'. injection X as X1 X2. rewrite X1, X2. split; [exact W|]. split; [auto|]. split; [auto|]. split; lia.
Qed.

