From Coq Require Import ZArith List Bool Lia.
From Verif Require Import Base ListLemmas DecompModel DecompSpec DecompProofs DecompTop
  DirsModel DirsSpec DirsProofs TopoModel TopoSpec TopoProofs MpiModel MpiProofs.
Import ListNotations.
Open Scope Z_scope.

Lemma paired_okbc gbc : paired_flds gbc -> Forall okbc gbc.
Proof. intros H. eapply Forall_impl; [|exact H]. unfold okbc. intuition. Qed.

(** The positions of all subdomains. *)
Definition positions (ls : list (list Z)) : list (list Z) :=
  map sub_offset_ndomains (create_domains (prodZ (counts ls)) ls).

Lemma in_positions ls o : In o (positions ls) <-> in_box o (counts ls).
Proof.
  unfold positions. rewrite offsets_create by auto. rewrite in_map_iff. split.
  - intros [k [<- Hk]]. apply in_box_of_nat. apply in_indices. auto.
  - intros H. exists (map Z.to_nat o).
    assert (E : map Z.of_nat (map Z.to_nat o) = o).
    { unfold in_box in H. clear -H. induction H; simpl; auto. f_equal; auto. lia. }
    split; auto. apply in_indices. apply in_box_of_nat. rewrite E. auto.
Qed.

Lemma nodup_positions ls : NoDup (positions ls).
Proof. apply nodup_offsets. auto. Qed.

Lemma list_eqb_sym a b : list_eqb a b = list_eqb b a.
Proof.
  destruct (list_eqb a b) eqn:E, (list_eqb b a) eqn:F; auto.
  - apply list_eqb_true in E. subst. rewrite <- F. symmetry. apply list_eqb_true. auto.
  - apply list_eqb_true in F. subst. rewrite <- E. apply list_eqb_true. auto.
Qed.

Lemma no_partner_error ls gbc o dir :
  length gbc = length ls -> paired_flds gbc -> in_box o (counts ls) ->
  nonzero_direction (length ls) dir ->
  exists p, partners (counts ls) gbc o dir = Ok p.
Proof.
  intros L P Ho Hd. assert (LC : length (counts ls) = length ls) by (unfold counts; apply map_length).
  eexists. apply partners_ok; rewrite ?LC; auto using paired_okbc.
Qed.

Section Exchange.
  Variables (ls : list (list Z)) (gbc : list (flds_bc * flds_bc)).
  Hypothesis L : length gbc = length ls.
  Hypothesis P : paired_flds gbc.
  Let ns := counts ls.

  Lemma LC : length ns = length ls.
  Proof. unfold ns, counts. apply map_length. Qed.

  Lemma match_partner o b dir :
    in_box o ns -> in_box b ns -> nonzero_direction (length ls) dir ->
    (send_to ns gbc o dir = Some b <-> recv_from ns gbc b dir = Some o).
  Proof.
    intros Ho Hb Hd. apply matching; rewrite ?LC; auto using paired_okbc.
  Qed.

  Lemma send_to_box o b dir : in_box o ns -> nonzero_direction (length ls) dir ->
    send_to ns gbc o dir = Some b -> in_box b ns.
  Proof.
    intros Ho Hd. unfold send_to.
    rewrite partners_ok; rewrite ?LC; auto using paired_okbc. cbn [fst].
    intros E. assert (neighbor_offset ns o dir = b) by (destruct (cl _); congruence).
    subst b. apply neighbor_offset_in_box; auto. apply dir_F2. rewrite LC. apply Hd.
  Qed.

  Lemma recv_from_box o b dir : in_box o ns -> nonzero_direction (length ls) dir ->
    recv_from ns gbc o dir = Some b -> in_box b ns.
  Proof.
    intros Ho Hd. unfold recv_from.
    rewrite partners_ok; rewrite ?LC; auto using paired_okbc. cbn [snd].
    intros E. assert (neighbor_offset ns o (opp_dir dir) = b) by (destruct (cl _); congruence).
    subst b. apply neighbor_offset_in_box; auto. apply dir_F2. rewrite LC.
    apply opp_direction. apply Hd.
  Qed.

  Variable prog : list (list Z).
  Hypothesis HP : Forall (nonzero_direction (length ls)) prog.

  Lemma prog_dir k d : nth_error prog k = Some d -> nonzero_direction (length ls) d.
  Proof. intros H. rewrite Forall_forall in HP. apply HP. eapply nth_error_In; eauto. Qed.

  Lemma remote_Some o p b : remote o p = Some b <-> p = Some b /\ b <> o.
  Proof.
    unfold remote. destruct p as [c|]; [|split; [discriminate|intros [? _]; discriminate]].
    destruct (list_eqb c o) eqn:E.
    - apply list_eqb_true in E. subst. split; [discriminate|]. intros [H1 H2]. congruence.
    - split; [|intros [? _]; auto]. intros H. inversion H; subst. split; auto.
      intros ->. rewrite (proj2 (list_eqb_true o o) eq_refl) in E. discriminate.
  Qed.

  Lemma exch_matching a b k : In a (positions ls) -> In b (positions ls) ->
    (exch_dst ns gbc prog a k = Some b <-> exch_src ns gbc prog b k = Some a).
  Proof.
    rewrite !in_positions. intros Ha Hb. unfold exch_dst, exch_src.
    destruct (nth_error prog k) as [d|] eqn:E; [|split; discriminate].
    rewrite !remote_Some. rewrite (match_partner a b d) by (auto; eapply prog_dir; eauto).
    intuition.
  Qed.

  Lemma exch_dst_rank a b k : In a (positions ls) ->
    exch_dst ns gbc prog a k = Some b -> In b (positions ls).
  Proof.
    rewrite !in_positions. intros Ha. unfold exch_dst.
    destruct (nth_error prog k) as [d|] eqn:E; [|discriminate].
    rewrite remote_Some. intros [H _]. eapply send_to_box; eauto. eapply prog_dir; eauto.
  Qed.

  Lemma exch_src_rank a b k : In b (positions ls) ->
    exch_src ns gbc prog b k = Some a -> In a (positions ls).
  Proof.
    rewrite !in_positions. intros Ha. unfold exch_src.
    destruct (nth_error prog k) as [d|] eqn:E; [|discriminate].
    rewrite remote_Some. intros [H _]. eapply recv_from_box; eauto. eapply prog_dir; eauto.
  Qed.

  Variable eager : list Z -> nat -> Prop.
  Let K := length prog.
  Let run := steps (list_eq_dec Z.eq_dec) (positions ls) K
               (exch_dst ns gbc prog) (exch_src ns gbc prog) eager.
  Let one := step (list_eq_dec Z.eq_dec) (positions ls) K
               (exch_dst ns gbc prog) (exch_src ns gbc prog) eager.

  Lemma no_deadlock es s : run init es s ->
    (length es <= 4 * K * length (positions ls))%nat /\
    (~ finished (positions ls) K s -> exists e s', one s e s') /\
    (finished (positions ls) K s -> forall a b, In a (positions ls) -> In b (positions ls) ->
       chan s a b = []) /\
    (forall a b m k, In (Deliver a b m k) es -> m = k /\
       exch_dst ns gbc prog a k = Some b /\ exch_src ns gbc prog b k = Some a).
  Proof.
    intros H.
    assert (M : forall a b k, (k < K)%nat -> In a (positions ls) -> In b (positions ls) ->
       (exch_dst ns gbc prog a k = Some b <-> exch_src ns gbc prog b k = Some a))
      by (intros; apply exch_matching; auto).
    assert (D : forall a b k, (k < K)%nat -> In a (positions ls) ->
       exch_dst ns gbc prog a k = Some b -> In b (positions ls))
      by (intros; eapply exch_dst_rank; eauto).
    assert (S : forall a b k, (k < K)%nat -> In b (positions ls) ->
       exch_src ns gbc prog b k = Some a -> In a (positions ls))
      by (intros; eapply exch_src_rank; eauto).
    destruct (exchange_terminates _ _ _ _ _ eager M D S es s (nodup_positions ls) H) as [T1 T2].
    split; [exact T1|]. split; [exact T2|]. split.
    - intros F a b. eapply (finished_quiet _ _ _ _ _ eager M D S); eauto.
    - intros a b m k Hin.
      pose proof (deliveries_match _ _ _ _ _ eager M D S _ _ _ _ _ _ H Hin). tauto.
  Qed.
End Exchange.

(** Message extents agree on both sides. *)
Lemma sub_unique ls n d : n = prodZ (counts ls) -> In d (create_domains n ls) ->
  sub_ncells d = map2 (fun l a => nth (Z.to_nat a) l 0) ls (sub_offset_ndomains d) /\
  in_box (sub_offset_ndomains d) (counts ls).
Proof.
  intros En H. apply In_nth_error in H as [i Hi].
  destruct (nth_error_sub ls n En i d Hi) as [k [_ [-> Hk]]]. cbn. split.
  - clear. revert k. induction ls as [|l ls IH]; intros [|a k]; simpl; auto.
    f_equal; auto. f_equal. lia.
  - apply in_box_of_nat. auto.
Qed.

Lemma extents_match g ls dir : forall o,
  in_box o (counts ls) -> direction (length ls) dir ->
  let b := neighbor_offset (counts ls) o dir in
  let size p := map2 (fun l a => nth (Z.to_nat a) l 0) ls p in
  extents (send_slice g) (size o) dir = extents (recv_slice g) (size b) dir /\
  extents (send_slice_sync g) (size o) dir = extents (recv_slice_sync g) (size b) dir.
Proof.
  intros o Ho Hd. cbv zeta. destruct Hd as [L F]. revert o dir L F Ho.
  induction ls as [|l ls IH]; intros o [|d dir] L F Ho; try discriminate.
  - inversion Ho; subst. split; reflexivity.
  - cbn [counts map] in Ho. inversion Ho as [|a ? o' ? Ha Ho']; subst.
    inversion F as [|? ? Fd F']; subst. cbn [counts map]. rewrite neighbor_offset_cons.
    cbn [map2 extents].
    destruct (IH o' dir ltac:(simpl in L; lia) F' Ho') as [E1 E2].
    unfold extents in *. cbn [map2]. fold (counts ls).
    split; f_equal; auto; clear E1 E2.
    + unfold extent, send_slice, recv_slice, i_min, i_max.
      assert (C : d = -1 \/ d = 0 \/ d = 1) by lia.
      destruct C as [->|[->| ->]]; cbn [Z.eqb Z.opp Pos.eqb fst snd]; try lia.
      rewrite neighbor1_zero. lia.
    + unfold extent, send_slice_sync, recv_slice_sync, i_min, i_max.
      assert (C : d = -1 \/ d = 0 \/ d = 1) by lia.
      destruct C as [->|[->| ->]]; cbn [Z.eqb Z.opp Pos.eqb fst snd]; try lia.
      rewrite neighbor1_zero. lia.
Qed.

Lemma message_extents ls gbc g da db dir :
  length gbc = length ls -> paired_flds gbc -> nonzero_direction (length ls) dir ->
  let doms := create_domains (prodZ (counts ls)) ls in
  In da doms -> In db doms ->
  send_to (counts ls) gbc (sub_offset_ndomains da) dir = Some (sub_offset_ndomains db) ->
  extents (send_slice g) (sub_ncells da) dir = extents (recv_slice g) (sub_ncells db) dir /\
  extents (send_slice_sync g) (sub_ncells da) dir =
  extents (recv_slice_sync g) (sub_ncells db) dir.
Proof.
  intros L P Hd doms Ha Hb H.
  destruct (sub_unique ls _ da eq_refl Ha) as [Ea Oa].
  destruct (sub_unique ls _ db eq_refl Hb) as [Eb Ob].
  unfold send_to in H.
  assert (LC : length (counts ls) = length ls) by (unfold counts; apply map_length).
  rewrite partners_ok in H; rewrite ?LC; auto using paired_okbc. cbn [fst] in H.
  assert (E : neighbor_offset (counts ls) (sub_offset_ndomains da) dir = sub_offset_ndomains db)
    by (destruct (cl _); congruence).
  rewrite Ea, Eb, <- E. apply extents_match; auto. apply Hd.
Qed.

Lemma partners_match ls gbc :
  length gbc = length ls -> paired_flds gbc ->
  forall o b dir, in_box o (counts ls) -> in_box b (counts ls) ->
  nonzero_direction (length ls) dir ->
  (exists p, partners (counts ls) gbc o dir = Ok p) /\
  (send_to (counts ls) gbc o dir = Some b <-> recv_from (counts ls) gbc b dir = Some o).
Proof.
  intros L P o b dir Ho Hb Hd. split.
  - apply no_partner_error; auto.
  - apply match_partner; auto.
Qed.

(** C06 *)
Lemma axis_opp D dir k s : axis_aligned D dir k s -> axis_aligned D (opp_dir dir) k (- s).
Proof.
  intros [Hd [Hk [Hs Hj]]]. split; [apply opp_direction; auto|]. split; auto.
  split; [lia|]. intros j Hj'. specialize (Hj j Hj'). unfold opp_dir.
  change 0 with (- 0) at 1. rewrite (map_nth Z.opp dir 0 j). rewrite Hj.
  destruct (j =? k)%nat; auto.
Qed.

Lemma no_wrap_face ls gbc o dir k s :
  length gbc = length ls -> paired_flds gbc -> in_box o (counts ls) ->
  axis_aligned (length ls) dir k s -> on_global_boundary (counts ls) o k s ->
  user_bc F_INVALID gbc k s <> F_PERIODIC ->
  send_to (counts ls) gbc o dir = None /\ recv_from (counts ls) gbc o (opp_dir dir) = None.
Proof.
  intros L P Ho Hd Hb Hu.
  assert (LC : length (counts ls) = length ls) by (unfold counts; apply map_length).
  assert (Hn : nonzero_direction (length ls) dir) by (eapply axis_nonzero; eauto).
  assert (Hk : (k < length gbc)%nat) by (destruct Hd as [_ [? _]]; lia).
  assert (B : flds_bc_in (counts ls) gbc o dir = user_bc F_INVALID gbc k s).
  { apply (face_condition flds_bc_eq_dec F_INVALID F_PERIODIC F_SYNC (counts ls) gbc o dir k s);
      rewrite ?LC; auto.
    eapply Forall_impl; [|exact P]. simpl. tauto. }
  assert (C : cl (flds_bc_in (counts ls) gbc o dir) = CO).
  { rewrite B. assert (Hb' := proj1 (Forall_forall _ _) P (nth k gbc (F_INVALID, F_INVALID))
      (nth_In _ _ Hk)). simpl in Hb'. unfold user_bc in *.
    destruct (s =? -1); destruct (nth k gbc (F_INVALID, F_INVALID)) as [lo hi]; cbn [fst snd] in *;
      [destruct lo|destruct hi]; simpl; try reflexivity; tauto. }
  unfold send_to, recv_from. rewrite !partners_ok; rewrite ?LC; auto using paired_okbc.
  2:{ apply opp_nonzero; auto. }
  cbn [fst snd]. rewrite opp_opp, C. auto.
Qed.

Lemma corner_leak :
  exists ls gbc o dir b k,
    length gbc = length ls /\ paired_flds gbc /\ in_box o (counts ls) /\
    nonzero_direction (length ls) dir /\ crosses (counts ls) o dir k /\
    user_bc F_INVALID gbc k (nth k dir 0) = F_CONDUCTOR /\
    send_to (counts ls) gbc o dir = Some b.
Proof.
  exists [[8; 8]; [8; 8]], [(F_PERIODIC, F_PERIODIC); (F_CONDUCTOR, F_CONDUCTOR)],
    [0; 1], [1; 1], [1; 0], 1%nat.
  split; [reflexivity|]. split.
  { repeat constructor; cbn; intuition discriminate. }
  split; [repeat constructor; lia|]. split.
  { split; [split; [reflexivity|repeat constructor; lia]|exists 1; simpl; intuition lia]. }
  split; [right; split; reflexivity|]. split; reflexivity.
Qed.
