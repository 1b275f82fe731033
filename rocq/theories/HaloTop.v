From Coq Require Import ZArith List Bool Lia Reals.
From Verif Require Import Base ListLemmas DecompModel DecompSpec DecompProofs DecompTop
  DirsModel DirsSpec DirsProofs TopoModel TopoSpec TopoProofs TopoTop HaloModel HaloSpec HaloProofs SyncProofs.
Import ListNotations.
Open Scope Z_scope.

Lemma in_box_dec x n : length x = length n -> {in_box x n} + {~ in_box x n}.
Proof.
  revert n; induction x as [|a x IH]; intros [|b n] E; try discriminate.
  - left. constructor.
  - destruct (IH n) as [H|H]; [simpl in E; lia| |].
    + destruct (Z_le_gt_dec 0 a); [destruct (Z_lt_ge_dec a b)|].
      * left. constructor; auto.
      * right. intros Q. inversion Q; subst. lia.
      * right. intros Q. inversion Q; subst. lia.
    + right. intros Q. inversion Q; subst. auto.
Qed.

Lemma all_periodic_paired gbc : all_periodic gbc -> paired_flds gbc.
Proof. intros AP. apply AP_paired. auto. Qed.

Lemma wrapped_active g ls d y : wide g ls -> In d (domains ls) -> in_box y (sub_ncells d) ->
  wrapped ls d y = map2 Z.add (sub_offset_ncells d) y.
Proof.
  intros W Hd Hy. destruct (dom_pos ls d Hd) as [B [E1 E2]]. rewrite E1 in Hy.
  rewrite wrapped_wrap by auto. rewrite E2.
  exact (at_active g ls (map (fun _ => (F_PERIODIC, F_PERIODIC)) ls) (fun t => t) W
          (map_length _ _) _ _ B Hy).
Qed.

Lemma periodic_exchange {V} g ls gbc (s s' : hstate V) G es :
  wide g ls -> length gbc = length ls -> all_periodic gbc -> fresh s ->
  holds g ls (fld s) G -> Forall (wf_event ls) es -> all_received ls es ->
  hexec g ls gbc s es = Some s' ->
  forall d y, In d (domains ls) -> in_extended g y (sub_ncells d) ->
    fld s' (sub_offset_ndomains d) (loc g y) = G (wrapped ls d y).
Proof.
  intros W L AP Fr Ho We Ar Ex d y Hd Hy.
  pose proof (all_periodic_paired gbc AP) as P.
  destruct (exchange_result g ls gbc G W L P s es s' Fr Ho We Ex) as [H1 H2].
  destruct (in_box_dec y (sub_ncells d)) as [B|B].
  { eapply Forall2_length. exact Hy. }
  - rewrite H1 by auto. rewrite (wrapped_active g) by auto. auto.
  - destruct (dom_pos ls d Hd) as [Bo [E1 E2]].
    destruct (H2 d y Hd Hy B) as [_ H3]. cbv zeta in H3.
    assert (ND : nonzero_direction (length ls) (opp_dir (zone y (sub_ncells d)))).
    { apply opp_nonzero. rewrite E1.
      rewrite <- (size_length ls (sub_offset_ndomains d) Bo). apply nonzero_iff. rewrite E1 in Hy, B. split.
      - eapply zone_dir. exact Hy.
      - destruct (is_zero _) eqn:Z0; auto. exfalso. apply B. eapply zone_zero; eauto. }
    apply H3.
    + destruct (periodic_partner ls gbc L P _ _ AP Bo ND) as [-> _]. discriminate.
    + apply Ar; auto.
Qed.

(** Gluing the active cells together. *)
Definition glue {V} (g : Z) (ls : list (list Z)) (dflt : V) (F : list Z -> list Z -> V) (c : list Z) : V :=
  match find (fun q => if list_eq_dec Z.eq_dec (map2 Z.add (sub_offset_ncells (fst q)) (snd q)) c
                       then true else false) (cells 0 ls) with
  | Some q => F (sub_offset_ndomains (fst q)) (loc g (snd q))
  | None => dflt
  end.

Lemma ext0_box n t : in_extended 0 t n <-> in_box t n.
Proof.
  unfold in_extended, in_box. split; intros H;
  (eapply Forall2_impl; [|exact H]; simpl; intros; lia).
Qed.

Lemma glue_holds {V} g ls (dflt : V) F : wide g ls -> dimension (length ls) -> holds g ls F (glue g ls dflt F).
Proof.
  intros W HD d z Hd Hz. unfold glue.
  assert (Hc : In (d, z) (cells 0 ls)) by (apply in_cells; split; auto; apply ext0_box; auto).
  destruct (find _ _) as [[d' z']|] eqn:E.
  - apply find_some in E. destruct E as [E1 E2]. cbn [fst snd] in *.
    destruct (list_eq_dec _ _ _) as [E|]; [|discriminate].
    assert ((d', z') = (d, z)) as Q.
    { apply in_cells in E1. cbn [fst snd] in E1. destruct E1 as [E1 E3]. apply ext0_box in E3.
      assert (Hg : In (d, z) (cells g ls)).
      { apply in_cells. cbn [fst snd]. split; auto. destruct W as [Wg _]. eapply Forall2_impl; [|exact Hz]. simpl. intros; lia. }
      destruct (owner_unique g ls (map (fun _ => (F_PERIODIC, F_PERIODIC)) ls) W (map_length _ _) (fun _ _ => R0) (d, z) Hg)
        as [c0 [O1 [O2 O3]]].
      transitivity c0.
      - apply O3; [apply in_cells; cbn [fst snd]; split; auto; apply ext0_box; auto|].
        unfold same_cell. cbn [fst snd]. rewrite !(wrapped_active g) by auto.
        destruct (list_eq_dec _ _ _); auto.
      - symmetry. apply O3; auto. unfold same_cell. destruct (list_eq_dec _ _ _); auto. }
    inversion Q; subst. auto.
  - apply (find_none _ _ E) in Hc. cbn [fst snd] in Hc. destruct (list_eq_dec _ _ _); [discriminate|congruence].
Qed.

Lemma list_eqb_refl l : list_eqb l l = true.
Proof. unfold list_eqb. destruct (list_eq_dec _ _ _); auto. Qed.

(** Progress: direction by direction, first all sends then all receives. *)
Definition round (ls : list (list Z)) (dir : list Z) : list hevent :=
  map (fun o => Pack o dir) (positions ls) ++ map (fun o => Unpack o dir) (positions ls).
Definition rounds (ls : list (list Z)) (dirs : list (list Z)) : list hevent :=
  flat_map (round ls) dirs.

Lemma hexec_app {V} g ls gbc (s : hstate V) e1 e2 :
  hexec g ls gbc s (e1 ++ e2) =
  match hexec g ls gbc s e1 with Some s' => hexec g ls gbc s' e2 | None => None end.
Proof.
  revert s; induction e1 as [|e e1 IH]; intros s; simpl; auto. destruct (hstep g ls gbc s e); auto.
Qed.

Lemma packs_exec {V} g ls gbc dir : forall os (s : hstate V), exists s',
  hexec g ls gbc s (map (fun o => Pack o dir) os) = Some s' /\
  (forall o, msg s o dir <> None -> msg s' o dir <> None) /\
  (forall o, In o os -> send_to (counts ls) gbc o dir <> None -> msg s' o dir <> None).
Proof.
  induction os as [|o os IH]; intros s; cbn [map hexec].
  - exists s. repeat split; auto; intros o [].
  - unfold hstep. fold (counts ls). destruct (send_to (counts ls) gbc o dir) eqn:E.
    + destruct (IH (pack g ls s o dir)) as [s' [H1 [H2 H3]]]. exists s'. split; auto.
      assert (K : forall o', (o' = o \/ msg s o' dir <> None) -> msg (pack g ls s o dir) o' dir <> None).
      { intros o' H. unfold pack. cbn [msg]. rewrite list_eqb_refl, andb_true_r.
        destruct (list_eqb o' o) eqn:Q; [discriminate|]. destruct H as [->|]; auto.
        rewrite list_eqb_refl in Q. discriminate. }
      split; [intros; apply H2; auto|]. intros o' [<-|Ho'] N; auto.
    + destruct (IH s) as [s' [H1 [H2 H3]]]. exists s'. repeat split; auto.
      intros o' [<-|Ho'] N; auto; congruence.
Qed.

Lemma unpacks_exec {V} g ls gbc dir : forall os (s : hstate V),
  (forall o a, In o os -> recv_from (counts ls) gbc o dir = Some a -> msg s a dir <> None) ->
  exists s', hexec g ls gbc s (map (fun o => Unpack o dir) os) = Some s'.
Proof.
  induction os as [|o os IH]; intros s H; cbn [map hexec].
  - eauto.
  - unfold hstep. fold (counts ls). destruct (recv_from (counts ls) gbc o dir) as [a|] eqn:E.
    + destruct (msg s a dir) as [m|] eqn:M; [|exfalso; eapply H; eauto; simpl; auto].
      apply IH. intros o' a' Ho' E'. unfold unpack. cbn [msg]. apply (H o'); simpl; auto.
    + apply IH. intros. eapply H; simpl; eauto.
Qed.

Lemma rounds_exec {V} g ls gbc : length gbc = length ls -> paired_flds gbc ->
  forall dirs, Forall (nonzero_direction (length ls)) dirs -> forall s : hstate V,
  exists s', hexec g ls gbc s (rounds ls dirs) = Some s'.
Proof.
  intros L P. induction 1 as [|dir dirs Hd F IH]; intros s; cbn [rounds flat_map].
  - simpl. eauto.
  - unfold round at 1. rewrite !hexec_app.
    destruct (packs_exec g ls gbc dir (positions ls) s) as [s1 [-> [_ H]]].
    destruct (unpacks_exec g ls gbc dir (positions ls) s1) as [s2 ->]; [|apply IH].
    intros o a Ho E. apply H.
    + apply in_positions. apply in_positions in Ho. exact (recv_from_box ls gbc L P o a dir Ho Hd E).
    + apply in_positions in Ho. pose proof (recv_from_box ls gbc L P o a dir Ho Hd E) as Ha.
      apply (match_partner ls gbc L P a o dir Ha Ho Hd) in E. congruence.
Qed.

Lemma exchange_completes {V} g ls gbc : length gbc = length ls -> paired_flds gbc ->
  dimension (length ls) -> forall s : hstate V,
  exists es s', hexec g ls gbc s es = Some s' /\ Forall (wf_event ls) es /\ all_received ls es.
Proof.
  intros L P HD s.
  assert (F : Forall (nonzero_direction (length ls)) (all_dirs (length ls))).
  { apply Forall_forall. intros d H. apply all_direction; auto. }
  destruct (rounds_exec g ls gbc L P _ F s) as [s' E].
  exists (rounds ls (all_dirs (length ls))), s'. split; auto. split.
  - apply Forall_forall. intros e He. unfold rounds, round in He. apply in_flat_map in He.
    destruct He as [d [Hd He]]. rewrite Forall_forall in F. specialize (F d Hd).
    apply in_app_iff in He. destruct He as [He|He]; apply in_map_iff in He; destruct He as [o [<- Ho]];
    apply in_positions in Ho; simpl; auto.
  - intros d dir Hd Hdir. unfold rounds. apply in_flat_map. exists dir.
    split; [apply all_complete; auto|]. unfold round. apply in_app_iff. right.
    apply in_map_iff. exists (sub_offset_ndomains d). split; auto. apply in_positions.
    destruct (dom_pos ls d Hd); auto.
Qed.

Lemma exchange_independent {V} g g' ls ls' gbc gbc' (s t s' t' : hstate V) G es es' :
  wide g ls -> length gbc = length ls -> all_periodic gbc -> fresh s ->
  wide g' ls' -> length gbc' = length ls' -> all_periodic gbc' -> fresh s' ->
  holds g ls (fld s) G -> Forall (wf_event ls) es -> all_received ls es ->
  holds g' ls' (fld s') G -> Forall (wf_event ls') es' -> all_received ls' es' ->
  hexec g ls gbc s es = Some t -> hexec g' ls' gbc' s' es' = Some t' ->
  forall d y d' y', In d (domains ls) -> in_extended g y (sub_ncells d) ->
    In d' (domains ls') -> in_extended g' y' (sub_ncells d') ->
    wrapped ls d y = wrapped ls' d' y' ->
    fld t (sub_offset_ndomains d) (loc g y) = fld t' (sub_offset_ndomains d') (loc g' y').
Proof.
  intros. rewrite (periodic_exchange g ls gbc s t G es) by auto.
  rewrite (periodic_exchange g' ls' gbc' s' t' G es') by auto. congruence.
Qed.
