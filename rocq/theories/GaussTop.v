From Coq Require Import ZArith List Reals Lra Lia Permutation Bool FunctionalExtensionality.
From Verif Require Import Base ListLemmas DecompModel DecompSpec DirsSpec HaloModel HaloSpec HaloProofs HaloTop SyncProofs TopoModel TopoSpec FieldModel FieldSpec ShapeSpec ShapeProofs
  DepositModel DepositSpec DepositProofs DepositTop InterpSpec DepositBounds FilterModel StepModel StepSpec StepProofs StepTop EnergySpec EnergyProofs FilterSpec FilterProofs FilterTop
  GaussSpec GaussProofs.
Import ListNotations.
Open Scope R_scope.

(** ** Continuity for one subdomain, seen on the whole grid *)
Lemma small_bound x : exists m, Forall (fun i => (- m <= i - 1 /\ i + 1 < m)%Z) x.
Proof.
  induction x as [|i x [m Hm]]; [exists 0%Z; constructor|]. exists (Z.max m (Z.abs i + 2)). constructor; [lia|].
  eapply Forall_impl; [|exact Hm]. cbn. intros; lia.
Qed.
Lemma fits_bound o g ofs x : length x = length ofs -> exists m, fits o g m ofs x.
Proof.
  revert x. induction ofs as [|a ofs IH]; intros [|x0 x] E; try discriminate; [exists 0%Z; constructor|].
  injection E as E. destruct (IH x E) as [m Hm]. unfold fits in *.
  exists (Z.max m (Z.abs a + Z.abs g + Z.abs (Int_part (IZR a + x0)) + 8)). constructor; [lia|].
  eapply Forall2_impl; [|exact Hm]. cbn. intros; lia.
Qed.

Lemma good_dims o D third ns p g : Forall2 (fun n m => good_move o D third m /\ reachable o n m) ns (mvs p) ->
  length ns = D -> (1 <= D <= 3)%nat ->
  forall J0 inv_dt ps cs k, True -> length k = D ->
  Forall (fun p => Forall2 (fun n m => good_move o D third m /\ reachable o n m) ns (mvs p)) ps ->
  Permutation cs (flat_map (deposit g o third inv_dt) ps) -> In p ps ->
  divJ (scatter cs J0) k = divJ J0 k - inv_dt * (rho (charge_order o) g now ps k - rho (charge_order o) g before ps k).
Proof.
  intros Hp LN HD J0 inv_dt ps cs k _ Lk HF HP Hin.
  assert (HL : (1 <= length ns)%nat) by lia.
  destruct ns as [|n ns]; [cbn in HL; lia|].
  inversion Hp as [|? m ? ms [G _] _ E1 E2]. 
  destruct o as [|o].
  - destruct G as [G1 _]. apply (zigzag_continuity g third); [lia| |exact HP].
    eapply Forall_impl; [|exact HF]. cbv beta. intros q Hq. split.
    + rewrite <- (Forall2_length _ _ _ Hq). lia.
    + clear -Hq. induction Hq as [|? ? ? ? [[_ V] _]]; constructor; auto.
  - destruct G as [G1 [G2 _]]. apply (esirkepov_continuity (S o) g third); [lia|lia| | |exact HP].
    + intro. apply G2. lia.
    + eapply Forall_impl; [|exact HF]. cbv beta. intros q Hq. split.
      * rewrite <- (Forall2_length _ _ _ Hq). lia.
      * clear -Hq. induction Hq as [|? ? ? ? [[_ [_ V]] _]]; constructor; auto.
Qed.

Lemma local_continuity o D third ns g inv_dt ps cs k : length ns = D -> (1 <= D <= 3)%nat -> length k = D ->
  Forall (fun p => Forall2 (fun n m => good_move o D third m /\ reachable o n m) ns (mvs p)) ps ->
  Permutation cs (flat_map (deposit g o third inv_dt) ps) ->
  divergence (fun a => DepositProofs.total cs (J a)) k
  = - inv_dt * (rho (charge_order o) g now ps k - rho (charge_order o) g before ps k).
Proof.
  intros LN HD Lk HF HP.
  assert (Q : divJ (scatter cs (fun _ _ => 0)) k = divJ (fun _ _ => 0) k - inv_dt * (rho (charge_order o) g now ps k - rho (charge_order o) g before ps k)).
  { destruct ps as [|p ps].
    - cbn in HP. apply Permutation_sym, Permutation_nil in HP. subst cs. cbn. ring.
    - apply (good_dims o D third ns p g); auto; [|left; reflexivity]. inversion HF; assumption. }
  rewrite divJ_scatter in Q. rewrite <- divJ_div by lia. lra.
Qed.

Lemma order_range o D third n m : good_move o D third m /\ reachable o n m -> (1 <= charge_order o <= 11)%nat /\ (o <= 11)%nat.
Proof. intros [G _]. destruct o as [|o]; cbn in *; lia. Qed.

Lemma reach_allocated o D third ns inv_dt ps cs : (1 <= D)%nat -> length ns = D ->
  Forall (fun p => Forall2 (fun n m => good_move o D third m /\ reachable o n m) ns (mvs p)) ps ->
  Permutation cs (flat_map (deposit (n_ghosts o) o third inv_dt) ps) ->
  forall t, In t cs -> allocated (n_ghosts o) ns (index_of t).
Proof.
  intros HD LN HF HP t Ht. apply (Permutation_in _ HP) in Ht. apply in_flat_map in Ht. destruct Ht as [p [Hp Ht]].
  rewrite Forall_forall in HF. specialize (HF p Hp).
  assert (o <= 11)%nat.
  { destruct ns as [|n ns]; [cbn in LN; lia|]. inversion HF as [|? m ? ? H _]; subst. apply order_range in H. tauto. }
  assert (HM : Forall2 (move_in o) ns (mvs p)) by (eapply Forall2_impl; [|exact HF]; cbv beta; unfold move_in, reachable; tauto).
  pose proof (deposit_range o third inv_dt ns p H HM) as HR. rewrite Forall_forall in HR. apply HR. exact Ht.
Qed.

Section Grid.
  Variables (o : nat) (ls : list (list Z)) (gbc : list (flds_bc * flds_bc)).
  Let g := n_ghosts o.
  Let N := map sumZ ls.
  Let D := length ls.
  Hypothesis W : wide g ls.
  Hypothesis L : length gbc = length ls.
  Hypothesis AP : all_periodic gbc.
  Hypothesis HD : dimension D.
  Variables (third inv_dt : R).

  Lemma D_range : (1 <= D <= 3)%nat. Proof. exact HD. Qed.

  Lemma dom_continuity d ps cs X : In d (domains ls) -> length X = D ->
    Forall (fun p => Forall2 (fun n m => good_move o D third m /\ reachable o n m) (sub_ncells d) (mvs p)) ps ->
    Permutation cs (flat_map (deposit g o third inv_dt) ps) ->
    divergence (fun a => proj g (sub_offset_ncells d) N cs (J a)) X
    = - inv_dt * (charge_at (charge_order o) N (map (placed now d) (alive ps)) X
                  - charge_at (charge_order o) N (map (placed before d) (alive ps)) X).
  Proof.
    intros Hd LX HF HP. destruct (dom_len ls d Hd) as [L1 [L2 _]]. pose proof D_range as HD'.
    assert (L3 : length (sub_offset_ncells d) = D) by (unfold D; lia).
    assert (L4 : length (sub_ncells d) = D) by (unfold D; lia).
    assert (L5 : length N = D) by (unfold N; apply map_length).
    destruct ps as [|p0 ps0] eqn:Eps.
    { cbn in HP. apply Permutation_sym, Permutation_nil in HP. subst cs. unfold divergence, bwd, proj, charge_at. cbn. ring. }
    rewrite <- Eps in *. assert (Ho : (1 <= charge_order o <= 11)%nat).
    { rewrite Eps in HF. inversion HF as [|? ? H _]; subst. destruct (sub_ncells d) as [|n ns]; [cbn in L4; lia|].
      inversion H as [|? m ? ? H' _]; subst. apply order_range in H'. tauto. }
    pose proof (reach_allocated o D third (sub_ncells d) inv_dt ps cs ltac:(lia) L4 HF HP) as HA.
    destruct (bounded cs (fun t m => Forall (fun i => (- m <= i - 1 /\ i + 1 < m)%Z) (index_of t))) as [m1 M1].
    { intros t m m' H Hm. eapply Forall_impl; [|exact H]. cbn. intros; lia. }
    { intros t _. apply small_bound. }
    assert (LM : forall p, In p ps -> length (mvs p) = D).
    { intros p Hp. rewrite Forall_forall in HF. specialize (HF p Hp). apply Forall2_length in HF. lia. }
    assert (FB : forall pos, exists m, forall p, In p ps -> fits (charge_order o) g m (sub_offset_ncells d) (map pos (mvs p))).
    { intro pos. apply (bounded ps (fun p m => fits (charge_order o) g m (sub_offset_ncells d) (map pos (mvs p)))).
      - intros p m m' H Hm. eapply Forall2_impl; [|exact H]. cbn. intros; lia.
      - intros p Hp. apply fits_bound. rewrite map_length, LM; auto. }
    destruct (FB now) as [m2 M2]. destruct (FB before) as [m3 M3].
    set (M := Z.max m1 (Z.max m2 m3)).
    assert (UP : forall (pos : mv -> R) m, (m <= M)%Z -> (forall p, In p ps -> fits (charge_order o) g m (sub_offset_ncells d) (map pos (mvs p))) ->
       forall p, In p ps -> fits (charge_order o) g M (sub_offset_ncells d) (map pos (mvs p))).
    { intros pos m Hm H p Hp. eapply Forall2_impl; [|apply (H p Hp)]. cbn. intros; lia. }
    assert (HB : forall t, In t cs -> length (index_of t) = D /\ Forall (fun i => (- M <= i - 1 /\ i + 1 < M)%Z) (index_of t)).
    { intros t Ht; split; [rewrite <- (Forall2_length _ _ _ (HA t Ht)); exact L4|].
      eapply Forall_impl; [|apply (M1 t Ht)]; cbn; unfold M; intros; lia. }
    rewrite (proj_div g (sub_offset_ncells d) N cs X M D (eq_sym L3) L5 LX HB).
    rewrite <- (rho_box (charge_order o) g M now ps d N X Ho) by (try lia; apply (UP now m2); auto; unfold M; lia).
    rewrite <- (rho_box (charge_order o) g M before ps d N X Ho) by (try lia; apply (UP before m3); auto; unfold M; lia).
    rewrite L3.
    transitivity (- inv_dt * (rsum (box (repeat (- M, M)%Z D)) (fun k => (if hits g (sub_offset_ncells d) N X k then rho (charge_order o) g now ps k else 0)
        + (-1) * (if hits g (sub_offset_ncells d) N X k then rho (charge_order o) g before ps k else 0)))).
    - rewrite <- rsum_scal. apply rsum_ext. intros k Hk.
      assert (Lk : length k = D).
      { apply in_boxl in Hk. apply Forall2_length in Hk. rewrite repeat_length in Hk. lia. }
      destruct (hits _ _ _ _ _); [|ring]. rewrite (local_continuity o D third (sub_ncells d) g inv_dt ps cs k); auto. ring.
    - rewrite rsum_plus, rsum_scal. ring.
  Qed.

  (** ** Synchronisation collects the contributions *)
  Lemma hits_wrap : forall ofs N X z, length N = length ofs -> length X = length ofs -> length z = length ofs ->
    hits g ofs N X (loc g z) = true <-> map2 Z.modulo (map2 Z.add ofs z) N = map2 Z.modulo X N.
  Proof.
    induction ofs as [|a ofs IH]; intros [|n N0] [|X0 X] [|z0 z] E1 E2 E3; try discriminate; [cbn; tauto|].
    cbn [loc map hits map2]. replace (a + (z0 + g - g))%Z with (a + z0)%Z by ring.
    rewrite andb_true_iff, Z.eqb_eq. injection E1 as E1; injection E2 as E2; injection E3 as E3.
    fold (loc g z). rewrite (IH N0 X z E1 E2 E3). split; [intros [-> ->]; reflexivity|].
    intro H. injection H as H1 H2. auto.
  Qed.

  Definition gathered (cs : list Z -> list contrib) (c : jcomp) (X : list Z) : R :=
    rsum (domains ls) (fun d => proj g (sub_offset_ncells d) N (cs (sub_offset_ndomains d)) c X).

  Lemma hits_period ofs N0 : forall X Y k, length X = length N0 -> length Y = length N0 ->
    map2 Z.modulo X N0 = map2 Z.modulo Y N0 -> hits g ofs N0 X k = hits g ofs N0 Y k.
  Proof.
    revert N0. induction ofs as [|a ofs IH]; intros [|n N0] [|X0 X] [|Y0 Y] [|k0 k] E1 E2 E; try discriminate; try reflexivity.
    cbn [map2] in E. injection E as E3 E4. cbn [hits]. rewrite E3. f_equal. apply IH; cbn in *; congruence.
  Qed.
  Lemma per_gathered cs : periodic N (gathered cs).
  Proof.
    intros c X Y LX LY E. unfold gathered. apply rsum_ext. intros d _. unfold proj. apply rsum_ext. intros [[c' x] v] _.
    rewrite (hits_period (sub_offset_ncells d) N X Y x); auto.
  Qed.

  Lemma sync_gathers cs : (forall d t, In d (domains ls) -> In t (cs (sub_offset_ndomains d)) -> allocated g (sub_ncells d) (index_of t)) ->
    agree_active g ls (sync_currents g ls gbc (deposited cs)) (gathered cs).
  Proof.
    intros HA d c y Hd Hy. unfold sync_currents. rewrite (sync_result g ls gbc W L AP HD) by auto.
    unfold cells. rewrite rsum_flat_map. unfold gathered. apply rsum_ext. intros d' Hd'. rewrite rsum_map. cbn [fst snd].
    destruct (dom_len ls d Hd) as [L1 [L2 _]]. destruct (dom_len ls d' Hd') as [L1' [L2' _]].
    pose proof (in_box_length _ _ Hy) as Ly.
    set (X := map2 Z.add (sub_offset_ncells d) y).
    assert (LX : length X = length ls) by (unfold X; rewrite map2_length; lia).
    assert (LN : length N = length ls) by (apply map_length).
    transitivity (rsum (box (map (fun n => (- g, n + g)%Z) (sub_ncells d'))) (fun z => rsum (cs (sub_offset_ndomains d')) (fun t =>
      if hits g (sub_offset_ncells d') N X (loc g z) then hit c (loc g z) t else 0))).
    - apply rsum_ext. intros z Hz. apply in_box_ext_list in Hz. pose proof (Forall2_length _ _ _ Hz) as Lz.
      assert (Q : same_cell ls (d, y) (d', z) = hits g (sub_offset_ncells d') N X (loc g z)).
      { apply Bool.eq_iff_eq_true. rewrite hits_wrap by lia. unfold same_cell. cbn [fst snd].
        destruct (list_eq_dec _ _ _) as [E|E]; unfold wrapped in E; fold N X in E; split; intro H; try congruence.
        - symmetry. exact E.
        - exfalso. apply E. symmetry. exact H. }
      rewrite Q. unfold deposited. rewrite scatter_total, total_sum, Rplus_0_l.
      destruct (hits _ _ _ _ _); [reflexivity|]. symmetry. apply rsum_zero.
    - rewrite rsum_swap. unfold proj. apply rsum_ext. intros [[c' x] v] Ht. pose proof (HA d' _ Hd' Ht) as Hx. cbn in Hx.
      assert (RT : loc g (map (fun a => (a - g)%Z) x) = x).
      { unfold loc. rewrite map_map. rewrite <- (map_id x) at 2. apply map_ext. intro. ring. }
      rewrite (rsum_one _ _ (map (fun a => (a - g)%Z) x)).
      + rewrite RT. unfold hit. destruct (jcomp_eq_dec c c'); [|destruct (hits _ _ _ _ _); reflexivity].
        destruct (list_eq_dec Z.eq_dec x x); [reflexivity|congruence].
      + apply nodup_box.
      + apply in_box_ext_list. clear -Hx. unfold allocated, in_extended in *. induction Hx; cbn; constructor; auto; lia.
      + intros z Hz Hne. destruct (hits _ _ _ _ _); [|reflexivity]. unfold hit. destruct (jcomp_eq_dec c c'); [|reflexivity].
        destruct (list_eq_dec Z.eq_dec (loc g z) x) as [E|]; [|reflexivity]. exfalso. apply Hne. rewrite <- E. unfold loc.
        rewrite map_map. rewrite <- (map_id z) at 1. apply map_ext. intro. ring.
  Qed.

  (** ** One step *)
  Variables (p : solver) (nf : nat).
  Hypothesis Hh : sdx p <> 0.

  Lemma g_ge : (2 <= g)%Z.
  Proof.
    unfold g, n_ghosts. destruct o as [|o']; [lia|].
    pose proof (Z.div_le_mono 2 (Z.of_nat (S o') + 1) 2). rewrite Z.div_same in H by lia. lia.
  Qed.

  Lemma good_alloc s ps : good_step o ls third inv_dt nf (s, ps) -> forall d t, In d (domains ls) -> In t (adds s (sub_offset_ndomains d)) ->
    allocated g (sub_ncells d) (index_of t).
  Proof.
    intros (_ & _ & _ & _ & HS) d t Hd Ht. destruct (HS d Hd) as [HP HF]. destruct (dom_len ls d Hd) as [_ [L2 _]].
    pose proof D_range. apply (reach_allocated o D third (sub_ncells d) inv_dt _ _ ltac:(lia) L2 HF HP t Ht).
  Qed.

  Lemma phase_agree s ps cur : good_step o ls third inv_dt nf (s, ps) ->
    current_phase g ls gbc (adds s) (e_j s) (filters s) = Some cur ->
    agree g ls cur (fun c => passes nf (gathered (adds s) c)).
  Proof.
    intros HS HX. pose proof (good_alloc s ps HS) as HA. destruct HS as (_ & CJ & LF & HFil & _).
    unfold current_phase, obind in HX.
    destruct (communicate g ls gbc _ (e_j s) _) as [cur0|] eqn:EC; [|discriminate].
    rewrite <- LF. pose proof g_ge.
    apply (filter_passes_agree g ls gbc W L AP HD ltac:(lia) (filters s) cur0 cur); auto; [apply per_gathered|].
    apply (comm_agree g ls gbc W L AP (fun _ => true) (e_j s) (sync_currents g ls gbc (deposited (adds s))) cur0); auto.
    - apply per_gathered.
    - apply sync_gathers. exact HA.
    - discriminate.
  Qed.

  Lemma per_phase s : periodic N (fun c => passes nf (gathered (adds s) c)).
  Proof.
    pose proof (per_gathered (adds s)) as H. intros c. 
    assert (Q : forall n f, per1 N f -> per1 N (passes n f)).
    { induction n as [|n IH]; intros f Hf; cbn [passes]; [exact Hf|]. apply IH. apply (per_coded ls). exact Hf. }
    apply Q. intros x y Hx Hy E. apply H; auto.
  Qed.

  Lemma step_agree s ps em em' F : good_step o ls third inv_dt nf (s, ps) -> periodic N F -> agree g ls (ph ls p em) F ->
    pic_step g ls gbc p s em = Some em' ->
    agree g ls (ph ls p em') (ref_step p (phys_j D (sdx p) (fun c => passes nf (gathered (adds s) c))) F).
  Proof.
    intros HS PF HA HX. unfold pic_step, obind in HX.
    destruct (current_phase g ls gbc (adds s) (e_j s) (filters s)) as [cur|] eqn:EC; [|discriminate].
    pose proof (phase_agree s ps cur HS EC) as HC. pose proof g_ge as Hg.
    destruct HS as [GS _].
    apply (field_step_agree g ls gbc W L AP p Hh Hg HD (fs s) cur _ em em' F GS PF); auto.
    - intros c x y Hx Hy E. unfold phys_j. f_equal. apply (per_phase s c x y); auto.
    - intros d c y Hd Hy. unfold phys_j. f_equal. apply HC; auto.
      eapply Forall2_impl; [|exact Hy]. cbn. intros; lia.
  Qed.

  (** ** Divergence of the reference *)
  Lemma div_step cur F x : divergence (elec (ref_step p cur F)) x = divergence (elec F) x + scur p * divergence (fun a => cur (J a)) x.
  Proof.
    unfold divergence, bwd, elec, ref_step, ref_currents, ref_ampere, ref_faraday, curl, bwd. cbn [electric axis_of E B J next].
    rewrite !(shift_comm 1 _ 0), !(shift_comm 2 _ 0), !(shift_comm 2 _ 1). ring.
  Qed.
  Lemma div_phys cur x : length x = D -> divergence (fun a => phys_j D (sdx p) cur (J a)) x = sdx p * divergence (fun a => cur (J a)) x.
  Proof.
    intro Hx. assert (Q : forall a, (a <= 2)%nat -> bwd a (phys_j D (sdx p) cur (J a)) x = sdx p * bwd a (cur (J a)) x).
    { intros a Ha. destruct (le_lt_dec D a) as [H|H].
      - rewrite !bwd_out by lia. ring.
      - unfold bwd, phys_j, unit_of. replace (axis_of_j (J a)) with a by (destruct a as [|[|[|a]]]; try reflexivity; lia).
        apply Nat.ltb_lt in H. rewrite H. ring. }
    unfold divergence. rewrite !Q by lia. ring.
  Qed.

  Lemma coded_ext f h x : (forall y, length y = length x -> f y = h y) -> coded_filter f x = coded_filter h x.
  Proof.
    intro H. unfold coded_filter, product_filter, smooth, misplaced. rewrite !H by (rewrite ?shift_len; reflexivity). reflexivity.
  Qed.
  Lemma passes_ext n : forall f h x, (forall y, length y = length x -> f y = h y) -> passes n f x = passes n h x.
  Proof.
    induction n as [|n IH]; intros f h x H; cbn [passes]; [apply H; reflexivity|]. apply IH. intros y Hy. apply coded_ext.
    intros z Hz. apply H. lia.
  Qed.

  Lemma div_gathered s ps X : good_step o ls third inv_dt nf (s, ps) -> length X = D ->
    divergence (fun a => gathered (adds s) (J a)) X
    = - inv_dt * (charge_at (charge_order o) N (all_charges ls now ps) X - charge_at (charge_order o) N (all_charges ls before ps) X).
  Proof.
    intros (_ & _ & _ & _ & HS) LX.
    assert (CA : forall pos, charge_at (charge_order o) N (all_charges ls pos ps) X =
      rsum (domains ls) (fun d => charge_at (charge_order o) N (map (placed pos d) (alive (ps (sub_offset_ndomains d)))) X)).
    { intro pos. unfold charge_at at 1, all_charges. rewrite rsum_flat_map. reflexivity. }
    rewrite !CA.
    transitivity (rsum (domains ls) (fun d => divergence (fun a => proj g (sub_offset_ncells d) N (adds s (sub_offset_ndomains d)) (J a)) X)).
    - unfold divergence, bwd, gathered. 
      assert (P : forall f h : subdomain -> R, rsum (domains ls) f - rsum (domains ls) h = rsum (domains ls) (fun k => f k - h k)).
      { intros f h. transitivity (rsum (domains ls) f + (-1) * rsum (domains ls) h); [ring|].
        rewrite <- rsum_scal, <- rsum_plus. apply rsum_ext. intros. ring. }
      rewrite !P, <- !rsum_plus. reflexivity.
    - transitivity (rsum (domains ls) (fun d => - inv_dt * (charge_at (charge_order o) N (map (placed now d) (alive (ps (sub_offset_ndomains d)))) X
          + (-1) * charge_at (charge_order o) N (map (placed before d) (alive (ps (sub_offset_ndomains d)))) X))).
      + apply rsum_ext. intros d Hd. destruct (HS d Hd) as [HP HF]. rewrite (dom_continuity d _ _ X Hd LX HF HP). ring.
      + rewrite rsum_scal, rsum_plus, rsum_scal. ring.
  Qed.

  Lemma div_passes s ps X : good_step o ls third inv_dt nf (s, ps) -> length X = D ->
    divergence (fun a => passes nf (gathered (adds s) (J a))) X
    = - inv_dt * (passes nf (charge_at (charge_order o) N (all_charges ls now ps)) X
                  - passes nf (charge_at (charge_order o) N (all_charges ls before ps)) X).
  Proof.
    intros HS LX. rewrite <- passes_divergence.
    transitivity (passes nf (fun y => (fun _ => 0) y + (- inv_dt) * ((fun y => charge_at (charge_order o) N (all_charges ls now ps) y
       + (-1) * charge_at (charge_order o) N (all_charges ls before ps) y)) y) X).
    - apply passes_ext. intros y Hy. rewrite (div_gathered s ps y HS) by lia. ring.
    - rewrite passes_lin, passes_lin, passes_zero. ring.
  Qed.

  (** ** Charges between steps *)
  Lemma charge_perm o0 N0 l l' X : Permutation l l' -> charge_at o0 N0 l X = charge_at o0 N0 l' X.
  Proof. apply rsum_perm. Qed.
  Lemma node_same o0 : forall N0 x y X, length x = length y ->
    (forall i n a b, nth_error N0 i = Some n -> nth_error x i = Some a -> nth_error y i = Some b -> exists k : Z, a = b + IZR (k * n)) ->
    node_weight o0 N0 x X = node_weight o0 N0 y X.
  Proof.
    induction N0 as [|n N0 IH]; intros [|a x] [|b y] [|X0 X] E H; try discriminate; try reflexivity.
    cbn [node_weight]. destruct (H 0%nat n a b eq_refl eq_refl eq_refl) as [k ->]. rewrite axis_periodic.
    f_equal. apply IH; [cbn in E; congruence|]. intros i n' a' b' H1 H2 H3. apply (H (S i) n' a' b'); auto.
  Qed.
  Lemma charge_same o0 l l' X : same_charges N l l' -> charge_at o0 N l X = charge_at o0 N l' X.
  Proof.
    intros [l'' [HP HF]]. rewrite (charge_perm o0 N l l'' X HP). clear HP. unfold charge_at.
    induction HF as [|a b l1 l2 [H1 [H2 H3]] HF IH]; [reflexivity|].
    change (fst a * node_weight o0 N (snd a) X + rsum l1 (fun c => fst c * node_weight o0 N (snd c) X) =
            fst b * node_weight o0 N (snd b) X + rsum l2 (fun c => fst c * node_weight o0 N (snd c) X)).
    rewrite IH, H1. f_equal. f_equal. apply node_same; auto.
  Qed.

  (** ** The run *)
  Lemma run_invariant l : forall c c' em em' F, Forall (good_step o ls third inv_dt nf) l -> carried ls c l c' ->
    periodic N F -> agree g ls (ph ls p em) F -> pic_run g ls gbc p (map fst l) em = Some em' ->
    exists F', periodic N F' /\ agree g ls (ph ls p em') F' /\
    forall X, length X = D ->
      divergence (elec F') X + scur p * sdx p * inv_dt * passes nf (charge_at (charge_order o) N c') X
      = divergence (elec F) X + scur p * sdx p * inv_dt * passes nf (charge_at (charge_order o) N c) X.
  Proof.
    induction l as [|[s ps] l IH]; intros c c' em em' F HG HC PF HA; cbn [map fst pic_run].
    - intro X. injection X as <-. exists F. split; [auto|]. split; [auto|]. intros X LX. f_equal. f_equal.
      apply passes_ext. intros y Hy. symmetry. apply charge_same. exact HC.
    - unfold obind. destruct (pic_step g ls gbc p s em) as [em1|] eqn:E1; [|discriminate]. intro E2.
      inversion HG as [|? ? HS HG']; subst. destruct HC as [C1 C2].
      pose proof (step_agree s ps em em1 F HS PF HA E1) as HA1.
      assert (PF1 : periodic N (ref_step p (phys_j D (sdx p) (fun c0 => passes nf (gathered (adds s) c0))) F)).
      { apply per_step; auto. intros c0 x y Hx Hy E. unfold phys_j. f_equal. apply (per_phase s c0 x y); auto. }
      destruct (IH _ _ em1 em' _ HG' C2 PF1 HA1 E2) as [F' [P' [A' Q]]].
      exists F'. split; [auto|]. split; [auto|]. intros X LX. rewrite (Q X LX).
      rewrite div_step, div_phys by auto. rewrite (div_passes s ps X HS LX).
      assert (Q2 : passes nf (charge_at (charge_order o) N c) X = passes nf (charge_at (charge_order o) N (all_charges ls before ps)) X).
      { apply passes_ext. intros y _. apply charge_same. exact C1. }
      rewrite Q2. ring.
  Qed.

  Lemma div_local em F d y : agree g ls (ph ls p em) F -> In d (domains ls) -> in_box y (sub_ncells d) ->
    sdx p * divE (em (sub_offset_ndomains d)) (loc g y) = divergence (elec F) (map2 Z.add (sub_offset_ncells d) y).
  Proof.
    intros HA Hd Hy. destruct (dom_len ls d Hd) as [L1 [L2 _]]. pose proof (in_box_length _ _ Hy) as Ly. pose proof D_range as HD'.
    pose proof g_ge as Hg. unfold D in *.
    assert (E1 : sdx p * divE (em (sub_offset_ndomains d)) (loc g y) = divergence (elec (ph ls p em (sub_offset_ndomains d))) (loc g y)).
    { rewrite divE_div by (unfold loc; rewrite map_length; lia).
      assert (Q : forall a, (a <= 2)%nat -> bwd a (elec (ph ls p em (sub_offset_ndomains d)) a) (loc g y) = sdx p * bwd a (elec (em (sub_offset_ndomains d)) a) (loc g y)).
      { intros a Ha. assert (LL : length (loc g y) = length ls) by (unfold loc; rewrite map_length; lia).
        destruct (le_lt_dec (length ls) a) as [H|H].
        - rewrite !bwd_out by lia. ring.
        - unfold bwd, elec, ph, phys, unit_of. replace (axis_of (E a)) with a by (destruct a as [|[|[|a]]]; try reflexivity; lia).
          apply Nat.ltb_lt in H. rewrite H. ring. }
      unfold divergence. rewrite !Q by lia. ring. }
    rewrite E1. clear E1.
    assert (SL : forall a, loc g (shift a (-1) y) = shift a (-1) (loc g y)).
    { intro a. unfold loc. clear. revert a. induction y as [|i y IH]; intros [|a]; cbn; f_equal; auto; ring. }
    assert (SA : forall a ofs, length ofs = length y -> map2 Z.add ofs (shift a (-1) y) = shift a (-1) (map2 Z.add ofs y)).
    { intros a. clear. revert a. induction y as [|i y IH]; intros [|a] [|o0 ofs] E; try discriminate; cbn; auto; f_equal; auto; ring. }
    assert (EX : forall a, in_extended g (shift a (-1) y) (sub_ncells d)).
    { intro a. clear -Hy Hg. revert a. induction Hy as [|i n y ns Hi Hy IH]; intros [|a]; cbn; constructor; try lia; try apply IH.
      eapply Forall2_impl; [|exact Hy]. cbn. intros; lia. }
    assert (EX0 : in_extended g y (sub_ncells d)) by (eapply Forall2_impl; [|exact Hy]; cbn; intros; lia).
    unfold divergence, bwd, elec. rewrite <- !SL, !(HA d _ _ Hd EX0), !(HA d _ _ Hd (EX _)). rewrite !SA by lia. reflexivity.
  Qed.
End Grid.

Lemma glued_periodic g ls (em : list Z -> fields) : wide g ls -> dimension (length ls) ->
  exists F, periodic (map sumZ ls) F /\ agree_active g ls em F.
Proof.
  intros W HD. set (G := fun c => glue g ls 0 (fun o x => em o c x)).
  exists (fun c X => G c (map2 Z.modulo X (map sumZ ls))). split.
  - intros c x y _ _ E. rewrite E. reflexivity.
  - intros d c y Hd Hy. unfold G.
    pose proof (glue_holds g ls 0 (fun o x => em o c x) W HD d y Hd Hy) as H. cbv beta in H. rewrite H. f_equal.
    destruct (dom_pos ls d Hd) as [B0 [E1 E2]]. symmetry.
    pose proof (HaloProofs.at_active g ls (map (fun _ => (F_PERIODIC, F_PERIODIC)) ls) (fun t => t) W (map_length _ _) (sub_offset_ndomains d) y B0) as Q.
    rewrite E2. apply Q. rewrite <- E1. exact Hy.
Qed.

(** ** From any initial arrays *)
Lemma gauss_run o ls gbc third inv_dt p nf l c c' eE eB em0 em em' :
  wide (n_ghosts o) ls -> length gbc = length ls -> all_periodic gbc -> dimension (length ls) -> sdx p <> 0 ->
  complete ls eE -> complete ls eB -> first_exchange (n_ghosts o) ls gbc eE eB em0 = Some em ->
  Forall (good_step o ls third inv_dt nf) l -> carried ls c l c' ->
  pic_run (n_ghosts o) ls gbc p (map fst l) em = Some em' ->
  forall d y, In d (domains ls) -> in_box y (sub_ncells d) ->
  divE (em' (sub_offset_ndomains d)) (loc (n_ghosts o) y) - divE (em (sub_offset_ndomains d)) (loc (n_ghosts o) y)
  = - scur p * inv_dt * (passes nf (charge_at (charge_order o) (map sumZ ls) c') (map2 Z.add (sub_offset_ncells d) y)
                         - passes nf (charge_at (charge_order o) (map sumZ ls) c) (map2 Z.add (sub_offset_ncells d) y)).
Proof.
  intros W L AP HD Hh CE CB X0 HG HC X1 d y Hd Hy.
  destruct (glued_periodic (n_ghosts o) ls (ph ls p em0) W HD) as [F [PF AF]].
  pose proof (g_ge o ls gbc W L) as Hg.
  pose proof (first_agree (n_ghosts o) ls gbc W L AP p Hh Hg eE eB em0 em F CE CB PF AF X0) as A0.
  destruct (run_invariant o ls gbc W L AP HD third inv_dt p nf Hh l c c' em em' F HG HC PF A0 X1) as [F' [PF' [A' Q]]].
  destruct (dom_len ls d Hd) as [L1 [L2 _]]. pose proof (in_box_length _ _ Hy) as Ly.
  assert (LX : length (map2 Z.add (sub_offset_ncells d) y) = length ls) by (rewrite map2_length; lia).
  specialize (Q _ LX).
  rewrite <- (div_local o ls gbc W L HD p nf em F d y A0 Hd Hy), <- (div_local o ls gbc W L HD p nf em' F' d y A' Hd Hy) in Q.
  apply Rmult_eq_reg_l with (sdx p); [|exact Hh].
  match goal with |- _ * (?a - ?b) = _ => transitivity (sdx p * a - sdx p * b); [ring|] end.
  lra.
Qed.


Lemma gauss_kept o ls gbc third inv_dt p nf l c c' eE eB em0 em em' :
  wide (n_ghosts o) ls -> length gbc = length ls -> all_periodic gbc -> dimension (length ls) -> sdx p <> 0 ->
  complete ls eE -> complete ls eB -> first_exchange (n_ghosts o) ls gbc eE eB em0 = Some em ->
  Forall (good_step o ls third inv_dt nf) l -> carried ls c l c' ->
  pic_run (n_ghosts o) ls gbc p (map fst l) em = Some em' ->
  let K := - scur p * inv_dt in
  gauss (n_ghosts o) ls K nf (charge_at (charge_order o) (map sumZ ls) c) em ->
  gauss (n_ghosts o) ls K nf (charge_at (charge_order o) (map sumZ ls) c') em'.
Proof.
  intros W L AP HD Hh CE CB X0 HG HC X1 K H d y Hd Hy. specialize (H d y Hd Hy).
  pose proof (gauss_run o ls gbc third inv_dt p nf l c c' eE eB em0 em em' W L AP HD Hh CE CB X0 HG HC X1 d y Hd Hy) as Q.
  unfold K in *. rewrite H in Q. lra.
Qed.

(** Runs exist: a schedule can be chosen for any particles. *)
Lemma filter_passes_complete g ls gbc n : forall cur, length gbc = length ls -> paired_flds gbc -> dimension (length ls) ->
  exists l cur', length l = n /\ Forall (fun te => any_order (fst te) /\ complete ls (snd te)) l /\ filter_passes g ls gbc l cur = Some cur'.
Proof.
  induction n as [|n IH]; intros cur L P HD.
  - exists [], cur. repeat split; constructor.
  - set (id := fun (_ : list Z) (l : list (list Z)) => l).
    destruct (communicate_completes g ls gbc (fun _ : jcomp => true) (launch g ls (fun o => filter_body (filter_args g ls gbc o) (cur o)) id cur) L P HD) as [es [cur1 [C X]]].
    destruct (IH cur1 L P HD) as [l [cur' [E [F Y]]]].
    exists ((id, es) :: l), cur'. split; [cbn; congruence|]. split.
    + constructor; auto. split; [intros ? ?; apply Permutation_refl|exact C].
    + cbn [filter_passes]. unfold filter_pass, obind. rewrite X. exact Y.
Qed.
Lemma pic_run_completes g ls gbc p nf (cs : list (list Z -> list contrib)) : forall em, length gbc = length ls -> paired_flds gbc -> dimension (length ls) ->
  exists l em', map adds l = cs /\
   Forall (fun s => good_sched ls (fs s) /\ complete ls (e_j s) /\ length (filters s) = nf /\
     Forall (fun te => any_order (fst te) /\ complete ls (snd te)) (filters s)) l /\
   pic_run g ls gbc p l em = Some em'.
Proof.
  induction cs as [|a cs IH]; intros em L P HD.
  - exists [], em. repeat split; constructor.
  - destruct (communicate_completes g ls gbc (fun _ : jcomp => true) (sync_currents g ls gbc (deposited a)) L P HD) as [es [cur [C X]]].
    destruct (filter_passes_complete g ls gbc nf cur L P HD) as [fl [cur' [E1 [E2 E3]]]].
    destruct (field_step_completes g ls gbc p cur' em L P HD) as [s [em1 [G Y]]].
    destruct (IH em1 L P HD) as [l [em' [H1 [H2 H3]]]].
    exists ({| adds := a; e_j := es; filters := fl; fs := s |} :: l), em'.
    split; [cbn; congruence|]. split; [constructor; auto|].
    cbn [pic_run]. unfold pic_step, current_phase, obind. cbn [adds e_j filters fs].
    change (communicate g ls gbc (fun _ => true) es (sync_currents g ls gbc (deposited a))) with (communicate g ls gbc (fun _ : jcomp => true) es (sync_currents g ls gbc (deposited a))).
    rewrite X, E3, Y. exact H3.
Qed.
