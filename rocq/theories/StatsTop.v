(** Proofs for [StatsProps]: particles, columns, volumes. *)
From Coq Require Import ZArith List Bool Reals Lra Lia Permutation.
From Verif Require Import Base DecompModel DecompSpec DirsSpec TopoModel TopoSpec HaloModel HaloSpec HaloTop SyncProofs.
From Verif Require Import MomentModel MomentSpec MomentTop MomentSync StatsModel StatsSpec MetModel.
Import ListNotations.
Open Scope R_scope.


(** What the kernel sums in a Cartesian run. *)
Section Cart.
  Variables (c : mcfg) (V0 ppc0 eps : R).
  Hypothesis Hf : frame c = cartesian_frame.
  Hypothesis Hw : use_weights c = false.
  Hypothesis Hn : inv_n0 c = V0 / ppc0.
  Hypothesis HV : forall x, sqrt_det_h c x = V0.
  Hypothesis PV : V0 <> 0.
  Hypothesis PP : ppc0 <> 0.
  Notation red := (red_kernel (fun _ => V0) pvel (fun p => sq3 (pvel p)) false).

  Lemma contribution_is q s p : contribution c (moment_of q) s p (index1 q) (index2 q) =
    quantity c (moment_of q) s p (index1 q) (index2 q) / ppc0.
  Proof.
    unfold contribution. rewrite Hw, Hn, HV. generalize (quantity c (moment_of q) s p (index1 q) (index2 q)). intro w.
    destruct q; cbn [moment_of]; field; auto.
  Qed.
  Lemma sqrt_pos1 v : 0 < sqrt (1 + sq3 v).
  Proof. apply sqrt_lt_R0. destruct v as [[x y] z]. unfold sq3. nra. Qed.
  Lemma red_is q s p : ptag p = 1%Z -> q <> PNpart -> plain_mass q s -> (match q with PT a b => (a <= 3)%nat /\ (b <= 3)%nat | _ => True end) ->
    red q s p = V0 * quantity c (moment_of q) s p (index1 q) (index2 q).
  Proof.
    intros Ht Hq Hm Hc. unfold red_kernel. rewrite Ht. cbn [negb Z.eqb Pos.eqb].
    destruct q as [| | | |a b]; cbn [moment_of quantity contrib]; try (ring || congruence).
    rewrite Hf. unfold cartesian_frame, p_component, p_energy. pose proof (sqrt_pos1 (pvel p)) as SP.
    destruct (pvel p) as [[u1 u2] u3]. cbn [sq3] in *. unfold u_. cbn [index1 index2].
    set (n := u1 * u1 + u2 * u2 + u3 * u3) in *.
    destruct (Req_EM_T (smass s) 0) as [M0 | M0].
    - assert (Ca : (a = 0 \/ a = 1 \/ a = 2 \/ a = 3)%nat) by lia. assert (Cb : (b = 0 \/ b = 1 \/ b = 2 \/ b = 3)%nat) by lia.
      destruct Ca as [-> |[-> |[-> | ->]]], Cb as [-> |[-> |[-> | ->]]]; cbn; unfold Rdiv; ring.
    - assert (Ca : (a = 0 \/ a = 1 \/ a = 2 \/ a = 3)%nat) by lia. assert (Cb : (b = 0 \/ b = 1 \/ b = 2 \/ b = 3)%nat) by lia.
      destruct Ca as [-> |[-> |[-> | ->]]], Cb as [-> |[-> |[-> | ->]]]; cbn in *;
        first [field; split; lra|destruct Hm as [Hm|Hm]; [contradiction|rewrite Hm; field; lra]].
  Qed.
  (** Off by the mass for every spatial index. *)
  Lemma stress_off s p a b : ptag p = 1%Z -> smass s <> 0 -> (1 <= a <= 3)%nat -> (1 <= b <= 3)%nat ->
    red (PT a b) s p * (smass s * smass s) = V0 * quantity c T s p (Z.of_nat a) (Z.of_nat b) /\
    red (PT 0 b) s p * smass s = V0 * quantity c T s p 0 (Z.of_nat b).
  Proof.
    intros Ht M0 Ha Hb. unfold red_kernel. rewrite Ht. cbn [negb Z.eqb Pos.eqb quantity].
    rewrite Hf. unfold cartesian_frame, p_component, p_energy. pose proof (sqrt_pos1 (pvel p)) as SP.
    destruct (pvel p) as [[u1 u2] u3]. cbn [sq3] in *. unfold u_.
    set (n := u1 * u1 + u2 * u2 + u3 * u3) in *. destruct (Req_EM_T (smass s) 0) as [E|_]; [contradiction|].
    assert (Ca : (a = 1 \/ a = 2 \/ a = 3)%nat) by lia. assert (Cb : (b = 1 \/ b = 2 \/ b = 3)%nat) by lia.
    destruct Ca as [-> |[-> | ->]], Cb as [-> |[-> | ->]]; cbn; (split; field; lra).
  Qed.
End Cart.

Lemma rsum_cons {A} (a : A) l f : rsum (a :: l) f = f a + rsum l f.
Proof. reflexivity. Qed.
Lemma rsum_used {A} (l : list A) (sk : A -> bool) f : (forall a, In a l -> sk a = true -> f a = 0) ->
  rsum (filter (fun a => negb (sk a)) l) f = rsum l f.
Proof.
  induction l as [|a l IH]; intro H; [reflexivity|]. cbn [filter].
  assert (IH' := IH (fun b Hb => H b (or_intror Hb))).
  destruct (sk a) eqn:E; cbn [negb].
  - rewrite IH', (rsum_cons a l). rewrite (H a (or_introl eq_refl) E). ring.
  - rewrite !(rsum_cons a), IH'. reflexivity.
Qed.

(** One rank. *)
Lemma rank_value sd phys usq w eps V ppc0 q all specs ss v :
  selects all specs ss -> reduce_moments sd phys usq w eps V ppc0 q all specs = Some v ->
  v = rsum (filter (fun s => negb (skipped eps q s)) ss) (fun s => rsum (sparts s) (red_kernel sd phys usq w q s))
      / (match q with PNpart => 1 | _ => V * ppc0 end).
Proof.
  intros Hs H. unfold reduce_moments in H. apply selected_ok in Hs. rewrite Hs in H.
  destruct (forallb _ _); [|discriminate]. injection H as <-. destruct q; unfold Rdiv; rewrite ?Rinv_1, ?Rmult_1_r; reflexivity.
Qed.

Lemma not_npart_cond q : {q = PNpart} + {q <> PNpart}.
Proof. destruct q; try (right; discriminate). left. reflexivity. Qed.

Lemma moment_columns g ls gbc : wide g ls -> length gbc = length ls -> all_periodic gbc -> dimension (length ls) ->
  forall c q sp f v V V0 ppc0 eps ranks,
  cartesian c = true -> supported c -> ghosts c = g ->
  frame c = cartesian_frame -> use_weights c = false -> inv_n0 c = V0 / ppc0 -> (forall x, sqrt_det_h c x = V0) ->
  V0 <> 0 -> ppc0 <> 0 -> 0 <= eps ->
  q <> PNpart -> (match q with PT a b => (a <= 3)%nat /\ (b <= 3)%nat | _ => True end) ->
  (forall d s p, In d (domains ls) -> In s (sp (sub_offset_ndomains d)) -> In p (sparts s) ->
     (ptag p = 0 \/ ptag p = 1)%Z /\ (live p = true -> inside (sub_ncells d) p)) ->
  (forall d s, In d (domains ls) -> In s (sp (sub_offset_ndomains d)) -> plain_mass q s /\ clear_of eps q s) ->
  (forall d, In d (domains ls) -> exists all specs sched,
     selects all specs (sp (sub_offset_ndomains d)) /\ Forall (species_ok (moment_of q)) (sp (sub_offset_ndomains d)) /\
     any_order sched /\
     compute_moments c (moment_of q) all specs (index1 q) (index2 q) sched (fun _ => 0) = Some (f (sub_offset_ndomains d)) /\
     reduce_moments (fun _ => V0) pvel (fun p => sq3 (pvel p)) false eps V ppc0 q all specs = Some (v (sub_offset_ndomains d))) ->
  Permutation ranks (domains ls) ->
  rsum ranks (fun d => v (sub_offset_ndomains d)) =
  rsum (cells 0 ls) (fun k => synchronize g ls gbc f (length ls) (sub_offset_ndomains (fst k)) (loc g (snd k)) * V0) / V.
Proof.
  intros W L AP HD c q sp f v V V0 ppc0 eps ranks Hc Hs Hg Hf Hw Hn HV PV PP He Hq Hidx HP HM HR Hrk.
  rewrite (rsum_perm _ _ _ Hrk).
  rewrite (rsum_ext (cells 0 ls) _ (fun k => V0 * synchronize g ls gbc f (length ls) (sub_offset_ndomains (fst k)) (loc g (snd k))))
    by (intros; apply Rmult_comm).
  rewrite rsum_scal.
  rewrite (sync_moment_total g ls gbc W L AP HD c (moment_of q) (index1 q) (index2 q) sp f); try assumption.
  - unfold deposited. rewrite rsum_flat_map. unfold Rdiv. rewrite (Rmult_comm _ (/ V)), <- !rsum_scal.
    apply rsum_ext. intros d Hd. destruct (HR d Hd) as (all & specs & sched & Hsel & Hok & _ & _ & Hv).
    rewrite (rank_value _ _ _ _ _ _ _ _ _ _ _ _ Hsel Hv).
    rewrite rsum_used.
    + rewrite rsum_flat_map.
      transitivity (/ V * (V0 * rsum (sp (sub_offset_ndomains d)) (fun s => rsum (sparts s) (fun p =>
        if live p then contribution c (moment_of q) s p (index1 q) (index2 q) else 0)))).
      2:{ f_equal. f_equal. apply rsum_ext. intros s _. rewrite rsum_map. cbn [snd]. rewrite rsum_filter. reflexivity. }
      replace (match q with PNpart => 1 | _ => V * ppc0 end) with (V * ppc0) by (destruct q; congruence).
      rewrite <- !rsum_scal. unfold Rdiv. rewrite Rmult_comm, <- rsum_scal. apply rsum_ext. intros s Hin.
      destruct (HM d s Hd Hin) as [Hpm _].
      rewrite <- rsum_scal. rewrite <- !Rmult_assoc. rewrite <- rsum_scal. apply rsum_ext. intros p Hp.
      destruct (HP d s p Hd Hin Hp) as [[T0|T1] _].
      * unfold live. rewrite T0. cbn. unfold red_kernel. rewrite T0. cbn. ring.
      * assert (LP : live p = true) by (unfold live; rewrite T1; reflexivity). rewrite LP.
        rewrite (contribution_is c V0 ppc0 Hw Hn HV PV PP), (red_is c V0 Hf q s p T1 Hq Hpm Hidx).
        unfold Rdiv. rewrite Rinv_mult. ring.
    + intros s Hin Hsk. destruct (HM d s Hd Hin) as [_ Hcl].
      transitivity (rsum (sparts s) (fun _ => 0)); [|apply rsum_zero]. apply rsum_ext. intros p Hp.
      destruct q; cbn [skipped clear_of] in *; try (exfalso; discriminate Hsk).
      * exfalso. unfold StatsModel.almost_zero in Hsk. revert Hsk. destruct (Rle_dec (Rabs (smass s)) eps); [intros _; lra|intro Hx; discriminate Hx].
      * destruct Hcl as [Z0|Hcl].
        -- unfold red_kernel. destruct (negb _); [reflexivity|]. cbn. rewrite Z0. ring.
        -- exfalso. unfold StatsModel.almost_zero in Hsk. revert Hsk. destruct (Rle_dec (Rabs (scharge s)) eps); [intros _; lra|intro Hx; discriminate Hx].
  - destruct q; cbn in *; try exact I; lia.
  - intros d s p Hd Hi Hp Hl. apply (HP d s p Hd Hi Hp). exact Hl.
  - intros d Hd. destruct (HR d Hd) as (all & specs & sched & H1 & H2 & H3 & H4 & _). exists all, specs, sched. repeat split; assumption.
Qed.

Lemma number_column (ds : list subdomain) sp v sd phys usq w eps V ppc0 ranks :
  (forall d s p, In d ds -> In s (sp (sub_offset_ndomains d)) -> In p (sparts s) -> (ptag p = 0 \/ ptag p = 1)%Z) ->
  (forall d, In d ds -> exists all specs, selects all specs (sp (sub_offset_ndomains d)) /\
     reduce_moments sd phys usq w eps V ppc0 PNpart all specs = Some (v (sub_offset_ndomains d))) ->
  Permutation ranks ds ->
  rsum ranks (fun d => v (sub_offset_ndomains d)) =
  INR (length (filter live (flat_map sparts (flat_map (fun d => sp (sub_offset_ndomains d)) ds)))).
Proof.
  intros HT HR Hrk. rewrite (rsum_perm _ _ _ Hrk). clear Hrk ranks.
  induction ds as [|d ds IH]; [reflexivity|]. cbn [flat_map]. rewrite flat_map_app, filter_app, app_length, plus_INR.
  change (rsum (d :: ds) (fun d0 => v (sub_offset_ndomains d0))) with
    (v (sub_offset_ndomains d) + rsum ds (fun d0 => v (sub_offset_ndomains d0))).
  rewrite IH; [|intros d0 s p H; apply HT; right; exact H|intros d0 H; apply HR; right; exact H]. f_equal.
  destruct (HR d (or_introl eq_refl)) as (all & specs & Hs & Hv).
  rewrite (rank_value _ _ _ _ _ _ _ _ _ _ _ _ Hs Hv). rewrite rsum_used by (intros ? ? E; discriminate E).
  assert (H0 : forall s p, In s (sp (sub_offset_ndomains d)) -> In p (sparts s) -> (ptag p = 0 \/ ptag p = 1)%Z)
    by (intros s p; apply (HT d s p); left; reflexivity).
  clear -H0. unfold Rdiv. rewrite Rinv_1, Rmult_1_r. induction (sp (sub_offset_ndomains d)) as [|s ss IH]; [reflexivity|].
  cbn [flat_map]. rewrite filter_app, app_length, plus_INR. cbn [rsum fold_right].
  change (fold_right (fun a acc => rsum (sparts a) (red_kernel sd phys usq w PNpart a) + acc) 0 ss) with
    (rsum ss (fun a => rsum (sparts a) (red_kernel sd phys usq w PNpart a))).
  rewrite IH by (intros s' p H; apply H0; right; exact H). f_equal.
  assert (H1 : forall p, In p (sparts s) -> (ptag p = 0 \/ ptag p = 1)%Z) by (intros p; apply H0; left; reflexivity).
  clear -H1. induction (sparts s) as [|p ps IH]; [reflexivity|]. cbn [rsum fold_right filter].
  change (fold_right (fun a acc => red_kernel sd phys usq w PNpart s a + acc) 0 ps) with (rsum ps (red_kernel sd phys usq w PNpart s)).
  rewrite IH by (intros q Hq; apply H1; right; exact Hq).
  unfold red_kernel at 1, live at 2. destruct (H1 p (or_introl eq_refl)) as [-> | ->]; cbn [negb Z.eqb Pos.eqb length].
  - ring.
  - rewrite S_INR. ring.
Qed.

(** ** Disagreements *)
Lemma weights_coincide sd phys usq eps V ppc0 all specs ss : selects all specs ss ->
  Forall (fun s => smass s <> 0 /\ eps < Rabs (smass s) /\ eps < Rabs (scharge s)) ss ->
  let col q := reduce_moments sd phys usq true eps V ppc0 q all specs in col PRho = col PN /\ col PCharge = col PN.
Proof.
  intros Hs H col. unfold col, reduce_moments. apply selected_ok in Hs. rewrite Hs.
  assert (F : forall q, (q = PRho \/ q = PCharge \/ q = PN) ->
    filter (fun s => negb (skipped eps q s)) ss = ss /\ forallb (accepted q) ss = true).
  { intros q Hq. split.
    - clear Hs. induction H as [|s ss [M [A B]] H IH]; [reflexivity|]. cbn [filter]. rewrite IH.
      assert (skipped eps q s = false) as ->; [|reflexivity].
      unfold skipped, StatsModel.almost_zero. destruct Hq as [-> |[-> | ->]]; [destruct Rle_dec; [lra|reflexivity]|destruct Rle_dec; [lra|reflexivity]|reflexivity].
    - rewrite forallb_forall. intros s Hi. rewrite Forall_forall in H. destruct (H s Hi) as [M _].
      unfold accepted. destruct Hq as [-> |[-> | ->]]; try reflexivity; destruct Req_EM_T; congruence. }
  destruct (F PRho) as [-> ->]; [auto|]. destruct (F PN) as [-> ->]; [auto|]. destruct (F PCharge) as [-> ->]; [auto|].
  split; reflexivity.
Qed.
Lemma stress_ignores_weights sd phys usq w w' eps V ppc0 a b all specs :
  reduce_moments sd phys usq w eps V ppc0 (PT a b) all specs = reduce_moments sd phys usq w' eps V ppc0 (PT a b) all specs.
Proof. reflexivity. Qed.

(** Columns. *)
Lemma columns_plain l : (forall a b, In (RqT a b) l -> exists m n, a = In_ m /\ b = In_ n) -> row_width l = header_width l.
Proof.
  intro H. unfold row_width, header_width. f_equal. f_equal. apply map_ext_in. intros q Hq.
  destruct q; try reflexivity. destruct (H a b Hq) as (m & n & -> & ->). reflexivity.
Qed.
Lemma columns_T l : row_width l = (header_width l + list_sum (map (fun q => match q with RqT a b => length (components_of a b) - 1 | _ => 0 end) l))%nat.
Proof.
  unfold row_width, header_width. induction l as [|q l IH]; [reflexivity|].
  cbn [map list_sum fold_right] in *. change (fold_right Init.Nat.add 0%nat) with list_sum in *.
  assert (E : (match q with RqT _ _ | RqE2 | RqB2 | RqExB => length (comps q) | _ => 1 end =
     (if is_vector q then length (comps q) else 1) + match q with RqT a b => length (components_of a b) - 1 | _ => 0 end)%nat).
  { destruct q; try reflexivity. cbn [is_vector comps]. destruct a, b; vm_compute; reflexivity. }
  lia.
Qed.

(** Volumes. *)
Lemma scale_mean m l : l <> 0 -> unit_mean (scaled l m) = l * unit_mean m.
Proof.
  intro Hl. unfold unit_mean. cbn [scaled nx1 nx2 x1_min x1_max x2_min x2_max].
  rewrite (rsum_ext _ _ (fun z => (l * l * l) * match z with [i; j] => s_sqrt_det_h m (IZR i + / 2, IZR j + / 2) | _ => 0 end)).
  2:{ intros z _. destruct z as [|i [|j [|k z]]]; try ring.
      unfold s_sqrt_det_h, s_dr, s_dth, sqr. cbn [scaled nx1 nx2 x1_min x1_max x2_min x2_max]. unfold Rdiv. ring. }
  rewrite rsum_scal. unfold tot_volume_spherical.
  replace (l * x1_max m * (l * x1_max m) - l * x1_min m * (l * x1_min m)) with (l * l * (x1_max m * x1_max m - x1_min m * x1_min m)) by ring.
  unfold Rdiv. rewrite !Rinv_mult. generalize (/ (x1_max m * x1_max m - x1_min m * x1_min m)) (/ (x2_max m - x2_min m)). intros a b.
  generalize (rsum (box [(0, nx1 m); (0, nx2 m)]%Z) (fun z => match z with [i; j] => s_sqrt_det_h m (IZR i + / 2, IZR j + / 2) | _ => 0 end)).
  intro w. field. exact Hl.
Qed.

Lemma place_matters phys usq eps V ppc0 : V <> 0 -> ppc0 <> 0 ->
  exists a b,
  reduce_moments (volume_of shell) phys usq false eps V ppc0 PN [lone 0] [1%Z] = Some a /\
  reduce_moments (volume_of shell) phys usq false eps V ppc0 PN [lone 1] [1%Z] = Some b /\ 9 * b = 25 * a /\ a <> 0.
Proof.
  intros HV HP. eexists _, _. split; [reflexivity|]. split; [reflexivity|].
  cbn [selected filter skipped negb]. unfold rsum. cbn [fold_right lone sparts]. unfold red_kernel. cbn [still ptag Z.eqb Pos.eqb negb].
  unfold still. cbn [ppos map fst snd volume_of]. unfold s_sqrt_det_h, s_dr, s_dth, sqr. cbn [shell nx1 nx2 x1_min x1_max x2_min x2_max contrib].
  replace ((IZR 0 + / 2) * ((PI - 0) / 1) + 0) with (PI / 2) by field. rewrite sin_PI2.
  pose proof PI_RGT_0. split.
  - unfold Rdiv. ring_simplify. field. split; assumption.
  - intro E. apply (Rmult_eq_compat_r (V * ppc0)) in E. unfold Rdiv in E. rewrite Rmult_assoc, Rinv_l in E by (apply Rmult_integral_contrapositive_currified; assumption).
    ring_simplify in E. nra.
Qed.
