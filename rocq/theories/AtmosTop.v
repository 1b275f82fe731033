(** Injection and replenishment: the theorems. *)
From Coq Require Import ZArith List Bool Reals Lra Lia Permutation.
From Verif Require Import Base ListLemmas HaloSpec SyncProofs MomentModel MomentSpec MomentProofs MomentTop
  AtmosModel AtmosSpec AtmosProofs.
Import ListNotations.
Open Scope R_scope.

Lemma filter_map {A B} (f : B -> bool) (h : A -> B) l : filter f (map h l) = map h (filter (fun a => f (h a)) l).
Proof. induction l as [|a l IH]; [reflexivity|]. cbn. rewrite IH. destruct (f (h a)); reflexivity. Qed.
Lemma filter_perm {A} (f : A -> bool) l m : Permutation l m -> Permutation (filter f l) (filter f m).
Proof.
  induction 1 as [|a l m H IH|a b l|l m k H1 IH1 H2 IH2]; cbn; auto.
  - destruct (f a); auto.
  - destruct (f a), (f b); auto. apply perm_swap.
  - eapply Permutation_trans; eauto.
Qed.
Lemma filter_ext_in' {A} (f h : A -> bool) l : (forall a, In a l -> f a = h a) -> filter f l = filter h l.
Proof.
  induction l as [|a l IH]; intros H; [reflexivity|]. cbn. rewrite (H a) by (left; reflexivity).
  rewrite IH by (intros; apply H; right; assumption). reflexivity.
Qed.

Lemma counts_exist (P : list Z -> Z -> Prop) n : (forall y, in_box y n -> exists k, P y k) ->
  exists kk, forall y, in_box y n -> P y (kk y).
Proof.
  intros H.
  assert (G : forall l, (forall y, In y l -> exists k, P y k) -> exists kk : list Z -> Z, forall y, In y l -> P y (kk y)).
  { induction l as [|a l IH]; intros G; [exists (fun _ => 0%Z); intros y []|].
    destruct IH as [kk Hk]; [intros; apply G; right; assumption|].
    destruct (G a (or_introl eq_refl)) as [k Ha].
    exists (fun y => if list_eq_dec Z.eq_dec a y then k else kk y). intros y [<-|Hy].
    - destruct list_eq_dec; congruence.
    - destruct list_eq_dec; [subst; exact Ha|apply Hk; exact Hy]. }
  destruct (G (all_cells n)) as [kk Hk].
  - intros y Hy. apply H. apply in_all_cells. exact Hy.
  - exists kk. intros y Hy. apply Hk. apply in_all_cells. exact Hy.
Qed.

Theorem inject_pairs : forall d N dist rnd slots s1 s2,
  sound d -> uniform d rnd -> any_slots slots ->
  (forall y, in_box y (d_n d) -> 0 <= d_ppc0 d / 2 * N * dist (d_ph d (centre y)) < 2 ^ 32 - 1) ->
  exists s1' s2' l, inject_nonuniform d N dist rnd slots s1 s2 = Ok (s1', s2') /\
    gains s1 s1' (map fst l) /\ gains s2 s2' (map snd l) /\ Forall (proper_pair d) l /\
    forall y, in_box y (d_n d) ->
      rounded (d_ppc0 d / 2 * N * dist (d_ph d (centre y))) (du rnd y) (pairs_in_cell y l).
Proof.
  intros d N dist rnd slots s1 s2 Hd Hr Hs Hb.
  set (r := fun y => d_ppc0 d / 2 * N * dist (d_ph d (centre y))).
  destruct (counts_exist (fun y k => injected_ppc (r y) (du rnd y) = Ok k /\ (0 <= k)%Z /\
    r y - du rnd y <= IZR k < r y - du rnd y + 1) (d_n d)) as [kk Hk].
  { intros y Hy. apply injected_count; [apply Hb; exact Hy|]. apply (Hr y Hy). }
  set (L := flat_map (fun i => pairs_at d rnd (kk i) i) (all_cells (d_n d))).
  assert (E : rconcat (map (cell_pairs d (N * d_ppc0 d * (1/2)) dist rnd) (all_cells (d_n d))) = Ok L).
  { apply rconcat_map. intros i Hi. apply in_all_cells in Hi. destruct (Hk i Hi) as [E _].
    unfold cell_pairs. fold (centre i).
    replace (N * d_ppc0 d * (1/2) * dist (d_ph d (centre i))) with (r i) by (unfold r; field).
    rewrite E. reflexivity. }
  assert (HL : forall pq, In pq L -> exists i, in_box i (d_n d) /\ In pq (pairs_at d rnd (kk i) i)).
  { intros pq H. apply in_flat_map in H as (i & Hi & H). exists i. split; [apply in_all_cells; exact Hi|exact H]. }
  unfold inject_nonuniform. rewrite E. cbn [rbind].
  do 2 eexists. exists (slots L). split; [reflexivity|]. repeat split.
  - apply Forall_forall. intros pq Hpq. apply (Permutation_in _ (Permutation_sym (Hs L))) in Hpq.
    destruct (HL pq Hpq) as (i & Hi & Hin). destruct (pairs_in d rnd Hr (kk i) i pq Hi Hin) as (H1 & H2 & H3 & H4 & H5).
    split; [exact H1|]. split; [exact H3|]. unfold unit_weight. rewrite H2, H5.
    pose proof (sd_vol d Hd i Hi) as Hv. pose proof (sd_V0 d Hd) as HV.
    split; [destruct (d_cart d); [lra|apply Rdiv_lt_0_compat; lra]|].
    destruct (d_cart d) eqn:Ec; [rewrite (sd_cart d Hd Ec i Hi)|]; field; lra.
  - unfold pairs_in_cell. pose proof (filter_perm (here y) _ _ (Hs L)) as HP.
    change (fun pq => in_cell y (fst pq)) with (here y). rewrite <- (Permutation_length HP). unfold L.
    rewrite (here_pairs d rnd Hr kk y); [|exact H|apply nodup_all_cells|apply in_all_cells; exact H|intros; apply in_all_cells; assumption].
    rewrite pairs_length. destruct (Hk y H) as (_ & H0 & H1). rewrite INR_IZR_INZ, Z2Nat.id by exact H0.
    apply H1.
  - unfold pairs_in_cell. pose proof (filter_perm (here y) _ _ (Hs L)) as HP.
    change (fun pq => in_cell y (fst pq)) with (here y). rewrite <- (Permutation_length HP). unfold L.
    rewrite (here_pairs d rnd Hr kk y); [|exact H|apply nodup_all_cells|apply in_all_cells; exact H|intros; apply in_all_cells; assumption].
    rewrite pairs_length. destruct (Hk y H) as (_ & H0 & H1). rewrite INR_IZR_INZ, Z2Nat.id by exact H0.
    apply H1.
Qed.

(** Whatever the deposition, the pairs carry no charge. *)
Lemma live_app_deposit f s s' l : gains s s' l -> Forall (fun p => live p = true) l ->
  rsum (filter live (sparts s')) (fun p => scharge s' * pweight p * f (ppos p)) =
  rsum (filter live (sparts s)) (fun p => scharge s * pweight p * f (ppos p)) +
  scharge s * rsum l (fun p => pweight p * f (ppos p)).
Proof.
  intros (_ & Eq & Es) Hl. rewrite Es, filter_app, rsum_app, Eq. f_equal.
  rewrite (filter_all live l) by (rewrite Forall_forall in Hl; exact Hl).
  rewrite <- rsum_scal. apply rsum_ext. intros; ring.
Qed.
Theorem pairs_neutral : forall d l s1 s2 s1' s2',
  gains s1 s1' (map fst l) -> gains s2 s2' (map snd l) -> Forall (proper_pair d) l ->
  scharge s1 + scharge s2 = 0 ->
  forall shape, deposit shape [s1'; s2'] = deposit shape [s1; s2].
Proof.
  intros d l s1 s2 s1' s2' G1 G2 Hl Hq f. unfold deposit, rsum at 1 3. cbn [fold_right].
  rewrite Forall_forall in Hl.
  rewrite (live_app_deposit f s1 s1' _ G1), (live_app_deposit f s2 s2' _ G2).
  - replace (rsum (map snd l) (fun p => pweight p * f (ppos p))) with (rsum (map fst l) (fun p => pweight p * f (ppos p))).
    + replace (scharge s2) with (- scharge s1) by lra. ring.
    + rewrite !rsum_map. apply rsum_ext. intros pq Hpq. destruct (Hl pq Hpq) as ((E1 & E2 & _) & _). rewrite E1, E2. reflexivity.
  - apply Forall_forall. intros p Hp. apply in_map_iff in Hp as (pq & <- & Hpq). apply (Hl pq Hpq).
  - apply Forall_forall. intros p Hp. apply in_map_iff in Hp as (pq & <- & Hpq). apply (Hl pq Hpq).
Qed.

(** ** The density after an injection *)
Lemma members_gain y s s' l : gains s s' l -> members y s' = members y s ++ filter (in_cell y) l.
Proof. intros (_ & _ & E). unfold members. rewrite E. apply filter_app. Qed.

Lemma in_cell_together y p q : together p q -> in_cell y q = in_cell y p.
Proof. intros (E & _ & L1 & L2). unfold in_cell. rewrite L1, L2, E. reflexivity. Qed.

Lemma in_cell_pos y p : in_cell y p = true -> map fst (ppos p) = y.
Proof. unfold in_cell. intros H. apply andb_prop in H as [_ H]. destruct list_eq_dec; [assumption|discriminate]. Qed.

Lemma density_gain (per : species -> R) d l s1 s2 s1' s2' y :
  0 < d_ppc0 d -> 0 < d_vol d (centre y) ->
  gains s1 s1' (map fst l) -> gains s2 s2' (map snd l) -> Forall (proper_pair d) l ->
  per s1' = per s1 -> per s2' = per s2 ->
  cell_density per d y [s1'; s2'] = cell_density per d y [s1; s2] + (per s1 + per s2) / d_ppc0 d * INR (pairs_in_cell y l).
Proof.
  intros Hp Hv G1 G2 Hl E1 E2. rewrite Forall_forall in Hl. unfold cell_density, rsum at 1 3. cbn [fold_right].
  rewrite (members_gain y _ _ _ G1), (members_gain y _ _ _ G2), !rsum_app, E1, E2, !filter_map, !rsum_map.
  rewrite (filter_ext_in' (fun a => in_cell y (snd a)) (fun a => in_cell y (fst a)) l)
    by (intros pq Hpq; apply in_cell_together; apply (Hl pq Hpq)).
  assert (W : forall pq, In pq (filter (fun a => in_cell y (fst a)) l) ->
    (if d_cart d then 1 else pweight (fst pq)) * d_V0 d / d_vol d (centre y) = 1 /\ pweight (snd pq) = pweight (fst pq)).
  { intros pq H. apply filter_In in H as [Hpq Hc]. destruct (Hl pq Hpq) as ((_ & Hw & _) & _ & Hu).
    unfold unit_weight in Hu. rewrite (in_cell_pos _ _ Hc) in Hu. split; [apply Hu|symmetry; exact Hw]. }
  assert (X : forall a w, w * d_V0 d / d_vol d (centre y) = 1 -> a * w * d_V0 d / (d_ppc0 d * d_vol d (centre y)) = a / d_ppc0 d).
  { intros a w Hw. replace (a * w * d_V0 d / (d_ppc0 d * d_vol d (centre y))) with
      (a / d_ppc0 d * (w * d_V0 d / d_vol d (centre y))) by (field; lra). rewrite Hw. ring. }
  set (F := filter (fun a => in_cell y (fst a)) l) in *.
  assert (S1 : rsum F (fun a => per s1 * (if d_cart d then 1 else pweight (fst a)) * d_V0 d / (d_ppc0 d * d_vol d (centre y)))
    = rsum F (fun _ => per s1 / d_ppc0 d)) by (apply rsum_ext; intros pq H; apply X; apply (W pq H)).
  assert (S2 : rsum F (fun a => per s2 * (if d_cart d then 1 else pweight (snd a)) * d_V0 d / (d_ppc0 d * d_vol d (centre y)))
    = rsum F (fun _ => per s2 / d_ppc0 d)).
  { apply rsum_ext. intros pq H. destruct (W pq H) as [H1 H2]. rewrite H2. apply X. exact H1. }
  rewrite S1, S2. unfold pairs_in_cell. fold F.
  rewrite !rsum_const. field. lra.
Qed.

Lemma gains_domain d s s' l : in_domain d s -> gains s s' l -> Forall (inside (d_n d)) l -> in_domain d s'.
Proof.
  intros H (_ & _ & E) Hl p Hp Hlv. rewrite E in Hp. apply in_app_iff in Hp as [Hp|Hp]; [auto|].
  rewrite Forall_forall in Hl. auto.
Qed.
Lemma proper_inside d l : Forall (proper_pair d) l ->
  Forall (inside (d_n d)) (map fst l) /\ Forall (inside (d_n d)) (map snd l).
Proof.
  intros H. split; apply Forall_map; eapply Forall_impl; try exact H.
  - intros pq (_ & Hi & _). exact Hi.
  - intros pq ((E & _) & Hi & _). unfold inside in *. rewrite <- E. exact Hi.
Qed.

(** ** Replenishment *)
Lemma Int_part_half a : Int_part (IZR a + 1/2) = a.
Proof.
  unfold Int_part. rewrite <- (tech_up (IZR a + 1/2) (a + 1)); [lia| |]; rewrite plus_IZR; lra.
Qed.
Lemma own_cell d y : sound d -> in_box y (d_n d) ->
  map (fun x => (Int_part x + d_ghosts d)%Z) (d_cd d (d_ph d (centre y))) = loc (d_ghosts d) y.
Proof.
  intros Hd Hy. rewrite (sd_cd d Hd y Hy). unfold centre, loc. rewrite map_map. apply map_ext. intros a.
  rewrite Int_part_half. reflexivity.
Qed.

Lemma mass_density_nonneg d y s1 s2 : sound d -> in_box y (d_n d) -> 0 < smass s1 -> 0 < smass s2 ->
  (forall s p, In s [s1; s2] -> In p (sparts s) -> 0 <= pweight p) -> 0 <= mass_density d y [s1; s2].
Proof.
  intros Hd Hy M1 M2 Hw.
  assert (G : forall (A : Type) (l : list A) f, (forall a, In a l -> 0 <= f a) -> 0 <= rsum l f).
  { clear. intros A l f. unfold rsum. induction l as [|a l IH]; cbn; intros H; [lra|].
    pose proof (H a (or_introl eq_refl)). assert (0 <= fold_right (fun a acc => f a + acc) 0 l) by (apply IH; intros; apply H; right; assumption). lra. }
  unfold mass_density, cell_density. apply G. intros s Hs. apply G. intros p Hp. apply filter_In in Hp as [Hp _].
  pose proof (sd_vol d Hd y Hy). pose proof (sd_V0 d Hd). pose proof (sd_ppc d Hd). pose proof (Hw s p Hs Hp).
  assert (0 < smass s) by (destruct Hs as [<-|[<-|[]]]; assumption).
  apply Rmult_le_pos; [|left; apply Rinv_0_lt_compat, Rmult_lt_0_compat; assumption].
  apply Rmult_le_pos; [|lra]. apply Rmult_le_pos; [lra|]. destruct (d_cart d); lra.
Qed.

Lemma profile_range cart plus nmax height xsurf ds x : 0 < nmax -> 0 < height -> (cart = false -> 0 < xsurf) ->
  0 <= profile cart plus nmax height xsurf ds x <= nmax.
Proof.
  intros Hn Hh Hx. unfold profile.
  assert (G : forall e, e <= 0 -> 0 <= nmax * exp e <= nmax).
  { intros e He. pose proof (exp_pos e).
    assert (exp e <= 1). { destruct He as [He|He]; [left; rewrite <- exp_0; apply exp_increasing; exact He|rewrite He, exp_0; lra]. }
    split; [apply Rmult_le_pos; lra|]. rewrite <- (Rmult_1_r nmax) at 2. apply Rmult_le_compat_l; lra. }
  assert (Hi : 0 < / height) by (apply Rinv_0_lt_compat; exact Hh).
  destruct plus.
  - destruct Rlt_dec; [cbn; lra|]. destruct Rle_dec; [cbn; lra|]. cbn [orb]. destruct cart; [|lra]. apply G.
    unfold Rdiv. rewrite Ropp_mult_distr_l_reverse. pose proof (Rmult_le_pos (xsurf - x) (/ height)). lra.
  - destruct Rlt_dec; [cbn; lra|]. destruct Rle_dec; [cbn; lra|]. cbn [orb]. destruct cart; apply G.
    + unfold Rdiv. rewrite Ropp_mult_distr_l_reverse. pose proof (Rmult_le_pos (x - xsurf) (/ height)). lra.
    + specialize (Hx eq_refl). assert (0 < / x) by (apply Rinv_0_lt_compat; lra).
      assert (xsurf / x <= 1). { unfold Rdiv. rewrite <- (Rinv_r x) by lra. apply Rmult_le_compat_r; lra. }
      assert (0 <= (xsurf / height) * (1 - xsurf / x)).
      { apply Rmult_le_pos; [|lra]. unfold Rdiv. apply Rmult_le_pos; lra. }
      lra.
Qed.

(** The spatial distribution, at the centre of a cell. *)
Lemma replenish_at d b tg tm y : sound d -> in_box y (d_n d) ->
  replenish d b tg tm (d_ph d (centre y)) =
  if Rlt_dec (b (loc (d_ghosts d) y)) (9/10 * tg (d_ph d (centre y)))
  then (tg (d_ph d (centre y)) - b (loc (d_ghosts d) y)) / tm else 0.
Proof. intros Hd Hy. unfold replenish. rewrite (own_cell d y Hd Hy). reflexivity. Qed.

Lemma target_range d a x : sound_atmos d a -> 0 <= target d a x <= a_nmax a.
Proof. intros Ha. unfold target. apply profile_range; apply Ha. Qed.

Lemma half_range d a : sound d -> sound_atmos d a -> d_ppc0 d / 2 * a_nmax a < 2 ^ 32 - 1 /\ 0 < d_ppc0 d / 2 * a_nmax a.
Proof.
  intros Hd Ha. pose proof (sa_range d a Ha). pose proof (sd_ppc d Hd). pose proof (sa_nmax d a Ha).
  assert (0 < a_nmax a * d_ppc0 d) by (apply Rmult_lt_0_compat; assumption).
  replace (d_ppc0 d / 2 * a_nmax a) with (a_nmax a * d_ppc0 d / 2) by field.
  assert (2 ^ 32 > 100) by (cbn; lra). lra.
Qed.

Section Refill.
  Variables (d : dom) (a : atmos) (rnd : draws) (slots : list (part * part) -> list (part * part)).
  Hypotheses (Hd : sound d) (Ha : sound_atmos d a) (Hr : uniform d rnd) (Hs : any_slots slots).
  Variables (s1 s2 : species) (b : buffer) (v : list Z -> R).
  Hypothesis Hb : forall y, in_box y (d_n d) -> b (loc (d_ghosts d) y) = v y.
  Hypothesis Hv : forall y, in_box y (d_n d) -> 0 <= v y.

  Lemma refill_run : exists s1' s2' l,
    inject_nonuniform d (a_nmax a) (replenish d b (target d a) (a_nmax a)) rnd slots s1 s2 = Ok (s1', s2') /\
    gains s1 s1' (map fst l) /\ gains s2 s2' (map snd l) /\ Forall (proper_pair d) l /\
    forall y, in_box y (d_n d) -> let t := target d a (d_ph d (centre y)) in
      (9/10 * t <= v y -> pairs_in_cell y l = 0%nat) /\
      (v y < 9/10 * t -> rounded (d_ppc0 d / 2 * (t - v y)) (du rnd y) (pairs_in_cell y l)).
  Proof using All.
    pose proof (half_range d a Hd Ha) as [R1 R2]. pose proof (sa_nmax d a Ha) as Hn. pose proof (sd_ppc d Hd) as Hp.
    assert (E : forall y, in_box y (d_n d) ->
      d_ppc0 d / 2 * a_nmax a * replenish d b (target d a) (a_nmax a) (d_ph d (centre y)) =
      if Rlt_dec (v y) (9/10 * target d a (d_ph d (centre y)))
      then d_ppc0 d / 2 * (target d a (d_ph d (centre y)) - v y) else 0).
    { intros y Hy. rewrite (replenish_at d b _ _ y Hd Hy), (Hb y Hy). destruct Rlt_dec; [field; lra|ring]. }
    destruct (inject_pairs d (a_nmax a) (replenish d b (target d a) (a_nmax a)) rnd slots s1 s2 Hd Hr Hs) as (s1' & s2' & l & H0 & H1 & H2 & H3 & H4).
    - intros y Hy. rewrite (E y Hy). destruct Rlt_dec as [Hlt|]; [|assert (2 ^ 32 > 100) by (cbn; lra); lra].
      pose proof (target_range d a (d_ph d (centre y)) Ha) as [T1 T2]. pose proof (Hv y Hy).
      split; [apply Rmult_le_pos; lra|].
      assert (d_ppc0 d / 2 * (target d a (d_ph d (centre y)) - v y) <= d_ppc0 d / 2 * a_nmax a)
        by (apply Rmult_le_compat_l; lra). lra.
    - exists s1', s2', l. repeat (split; [assumption|]). intros y Hy t. specialize (H4 y Hy). rewrite (E y Hy) in H4.
      fold t in H4. split; intros C.
      + destruct Rlt_dec in H4; [lra|]. destruct H4 as [_ H4]. destruct (Hr y Hy) as [[U _] _].
        assert (INR (pairs_in_cell y l) < INR 1) by (cbn [INR]; lra). apply INR_lt in H. lia.
      + destruct Rlt_dec in H4; [exact H4|lra].
  Qed.
End Refill.

Theorem refill : forall d a order rnd slots s1 s2,
  sound d -> sound_atmos d a -> any_order order -> uniform d rnd -> any_slots slots ->
  0 < smass s1 -> 0 < smass s2 -> in_domain d s1 -> in_domain d s2 ->
  (forall s p, In s [s1; s2] -> In p (sparts s) -> 0 <= pweight p) ->
  exists s1' s2' l, atmosphere_particles d a false order rnd slots s1 s2 = Ok (s1', s2') /\
    gains s1 s1' (map fst l) /\ gains s2 s2' (map snd l) /\ Forall (proper_pair d) l /\
    forall y, in_box y (d_n d) ->
      let t := target d a (d_ph d (centre y)) in
      let v := mass_density d y [s1; s2] in
      (9/10 * t <= v -> pairs_in_cell y l = 0%nat) /\
      (v < 9/10 * t -> rounded (d_ppc0 d / 2 * (t - v)) (du rnd y) (pairs_in_cell y l)) /\
      mass_density d y [s1'; s2'] = v + (smass s1 + smass s2) / d_ppc0 d * INR (pairs_in_cell y l) /\
      number_density d y [s1'; s2'] = number_density d y [s1; s2] + 2 / d_ppc0 d * INR (pairs_in_cell y l).
Proof.
  intros d a order rnd slots s1 s2 Hd Ha Ho Hr Hs M1 M2 D1 D2 Hw.
  destruct (density_at d Hd s1 s2 order Ho) as (b & E & Hb); try assumption; try lra.
  destruct (refill_run d a rnd slots Hd Ha Hr Hs s1 s2 b (fun y => mass_density d y [s1; s2])) as (s1' & s2' & l & H0 & H1 & H2 & H3 & H4).
  - intros y _. apply Hb.
  - intros y Hy. apply mass_density_nonneg; assumption.
  - exists s1', s2', l. unfold atmosphere_particles. rewrite E. do 4 (split; [assumption|]).
    intros y Hy. cbv zeta. destruct (H4 y Hy) as [H5 H6]. split; [exact H5|]. split; [exact H6|].
    split; [|replace 2 with (1 + 1) by lra]; apply (density_gain _ d l s1 s2 s1' s2' y); try assumption; try reflexivity;
      try (apply Hd; assumption); try apply Hd; try apply H1; apply H2.
Qed.

(** Two species of unit mass end up within two particles of the target. *)
Theorem refilled : forall d a order rnd slots s1 s2,
  sound d -> sound_atmos d a -> any_order order -> uniform d rnd -> any_slots slots ->
  smass s1 = 1 -> smass s2 = 1 -> in_domain d s1 -> in_domain d s2 ->
  (forall s p, In s [s1; s2] -> In p (sparts s) -> 0 <= pweight p) ->
  exists s1' s2', atmosphere_particles d a false order rnd slots s1 s2 = Ok (s1', s2') /\
    forall y, in_box y (d_n d) ->
      let t := target d a (d_ph d (centre y)) in
      let before := number_density d y [s1; s2] in
      let after := number_density d y [s1'; s2'] in
      (9/10 * t <= before -> after = before) /\ (before < 9/10 * t -> Rabs (after - t) < 2 / d_ppc0 d).
Proof.
  intros d a order rnd slots s1 s2 Hd Ha Ho Hr Hs M1 M2 D1 D2 Hw.
  destruct (refill d a order rnd slots s1 s2) as (s1' & s2' & l & H0 & H1 & H2 & H3 & H4); try assumption; try lra.
  exists s1', s2'. split; [exact H0|]. intros y Hy t before after. destruct (H4 y Hy) as (H5 & H6 & _ & H7).
  assert (Ev : mass_density d y [s1; s2] = before).
  { unfold mass_density, before, number_density, cell_density. apply rsum_ext. intros s [<-|[<-|[]]]; [rewrite M1|rewrite M2]; reflexivity. }
  cbv zeta in H5, H6. rewrite Ev in H5, H6. fold t in H5, H6. fold before after in H7. pose proof (sd_ppc d Hd) as Hp. split; intros C.
  - rewrite H7, (H5 C). cbn. ring.
  - destruct (H6 C) as [K1 K2]. destruct (Hr y Hy) as [[U1 U2] _]. rewrite H7.
    set (k := INR (pairs_in_cell y l)) in *.
    replace (before + 2 / d_ppc0 d * k - t) with (2 / d_ppc0 d * (k - d_ppc0 d / 2 * (t - before))) by (field; lra).
    assert (0 < 2 / d_ppc0 d) by (apply Rdiv_lt_0_compat; lra).
    rewrite Rabs_mult, (Rabs_pos_eq (2 / d_ppc0 d)) by lra. rewrite <- (Rmult_1_r (2 / d_ppc0 d)) at 2.
    apply Rmult_lt_compat_l; [lra|]. apply Rabs_def1; lra.
Qed.

(** ** Settling *)
Lemma no_pairs d l : Forall (proper_pair d) l -> (forall y, in_box y (d_n d) -> pairs_in_cell y l = 0%nat) -> l = [].
Proof.
  intros Hl H. destruct l as [|pq l]; [reflexivity|]. exfalso. inversion Hl as [|x l' ((_ & _ & L & _) & Hi & _) _]; subst.
  specialize (H (map fst (ppos (fst pq))) (proj1 Hi)). unfold pairs_in_cell in H. cbn [filter] in H.
  unfold in_cell at 1 in H. rewrite L in H. destruct list_eq_dec; [discriminate|congruence].
Qed.

Theorem settles : forall d a order rnd slots order' rnd' slots' s1 s2,
  sound d -> sound_atmos d a -> any_order order -> uniform d rnd -> any_slots slots ->
  any_order order' -> uniform d rnd' -> any_slots slots' ->
  0 < smass s1 -> 0 < smass s2 -> 2 <= smass s1 + smass s2 -> in_domain d s1 -> in_domain d s2 ->
  (forall s p, In s [s1; s2] -> In p (sparts s) -> 0 <= pweight p) ->
  (forall y, in_box y (d_n d) -> let t := target d a (d_ph d (centre y)) in t = 0 \/ 20 <= d_ppc0 d * t) ->
  exists s1' s2', atmosphere_particles d a false order rnd slots s1 s2 = Ok (s1', s2') /\
    exists s1'' s2'', atmosphere_particles d a false order' rnd' slots' s1' s2' = Ok (s1'', s2'') /\
      sparts s1'' = sparts s1' /\ sparts s2'' = sparts s2'.
Proof.
  intros d a order rnd slots order' rnd' slots' s1 s2 Hd Ha Ho Hr Hs Ho' Hr' Hs' M1 M2 M D1 D2 Hw Ht.
  destruct (refill d a order rnd slots s1 s2) as (s1' & s2' & l & H0 & H1 & H2 & H3 & H4); try assumption.
  exists s1', s2'. split; [exact H0|]. pose proof (proper_inside d l H3) as [I1 I2].
  destruct (refill d a order' rnd' slots' s1' s2') as (s1'' & s2'' & l' & G0 & G1 & G2 & G3 & G4); try assumption.
  - rewrite (proj1 H1). exact M1.
  - rewrite (proj1 H2). exact M2.
  - apply (gains_domain d s1 s1' _ D1 H1 I1).
  - apply (gains_domain d s2 s2' _ D2 H2 I2).
  - rewrite Forall_forall in H3. intros s p Hsp Hp.
    destruct Hsp as [<-|[<-|[]]].
    + rewrite (proj2 (proj2 H1)) in Hp. apply in_app_iff in Hp as [Hp|Hp]; [apply (Hw s1); [left; reflexivity|exact Hp]|].
      apply in_map_iff in Hp as (pq & <- & Hpq). destruct (H3 pq Hpq) as (_ & _ & Hu & _). lra.
    + rewrite (proj2 (proj2 H2)) in Hp. apply in_app_iff in Hp as [Hp|Hp]; [apply (Hw s2); [right; left; reflexivity|exact Hp]|].
      apply in_map_iff in Hp as (pq & <- & Hpq). destruct (H3 pq Hpq) as ((_ & Ew & _) & _ & Hu & _). lra.
  - exists s1'', s2''. split; [exact G0|].
    assert (E : l' = []).
    { apply (no_pairs d); [exact G3|]. intros y Hy. destruct (G4 y Hy) as (G5 & _). apply G5. clear G4 G5.
      destruct (H4 y Hy) as (H5 & H6 & H7 & _). cbv zeta in H5, H6. rewrite H7. specialize (Ht y Hy). cbv zeta in Ht.
      set (t := target d a (d_ph d (centre y))) in *. set (v := mass_density d y [s1; s2]) in *.
      destruct (Rlt_dec v (9/10 * t)) as [C|C].
      - specialize (H6 C). destruct H6 as [K _]. destruct (Hr y Hy) as [[_ U] _]. set (k := INR (pairs_in_cell y l)) in *.
        pose proof (sd_ppc d Hd) as Hp. pose proof (mass_density_nonneg d y s1 s2 Hd Hy M1 M2 Hw) as Hv. fold v in Hv.
        destruct Ht as [Ht|Ht]; [lra|].
        assert (Hk : 0 <= k) by apply pos_INR.
        assert (Hi : 0 < / d_ppc0 d) by (apply Rinv_0_lt_compat; exact Hp).
        assert (Q1 : 2 / d_ppc0 d * k <= (smass s1 + smass s2) / d_ppc0 d * k).
        { apply Rmult_le_compat_r; [exact Hk|]. unfold Rdiv. apply Rmult_le_compat_r; lra. }
        assert (Q2 : 2 / d_ppc0 d * (d_ppc0 d / 2 * (t - v) - 1) <= 2 / d_ppc0 d * k).
        { apply Rmult_le_compat_l; [unfold Rdiv; lra|lra]. }
        replace (2 / d_ppc0 d * (d_ppc0 d / 2 * (t - v) - 1)) with (t - v - 2 * / d_ppc0 d) in Q2 by (field; lra).
        assert (Q3 : 2 * / d_ppc0 d <= t / 10).
        { apply (Rmult_le_reg_l (d_ppc0 d)); [exact Hp|]. replace (d_ppc0 d * (2 * / d_ppc0 d)) with 2 by (field; lra). lra. }
        lra.
      - rewrite H5 by lra. change (INR 0) with 0. rewrite Rmult_0_r. lra. }
    destruct G1 as (_ & _ & G1). destruct G2 as (_ & _ & G2). rewrite G1, G2, E, !app_nil_r. split; reflexivity.
Qed.
