(** Gravity and the density profile; concrete cases. *)
From Coq Require Import ZArith List Bool Reals Ranalysis5 Lra Lia Permutation.
From Verif Require Import Base ListLemmas HaloSpec SyncProofs MomentModel MomentSpec MomentProofs MomentTop
  AtmosModel AtmosSpec AtmosProofs AtmosTop.
Import ListNotations.
Open Scope R_scope.

Ltac rdec := repeat match goal with
  | |- context [Rlt_dec ?a ?b] => destruct (Rlt_dec a b); try lra
  | |- context [Rle_dec ?a ?b] => destruct (Rle_dec a b); try lra
  end.

(** ** Hydrostatic balance *)
Lemma lim_eq f x l l' : derivable_pt_lim f x l -> l = l' -> derivable_pt_lim f x l'.
Proof. intros H <-. exact H. Qed.
Lemma exp_affine c k x0 x : derivable_pt_lim (fun z => c * exp (k * (z - x0))) x (c * exp (k * (x - x0)) * k).
Proof.
  eapply lim_eq.
  - apply (derivable_pt_lim_scal (fun z => exp (k * (z - x0))) c x).
    apply (derivable_pt_lim_comp (fun z => k * (z - x0)) exp); [|apply derivable_pt_lim_exp].
    apply (derivable_pt_lim_scal (fun z => z - x0) k x).
    apply (derivable_pt_lim_minus (fun z => z) (fun _ => x0) x); [apply derivable_pt_lim_id|apply (derivable_pt_lim_const x0)].
  - ring.
Qed.
Lemma exp_radial c h xs x : 0 < x -> derivable_pt_lim (fun z => c * exp (- (xs / h) * (1 - xs / z))) x
  (c * exp (- (xs / h) * (1 - xs / x)) * (- (/ h) * ((xs / x) * (xs / x)))).
Proof.
  intros Hx. eapply lim_eq.
  - apply (derivable_pt_lim_scal (fun z => exp (- (xs / h) * (1 - xs / z))) c x).
    apply (derivable_pt_lim_comp (fun z => - (xs / h) * (1 - xs / z)) exp); [|apply derivable_pt_lim_exp].
    apply (derivable_pt_lim_scal (fun z => 1 - xs / z) (- (xs / h)) x).
    apply (derivable_pt_lim_minus (fun _ => 1) (fun z => xs / z) x); [apply (derivable_pt_lim_const 1)|].
    apply (derivable_pt_lim_div (fun _ => xs) (fun z => z) x); [apply (derivable_pt_lim_const xs)|apply derivable_pt_lim_id|lra].
  - unfold Rsqr, Rdiv. rewrite Rinv_mult. ring.
Qed.

Theorem hydrostatic : forall eps cart plus T h nmax xs ds x,
  0 < T -> 0 < h -> eps < surface_gravity T h -> (cart = false -> plus = false /\ 0 < xs) ->
  0 < ds -> (if plus then xs - ds < x < xs else xs < x < xs + ds) ->
  derivable_pt_lim (fun z => T * profile cart plus nmax h xs ds z) x
    (profile cart plus nmax h xs ds x * gravity eps cart plus (surface_gravity T h) xs ds x).
Proof.
  intros eps cart plus T h nmax xs ds x HT Hh He Hc Hds Hx. unfold surface_gravity in *.
  assert (Hg : 0 < T / h) by (apply Rdiv_lt_0_compat; assumption).
  destruct plus.
  - destruct cart; [|destruct (Hc eq_refl); discriminate].
    apply (derivable_pt_lim_locally_ext (fun z => (T * nmax) * exp (/ h * (z - xs))) _ x (xs - ds) xs); [exact Hx| |].
    + intros z Hz. unfold profile. rdec. cbn [orb]. rewrite Rmult_assoc. do 3 f_equal. unfold Rdiv. ring.
    + replace (profile true true nmax h xs ds x * gravity eps true true (T / h) xs ds x)
        with (T * nmax * exp (/ h * (x - xs)) * / h); [apply exp_affine|].
      unfold profile, gravity. rewrite (Rabs_pos_eq (T / h)) by lra. rdec. cbn [orb andb negb].
      replace (- (xs - x) / h) with (/ h * (x - xs)) by (unfold Rdiv; ring). unfold Rdiv. ring.
  - destruct cart.
    + apply (derivable_pt_lim_locally_ext (fun z => (T * nmax) * exp (- / h * (z - xs))) _ x xs (xs + ds)); [exact Hx| |].
      * intros z Hz. unfold profile. rdec. cbn [orb]. rewrite Rmult_assoc. do 3 f_equal. unfold Rdiv. ring.
      * replace (profile true false nmax h xs ds x * gravity eps true false (T / h) xs ds x)
          with (T * nmax * exp (- / h * (x - xs)) * - / h); [apply exp_affine|].
        unfold profile, gravity. rewrite Rabs_Ropp, (Rabs_pos_eq (T / h)) by lra. rdec. cbn [orb andb negb].
        replace (- (x - xs) / h) with (- / h * (x - xs)) by (unfold Rdiv; ring). unfold Rdiv. ring.
    + destruct (Hc eq_refl) as [_ Hxs].
      apply (derivable_pt_lim_locally_ext (fun z => (T * nmax) * exp (- (xs / h) * (1 - xs / z))) _ x xs (xs + ds)); [exact Hx| |].
      * intros z Hz. unfold profile. rdec. cbn [orb]. apply Rmult_assoc.
      * replace (profile false false nmax h xs ds x * gravity eps false false (T / h) xs ds x)
          with (T * nmax * exp (- (xs / h) * (1 - xs / x)) * (- (/ h) * ((xs / x) * (xs / x)))); [apply exp_radial; lra|].
        unfold profile, gravity. rewrite Rabs_Ropp, (Rabs_pos_eq (T / h)) by lra. rdec. cbn [orb andb negb].
        unfold Rdiv. ring.
Qed.

(** ** Where gravity and density are *)
Theorem lower_extent : forall eps cart g nmax h xs ds x,
  0 < ds -> 0 < nmax -> 0 < g -> eps < g -> (cart = false -> 0 < xs) ->
  (0 < profile cart false nmax h xs ds x <-> xs <= x < xs + ds) /\
  (0 < x -> gravity eps cart false g xs ds x = if Rle_dec x (xs + ds)
      then - g * (if cart then 1 else (xs / x) * (xs / x)) else 0).
Proof.
  intros eps cart g nmax h xs ds x Hds Hn Hg He Hc. split.
  - unfold profile. split.
    + rdec; cbn [orb]; lra.
    + intros Hx. rdec. cbn [orb]. destruct cart; apply Rmult_lt_0_compat; auto using exp_pos.
  - intros Hx. unfold gravity. rewrite Rabs_Ropp, (Rabs_pos_eq g) by lra. rdec; cbn [orb andb negb]; destruct cart; ring.
Qed.

Lemma upper_gravity : forall eps g xs ds x, 0 < ds -> 0 < g -> eps < g -> x <= xs + ds ->
  gravity eps true true g xs ds x = g.
Proof. intros eps g xs ds x Hds Hg He Hx. unfold gravity. rewrite (Rabs_pos_eq g) by lra. rdec; reflexivity. Qed.

Lemma no_limit : forall eps cart plus g nmax h xs x,
  profile cart plus nmax h xs 0 x = 0 /\ (x <> xs -> gravity eps cart plus g xs 0 x = 0).
Proof.
  intros. split.
  - unfold profile. rewrite Rminus_0_r, Rplus_0_r. destruct plus; rdec; reflexivity.
  - intros Hx. unfold gravity. rewrite Rplus_0_r. rdec; cbn [orb andb]; rewrite ?andb_false_r; reflexivity.
Qed.

Theorem buffer_facts : forall plus n filters, (0 <= filters)%Z -> (buffer_ncells filters <= n < 2 ^ 32)%Z ->
  let '(a, b) := buffer_nodes plus n filters in
  (0 <= a /\ b <= n /\ b - a = Z.max 5 (filters + 2) /\ (if plus then b = n else a = 0))%Z /\
  forall cv, x_surface plus cv n filters =
    cv (IZR (if plus then n - Z.max 5 (filters + 2) else Z.max 5 (filters + 2))).
Proof.
  intros plus n filters Hf Hn. unfold x_surface, buffer_nodes, buffer_ncells in *. destruct plus.
  - destruct (Z.ltb_spec 5 (filters + 2)); unfold w32; rewrite Z.mod_small by lia; (split; [lia|intros cv; do 2 f_equal; lia]).
  - destruct (Z.ltb_spec 5 (filters + 2)); (split; [lia|intros cv; do 2 f_equal; lia]).
Qed.

(** ** Filling an empty domain *)
Theorem fill : forall d a order rnd slots s1 s2,
  sound d -> sound_atmos d a -> uniform d rnd -> any_slots slots ->
  exists s1' s2' l, atmosphere_particles d a true order rnd slots s1 s2 = Ok (s1', s2') /\
    gains s1 s1' (map fst l) /\ gains s2 s2' (map snd l) /\ Forall (proper_pair d) l /\
    forall y, in_box y (d_n d) ->
      let t := target d a (d_ph d (centre y)) in
      rounded (d_ppc0 d / 2 * t) (du rnd y) (pairs_in_cell y l) /\
      Rabs (number_density d y [s1'; s2'] - number_density d y [s1; s2] - t) < 2 / d_ppc0 d.
Proof.
  intros d a order rnd slots s1 s2 Hd Ha Hr Hs.
  destruct (refill_run d a rnd slots Hd Ha Hr Hs s1 s2 (fun _ => 0) (fun _ => 0)) as (s1' & s2' & l & H0 & H1 & H2 & H3 & H4).
  - reflexivity.
  - intros; lra.
  - exists s1', s2', l. unfold atmosphere_particles. do 4 (split; [assumption|]).
    intros y Hy. set (t := target d a (d_ph d (centre y))) in *. destruct (H4 y Hy) as [H5 H6]. fold t in H5, H6.
    pose proof (target_range d a (d_ph d (centre y)) Ha) as [T1 _]. fold t in T1. pose proof (sd_ppc d Hd) as Hp.
    assert (K : rounded (d_ppc0 d / 2 * t) (du rnd y) (pairs_in_cell y l)).
    { destruct T1 as [T1|T1].
      - rewrite <- (Rminus_0_r t) at 1. apply H6. lra.
      - rewrite H5 by lra. rewrite <- T1. unfold rounded. destruct (Hr y Hy) as [U _]. cbn [INR]. lra. }
    split; [exact K|].
    assert (E : number_density d y [s1'; s2'] = number_density d y [s1; s2] + (1 + 1) / d_ppc0 d * INR (pairs_in_cell y l)).
    { apply (density_gain _ d l s1 s2 s1' s2' y); try assumption; try reflexivity. apply Hd. exact Hy. }
    rewrite E. destruct K as [K1 K2]. destruct (Hr y Hy) as [[U1 U2] _]. set (k := INR (pairs_in_cell y l)) in *.
    replace (number_density d y [s1; s2] + (1 + 1) / d_ppc0 d * k - number_density d y [s1; s2] - t)
      with (2 / d_ppc0 d * (k - d_ppc0 d / 2 * t)) by (field; lra).
    assert (0 < 2 / d_ppc0 d) by (apply Rdiv_lt_0_compat; lra).
    rewrite Rabs_mult, (Rabs_pos_eq (2 / d_ppc0 d)) by lra. rewrite <- (Rmult_1_r (2 / d_ppc0 d)) at 2.
    apply Rmult_lt_compat_l; [lra|]. apply Rabs_def1; lra.
Qed.

(** ** Cases: eight cells of unit size, atmosphere above node 5, three cells thick *)
Definition dom8 (ppc : R) : dom := {|
  d_ghosts := 2; d_cart := true; d_axis_min := false; d_axis_max := false; d_n := [8%Z];
  d_ph := fun x => x; d_cd := fun x => x; d_vol := fun _ => 1; d_ppc0 := ppc; d_V0 := 1;
  d_frame := cartesian_frame |}.
Definition atm8 : atmos := {| a_along := 0; a_plus := false; a_nmax := 1; a_height := 10; a_xsurf := 5; a_ds := 3 |}.
Definition half : draws := {| du := fun _ => 1/2; dxs := fun y _ => map (fun _ => 1/2) y;
  dv1 := fun _ _ => (0, 0, 0); dv2 := fun _ _ => (0, 0, 0) |}.
Definition nothing (m q : R) : species := {| smass := m; scharge := q; sparts := [] |}.

Lemma sound8 ppc : 0 < ppc -> sound (dom8 ppc).
Proof. intros H. constructor; cbn; intros; try lra; try lia; try reflexivity; auto. Qed.
Lemma atm8_ok ppc : 0 < ppc < 1000 -> sound_atmos (dom8 ppc) atm8.
Proof. intros H. constructor; cbn; intros; lra. Qed.
Lemma half_ok d : uniform d half.
Proof.
  intros y _. cbn. split; [lra|]. intros _. rewrite map_length. split; [reflexivity|].
  apply Forall_map. apply Forall_forall. intros. lra.
Qed.
Lemma same_slots : any_slots (fun l => l).
Proof. intros l. apply Permutation_refl. Qed.
Lemma same_order : any_order (fun l => l).
Proof. intros l. apply Permutation_refl. Qed.
Lemma reversed_slots : any_slots (@rev (part * part)).
Proof. intros l. apply Permutation_rev. Qed.

Lemma target8 ppc x : target (dom8 ppc) atm8 [x] = 0 \/ 5 <= x < 8 /\ 7/10 <= target (dom8 ppc) atm8 [x].
Proof.
  unfold target, profile. cbn [dom8 atm8 d_cart a_plus a_nmax a_height a_xsurf a_ds a_along nth].
  rdec; cbn [orb]; try (left; reflexivity). right. split; [lra|].
  pose proof (exp_ineq1_le (- (x - 5) / 10)). lra.
Qed.
Lemma target8_in ppc x : 5 <= x < 8 -> 7/10 <= target (dom8 ppc) atm8 [x].
Proof.
  intros H. unfold target, profile. cbn [dom8 atm8 d_cart a_plus a_nmax a_height a_xsurf a_ds a_along nth].
  rdec; cbn [orb]. pose proof (exp_ineq1_le (- (x - 5) / 10)). lra.
Qed.

(** Species four times heavier than the unit: a pair with half of the target number. *)
Definition lone (q : R) : species := {| smass := 4; scharge := q;
  sparts := [ {| ptag := 1; ppos := [(5%Z, 1/2)]; pvel := (0, 0, 0); pweight := 1 |} ] |}.
Lemma lone_in q : in_domain (dom8 4) (lone q).
Proof.
  intros p [<-|[]] _. split; cbn; [constructor; [lia|constructor]|]. constructor; [cbn; lra|constructor].
Qed.
Lemma members_lone q : members [5%Z] (lone q) = sparts (lone q).
Proof. reflexivity. Qed.

Theorem heavy : exists d a s1 s2 y,
  sound d /\ sound_atmos d a /\ in_domain d s1 /\ in_domain d s2 /\ 0 < smass s1 /\ 0 < smass s2 /\ in_box y (d_n d) /\
  forall order rnd slots, any_order order -> uniform d rnd -> any_slots slots ->
  exists s1' s2', atmosphere_particles d a false order rnd slots s1 s2 = Ok (s1', s2') /\
    number_density d y [s1'; s2'] < 9/10 * target d a (d_ph d (centre y)) /\
    number_density d y [s1'; s2'] = number_density d y [s1; s2].
Proof.
  exists (dom8 4), atm8, (lone (-1)), (lone 1), [5%Z].
  split; [apply sound8; lra|]. split; [apply atm8_ok; lra|]. split; [apply lone_in|]. split; [apply lone_in|].
  split; [cbn; lra|]. split; [cbn; lra|]. assert (Hy : in_box [5%Z] (d_n (dom8 4))) by (constructor; [lia|constructor]).
  split; [exact Hy|]. intros order rnd slots Ho Hr Hs.
  destruct (refill (dom8 4) atm8 order rnd slots (lone (-1)) (lone 1)) as (s1' & s2' & l & H0 & _ & _ & _ & H4);
    try assumption; [apply sound8; lra|apply atm8_ok; lra|cbn; lra|cbn; lra|apply lone_in|apply lone_in| |].
  { intros s p [<-|[<-|[]]] [<-|[]]; cbn; lra. }
  exists s1', s2'. split; [exact H0|]. destruct (H4 [5%Z] Hy) as (H5 & _ & _ & H7). clear H4.
  assert (Em : mass_density (dom8 4) [5%Z] [lone (-1); lone 1] = 2).
  { unfold mass_density, cell_density. rewrite (rsum_ext _ _ (fun _ => 1)).
    - unfold rsum. cbn [fold_right]. lra.
    - intros s [<-|[<-|[]]]; rewrite members_lone; unfold rsum; cbn; lra. }
  assert (En : number_density (dom8 4) [5%Z] [lone (-1); lone 1] = 1/2).
  { unfold number_density, cell_density. rewrite (rsum_ext _ _ (fun _ => 1/4)).
    - unfold rsum. cbn [fold_right]. lra.
    - intros s [<-|[<-|[]]]; rewrite members_lone; unfold rsum; cbn; lra. }
  assert (Ht : target (dom8 4) atm8 (d_ph (dom8 4) (centre [5%Z])) <= 1)
    by (apply (target_range (dom8 4) atm8); apply atm8_ok; lra).
  assert (Hl : 7/10 <= target (dom8 4) atm8 (d_ph (dom8 4) (centre [5%Z]))).
  { change (d_ph (dom8 4) (centre [5%Z])) with [5 + 1/2]. apply target8_in. lra. }
  rewrite Em in H5. rewrite H7, H5 by lra. rewrite En. change (INR 0) with 0. split; lra.
Qed.

Lemma upper_everywhere : exists eps g nmax h xs ds x,
  0 < eps < g /\ 0 < nmax /\ 0 < h /\ 0 < ds /\ x < xs - ds /\
  profile true true nmax h xs ds x = 0 /\ gravity eps true true g xs ds x = g.
Proof.
  exists (1/1000), 1, 1, 1, 100, 1, 0. repeat (split; [lra|]). split.
  - unfold profile. rdec. reflexivity.
  - apply upper_gravity; lra.
Qed.

Lemma fills8 : exists s1' s2',
  atmosphere_particles (dom8 100) atm8 false (fun l => l) half (@rev _) (nothing 1 (-1)) (nothing 1 1) = Ok (s1', s2') /\
  68/100 < number_density (dom8 100) [5%Z] [s1'; s2'].
Proof.
  destruct (refilled (dom8 100) atm8 (fun l => l) half (@rev _) (nothing 1 (-1)) (nothing 1 1)) as (s1' & s2' & E & H);
    try reflexivity; try (apply sound8; lra); try (apply atm8_ok; lra); auto using same_order, half_ok, reversed_slots.
  - intros p [].
  - intros p [].
  - intros s p [<-|[<-|[]]] [].
  - exists s1', s2'. split; [exact E|].
    destruct (H [5%Z]) as [_ H2]; [constructor; [lia|constructor]|]. cbv zeta in H2.
    change (number_density (dom8 100) [5%Z] [nothing 1 (-1); nothing 1 1]) with (0 + (0 + 0)) in H2.
    change (d_ph (dom8 100) (centre [5%Z])) with [5 + 1/2] in H2.
    pose proof (target8_in 100 (5 + 1/2)) as Ht. change (d_ppc0 (dom8 100)) with 100 in H2.
    assert (G := H2 ltac:(lra)). apply Rabs_def2 in G. lra.
Qed.

Lemma settles8 : exists s1' s2',
  atmosphere_particles (dom8 100) atm8 false (fun l => l) half (@rev _) (nothing 1 (-1)) (nothing 1 1) = Ok (s1', s2') /\
  exists s1'' s2'', atmosphere_particles (dom8 100) atm8 false (fun l => l) half (fun l => l) s1' s2' = Ok (s1'', s2'') /\
    sparts s1'' = sparts s1' /\ sparts s2'' = sparts s2'.
Proof.
  apply settles; try (apply sound8; lra); try (apply atm8_ok; lra); auto using same_order, half_ok, reversed_slots, same_slots; cbn [nothing smass]; try lra.
  - intros p [].
  - intros p [].
  - intros s p [<-|[<-|[]]] [].
  - intros y Hy. cbv zeta. inversion Hy as [|i k r n Hi Hr E1 E2]; subst. inversion Hr; subst.
    change (d_ph (dom8 100) (centre [i])) with [IZR i + 1/2]. change (d_ppc0 (dom8 100)) with 100.
    destruct (target8 100 (IZR i + 1/2)) as [E|[_ E]]; [left; exact E|right; lra].
Qed.

Lemma balance_case : derivable_pt_lim (fun z => 1 * profile false false 2 (1/2) 1 3 z) 2
  (profile false false 2 (1/2) 1 3 2 * gravity 0 false false (surface_gravity 1 (1/2)) 1 3 2).
Proof. apply hydrostatic; unfold surface_gravity; auto; lra. Qed.

(** ** Values of the profile *)
Theorem profile_values : forall cart plus nmax h xs ds x, (cart = false -> plus = false) ->
  profile cart plus nmax h xs ds x =
  if (if plus then (if Rle_dec (xs - ds) x then if Rlt_dec x xs then true else false else false)
      else (if Rle_dec xs x then if Rlt_dec x (xs + ds) then true else false else false))
  then nmax * exp (- (if cart then Rabs (x - xs) else xs * (1 - xs / x)) / h) else 0.
Proof.
  intros cart plus nmax h xs ds x Hc. unfold profile. destruct plus.
  - destruct cart; [|specialize (Hc eq_refl); discriminate]. rdec; cbn [orb]; auto.
    rewrite Rabs_left by lra. do 2 f_equal. unfold Rdiv. ring.
  - rdec; cbn [orb]; auto. destruct cart; [rewrite Rabs_pos_eq by lra; reflexivity|]. do 2 f_equal. unfold Rdiv. ring.
Qed.

(** ** A uniform target *)
Theorem refill_uniform : forall d t order rnd slots s1 s2,
  sound d -> 0 < t -> t * d_ppc0 d < 2 ^ 32 -> any_order order -> uniform d rnd -> any_slots slots ->
  0 < smass s1 -> 0 < smass s2 -> in_domain d s1 -> in_domain d s2 ->
  (forall s p, In s [s1; s2] -> In p (sparts s) -> 0 <= pweight p) ->
  exists b s1' s2' l,
    compute_moments (moment_cfg d) Rho [s1; s2] [1; 2]%Z 0 0 order (fun _ => 0) = Some b /\
    inject_nonuniform d t (replenish_uniform d b t) rnd slots s1 s2 = Ok (s1', s2') /\
    gains s1 s1' (map fst l) /\ gains s2 s2' (map snd l) /\ Forall (proper_pair d) l /\
    forall y, in_box y (d_n d) ->
      let v := mass_density d y [s1; s2] in
      (9/10 * t <= v -> pairs_in_cell y l = 0%nat) /\
      (v < 9/10 * t -> rounded (d_ppc0 d / 2 * (t - v)) (du rnd y) (pairs_in_cell y l)).
Proof.
  intros d t order rnd slots s1 s2 Hd Ht Hrg Ho Hr Hs M1 M2 D1 D2 Hw.
  destruct (density_at d Hd s1 s2 order Ho) as (b & E & Hb); try assumption; try lra.
  pose proof (sd_ppc d Hd) as Hp. assert (L : 2 ^ 32 > 100) by (cbn; lra).
  assert (P : 0 < t * d_ppc0 d) by (apply Rmult_lt_0_compat; assumption).
  set (v := fun y => mass_density d y [s1; s2]).
  assert (Ed : forall y, in_box y (d_n d) ->
    d_ppc0 d / 2 * t * replenish_uniform d b t (d_ph d (centre y)) =
    if Rlt_dec (v y) (9/10 * t) then d_ppc0 d / 2 * (t - v y) else 0).
  { intros y Hy. unfold replenish_uniform. rewrite (own_cell d y Hd Hy), (Hb y). fold (v y). destruct Rlt_dec; [field; lra|ring]. }
  destruct (inject_pairs d t (replenish_uniform d b t) rnd slots s1 s2 Hd Hr Hs) as (s1' & s2' & l & H0 & H1 & H2 & H3 & H4).
  - intros y Hy. rewrite (Ed y Hy). destruct Rlt_dec as [Hlt|]; [|lra].
    assert (0 <= v y) by (apply mass_density_nonneg; assumption).
    split; [apply Rmult_le_pos; lra|].
    assert (d_ppc0 d / 2 * (t - v y) <= d_ppc0 d / 2 * t) by (apply Rmult_le_compat_l; lra). lra.
  - exists b, s1', s2', l. do 5 (split; [assumption|]). intros y Hy v'. specialize (H4 y Hy). rewrite (Ed y Hy) in H4.
    fold (v y) in v'. subst v'. split; intros C.
    + destruct Rlt_dec in H4; [lra|]. destruct H4 as [_ H4]. destruct (Hr y Hy) as [[U _] _].
      assert (INR (pairs_in_cell y l) < INR 1) by (cbn [INR]; lra). apply INR_lt in H. lia.
    + destruct Rlt_dec in H4; [exact H4|lra].
Qed.
