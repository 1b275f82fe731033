(** Properties of the particle atmosphere and of density-driven injection. *)
From Coq Require Import ZArith List Bool Reals Lra Lia Permutation.
From Verif Require Import Base HaloSpec MomentModel MomentSpec AtmosModel AtmosSpec AtmosProofs AtmosTop AtmosCases.
Import ListNotations.
Open Scope R_scope.

(** C76: injection with a spatial distribution adds pairs only; the two particles of a pair are at
    the same place with the same weight, inside the domain; each cell receives a whole number of
    pairs that is ppc0/2 * density * distribution rounded up or down, exact on average. *)
Theorem C76_pairs : forall d N dist rnd slots s1 s2,
  sound d -> uniform d rnd -> any_slots slots ->
  (forall y, in_box y (d_n d) -> 0 <= d_ppc0 d / 2 * N * dist (d_ph d (centre y)) < 2 ^ 32 - 1) ->
  exists s1' s2' l, inject_nonuniform d N dist rnd slots s1 s2 = Ok (s1', s2') /\
    gains s1 s1' (map fst l) /\ gains s2 s2' (map snd l) /\ Forall (proper_pair d) l /\
    forall y, in_box y (d_n d) ->
      rounded (d_ppc0 d / 2 * N * dist (d_ph d (centre y))) (du rnd y) (pairs_in_cell y l).
Proof. exact inject_pairs. Qed.
Print Assumptions C76_pairs.

(** C76: pairs of opposite charges leave every linear deposition of the charge unchanged. *)
Theorem C76_neutral : forall d l s1 s2 s1' s2',
  gains s1 s1' (map fst l) -> gains s2 s2' (map snd l) -> Forall (proper_pair d) l ->
  scharge s1 + scharge s2 = 0 ->
  forall shape, deposit shape [s1'; s2'] = deposit shape [s1; s2].
Proof. exact pairs_neutral. Qed.
Print Assumptions C76_neutral.

(** C76: the atmosphere of two species of unit mass.  Cells with at least nine tenths of the
    target are left alone; all others end within two particles of the target. *)
Theorem C76_refilled : forall d a order rnd slots s1 s2,
  sound d -> sound_atmos d a -> any_order order -> uniform d rnd -> any_slots slots ->
  smass s1 = 1 -> smass s2 = 1 -> in_domain d s1 -> in_domain d s2 ->
  (forall s p, In s [s1; s2] -> In p (sparts s) -> 0 <= pweight p) ->
  exists s1' s2', atmosphere_particles d a false order rnd slots s1 s2 = Ok (s1', s2') /\
    forall y, in_box y (d_n d) ->
      let t := target d a (d_ph d (centre y)) in
      let before := number_density d y [s1; s2] in
      let after := number_density d y [s1'; s2'] in
      (9/10 * t <= before -> after = before) /\ (before < 9/10 * t -> Rabs (after - t) < 2 / d_ppc0 d).
Proof. exact refilled. Qed.
Print Assumptions C76_refilled.

(** C76: any masses.  The decision and the amount follow the mass density. *)
Theorem C76_amounts : forall d a order rnd slots s1 s2,
  sound d -> sound_atmos d a -> any_order order -> uniform d rnd -> any_slots slots ->
  0 < smass s1 -> 0 < smass s2 -> in_domain d s1 -> in_domain d s2 ->
  (forall s p, In s [s1; s2] -> In p (sparts s) -> 0 <= pweight p) ->
  exists s1' s2' l, atmosphere_particles d a false order rnd slots s1 s2 = Ok (s1', s2') /\
    gains s1 s1' (map fst l) /\ gains s2 s2' (map snd l) /\ Forall (proper_pair d) l /\
    forall y, in_box y (d_n d) ->
      let t := target d a (d_ph d (centre y)) in
      let v := mass_density d y [s1; s2] in
      (9/10 * t <= v -> pairs_in_cell y l = 0%nat) /\
      (v < 9/10 * t -> rounded (d_ppc0 d / 2 * (t - v)) (du rnd y) (pairs_in_cell y l)) /\
      mass_density d y [s1'; s2'] = v + (smass s1 + smass s2) / d_ppc0 d * INR (pairs_in_cell y l) /\
      number_density d y [s1'; s2'] = number_density d y [s1; s2] + 2 / d_ppc0 d * INR (pairs_in_cell y l).
Proof. exact refill. Qed.
Print Assumptions C76_amounts.

(** C76: with at least twenty particles per cell at the target, filling again adds nothing. *)
Theorem C76_settles : forall d a order rnd slots order' rnd' slots' s1 s2,
  sound d -> sound_atmos d a -> any_order order -> uniform d rnd -> any_slots slots ->
  any_order order' -> uniform d rnd' -> any_slots slots' ->
  0 < smass s1 -> 0 < smass s2 -> 2 <= smass s1 + smass s2 -> in_domain d s1 -> in_domain d s2 ->
  (forall s p, In s [s1; s2] -> In p (sparts s) -> 0 <= pweight p) ->
  (forall y, in_box y (d_n d) -> let t := target d a (d_ph d (centre y)) in t = 0 \/ 20 <= d_ppc0 d * t) ->
  exists s1' s2', atmosphere_particles d a false order rnd slots s1 s2 = Ok (s1', s2') /\
    exists s1'' s2'', atmosphere_particles d a false order' rnd' slots' s1' s2' = Ok (s1'', s2'') /\
      sparts s1'' = sparts s1' /\ sparts s2'' = sparts s2'.
Proof. exact settles. Qed.
Print Assumptions C76_settles.

(** C76: the first filling, any masses: the target number density is added, to two particles. *)
Theorem C76_fill : forall d a order rnd slots s1 s2,
  sound d -> sound_atmos d a -> uniform d rnd -> any_slots slots ->
  exists s1' s2' l, atmosphere_particles d a true order rnd slots s1 s2 = Ok (s1', s2') /\
    gains s1 s1' (map fst l) /\ gains s2 s2' (map snd l) /\ Forall (proper_pair d) l /\
    forall y, in_box y (d_n d) ->
      let t := target d a (d_ph d (centre y)) in
      rounded (d_ppc0 d / 2 * t) (du rnd y) (pairs_in_cell y l) /\
      Rabs (number_density d y [s1'; s2'] - number_density d y [s1; s2] - t) < 2 / d_ppc0 d.
Proof. exact fill. Qed.
Print Assumptions C76_fill.

(** C76: the target is in hydrostatic balance with the gravity the pusher applies: the pressure
    gradient equals the density times the acceleration, in all coordinates and on both sides. *)
Theorem C76_hydrostatic : forall eps cart plus T h nmax xs ds x,
  0 < T -> 0 < h -> eps < surface_gravity T h -> (cart = false -> plus = false /\ 0 < xs) ->
  0 < ds -> (if plus then xs - ds < x < xs else xs < x < xs + ds) ->
  derivable_pt_lim (fun z => T * profile cart plus nmax h xs ds z) x
    (profile cart plus nmax h xs ds x * gravity eps cart plus (surface_gravity T h) xs ds x).
Proof. exact hydrostatic. Qed.
Print Assumptions C76_hydrostatic.

(** C76: a lower atmosphere lies between the surface and the surface plus [ds]; gravity points to
    the surface and ends at the same height. *)
Theorem C76_lower_extent : forall eps cart g nmax h xs ds x,
  0 < ds -> 0 < nmax -> 0 < g -> eps < g -> (cart = false -> 0 < xs) ->
  (0 < profile cart false nmax h xs ds x <-> xs <= x < xs + ds) /\
  (0 < x -> gravity eps cart false g xs ds x = if Rle_dec x (xs + ds)
      then - g * (if cart then 1 else (xs / x) * (xs / x)) else 0).
Proof. exact lower_extent. Qed.
Print Assumptions C76_lower_extent.

(** C76: an upper atmosphere has no such end: gravity acts at any distance below it. *)
Theorem C76_upper_extent_refuted : exists eps g nmax h xs ds x,
  0 < eps < g /\ 0 < nmax /\ 0 < h /\ 0 < ds /\ x < xs - ds /\
  profile true true nmax h xs ds x = 0 /\ gravity eps true true g xs ds x = g.
Proof. exact upper_everywhere. Qed.
Print Assumptions C76_upper_extent_refuted.

(** C76: the documented default [ds = 0] ("no limit") gives no atmosphere and no gravity. *)
Theorem C76_no_limit_refuted : forall eps cart plus g nmax h xs x,
  profile cart plus nmax h xs 0 x = 0 /\ (x <> xs -> gravity eps cart plus g xs 0 x = 0).
Proof. exact no_limit. Qed.
Print Assumptions C76_no_limit_refuted.

(** C76: heavier species.  Their number density stays below nine tenths of the target although
    the target is documented as a number density. *)
Theorem C76_heavy_refuted : exists d a s1 s2 y,
  sound d /\ sound_atmos d a /\ in_domain d s1 /\ in_domain d s2 /\ 0 < smass s1 /\ 0 < smass s2 /\ in_box y (d_n d) /\
  forall order rnd slots, any_order order -> uniform d rnd -> any_slots slots ->
  exists s1' s2', atmosphere_particles d a false order rnd slots s1 s2 = Ok (s1', s2') /\
    number_density d y [s1'; s2'] < 9/10 * target d a (d_ph d (centre y)) /\
    number_density d y [s1'; s2'] = number_density d y [s1; s2].
Proof. exact heavy. Qed.
Print Assumptions C76_heavy_refuted.

(** C76: the buffer has five cells, or two more than the filter passes, and ends at the edge;
    the surface of the atmosphere is its inner end. *)
Theorem C76_buffer : forall plus n filters, (0 <= filters)%Z -> (buffer_ncells filters <= n < 2 ^ 32)%Z ->
  let '(a, b) := buffer_nodes plus n filters in
  (0 <= a /\ b <= n /\ b - a = Z.max 5 (filters + 2) /\ (if plus then b = n else a = 0))%Z /\
  forall cv, x_surface plus cv n filters =
    cv (IZR (if plus then n - Z.max 5 (filters + 2) else Z.max 5 (filters + 2))).
Proof. exact buffer_facts. Qed.
Print Assumptions C76_buffer.

(** C76: the target density is the barometric one, from the surface outwards over [ds]. *)
Theorem C76_profile : forall cart plus nmax h xs ds x, (cart = false -> plus = false) ->
  profile cart plus nmax h xs ds x =
  if (if plus then (if Rle_dec (xs - ds) x then if Rlt_dec x xs then true else false else false)
      else (if Rle_dec xs x then if Rlt_dec x (xs + ds) then true else false else false))
  then nmax * exp (- (if cart then Rabs (x - xs) else xs * (1 - xs / x)) / h) else 0.
Proof. exact profile_values. Qed.
Print Assumptions C76_profile.

(** C76: the same rule with a uniform target. *)
Theorem C76_uniform_target : forall d t order rnd slots s1 s2,
  sound d -> 0 < t -> t * d_ppc0 d < 2 ^ 32 -> any_order order -> uniform d rnd -> any_slots slots ->
  0 < smass s1 -> 0 < smass s2 -> in_domain d s1 -> in_domain d s2 ->
  (forall s p, In s [s1; s2] -> In p (sparts s) -> 0 <= pweight p) ->
  exists b s1' s2' l,
    compute_moments (moment_cfg d) Rho [s1; s2] [1; 2]%Z 0 0 order (fun _ => 0) = Some b /\
    inject_nonuniform d t (replenish_uniform d b t) rnd slots s1 s2 = Ok (s1', s2') /\
    gains s1 s1' (map fst l) /\ gains s2 s2' (map snd l) /\ Forall (proper_pair d) l /\
    forall y, in_box y (d_n d) ->
      let v := mass_density d y [s1; s2] in
      (9/10 * t <= v -> pairs_in_cell y l = 0%nat) /\
      (v < 9/10 * t -> rounded (d_ppc0 d / 2 * (t - v)) (du rnd y) (pairs_in_cell y l)).
Proof. exact refill_uniform. Qed.
Print Assumptions C76_uniform_target.

(** Cases. *)
Example C76_case_fill : exists s1' s2',
  atmosphere_particles (dom8 100) atm8 false (fun l => l) half (@rev _) (nothing 1 (-1)) (nothing 1 1) = Ok (s1', s2') /\
  68/100 < number_density (dom8 100) [5%Z] [s1'; s2'].
Proof. exact fills8. Qed.
Example C76_case_settles : exists s1' s2',
  atmosphere_particles (dom8 100) atm8 false (fun l => l) half (@rev _) (nothing 1 (-1)) (nothing 1 1) = Ok (s1', s2') /\
  exists s1'' s2'', atmosphere_particles (dom8 100) atm8 false (fun l => l) half (fun l => l) s1' s2' = Ok (s1'', s2'') /\
    sparts s1'' = sparts s1' /\ sparts s2'' = sparts s2'.
Proof. exact settles8. Qed.
Example C76_case_balance : derivable_pt_lim (fun z => 1 * profile false false 2 (1/2) 1 3 z) 2
  (profile false false 2 (1/2) 1 3 2 * gravity 0 false false (surface_gravity 1 (1/2)) 1 3 2).
Proof. exact balance_case. Qed.
Example C76_case_small_grid : buffer_nodes true 4 0 = (4294967295, 4)%Z.
Proof. reflexivity. Qed.
