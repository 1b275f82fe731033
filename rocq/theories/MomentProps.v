(** Properties C38 and C58. *)
From Coq Require Import ZArith List Bool Reals Lra Lia Permutation.
From Verif Require Import Base DecompModel DecompSpec DirsSpec TopoModel TopoSpec HaloModel ShapeSpec HaloSpec
  MomentModel MomentSpec MomentProofs MomentTop MomentSync MomentVel MomentCases.
Import ListNotations.
Open Scope R_scope.

(** C38, one domain, every coordinate system: whatever the order of the additions, the total over
    the array grows by the sum of the unsmoothed contributions of the live particles.  The array
    includes the ghost cells, also those beyond an axis: see [C38_axis_refuted]. *)
Theorem C38_storage_total_partial : forall c F all specs c1 c2 ss sched b n,
  supported c -> components_ok F c1 c2 -> selects all specs ss -> Forall (species_ok F) ss -> any_order sched ->
  (cartesian c = false -> nth 1 n 0%Z = ni2 c) ->
  (forall s p, In s ss -> In p (sparts s) -> live p = true -> inside n p) ->
  exists b', compute_moments c F all specs c1 c2 sched b = Some b' /\
    rsum (storage (ghosts c) n) b' = rsum (storage (ghosts c) n) b + total c F ss c1 c2.
Proof. exact moments_total. Qed.
Print Assumptions C38_storage_total_partial.

(** C38: no addition falls outside the array. *)
Theorem C38_in_bounds : forall c F all specs c1 c2 ss n,
  supported c -> components_ok F c1 c2 -> selects all specs ss -> Forall (species_ok F) ss ->
  (cartesian c = false -> nth 1 n 0%Z = ni2 c) ->
  (forall s p, In s ss -> In p (sparts s) -> live p = true -> inside n p) ->
  exists adds, additions c F all specs c1 c2 = Some adds /\
    Forall (fun e => In (fst e) (storage (ghosts c) n)) adds.
Proof. exact moments_in_bounds. Qed.
Print Assumptions C38_in_bounds.

(** C38, Cartesian grids: every cell, ghosts included, receives the contribution of every live
    particle times the spline (or flat window) at the distance to the centre of the cell. *)
Theorem C38_cell_values : forall c F all specs c1 c2 ss sched b D,
  cartesian c = true -> supported c -> components_ok F c1 c2 -> selects all specs ss ->
  Forall (species_ok F) ss -> any_order sched ->
  (forall s p, In s ss -> In p (sparts s) -> live p = true ->
     length (ppos p) = D /\ Forall (fun q => 0 <= snd q <= 1) (ppos p)) ->
  exists b', compute_moments c F all specs c1 c2 sched b = Some b' /\
    forall y, length y = D -> b' (loc (ghosts c) y) = b (loc (ghosts c) y) +
      rsum ss (fun s => rsum (sparts s) (fun p =>
        if live p then contribution c F s p c1 c2 * weight_d c (ppos p) y else 0)).
Proof. exact moments_value. Qed.
Print Assumptions C38_cell_values.

(** C38, periodic grid cut into any domains: after synchronisation the total over the active
    cells is the sum over the live particles of all domains. *)
Theorem C38_periodic_total : forall g ls gbc,
  wide g ls -> length gbc = length ls -> all_periodic gbc -> dimension (length ls) ->
  forall c F c1 c2 sp f,
  cartesian c = true -> supported c -> ghosts c = g -> components_ok F c1 c2 ->
  (forall d s p, In d (domains ls) -> In s (sp (sub_offset_ndomains d)) -> In p (sparts s) ->
     live p = true -> inside (sub_ncells d) p) ->
  (forall d, In d (domains ls) -> exists all specs sched,
     selects all specs (sp (sub_offset_ndomains d)) /\ Forall (species_ok F) (sp (sub_offset_ndomains d)) /\
     any_order sched /\
     compute_moments c F all specs c1 c2 sched (fun _ => 0) = Some (f (sub_offset_ndomains d))) ->
  rsum (cells 0 ls) (fun k => synchronize g ls gbc f (length ls) (sub_offset_ndomains (fst k)) (loc g (snd k)))
  = rsum (deposited c F c1 c2 (domains ls) sp) snd.
Proof. exact sync_moment_total. Qed.
Print Assumptions C38_periodic_total.

(** C38, the same, per cell: the output depends only on the particles' global positions and
    contributions, not on the decomposition. *)
Theorem C38_periodic_cells : forall g ls gbc,
  wide g ls -> length gbc = length ls -> all_periodic gbc -> dimension (length ls) ->
  forall c F c1 c2 sp f,
  cartesian c = true -> supported c -> ghosts c = g -> components_ok F c1 c2 ->
  (forall d s p, In d (domains ls) -> In s (sp (sub_offset_ndomains d)) -> In p (sparts s) ->
     live p = true -> inside (sub_ncells d) p) ->
  (forall d, In d (domains ls) -> exists all specs sched,
     selects all specs (sp (sub_offset_ndomains d)) /\ Forall (species_ok F) (sp (sub_offset_ndomains d)) /\
     any_order sched /\
     compute_moments c F all specs c1 c2 sched (fun _ => 0) = Some (f (sub_offset_ndomains d))) ->
  forall d y, In d (domains ls) -> in_box y (sub_ncells d) ->
  synchronize g ls gbc f (length ls) (sub_offset_ndomains d) (loc g y) =
  rsum (deposited c F c1 c2 (domains ls) sp)
    (fun e => snd e * spread c (map sumZ ls) (fst e) (wrapped ls d y)).
Proof. exact sync_value. Qed.
Print Assumptions C38_periodic_cells.

(** C38 at the axes: with an axis on both sides the rows inside the domain keep everything except
    the part that belongs to the first row beyond the upper axis. *)
Theorem C38_axis_loss : forall c F all specs c1 c2 ss sched b n,
  supported c -> components_ok F c1 c2 -> selects all specs ss -> Forall (species_ok F) ss -> any_order sched ->
  cartesian c = false -> axis_min c = true -> axis_max c = true ->
  (2 <= length n)%nat -> nth 1 n 0%Z = ni2 c -> (window (order_ c) < ni2 c)%Z ->
  (forall s p, In s ss -> In p (sparts s) -> live p = true -> inside n p) ->
  exists b', compute_moments c F all specs c1 c2 sched b = Some b' /\
    rsum (rows (ghosts c) n) b' = rsum (rows (ghosts c) n) b + total c F ss c1 c2 -
      rsum ss (fun s => rsum (sparts s) (fun p => if live p then contribution c F s p c1 c2 *
        match ppos p with
        | _ :: (i2, x2) :: _ => weight1 c (IZR i2 + x2 - (IZR (ni2 c) + 1/2)) (ni2 c - i2)
        | _ => 0
        end else 0)).
Proof. exact moments_axis. Qed.
Print Assumptions C38_axis_loss.

(** C38 fails next to the upper axis: a quarter of the mass of this particle is missing. *)
Theorem C38_axis_refuted : exists b',
  compute_moments polar Rho [one 3 (3/4)] [1%Z] 0 0 (fun l => l) (fun _ => 0) = Some b' /\
  total polar Rho [one 3 (3/4)] 0 0 = 1 /\ rsum (rows 2 [4; 4]%Z) b' = 3/4.
Proof. exact axis_loses. Qed.
Print Assumptions C38_axis_refuted.

(** Next to the lower axis the part beyond the axis is added to the second row, not to its
    mirror image, the first: the first row (array row 2) has only its own three quarters. *)
Theorem C38_mirror_refuted : exists b',
  compute_moments polar Rho [one 0 (1/4)] [1%Z] 0 0 (fun l => l) (fun _ => 0) = Some b' /\
  b' [3; 2]%Z = 3/4 /\ b' [3; 3]%Z = 1/4.
Proof. exact mirror_wrong. Qed.
Print Assumptions C38_mirror_refuted.

(** Hypotheses met: see [polar_supported], [one_inside]; a flat window of five cells. *)
Example C38_case : supported {|
  ghosts := 3; cartesian := true; axis_min := false; axis_max := false; ni2 := 4;
  inv_n0 := 1/8; use_weights := true; order_ := 4; method := CONST;
  sqrt_det_h := fun _ => 1/100; frame := cartesian_frame |} /\ window 4 = 2%Z.
Proof. split; [split; [discriminate|vm_compute; discriminate]|reflexivity]. Qed.

(** C58: where there is mass, the reported bulk velocity lies between the extreme velocities of
    the particles, on every decomposition of a periodic grid. *)
Theorem C58_velocity_is_a_mean : forall g ls gbc,
  wide g ls -> length gbc = length ls -> all_periodic gbc -> dimension (length ls) ->
  forall c i sp frho fv,
  cartesian c = true -> supported c -> ghosts c = g -> (1 <= i <= 3)%Z ->
  (forall d s p, In d (domains ls) -> In s (sp (sub_offset_ndomains d)) -> In p (sparts s) ->
     live p = true -> inside (sub_ncells d) p) ->
  (forall d s p, In d (domains ls) -> In s (sp (sub_offset_ndomains d)) -> In p (sparts s) ->
     live p = true -> 0 < smass s /\ 0 <= pweight p) ->
  0 <= inv_n0 c -> (forall x, 0 < sqrt_det_h c x) ->
  (forall d, In d (domains ls) -> exists all specs sched,
     selects all specs (sp (sub_offset_ndomains d)) /\ Forall (species_ok Rho) (sp (sub_offset_ndomains d)) /\
     any_order sched /\
     compute_moments c Rho all specs 0 0 sched (fun _ => 0) = Some (frho (sub_offset_ndomains d))) ->
  (forall d, In d (domains ls) -> exists all specs sched,
     selects all specs (sp (sub_offset_ndomains d)) /\ Forall (species_ok V) (sp (sub_offset_ndomains d)) /\
     any_order sched /\
     compute_moments c V all specs i 0 sched (fun _ => 0) = Some (fv (sub_offset_ndomains d))) ->
  forall lo hi,
  (forall d s p, In d (domains ls) -> In s (sp (sub_offset_ndomains d)) -> In p (sparts s) ->
     live p = true -> lo <= u_ (frame c (smass s) p) i / u_ (frame c (smass s) p) 0 <= hi) ->
  forall eps d y, 0 <= eps -> In d (domains ls) -> in_box y (sub_ncells d) ->
    eps < synchronize g ls gbc frho (length ls) (sub_offset_ndomains d) (loc g y) ->
    lo <= normalize_by_rho eps (synchronize g ls gbc frho (length ls) (sub_offset_ndomains d))
                               (synchronize g ls gbc fv (length ls) (sub_offset_ndomains d)) (loc g y) <= hi.
Proof. exact bulk_velocity_between. Qed.
Print Assumptions C58_velocity_is_a_mean.

(** C58: it never exceeds the largest speed, also where there is no mass. *)
Theorem C58_velocity_bounded : forall g ls gbc,
  wide g ls -> length gbc = length ls -> all_periodic gbc -> dimension (length ls) ->
  forall c i sp frho fv,
  cartesian c = true -> supported c -> ghosts c = g -> (1 <= i <= 3)%Z ->
  (forall d s p, In d (domains ls) -> In s (sp (sub_offset_ndomains d)) -> In p (sparts s) ->
     live p = true -> inside (sub_ncells d) p) ->
  (forall d s p, In d (domains ls) -> In s (sp (sub_offset_ndomains d)) -> In p (sparts s) ->
     live p = true -> 0 < smass s /\ 0 <= pweight p) ->
  0 <= inv_n0 c -> (forall x, 0 < sqrt_det_h c x) ->
  (forall d, In d (domains ls) -> exists all specs sched,
     selects all specs (sp (sub_offset_ndomains d)) /\ Forall (species_ok Rho) (sp (sub_offset_ndomains d)) /\
     any_order sched /\
     compute_moments c Rho all specs 0 0 sched (fun _ => 0) = Some (frho (sub_offset_ndomains d))) ->
  (forall d, In d (domains ls) -> exists all specs sched,
     selects all specs (sp (sub_offset_ndomains d)) /\ Forall (species_ok V) (sp (sub_offset_ndomains d)) /\
     any_order sched /\
     compute_moments c V all specs i 0 sched (fun _ => 0) = Some (fv (sub_offset_ndomains d))) ->
  forall B, 0 <= B ->
  (forall d s p, In d (domains ls) -> In s (sp (sub_offset_ndomains d)) -> In p (sparts s) ->
     live p = true -> Rabs (u_ (frame c (smass s) p) i / u_ (frame c (smass s) p) 0) <= B) ->
  forall eps d y, 0 <= eps <= 1 -> In d (domains ls) -> in_box y (sub_ncells d) ->
    Rabs (normalize_by_rho eps (synchronize g ls gbc frho (length ls) (sub_offset_ndomains d))
                               (synchronize g ls gbc fv (length ls) (sub_offset_ndomains d)) (loc g y)) <= B.
Proof. exact bulk_velocity_bounded. Qed.
Print Assumptions C58_velocity_bounded.

(** ... which for massive particles in Minkowski space is below the speed of light. *)
Theorem C58_particles_below_c : forall m p i, m <> 0 -> (1 <= i <= 3)%Z ->
  Rabs (u_ (cartesian_frame m p) i / u_ (cartesian_frame m p) 0) < 1.
Proof. exact massive_below_c. Qed.
Print Assumptions C58_particles_below_c.

Example C58_case :
  u_ (cartesian_frame 1 {| ptag := 1; ppos := [(0%Z, 1/2)]; pvel := (2, 0, 2); pweight := 1 |}) 1 = 2 /\
  u_ (cartesian_frame 1 {| ptag := 1; ppos := [(0%Z, 1/2)]; pvel := (2, 0, 2); pweight := 1 |}) 0 = 3.
Proof.
  cbn. destruct Req_EM_T; [lra|]. split; [reflexivity|].
  replace (1 + (2 * 2 + 0 * 0 + 2 * 2)) with (3 * 3) by lra. apply sqrt_square. lra.
Qed.
