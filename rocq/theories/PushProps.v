(** Theorems on positions, particle boundary conditions and the piston (C14, C15, C45). *)
From Coq Require Import Reals Lra ZArith Lia List Bool.
From Flocq Require Import Core.
From Verif Require Import Base DirsModel DirsSpec TopoModel TopoSpec PrtlCommSpec VelModel VelSpec VelTop Fp32 PushModel PushSpec PushProofs PushTop.
Import ListNotations.
Open Scope R_scope.

(** C14 in exact arithmetic, Cartesian: for every particle of positive energy and every time step
    shorter than the light crossing time of a cell. *)
Theorem C14_cartesian_push_exact :
  forall massive dt dxs p,
  length dxs = length (p_pos p) -> Forall (fun d => 0 <= dt < d) dxs -> 0 < energy massive (p_u p) ->
  Forall (fun c => 0 <= cx c < 1) (p_pos p) ->
  let q := push_cart exactly massive dt dxs p in
  p_u q = p_u p /\ p_tag q = p_tag p /\ length (p_pos q) = length (p_pos p) /\
  forall k d c c', nth_error dxs k = Some d -> nth_error (p_pos p) k = Some c -> nth_error (p_pos q) k = Some c' ->
    d * coord c' = d * coord c + comp k (p_u p) / energy massive (p_u p) * dt /\
    0 <= cx c' < 1 /\ (Z.abs (ci c' - ci c) <= 1)%Z /\ ci_prev c' = ci c /\ cx_prev c' = cx c.
Proof. exact push_exact. Qed.
Print Assumptions C14_cartesian_push_exact.

(** C14 with offsets rounded by any rounding: the offset stays in the closed unit interval and
    the index changes by at most one. *)
Theorem C14_offset_stays_in_the_cell_partial :
  forall rnd del c, rounding rnd -> 0 <= cx c <= 1 -> -1 < del < 1 ->
  let c' := push1 rnd del c in
  0 <= cx c' <= 1 /\ (Z.abs (ci c' - ci c) <= 1)%Z.
Proof. exact push1_rounded. Qed.
Print Assumptions C14_offset_stays_in_the_cell_partial.

(** C14 with offsets in single precision (prtldx_t): the error of a step is at most 2^-24 of a
    cell. *)
Theorem C14_single_precision_error_partial :
  forall del c, 0 <= cx c <= 1 -> -1 < del < 1 ->
  rounding rnd32 /\ Rabs (coord (push1 rnd32 del c) - (coord c + del)) <= bpow radix2 (-24).
Proof. intros del c H1 H2. exact (conj rnd32_rounding (push1_error del c H1 H2)). Qed.
Print Assumptions C14_single_precision_error_partial.

(** C14 fails literally in single precision: the offset can become 1. *)
Theorem C14_offset_below_one_refuted :
  exists c del, 0 <= cx c < 1 /\ -1 < del < 1 /\ cx (push1 rnd32 del c) = 1.
Proof. exact push1_offset_one. Qed.
Print Assumptions C14_offset_below_one_refuted.

(** C14 for other coordinates: the new position is stored exactly for coordinates not below -1,
    and wrongly for some below. *)
Theorem C14_curvilinear_position :
  forall X c, -1 <= X -> let c' := move_to X c in
  coord c' = X /\ 0 <= cx c' < 1 /\ ci_prev c' = ci c /\ cx_prev c' = cx c.
Proof. exact move_to_ok. Qed.
Print Assumptions C14_curvilinear_position.

Theorem C14_curvilinear_far_outside_refuted : exists X, X < -1 /\ snd (from_Xi_to_i_di X) < 0.
Proof. exact from_Xi_bad. Qed.
Print Assumptions C14_curvilinear_far_outside_refuted.

Definition at_ (i : Z) (x : R) (i0 : Z) (x0 : R) : pos := {| ci := i; cx := x; ci_prev := i0; cx_prev := x0 |}.

(** A particle with velocity 3/5 crosses into the next cell. *)
Example C14_case :
  let p := {| p_pos := [at_ 7 (9 / 10) 0 0]; p_u := (3 / 4, 0, 0); p_tag := 1 |} in
  p_pos (push_cart exactly true (1 / 2) [1] p) = [at_ 8 (1 / 5) 7 (9 / 10)].
Proof.
  cbv zeta. unfold push_cart. cbn [p_pos p_u push_from comp v1 fst snd]. unfold dt_inv_energy, energy, u2gamma.
  replace (1 + norm_sqr (3 / 4, 0, 0)) with (5 / 4 * (5 / 4)) by (unfold norm_sqr, v1, v2, v3; cbn; field).
  rewrite sqrt_square by lra. unfold push1, carry, exactly, at_. cbn [cx ci].
  replace (9 / 10 + 3 / 4 / 1 * (1 / 2 / (5 / 4))) with (6 / 5) by field.
  destruct (Rle_dec 1 (6 / 5)); [|lra]. destruct (Rlt_dec (6 / 5) 0); [lra|]. destruct (Rlt_dec (6 / 5 - 1) 0); [lra|].
  do 2 f_equal. field.
Qed.

(** C15: a particle inside is not touched. *)
Theorem C15_inside_untouched :
  forall flip ns bcs p, Forall2 inside ns (p_pos p) -> boundary flip ns bcs p = p.
Proof. exact interior_untouched. Qed.
Print Assumptions C15_inside_untouched.

(** C15: an alive particle dies if and only if it is outside through an absorbing (or atmosphere)
    face. *)
Theorem C15_absorbing_boundaries :
  forall flip ns bcs p,
  length bcs = length ns -> length (p_pos p) = length ns -> Forall (fun n => 0 < n)%Z ns -> p_tag p = 1%Z ->
  let q := boundary flip ns bcs p in
  (p_tag q = 0 \/ p_tag q = 1)%Z /\
  (p_tag q = 0%Z <-> exists k n bc c, nth_error ns k = Some n /\ nth_error bcs k = Some bc /\ nth_error (p_pos p) k = Some c /\
     (met n bc c P_ABSORB \/ met n bc c P_ATMOSPHERE)).
Proof. exact absorbing. Qed.
Print Assumptions C15_absorbing_boundaries.

(** C15: a periodic boundary shifts the position and the previous position by the box. *)
Theorem C15_periodic_boundaries :
  forall flip ns bcs p k n bc c,
  nth_error ns k = Some n -> nth_error bcs k = Some bc -> nth_error (p_pos p) k = Some c -> (0 < n)%Z ->
  met n bc c P_PERIODIC ->
  exists c', nth_error (p_pos (boundary flip ns bcs p)) k = Some c' /\
    ((below c /\ moved_by n c c') \/ (above n c /\ moved_by (- n) c c')) /\
    ((- n <= ci c < 2 * n)%Z -> inside n c').
Proof. exact periodic_shift. Qed.
Print Assumptions C15_periodic_boundaries.

(** C15: a reflecting boundary or an axis mirrors the position at the face; the particle is back
    inside. *)
Theorem C15_reflecting_boundaries :
  forall flip ns bcs p k n bc c,
  nth_error ns k = Some n -> nth_error bcs k = Some bc -> nth_error (p_pos p) k = Some c -> (0 < n)%Z ->
  (met n bc c P_REFLECT \/ (k = 1%nat /\ met n bc c P_AXIS)) -> near n c ->
  exists c', nth_error (p_pos (boundary flip ns bcs p)) k = Some c' /\
    ((below c /\ mirrored_at 0 c c') \/ (above n c /\ mirrored_at (IZR n) c c')) /\ inside n c' /\
    (0 <= cx c < 1 -> 0 < cx c' <= 1).
Proof. exact reflecting. Qed.
Print Assumptions C15_reflecting_boundaries.

(** C15: in Cartesian coordinates the components of the velocity along the dimensions in which
    the particle is reflected change sign, and no others. *)
Theorem C15_only_normal_velocity_flips :
  forall ns bcs p,
  length bcs = length ns -> length (p_pos p) = length ns -> (length ns <= 3)%nat -> Forall (fun n => 0 < n)%Z ns ->
  forall j, (j < 3)%nat ->
  let hit := exists n bc c, nth_error ns j = Some n /\ nth_error bcs j = Some bc /\ nth_error (p_pos p) j = Some c /\ met n bc c P_REFLECT in
  let u' := p_u (boundary neg_comp ns bcs p) in
  (hit -> comp j u' = - comp j (p_u p)) /\ (~ hit -> comp j u' = comp j (p_u p)).
Proof. exact velocities. Qed.
Print Assumptions C15_only_normal_velocity_flips.

(** C15: in other coordinates the component in the local basis changes sign, for every pair of
    mutually inverse basis changes. *)
Theorem C15_curvilinear_flip :
  forall to_U from_U k u, (forall v, to_U (from_U v) = v) -> (forall v, from_U (to_U v) = v) ->
  to_U (flip_curved to_U from_U k u) = neg_comp k (to_U u) /\
  flip_curved to_U from_U k (flip_curved to_U from_U k u) = u.
Proof. exact flip_curved_ok. Qed.
Print Assumptions C15_curvilinear_flip.

(** The basis is taken halfway between the old and the new position only if a custom particle
    update is compiled in; otherwise the average is taken twice. *)
Theorem C15_where_the_velocity_is_flipped :
  forall c, velocity_aligned true c = 1 / 2 * (coord c + coord_prev c) /\
  velocity_aligned false c = 3 / 4 * coord_prev c + 1 / 4 * coord c.
Proof. exact aligned_mid. Qed.
Print Assumptions C15_where_the_velocity_is_flipped.

(** C15 in a decomposed run: after the boundary step, every particle is dead, alive and untagged,
    or tagged for a direction in which its subdomain sends (the precondition of the particle
    exchange, C13). *)
Theorem C15_tagged_for_an_existing_neighbour :
  forall D ns gf gp o nn flip p,
  dimension D -> length ns = D -> length gf = D -> length gp = D -> length nn = D -> length (p_pos p) = D ->
  paired_flds gf -> Forall2 same_periodicity gf gp ->
  (forall k b, nth_error gp k = Some b -> handled k (fst b) /\ handled k (snd b)) ->
  in_box o ns -> Forall (fun n => 0 < n)%Z nn -> Forall2 near nn (p_pos p) -> p_tag p = 1%Z ->
  exists q, boundary_mpi flip nn (local_bcs ns gp o) p = Ok q /\
    (p_tag q = 0%Z \/ p_tag q = 1%Z \/
     exists dir b, nonzero_direction D dir /\ dir2tag dir = Ok (p_tag q) /\ send_to ns gf o dir = Some b).
Proof. exact left_goes_to_neighbour. Qed.
Print Assumptions C15_tagged_for_an_existing_neighbour.

(** A particle outside through a reflecting face in the first and a periodic face in the second
    dimension. *)
Example C15_case :
  let p := {| p_pos := [at_ (-1) (3 / 4) 0 (1 / 8); at_ 8 (1 / 2) 7 (3 / 4)]; p_u := (-2, 3, 5); p_tag := 1 |} in
  boundary neg_comp [4; 8]%Z [(P_REFLECT, P_ABSORB); (P_PERIODIC, P_PERIODIC)] p =
  {| p_pos := [at_ 0 (1 - 3 / 4) 0 (1 / 8); at_ 0 (1 / 2) (-1) (3 / 4)]; p_u := (- -2, 3, 5); p_tag := 1 |}.
Proof. reflexivity. Qed.
Example C15_dies :
  let p := {| p_pos := [at_ 4 0 3 (1 / 8)]; p_u := (2, 3, 5); p_tag := 1 |} in
  p_tag (boundary neg_comp [4]%Z [(P_REFLECT, P_ABSORB)] p) = 0%Z.
Proof. reflexivity. Qed.

(** C45: in the frame of the piston the reflection preserves the energy and reverses the normal
    velocity; transverse components are unchanged. *)
Theorem C45_reflection_in_the_piston_frame :
  forall m V u, -1 < V < 1 ->
  let u' := piston_velocity m V u in
  boosted_g V u' (energy m u') = boosted_g V u (energy m u) /\
  boosted_u1 V u' (energy m u') = - boosted_u1 V u (energy m u) /\
  v2 u' = v2 u /\ v3 u' = v3 u.
Proof. exact piston_frame. Qed.
Print Assumptions C45_reflection_in_the_piston_frame.

(** C45: a particle that was in front of the piston either stays in front without being touched,
    or meets it at a time [t] and from there moves with the reflected velocity for the rest of
    the step; either way it ends in front of the piston. *)
Theorem C45_ends_in_front_of_the_piston :
  forall massive h x0 dt xw V c u,
  0 < h -> 0 < dt -> -1 < V < 1 -> 0 < energy massive u ->
  xw <= phys_prev h x0 c ->
  phys h x0 c = phys_prev h x0 c + v1 u / energy massive u * dt ->
  let c' := fst (piston massive h x0 dt xw V c u) in
  let u' := snd (piston massive h x0 dt xw V c u) in
  (xw + V * dt <= phys h x0 c /\ c' = c /\ u' = u) \/
  (phys h x0 c < xw + V * dt /\ xw + V * dt <= phys h x0 c' /\
   u' = piston_velocity massive V u /\ ci_prev c' = ci_prev c /\ cx_prev c' = cx_prev c /\
   exists t, 0 <= t < dt /\ phys_prev h x0 c + v1 u / energy massive u * t = xw + V * t /\
     phys h x0 c' = xw + V * t + v1 u' / energy massive u' * (dt - t)).
Proof. exact piston_outcome. Qed.
Print Assumptions C45_ends_in_front_of_the_piston.

(** A photon reflected by a piston that moves with half the speed of light. *)
Example C45_case :
  let c := at_ 1 (1 / 2) 2 (1 / 2) in
  phys 1 0 c = phys_prev 1 0 c + v1 (-1, 0, 0) / energy false (-1, 0, 0) * 1 /\
  crosses_piston 1 0 1 2 (1 / 2) c = true /\ piston_velocity false (1 / 2) (-1, 0, 0) = (3, 0, 0).
Proof.
  assert (E : energy false (-1, 0, 0) = 1).
  { unfold energy, norm, norm_sqr, v1, v2, v3. cbn [fst snd]. replace (-1 * -1 + 0 * 0 + 0 * 0) with 1 by ring. apply sqrt_1. }
  cbv zeta. split; [|split].
  - rewrite E. unfold phys, phys_prev, coord, coord_prev, at_, v1. cbn [ci cx ci_prev cx_prev fst]. lra.
  - unfold crosses_piston, i_di_to_Xi, at_. cbn [ci cx]. destruct (Rlt_dec _ _) as [|N]; auto. exfalso. apply N. lra.
  - unfold piston_velocity. rewrite E. unfold v1, v2, v3. cbn [fst snd].
    assert (S : sqrt (1 - 1 / 2 * (1 / 2)) * sqrt (1 - 1 / 2 * (1 / 2)) = 3 / 4) by (rewrite sqrt_sqrt; lra).
    assert (P : 0 < sqrt (1 - 1 / 2 * (1 / 2))) by (apply sqrt_lt_R0; lra).
    set (s := sqrt (1 - 1 / 2 * (1 / 2))) in *. f_equal. f_equal.
    replace (1 / s * (1 / s)) with (1 / (s * s)) by (field; lra). rewrite S. field.
Qed.
