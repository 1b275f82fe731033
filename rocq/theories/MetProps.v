(** C42: coordinate conversions; C43: basis changes of vectors; C60: area of the polar caps. *)
From Coq Require Import Reals ZArith List Bool Lra Lia.
From Verif Require Import Base MetModel MetSpec StretchProofs MetProofs PolarProofs.
Open Scope R_scope.

(** A grid used in the examples: 8 x 8 x 8 cells, [1,9] x [1,2] x [0,8]. *)
Definition ex_grid : grid := Grid 8 8 8 1 9 1 2 0 8.
(** A cubic one: [1,9] x [-4,4] x [0,8]. *)
Definition ex_cube : grid := Grid 8 8 8 1 9 (-4) 4 0 8.
(** A full half-circle with 4000 cells in angle. *)
Definition ex_fine : grid := Grid 8 4000 1 1 9 0 PI 0 1.
Lemma ex_grid_ok : sensible ex_grid. Proof. unfold sensible, ex_grid; cbn; repeat split; try lra; lia. Qed.
Lemma ex_cube_ok : sensible ex_cube. Proof. unfold sensible, ex_cube; cbn; repeat split; try lra; lia. Qed.
Lemma ex_fine_ok : sensible ex_fine.
Proof. pose proof PI_RGT_0. unfold sensible, ex_fine; cbn; repeat split; try lra; lia. Qed.
Lemma ex_q_ok : q_ok 0 ex_grid 0 (1/2).
Proof. split; [lra|]. split; [exact ex_grid_ok|]. cbn. lra. Qed.

(* ---------------------------------------------------------------------- *)
(** * C42 *)

(** Minkowski: code and physical coordinates are in one-to-one correspondence, and the box is
    [0, n] in code units, exactly in x1 and up to the tolerance of the constructor elsewhere. *)
Theorem C42_minkowski : forall g i, sensible g -> mutually_inverse (mk_to_ph g i) (mk_to_cd g i).
Proof. exact mk_inverse. Qed.
Print Assumptions C42_minkowski.

Theorem C42_minkowski_extent : forall d g eps, 0 <= eps -> sensible g -> mk_make d g eps = Ok g ->
  (mk_to_ph g 1 0 = x1_min g /\ mk_to_ph g 1 (IZR (nx1 g)) = x1_max g) /\
  ((1 < d)%nat -> mk_to_ph g 2 0 = x2_min g /\
     Rabs (mk_to_ph g 2 (IZR (nx2 g)) - x2_max g) <= 100 * eps * (x2_max g - x2_min g)) /\
  (d = 3%nat -> x3_min g < x3_max g -> (0 < nx3 g)%Z -> mk_to_ph g 3 0 = x3_min g /\
     Rabs (mk_to_ph g 3 (IZR (nx3 g)) - x3_max g) <= 100 * eps * (x3_max g - x3_min g)).
Proof.
  intros d g eps he S M. split; [exact (mk_extent1 g S)|]. split; [intros; eapply mk_extent2; eauto|].
  intros -> ? ?. apply mk_extent3; assumption.
Qed.
Print Assumptions C42_minkowski_extent.
Example C42_minkowski_extent_ex : mk_make 3 ex_cube 0 = Ok ex_cube.
Proof.
  unfold mk_make, almost_equal, mk_dx, ex_cube. cbn [x1_min x1_max x2_min x2_max x3_min x3_max nx1 nx2 nx3].
  destruct (Req_EM_T ((4 - -4) / 8) ((9 - 1) / 8)) as [|n]; [|exfalso; apply n; lra].
  destruct (Req_EM_T ((8 - 0) / 8) ((9 - 1) / 8)) as [|n]; [|exfalso; apply n; lra]. reflexivity.
Qed.

(** Minkowski code coordinates to spherical ones and back, everywhere; the other way round away
    from the origin and the axis, for the angles the conversion returns. *)
Theorem C42_minkowski_spherical : forall g, sensible g ->
  (forall x, mk_sph_to_cd2 g (mk_cd_to_sph2 g x) = x) /\
  (forall x, mk_sph_to_cd3 g (mk_cd_to_sph3 g x) = x) /\
  (forall r th, 0 < r -> - (PI/2) <= th < 3 * PI / 2 ->
     mk_cd_to_sph2 g (mk_sph_to_cd2 g (r, th)) = (r, th)) /\
  (forall r th ph, 0 < r -> 0 < th < PI -> 0 <= ph < 2 * PI ->
     mk_cd_to_sph3 g (mk_sph_to_cd3 g (r, th, ph)) = (r, th, ph)).
Proof.
  intros g S. split; [intros; apply mk_cd_sph_cd2, S|]. split; [intros; apply mk_cd_sph_cd3, S|].
  split; [intros; apply mk_sph_cd_sph2; assumption|intros; apply mk_sph_cd_sph3; assumption].
Qed.
Print Assumptions C42_minkowski_spherical.

(** Spherical metric. *)
Theorem C42_spherical : forall g, sensible g ->
  (forall i, mutually_inverse (s_to_ph g i) (s_to_cd g i)) /\
  (s_to_ph g 1 0 = x1_min g /\ s_to_ph g 1 (IZR (nx1 g)) = x1_max g /\
   s_to_ph g 2 0 = x2_min g /\ s_to_ph g 2 (IZR (nx2 g)) = x2_max g).
Proof. intros g S. split; [intros; apply s_inverse, S|apply s_extent, S]. Qed.
Print Assumptions C42_spherical.

Theorem C42_spherical_cartesian : forall g, sensible g ->
  (forall p, s_cd_to_xyz g (s_xyz_to_cd g p) = p) /\
  (forall a b c, s_regular g (a, b) -> 0 <= c < 2 * PI -> s_xyz_to_cd g (s_cd_to_xyz g (a, b, c)) = (a, b, c)).
Proof. intros g S. split; [intros; apply s_xyz_code_xyz, S|]. intros a b c [ha hb] hc. apply s_code_xyz_code; assumption. Qed.
Print Assumptions C42_spherical_cartesian.
Example C42_spherical_ex : sensible ex_grid /\ s_regular ex_grid (0, 0) /\ s_to_ph ex_grid 1 4 = 5.
Proof.
  split; [exact ex_grid_ok|]. unfold s_regular, s_to_ph, s_dr, s_dth, ex_grid; cbn [fst snd x1_min x1_max x2_min x2_max nx1 nx2].
  pose proof PI2_3_2. repeat split; lra.
Qed.

(** Quasi-spherical metric.  The full statement is for every stretching parameter; it is proved
    for those that are not negative, and false for the negative ones (next theorem).  The
    constructor then succeeds, the conversions are inverse to each other wherever they are
    defined, and they are defined for every radius above r0 and every angle. *)
Theorem C42_quasi_spherical_partial : forall eps g r0 h, q_ok eps g r0 h ->
  exists m, q_make eps g r0 h = Some m /\
    (forall i x, q_to_cd m i (q_to_ph m i x) = Some x) /\
    (forall i x y, q_to_cd m i x = Some y -> q_to_ph m i y = x) /\
    (forall r, r0 < r -> q_to_cd m 1 r <> None) /\ (forall th, q_to_cd m 2 th <> None) /\
    (q_to_ph m 1 0 = x1_min g /\ q_to_ph m 1 (IZR (nx1 g)) = x1_max g /\
     q_to_ph m 2 0 = x2_min g /\ q_to_ph m 2 (IZR (nx2 g)) = x2_max g) /\
    (forall p c, q_xyz_to_cd m p = Some c -> q_cd_to_xyz m c = p) /\
    (forall a b c, q_regular m (a, b) -> 0 <= c < 2 * PI -> q_xyz_to_cd m (q_cd_to_xyz m (a, b, c)) = Some (a, b, c)).
Proof.
  intros eps g r0 h OK. destruct (q_made eps g r0 h OK) as [m M]. exists m. split; [exact M|].
  split; [intros; eapply q_cd_ph_cd; eauto|]. split; [intros; eapply q_ph_cd_ph; eauto|].
  destruct (q_cd_total eps g r0 h m OK M) as [t1 t2]. split; [exact t1|]. split; [exact t2|].
  split; [eapply q_extent; eauto|]. split; [intros; eapply q_xyz_code_xyz; eauto|].
  intros a b c [ha hb] hc. eapply q_code_xyz_code; eauto.
Qed.
Print Assumptions C42_quasi_spherical_partial.
Example C42_quasi_spherical_ex : q_ok 0 ex_grid 0 (1/2) /\ q_ok 0 ex_fine 0 0.
Proof. split; [exact ex_q_ok|]. split; [lra|]. split; [exact ex_fine_ok|]. cbn. lra. Qed.

(** The documented range of the stretching parameter is (-1, 1), but with a negative one the
    constructor of a grid starting in the upper half-plane already produces a value that is not a
    number. *)
Theorem C42_negative_stretching_refuted : forall eps g r0 h, eps < - h -> h < 0 ->
  0 <= x2_min g < PI / 2 -> q_make eps g r0 h = None.
Proof.
  intros eps g r0 h he hn hx. apply q_negative; try assumption. apply almost_zero_false.
  rewrite Rabs_left by assumption. exact he.
Qed.
Print Assumptions C42_negative_stretching_refuted.
Example C42_negative_stretching_ex : sensible ex_fine /\ 0 <= x2_min ex_fine < PI / 2 /\ q_make (1/1000) ex_fine 0 (-1/4) = None.
Proof.
  pose proof PI_RGT_0. split; [exact ex_fine_ok|]. split; [cbn; lra|].
  apply C42_negative_stretching_refuted; [lra|lra|cbn; lra].
Qed.

(* ---------------------------------------------------------------------- *)
(** * C43 *)

(** At every regular point: every available basis change is undone by the opposite one; going
    through a third basis gives the same components; the tetrad norm is the contraction of
    contravariant and covariant components. *)
Theorem C43_minkowski : forall d g, sensible g ->
  undoes_itself (mk_transform d g) /\ routes_agree (mk_transform d g) /\ norms_agree (mk_transform d g).
Proof. intros d g S. split; [apply mk_undo, S|]. split; [apply mk_routes, S|apply mk_norms]. Qed.
Print Assumptions C43_minkowski.
Theorem C43_spherical : forall g x, sensible g -> s_regular g x ->
  undoes_itself (fun a b => s_transform g a b x) /\ routes_agree (fun a b => s_transform g a b x) /\
  norms_agree (fun a b => s_transform g a b x).
Proof. intros g x S Rg. split; [apply s_undo; assumption|]. split; [apply s_routes; assumption|apply s_norms]. Qed.
Print Assumptions C43_spherical.
Theorem C43_quasi_spherical : forall eps g r0 h m x, q_ok eps g r0 h -> q_make eps g r0 h = Some m -> q_regular m x ->
  undoes_itself (fun a b => q_transform m a b x) /\ routes_agree (fun a b => q_transform m a b x) /\
  norms_agree (fun a b => q_transform m a b x).
Proof.
  intros eps g r0 h m x OK M Rg. split; [eapply q_undo; eauto|]. split; [eapply q_routes; eauto|apply q_norms].
Qed.
Print Assumptions C43_quasi_spherical.

(** Any two of the tetrad, contravariant and covariant bases are connected. *)
Theorem C43_available : forall a b, basic a -> basic b -> a <> b ->
  (forall d g v, mk_transform d g a b v <> None) /\ (forall g x v, s_transform g a b x v <> None) /\
  (forall m x v, q_transform m a b x v <> None).
Proof.
  intros a b A B N. split; [|split].
  - intros d g [[v1 v2] v3]. destruct A as [->|[->| ->]], B as [->|[->| ->]]; try congruence;
      unfold mk_transform, mk_transform1; cbn [idx_eqb];
      destruct (Nat.ltb d 1), (Nat.ltb d 2), (Nat.ltb d 3); discriminate.
  - intros g x [[v1 v2] v3]. destruct A as [->|[->| ->]], B as [->|[->| ->]]; try congruence; discriminate.
  - intros m x [[v1 v2] v3]. destruct A as [->|[->| ->]], B as [->|[->| ->]]; try congruence; discriminate.
Qed.
Print Assumptions C43_available.

(** Cartesian components in curvilinear metrics: undone by the opposite change, and with the same
    norm as the tetrad components. *)
Theorem C43_cartesian : forall a v w, basic a ->
  (forall g x, sensible g -> s_regular g (fst x) ->
    (s_transform_xyz g a IXYZ x v = Some w -> s_transform_xyz g IXYZ a x w = Some v) /\
    (s_transform_xyz g IXYZ a x v = Some w -> s_transform_xyz g a IXYZ x w = Some v)) /\
  (forall eps g r0 h m x, q_ok eps g r0 h -> q_make eps g r0 h = Some m -> q_regular m (fst x) ->
    (q_transform_xyz m a IXYZ x v = Some w -> q_transform_xyz m IXYZ a x w = Some v) /\
    (q_transform_xyz m IXYZ a x v = Some w -> q_transform_xyz m a IXYZ x w = Some v)).
Proof.
  intros a v w B. split; [intros; apply s_xyz_undo; assumption|].
  intros eps g r0 h m x OK M Rg. exact (q_xyz_undo eps g r0 h m x OK M Rg a v w B).
Qed.
Print Assumptions C43_cartesian.
Theorem C43_cartesian_norm : forall x v,
  (forall g, exists w, s_transform_xyz g IT IXYZ x v = Some w /\ dot3 w w = dot3 v v) /\
  (forall m, exists w, q_transform_xyz m IT IXYZ x v = Some w /\ dot3 w w = dot3 v v).
Proof.
  intros [[x1 x2] x3] v. split; intros; (eexists; split; [reflexivity|apply rot_norm]).
Qed.
Print Assumptions C43_cartesian_norm.

(** What the components mean: a contravariant vector is the velocity of a point in code
    coordinates; converted to Cartesian components it is the velocity in space of that point, and
    converted to physical contravariant components the rate of change of (r, theta, phi). *)
Theorem C43_velocity :
  (forall g x u, exists w, s_transform_xyz g IU IXYZ x u = Some w /\ cartesian_velocity (s_cd_to_xyz g) x u w) /\
  (forall m x u, exists w, q_transform_xyz m IU IXYZ x u = Some w /\ cartesian_velocity (q_cd_to_xyz m) x u w).
Proof. split; [exact s_velocity|exact q_velocity]. Qed.
Print Assumptions C43_velocity.
Theorem C43_physical_velocity : forall i x u, (1 <= i <= 3)%nat ->
  (forall g, exists w, s_transform1 g i IU IPU x u = Some w /\
     derivable_pt_lim (fun s => s_to_ph g i (coord i x + s * u)) 0 w) /\
  (forall m, exists w, q_transform1 m i IU IPU x u = Some w /\
     derivable_pt_lim (fun s => q_to_ph m i (coord i x + s * u)) 0 w).
Proof. intros i x u li. split; intros; [apply s_phys_velocity|apply q_phys_velocity]; exact li. Qed.
Print Assumptions C43_physical_velocity.

Theorem C43_minkowski_velocity : forall d g i x u, (1 <= i <= d)%nat ->
  exists w, mk_transform1 d g i IU IXYZ u = Some w /\ mk_transform1 d g i IU IPU u = Some w /\
    derivable_pt_lim (fun s => mk_to_ph g i (x + s * u)) 0 w.
Proof. exact mk_velocity. Qed.
Print Assumptions C43_minkowski_velocity.

(** The volume element is the square root of the product of the scale factors, and its value
    without the factor sin(theta) is what the axis uses. *)
Theorem C43_volume : forall x,
  (forall g, sqr (s_sqrt_det_h g x) = s_h g 1 x * s_h g 2 x * s_h g 3 x /\
     s_sqrt_det_h g x = s_sqrt_det_h_tilde g x * sin (s_to_ph g 2 (snd x))) /\
  (forall m, sqr (q_sqrt_det_h m x) = q_h m 1 x * q_h m 2 x * q_h m 3 x /\
     q_sqrt_det_h m x = q_sqrt_det_h_tilde m x * sin (q_to_ph m 2 (snd x))).
Proof. intros x. split; intros; [apply s_volume|apply q_volume]. Qed.
Print Assumptions C43_volume.

Example C43_ex : sensible ex_grid /\ s_regular ex_grid (4, 2) /\
  (exists m, q_make 0 ex_grid 0 (1/2) = Some m /\ q_regular m (0, 0)) /\
  s_transform1 ex_grid 2 IU IT (4, 2) 8 = Some 5 /\ mk_transform 2 ex_cube IU ID (1, 2, 3) = Some (1, 2, 3).
Proof.
  pose proof PI2_3_2 as p. split; [exact ex_grid_ok|].
  split. { unfold s_regular, s_to_ph, s_dr, s_dth, ex_grid; cbn [fst snd x1_min x1_max x2_min x2_max nx1 nx2]. lra. }
  split. { destruct (q_made _ _ _ _ ex_q_ok) as [m M]. exists m. split; [exact M|].
    destruct (q_extent _ _ _ _ _ ex_q_ok M) as (e1 & _ & e2 & _).
    unfold q_regular. cbn [fst snd]. rewrite e1, e2. cbn. lra. }
  split.
  - unfold s_transform1, s_sqrt_h, s_dr, s_dth, ex_grid; cbn [x1_min x1_max x2_min x2_max nx1 nx2]. f_equal. lra.
  - unfold mk_transform, mk_transform1, mk_h, sqr, mk_dx, ex_cube; cbn [Nat.ltb Nat.leb idx_eqb x1_min x1_max nx1 opt3].
    repeat f_equal; lra.
Qed.

(* ---------------------------------------------------------------------- *)
(** * C60 *)

(** Spherical metric: the area used on the axis is the integral of the volume element over the
    half cell next to the axis, to a relative error of 10^-12. *)
Theorem C60_spherical : forall g x1 A, sensible g -> x2_min g = 0 ->
  integral (fun s => s_sqrt_det_h g (x1, s)) 0 (1/2) A ->
  Rabs (s_polar_area g x1 - A) <= A / 1000000000000.
Proof. exact s_polar. Qed.
Print Assumptions C60_spherical.
Example C60_spherical_ex : sensible ex_fine /\ x2_min ex_fine = 0 /\
  (exists A, integral (fun s => s_sqrt_det_h ex_fine (3, s)) 0 (1/2) A) /\ s_small ex_fine = true.
Proof.
  split; [exact ex_fine_ok|]. split; [reflexivity|]. split.
  - exists (s_cap ex_fine 3). apply s_cap_integral. reflexivity.
  - unfold s_small, s_dth, small_angle_lim, ex_fine; cbn [x2_min x2_max nx2]. pose proof PI_4.
    destruct (Rlt_dec _ _) as [|n]; [reflexivity|exfalso; apply n; lra].
Qed.

(** Quasi-spherical metric: exact as long as the angle of the half cell is at least 0.001. *)
Theorem C60_quasi_spherical_partial : forall eps g r0 h m x1, q_ok eps g r0 h -> q_make eps g r0 h = Some m ->
  x2_min g = 0 -> small_angle_lim <= q_to_ph m 2 (1/2) ->
  integral (fun s => q_sqrt_det_h m (x1, s)) 0 (1/2) (q_polar_area m x1).
Proof. exact q_polar_exact. Qed.
Print Assumptions C60_quasi_spherical_partial.

(** Below that angle the area is less than 26% of what it should be, for every radius. *)
Theorem C60_quasi_spherical_small_refuted : forall eps g r0 h m x1 A, q_ok eps g r0 h -> q_make eps g r0 h = Some m ->
  x2_min g = 0 -> q_to_ph m 2 (1/2) < small_angle_lim -> q_to_ph m 1 x1 <> 0 ->
  integral (fun s => q_sqrt_det_h m (x1, s)) 0 (1/2) A ->
  q_polar_area m x1 < 26 / 100 * A.
Proof. exact q_polar_small. Qed.
Print Assumptions C60_quasi_spherical_small_refuted.

Lemma unstretched : forall nt, (0 < nt)%Z ->
  exists m, q_ok 0 (Grid 8 nt 1 1 9 0 PI 0 1) 0 0 /\ q_make 0 (Grid 8 nt 1 1 9 0 PI 0 1) 0 0 = Some m /\
    q_to_ph m 2 (1/2) = PI / (2 * IZR nt) /\ q_to_ph m 1 0 = 1.
Proof.
  intros nt hn. pose proof PI_RGT_0 as p.
  assert (OK : q_ok 0 (Grid 8 nt 1 1 9 0 PI 0 1) 0 0).
  { split; [lra|]. split; [unfold sensible; cbn; repeat split; try lra; lia|]. cbn. lra. }
  destruct (q_made _ _ _ _ OK) as [m M]. exists m. split; [exact OK|]. split; [exact M|].
  destruct (q_fields _ _ _ _ _ OK M) as (f1 & f2 & f3 & f4 & f5 & f6 & f7 & f8 & f9).
  assert (z : almost_zero 0 0 = true) by (apply almost_zero_true; rewrite Rabs_R0; lra).
  pose proof (izr_pos _ hn) as np. cbn [x1_min x1_max x2_min x2_max nx1 nx2] in *.
  split; [|exact (proj1 (q_extent _ _ _ _ _ OK M))].
  unfold q_to_ph, q_eta, eta2theta in *. rewrite f1, f3, z in *. rewrite f7 in *.
  replace (q_deta m) with (PI / IZR nt) by (rewrite <- f8; field; lra). field. lra.
Qed.
Example C60_quasi_spherical_ex :
  (exists m, q_ok 0 (Grid 8 100 1 1 9 0 PI 0 1) 0 0 /\ q_make 0 (Grid 8 100 1 1 9 0 PI 0 1) 0 0 = Some m /\
     small_angle_lim <= q_to_ph m 2 (1/2)) /\
  (exists m, q_ok 0 (Grid 8 4000 1 1 9 0 PI 0 1) 0 0 /\ q_make 0 (Grid 8 4000 1 1 9 0 PI 0 1) 0 0 = Some m /\
     q_to_ph m 2 (1/2) < small_angle_lim /\ q_to_ph m 1 0 <> 0 /\
     exists A, integral (fun s => q_sqrt_det_h m (0, s)) 0 (1/2) A).
Proof.
  pose proof PI_RGT_0 as p. pose proof PI_4 as p4. pose proof PI2_3_2 as p3. split.
  - destruct (unstretched 100 ltac:(lia)) as (m & OK & M & e & _). exists m. split; [exact OK|]. split; [exact M|].
    rewrite e. unfold small_angle_lim. lra.
  - destruct (unstretched 4000 ltac:(lia)) as (m & OK & M & e & e1). exists m. split; [exact OK|]. split; [exact M|].
    rewrite e, e1. unfold small_angle_lim. split; [lra|]. split; [lra|].
    exists (q_cap m 0). apply q_cap_integral. eapply q_eta_zero; eauto.
Qed.
