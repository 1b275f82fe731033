(** Property C81. *)
From Coq Require Import ZArith List Reals Lra Lia Permutation.
From Verif Require Import Base DecompModel DirsSpec TopoModel TopoSpec HaloModel HaloSpec FieldModel ShapeSpec DepositModel DepositSpec InterpSpec StepModel StepSpec FilterSpec GaussSpec
  MetModel DivModel DivSpec DivProofs.
Import ListNotations.
Open Scope R_scope.

(** C81, Cartesian grids: every active node of every subdomain gets the centred difference of the
    field stored around it, whatever the boundaries, the division, the schedule and the component
    of the buffer; synchronising the buffer adds nothing. *)
Theorem C81_cartesian : forall g ls gbc sd order k em, (0 <= g)%Z -> length gbc = length ls -> paired_flds gbc -> dimension (length ls) ->
  (forall o l, Permutation (order o l) l) -> (k < 6)%nat ->
  exists out, divergence_output g ls gbc true sd order k em = Ok out /\
  forall d y, In d (domains ls) -> in_box y (sub_ncells d) ->
  out (sub_offset_ndomains d) (loc g y) = node_divergence (fun c z => em (sub_offset_ndomains d) c (loc g z)) y.
Proof. exact out_cartesian. Qed.
Print Assumptions C81_cartesian.

(** C81: when the subdomains hold pieces of a field on the whole grid, in the code's units (physical
    components over the cell size [h]), the output is the divergence of the physical field there. *)
Theorem C81_physical : forall g ls gbc sd order k em ET h, (1 <= g)%Z -> length gbc = length ls -> paired_flds gbc -> dimension (length ls) ->
  (forall o l, Permutation (order o l) l) -> (k < 6)%nat -> h <> 0 ->
  agree g ls em (fun c X => ET c X / h) ->
  exists out, divergence_output g ls gbc true sd order k em = Ok out /\
  forall d y, In d (domains ls) -> in_box y (sub_ncells d) ->
  out (sub_offset_ndomains d) (loc g y) = node_divergence ET (map2 Z.add (sub_offset_ncells d) y) / h.
Proof. exact out_physical. Qed.
Print Assumptions C81_physical.

(** C81: between two outputs of a run on a periodic Cartesian grid the divergence changes by the
    change of the filtered charge of all particles, exactly (with C21). *)
Theorem C81_charge : forall o ls gbc third inv_dt p nf l c c' eE eB em0 em em' sd order order' k k',
  wide (n_ghosts o) ls -> length gbc = length ls -> all_periodic gbc -> dimension (length ls) -> sdx p <> 0 ->
  complete ls eE -> complete ls eB -> first_exchange (n_ghosts o) ls gbc eE eB em0 = Some em ->
  Forall (good_step o ls third inv_dt nf) l -> carried ls c l c' ->
  pic_run (n_ghosts o) ls gbc p (map fst l) em = Some em' ->
  (forall o l, Permutation (order o l) l) -> (forall o l, Permutation (order' o l) l) -> (k < 6)%nat -> (k' < 6)%nat ->
  exists before after,
  divergence_output (n_ghosts o) ls gbc true sd order k em = Ok before /\
  divergence_output (n_ghosts o) ls gbc true sd order' k' em' = Ok after /\
  forall d y, In d (domains ls) -> in_box y (sub_ncells d) ->
  after (sub_offset_ndomains d) (loc (n_ghosts o) y) - before (sub_offset_ndomains d) (loc (n_ghosts o) y)
  = - scur p * inv_dt * (passes nf (charge_at (charge_order o) (map sumZ ls) c') (map2 Z.add (sub_offset_ncells d) y)
                         - passes nf (charge_at (charge_order o) (map sumZ ls) c) (map2 Z.add (sub_offset_ncells d) y)).
Proof. exact out_charge. Qed.
Print Assumptions C81_charge.

(** C81, curvilinear grids in two and three dimensions: the flux out of the cell around the node is
    divided by the volume of the cell that begins at the node. *)
Theorem C81_curvilinear : forall g ls gbc sd order k em, (0 <= g)%Z -> length gbc = length ls -> paired_flds gbc -> (2 <= length ls <= 3)%nat ->
  (forall o l, Permutation (order o l) l) -> (k < 6)%nat ->
  exists out, divergence_output g ls gbc false sd order k em = Ok out /\
  forall d y, In d (domains ls) -> in_box y (sub_ncells d) -> sd (sub_offset_ndomains d) (middle y) <> 0 ->
  out (sub_offset_ndomains d) (loc g y) * sd (sub_offset_ndomains d) (middle y) = node_flux (sd (sub_offset_ndomains d)) (fun c z => em (sub_offset_ndomains d) c (loc g z)) y.
Proof. exact out_curvilinear. Qed.
Print Assumptions C81_curvilinear.

(** C81 fails on spherical grids: for the radial field E = r, whose divergence is 3 everywhere, the
    output is 0 on the axis and at most 9/4 on the next row, at every resolution (at least five
    cells between the poles). *)
Theorem C81_curvilinear_refuted : forall g G n1 n2 gbc order k em, (1 <= g)%Z -> length gbc = 2%nat -> paired_flds gbc -> (forall o l, Permutation (order o l) l) -> (k < 6)%nat ->
  nx1 G = n1 -> nx2 G = n2 -> (0 < n1)%Z -> (1 < n2)%Z ->
  0 < s_dr G -> 0 < x1_min G -> x2_min G = 0 -> 0 < s_dth G < PI / 2 -> 19 / 20 <= cos (s_dth G / 2) ->
  (forall a b, em [0; 0]%Z Ex1 (loc g [a; b]) = ((IZR a + / 2) * s_dr G + x1_min G) / s_dr G) -> (forall a b, em [0; 0]%Z Ex2 (loc g [a; b]) = 0) ->
  exists out, divergence_output g [[n1]; [n2]] gbc false (fun _ p => match p with [a; b] => s_sqrt_det_h G (a, b) | _ => 0 end) order k em = Ok out /\
  forall i, (0 <= i < n1)%Z -> out [0; 0]%Z (loc g [i; 0%Z]) = 0 /\ out [0; 0]%Z (loc g [i; 1%Z]) <= 9 / 4.
Proof. exact out_sphere. Qed.
Print Assumptions C81_curvilinear_refuted.

(** A grid of two subdomains and the field x along x1, y along x2: divergence 2 at every node of cells of size 1. *)
Example C81_case_cartesian : paired_flds [(F_PERIODIC, F_PERIODIC); (F_PERIODIC, F_PERIODIC)] /\
  node_divergence (fun c z => match c, z with Ex1, [a; _] => IZR a + / 2 | Ex2, [_; b] => IZR b + / 2 | _, _ => 0 end) [3; 4]%Z / 1 = 2.
Proof.
  split.
  - repeat constructor; cbn; auto; discriminate.
  - unfold node_divergence, rsum, below. cbn. lra.
Qed.
(** Eight cells between the poles. *)
Example C81_case_sphere : let G := Grid 4 8 0 1 5 0 PI 0 0 in
  0 < s_dr G /\ 0 < x1_min G /\ x2_min G = 0 /\ 0 < s_dth G < PI / 2 /\ 19 / 20 <= cos (s_dth G / 2) /\
  paired_flds [(F_HORIZON, F_MATCH); (F_AXIS, F_AXIS)].
Proof.
  cbv zeta. pose proof PI_RGT_0. unfold s_dr, s_dth. cbn [x1_max x1_min x2_min x2_max nx1 nx2].
  repeat split; try lra.
  - replace ((PI - 0) / 8 / 2) with (PI / 16) by field.
    assert (B : PI / 16 <= 1 / 4) by (pose proof PI_4; lra).
    pose proof (pre_cos_bound (PI / 16) 0 ltac:(lra) ltac:(lra)) as [C _]. unfold cos_approx, cos_term in C. cbn in C.
    assert (0 < PI / 16) by lra. nra.
  - repeat constructor; cbn; auto; discriminate.
Qed.
