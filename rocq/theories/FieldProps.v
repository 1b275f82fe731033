(** Properties C20, C22 and C53. *)
From Coq Require Import ZArith List Reals Permutation Lia Lra.
From Verif Require Import HaloSpec SyncProofs FieldModel FieldSpec FieldProofs FieldTop FieldGR FieldGRTop.
Import ListNotations.
Open Scope R_scope.

(** C20, Cartesian solver with the default stencil: for all field contents and coefficients,
    in 1D, 2D and 3D, in whatever order the cells are processed, the divergence of B is
    unchanged in every cell whose faces are all updated. *)
Theorem C20_faraday_preserves_divB :
  forall k cells (m : fields) x, plain k -> NoDup cells -> covered 0 1 cells x ->
  divB (par_for (faraday_mink k) cells m) x = divB m x.
Proof. exact faraday_divB. Qed.
Print Assumptions C20_faraday_preserves_divB.

(** C20, tuned stencil: what is preserved is the divergence formed with the same extended
    differences. *)
Theorem C20_tuned_faraday_preserves_extended_divB :
  forall k cells (m : fields) x, NoDup cells -> covered 1 2 cells x ->
  div_ext k (par_for (faraday_mink k) cells m) x = div_ext k m x.
Proof. exact faraday_div_ext. Qed.
Print Assumptions C20_tuned_faraday_preserves_extended_divB.

(** The extended divergence is the ordinary one when all tuning coefficients are zero. *)
Theorem C20_extended_divergence_is_plain : forall k F x, plain k -> div_ext k F x = divB F x.
Proof. exact div_ext_plain. Qed.
Print Assumptions C20_extended_divergence_is_plain.

(** C20 is false of the ordinary divergence when the stencil is tuned. *)
Theorem C20_tuned_faraday_divB_refuted :
  exists cells x, NoDup cells /\ covered 1 2 cells x /\
  divB (par_for (faraday_mink k_beta) cells pulse) x <> divB pulse x.
Proof. exact beta_divB. Qed.
Print Assumptions C20_tuned_faraday_divB_refuted.

(** C20, curvilinear coordinates (2D): the flux of B out of every cell is unchanged, also in
    the cells next to an axis. *)
Theorem C20_faraday_curvilinear :
  forall g mt ax_lo ax_hi i2max a0 a1 c cells (m : fields) i1 i2,
  NoDup cells -> regular g mt ax_lo ax_hi i2max a0 a1 -> on_axis g mt ax_lo ax_hi i2max ->
  (g <= i2 < i2max)%Z -> (a0 <= i1 - g)%Z -> (i1 + 1 - g <= a1)%Z ->
  In [i1; i2] cells -> In [(i1 + 1)%Z; i2] cells ->
  (ax_hi = true /\ (i2 + 1 = i2max)%Z \/ In [i1; (i2 + 1)%Z] cells) ->
  let m' := par_for (body2 (faraday_sr g mt ax_lo c)) cells m in
  flux_divB g mt (m' Bx1) (m' Bx2) i1 i2 = flux_divB g mt (m Bx1) (m Bx2) i1 i2.
Proof. exact faraday_sr_div. Qed.
Print Assumptions C20_faraday_curvilinear.

(** C20, general relativity: in both launch modes the flux of the output B equals that of the
    input B, provided the azimuthal E vanishes on the axes (which the axis boundary condition
    enforces). *)
Theorem C20_faraday_gr :
  forall g mt ax_lo ax_hi i2max a0 a1 md c cells (m : gr_fields) i1 i2,
  NoDup cells -> regular g mt ax_lo ax_hi i2max a0 a1 -> on_axis g mt ax_lo ax_hi i2max ->
  (ax_lo = true -> forall i, m (Aux, Ex3) [i; g] = 0) ->
  (ax_hi = true -> forall i, m (Aux, Ex3) [i; i2max] = 0) ->
  (g <= i2 < i2max)%Z -> (a0 <= i1 - g)%Z -> (i1 + 1 - g <= a1)%Z ->
  In [i1; i2] cells -> In [(i1 + 1)%Z; i2] cells ->
  (ax_hi = true /\ (i2 + 1 = i2max)%Z \/ In [i1; (i2 + 1)%Z] cells) ->
  let m' := par_for (far_body g mt ax_lo md c) cells m in
  flux_divB g mt (m' (far_out md, Bx1)) (m' (far_out md, Bx2)) i1 i2 =
  flux_divB g mt (m (far_in md, Bx1)) (m (far_in md, Bx2)) i1 i2.
Proof. exact faraday_gr_div. Qed.
Print Assumptions C20_faraday_gr.

(** C22, Cartesian: for all contents, coefficients and orders, the divergence of E at a node
    is unchanged by the curl of B. *)
Theorem C22_ampere_preserves_divE :
  forall c1 c2 cells (m : fields) x, NoDup cells -> covered 1 0 cells x ->
  divE (par_for (ampere_mink c1 c2) cells m) x = divE m x.
Proof. exact ampere_divE. Qed.
Print Assumptions C22_ampere_preserves_divE.

(** C22: and adding the currents changes it by the coefficient times the divergence of J. *)
Theorem C22_currents_change_divE_by_divJ :
  forall c J cells (m : fields) x, NoDup cells -> covered 1 0 cells x ->
  divE (par_for (currents_mink c J) cells m) x = divE m x + c * divJ J x.
Proof. exact currents_divE. Qed.
Print Assumptions C22_currents_change_divE_by_divJ.

(** C22, curvilinear (2D): off the axes, on the lower axis, and on the upper axis.  On the
    upper axis the azimuthal B in the first ghost row must mirror the last active row, which
    the axis boundary condition establishes. *)
Theorem C22_ampere_curvilinear :
  forall g mt ax_lo ax_hi i2max a0 a1 c cells (m : fields) i1 i2,
  NoDup cells -> regular g mt ax_lo ax_hi i2max a0 a1 ->
  (g <= i2 <= i2max)%Z -> (a0 <= i1 - 1 - g)%Z -> (i1 - g <= a1)%Z ->
  node_inside g ax_lo ax_hi i2max i2 ->
  In [i1; i2] cells -> In [(i1 - 1)%Z; i2] cells -> In [i1; (i2 - 1)%Z] cells ->
  let m' := par_for (body2 (ampere_sr g mt ax_lo ax_hi i2max c)) cells m in
  flux_divE g mt (m' Ex1) (m' Ex2) i1 i2 = flux_divE g mt (m Ex1) (m Ex2) i1 i2.
Proof. exact ampere_sr_div. Qed.
Print Assumptions C22_ampere_curvilinear.

Theorem C22_ampere_lower_axis :
  forall g mt ax_hi i2max a0 a1 c cells (m : fields) i1,
  NoDup cells -> regular g mt true ax_hi i2max a0 a1 ->
  (g <= i2max)%Z -> (a0 <= i1 - 1 - g)%Z -> (i1 - g <= a1)%Z ->
  In [i1; g] cells -> In [(i1 - 1)%Z; g] cells ->
  let m' := par_for (body2 (ampere_sr g mt true ax_hi i2max c)) cells m in
  flux_divE_lo g mt (m' Ex1) (m' Ex2) i1 g = flux_divE_lo g mt (m Ex1) (m Ex2) i1 g.
Proof. exact ampere_sr_div_lo. Qed.
Print Assumptions C22_ampere_lower_axis.

Theorem C22_ampere_upper_axis :
  forall g mt ax_lo i2max a0 a1 c cells (m : fields) i1,
  NoDup cells -> regular g mt ax_lo true i2max a0 a1 ->
  (g < i2max)%Z -> (a0 <= i1 - 1 - g)%Z -> (i1 - g <= a1)%Z ->
  In [i1; i2max] cells -> In [(i1 - 1)%Z; i2max] cells -> In [i1; (i2max - 1)%Z] cells ->
  (forall i, m Bx3 [i; i2max] = m Bx3 [i; (i2max - 1)%Z]) ->
  let m' := par_for (body2 (ampere_sr g mt ax_lo true i2max c)) cells m in
  flux_divE_hi g mt (m' Ex1) (m' Ex2) i1 i2max = flux_divE_hi g mt (m Ex1) (m Ex2) i1 i2max.
Proof. exact ampere_sr_div_hi. Qed.
Print Assumptions C22_ampere_upper_axis.

(** C22, general relativity: holds at all nodes off the axes, in every launch mode. *)
Theorem C22_ampere_gr_off_axis_partial :
  forall g mt ax_lo ax_hi i2max a0 a1 md c cells (m : gr_fields) i1 i2,
  NoDup cells -> regular g mt ax_lo ax_hi i2max a0 a1 ->
  (g <= i2 <= i2max)%Z -> (a0 <= i1 - 1 - g)%Z -> (i1 - g <= a1)%Z ->
  node_inside g ax_lo ax_hi i2max i2 ->
  In [i1; i2] cells -> In [(i1 - 1)%Z; i2] cells -> In [i1; (i2 - 1)%Z] cells ->
  let m' := par_for (amp_body g mt ax_lo ax_hi i2max md c) cells m in
  flux_divE g mt (m' (amp_out md, Ex1)) (m' (amp_out md, Ex2)) i1 i2 =
  flux_divE g mt (m (amp_in md, Ex1)) (m (amp_in md, Ex2)) i1 i2.
Proof. exact ampere_gr_div. Qed.
Print Assumptions C22_ampere_gr_off_axis_partial.

(** C22 is false of the GR solver on the axis: with vanishing H the flux out of the polar cap
    changes, because the radial D on the axis is overwritten with its neighbour. *)
Theorem C22_ampere_gr_axis_refuted :
  exists cells m, NoDup cells /\ In [2; 2]%Z cells /\ In [1; 2]%Z cells /\
  (forall k x, fst k = Aux -> m k x = 0) /\
  flux_divE_lo 2 mt0 (par_for (amp_body 2 mt0 true true 6 AmpMain 1) cells m (Em0, Ex1))
    (par_for (amp_body 2 mt0 true true 6 AmpMain 1) cells m (Em0, Ex2)) 2 2 <>
  flux_divE_lo 2 mt0 (m (Em, Ex1)) (m (Em, Ex2)) 2 2.
Proof. exact amp_axis_div. Qed.
Print Assumptions C22_ampere_gr_axis_refuted.

(** C53: the field-solver loops give the same result in whatever order the cells run. *)
Theorem C53_faraday_order :
  forall k cells cells' (m : fields), NoDup cells -> Permutation cells cells' ->
  par_for (faraday_mink k) cells m = par_for (faraday_mink k) cells' m.
Proof. exact (fun k cells cells' m => par_for_perm isB _ (faraday_mink_frames k) (faraday_mink_local k) cells cells' m). Qed.
Print Assumptions C53_faraday_order.

Theorem C53_ampere_order :
  forall c1 c2 cells cells' (m : fields), NoDup cells -> Permutation cells cells' ->
  par_for (ampere_mink c1 c2) cells m = par_for (ampere_mink c1 c2) cells' m.
Proof. exact (fun c1 c2 cells cells' m => par_for_perm isE _ (ampere_mink_frames c1 c2) (ampere_mink_local c1 c2) cells cells' m). Qed.
Print Assumptions C53_ampere_order.

Theorem C53_currents_order :
  forall c J cells cells' (m : fields), NoDup cells -> Permutation cells cells' ->
  par_for (currents_mink c J) cells m = par_for (currents_mink c J) cells' m.
Proof. exact (fun c J cells cells' m => par_for_perm isE _ (currents_mink_frames c J) (currents_mink_local c J) cells cells' m). Qed.
Print Assumptions C53_currents_order.

Theorem C53_faraday_curvilinear_order :
  forall g mt ax_lo c cells cells' (m : fields), NoDup cells -> Permutation cells cells' ->
  par_for (body2 (faraday_sr g mt ax_lo c)) cells m = par_for (body2 (faraday_sr g mt ax_lo c)) cells' m.
Proof. exact (fun g mt a c cells cells' m => par_for_perm isB _ (faraday_sr_frames g mt a c) (faraday_sr_local g mt a c) cells cells' m). Qed.
Print Assumptions C53_faraday_curvilinear_order.

Theorem C53_ampere_curvilinear_order :
  forall g mt ax_lo ax_hi i2max c cells cells' (m : fields), NoDup cells -> Permutation cells cells' ->
  par_for (body2 (ampere_sr g mt ax_lo ax_hi i2max c)) cells m =
  par_for (body2 (ampere_sr g mt ax_lo ax_hi i2max c)) cells' m.
Proof.
  exact (fun g mt a b i c cells cells' m =>
    par_for_perm isE _ (ampere_sr_frames g mt a b i c) (ampere_sr_local g mt a b i c) cells cells' m).
Qed.
Print Assumptions C53_ampere_curvilinear_order.

Theorem C53_gr_faraday_order :
  forall g mt ax_lo md c cells cells' (m : gr_fields), NoDup cells -> Permutation cells cells' ->
  par_for (far_body g mt ax_lo md c) cells m = par_for (far_body g mt ax_lo md c) cells' m.
Proof. exact far_order. Qed.
Print Assumptions C53_gr_faraday_order.

Theorem C53_gr_ampere_main_order :
  forall g mt ax_lo ax_hi i2max c cells cells' (m : gr_fields), NoDup cells -> Permutation cells cells' ->
  par_for (amp_body g mt ax_lo ax_hi i2max AmpMain c) cells m =
  par_for (amp_body g mt ax_lo ax_hi i2max AmpMain c) cells' m.
Proof. exact amp_main_order. Qed.
Print Assumptions C53_gr_ampere_main_order.

(** C53 is false of the two in-place GR electric updates: the value on the axis depends on
    whether the neighbouring cell has already been processed. *)
Theorem C53_gr_ampere_in_place_refuted :
  forall md, md <> AmpMain -> exists cells cells' m, NoDup cells /\ Permutation cells cells' /\
  par_for (amp_body 2 mt0 true true 6 md 1) cells m (amp_out md, Ex1) [2; 2]%Z <>
  par_for (amp_body 2 mt0 true true 6 md 1) cells' m (amp_out md, Ex1) [2; 2]%Z.
Proof. exact amp_alias_race. Qed.
Print Assumptions C53_gr_ampere_in_place_refuted.

(** The hypotheses hold in a concrete case: a 5 x 5 block in which cell (2,2) has its whole
    stencil, with fields that are not divergence-free; a metric with two axes. *)
Example C20_case : NoDup (box [(0, 5); (0, 5)]%Z) /\ covered 1 2 (box [(0, 5); (0, 5)]%Z) [2; 2]%Z /\
  covered 0 1 (box [(0, 5); (0, 5)]%Z) [2; 2]%Z /\ covered 1 0 (box [(0, 5); (0, 5)]%Z) [2; 2]%Z /\
  divB (fun c x => match c with Bx1 => IZR (hd 0%Z x) | _ => 0 end) [2; 2]%Z = 1 /\
  par_for (faraday_mink k_beta) [[2; 1]%Z] pulse Bx1 [2; 1]%Z = -1.
Proof.
  split; [apply nodup_box|].
  assert (H : forall lo hi, (0 <= lo <= 2)%Z -> (0 <= hi <= 2)%Z -> covered lo hi (box [(0, 5); (0, 5)]%Z) [2; 2]%Z).
  { intros lo hi H1 H2 y Hy. apply in_boxl.
    inversion Hy as [|? ? ? ? Hy1 Hy']; subst. inversion Hy' as [|? ? ? ? Hy2 Hy'']; subst.
    inversion Hy''; subst. repeat constructor; cbn; lia. }
  repeat split; try (apply H; lia).
  - cbn. lra.
  - cbn. lra.
Qed.

Example C22_case : regular 2 mt0 true true 6 (-2) 8 /\ on_axis 2 mt0 true true 6 /\
  node_inside 2 true true 6 4 /\ flux_divE 2 mt0 (fun _ => 1) (fun x => IZR (hd 0%Z (tl x))) 3 4 <> 0.
Proof.
  split; [apply mt0_regular|]. split; [apply mt0_axis|]. split; [split; intros [_ ?]; lia|].
  unfold flux_divE. cbn. lra.
Qed.
