(** Property C70. *)
From Coq Require Import ZArith List Bool Reals Lra Lia Permutation.
From Verif Require Import Base DecompModel DecompSpec DirsSpec TopoModel TopoSpec HaloModel HaloSpec FieldModel StepModel
  MomentModel MomentSpec PhysModel PhysSpec StatsModel StatsSpec StatsProofs MetModel StatsTop.
From Verif Require StepSpec.
Import ListNotations.
Open Scope R_scope.

(** C70: if every rank holds its part of the fields of the whole grid, ghost cells included, and
    its metric is the global one seen from its corner, the columns for the fields are the sum of
    the density over the cells of the undivided grid divided by the volume, for every order of
    the cells and of the ranks. *)
Theorem C70_field_columns :
  forall g ls downG hatG hatvG sdG EM CUR em cur down hat hatv sd V q order ranks,
  (1 <= g)%Z -> wide g ls -> (1 <= length ls <= 3)%nat -> valid_stat q ->
  StepSpec.agree g ls em EM -> StepSpec.agree g ls cur CUR ->
  (forall d, In d (domains ls) -> let s := map IZR (sub_offset_ncells d) in
     (forall a x v, down d a x v = downG a (map2 Rplus s x) v) /\ (forall a x v, hat d a x v = hatG a (map2 Rplus s x) v) /\
     (forall x v, hatv d x v = hatvG (map2 Rplus s x) v) /\ (forall x, sd d x = sdG (map2 Rplus s x))) ->
  (forall d, In d (domains ls) -> Permutation (order d) (range_active g (sub_ncells d))) ->
  Permutation ranks (domains ls) ->
  rsum ranks (fun d => let o := sub_offset_ndomains d in
    reduce_fields g (down d) (hat d) (hatv d) (sd d) (em o) (cur o) V q (order d)) =
  rsum (box (map (fun n => (0%Z, n)) (map sumZ ls))) (density downG hatG hatvG sdG EM CUR q) / V.
Proof. exact field_columns. Qed.
Print Assumptions C70_field_columns.

(** C70, particles on a periodic Cartesian grid without weights: the column is the average of
    the field output with the same name, over the cells of all ranks after the exchange of the
    ghost cells.  For T with a spatial index the masses must be 0 or 1 ([plain_mass]). *)
Theorem C70_moment_columns : forall g ls gbc,
  wide g ls -> length gbc = length ls -> all_periodic gbc -> dimension (length ls) ->
  forall c q sp f v V V0 ppc0 eps ranks,
  cartesian c = true -> supported c -> ghosts c = g ->
  frame c = cartesian_frame -> use_weights c = false -> inv_n0 c = V0 / ppc0 -> (forall x, sqrt_det_h c x = V0) ->
  V0 <> 0 -> ppc0 <> 0 -> 0 <= eps ->
  q <> PNpart -> (match q with PT a b => (a <= 3)%nat /\ (b <= 3)%nat | _ => True end) ->
  (forall d s p, In d (domains ls) -> In s (sp (sub_offset_ndomains d)) -> In p (sparts s) ->
     (ptag p = 0 \/ ptag p = 1)%Z /\ (live p = true -> inside (sub_ncells d) p)) ->
  (forall d s, In d (domains ls) -> In s (sp (sub_offset_ndomains d)) -> plain_mass q s /\ clear_of eps q s) ->
  (forall d, In d (domains ls) -> exists all specs sched,
     selects all specs (sp (sub_offset_ndomains d)) /\ Forall (species_ok (moment_of q)) (sp (sub_offset_ndomains d)) /\
     any_order sched /\
     compute_moments c (moment_of q) all specs (index1 q) (index2 q) sched (fun _ => 0) = Some (f (sub_offset_ndomains d)) /\
     reduce_moments (fun _ => V0) pvel (fun p => sq3 (pvel p)) false eps V ppc0 q all specs = Some (v (sub_offset_ndomains d))) ->
  Permutation ranks (domains ls) ->
  rsum ranks (fun d => v (sub_offset_ndomains d)) =
  rsum (cells 0 ls) (fun k => synchronize g ls gbc f (length ls) (sub_offset_ndomains (fst k)) (loc g (snd k)) * V0) / V.
Proof. exact moment_columns. Qed.
Print Assumptions C70_moment_columns.

(** C70: the column Npart counts the live particles of the requested species on all ranks. *)
Theorem C70_number_column :
  forall ds sp v sd phys usq w eps V ppc0 ranks,
  (forall d s p, In d ds -> In s (sp (sub_offset_ndomains d)) -> In p (sparts s) -> (ptag p = 0 \/ ptag p = 1)%Z) ->
  (forall d, In d ds -> exists all specs, selects all specs (sp (sub_offset_ndomains d)) /\
     reduce_moments sd phys usq w eps V ppc0 PNpart all specs = Some (v (sub_offset_ndomains d))) ->
  Permutation ranks ds ->
  rsum ranks (fun d => v (sub_offset_ndomains d)) =
  INR (length (filter live (flat_map sparts (flat_map (fun d => sp (sub_offset_ndomains d)) ds)))).
Proof. exact number_column. Qed.
Print Assumptions C70_number_column.

(** Not so with weights: the mass and charge columns lose the mass and the charge, and equal the
    number column, for all masses and charges. *)
Theorem C70_weights_refuted :
  forall sd phys usq eps V ppc0 all specs ss, selects all specs ss ->
  Forall (fun s => smass s <> 0 /\ eps < Rabs (smass s) /\ eps < Rabs (scharge s)) ss ->
  let col q := reduce_moments sd phys usq true eps V ppc0 q all specs in col PRho = col PN /\ col PCharge = col PN.
Proof. exact weights_coincide. Qed.
Print Assumptions C70_weights_refuted.
(** And T ignores them. *)
Theorem C70_weighted_stress_refuted :
  forall sd phys usq w w' eps V ppc0 a b all specs,
  reduce_moments sd phys usq w eps V ppc0 (PT a b) all specs = reduce_moments sd phys usq w' eps V ppc0 (PT a b) all specs.
Proof. exact stress_ignores_weights. Qed.
Print Assumptions C70_weighted_stress_refuted.

(** For other masses the momentum columns are too small by the mass and the stress columns by
    its square. *)
Theorem C70_stress_refuted :
  forall c V0, frame c = cartesian_frame ->
  forall s p a b, ptag p = 1%Z -> smass s <> 0 -> (1 <= a <= 3)%nat -> (1 <= b <= 3)%nat ->
  let red := red_kernel (fun _ => V0) pvel (fun p => sq3 (pvel p)) false in
  red (PT a b) s p * (smass s * smass s) = V0 * quantity c T s p (Z.of_nat a) (Z.of_nat b) /\
  red (PT 0 b) s p * smass s = V0 * quantity c T s p 0 (Z.of_nat b).
Proof. exact stress_off. Qed.
Print Assumptions C70_stress_refuted.

(** On curvilinear grids: one particle of unit weight counts 9 parts in the first cell and 25 in
    the second; the field output gives it the same integral everywhere (C38). *)
Theorem C70_curvilinear_refuted :
  forall phys usq eps V ppc0, V <> 0 -> ppc0 <> 0 ->
  exists a b,
  reduce_moments (volume_of shell) phys usq false eps V ppc0 PN [lone 0] [1%Z] = Some a /\
  reduce_moments (volume_of shell) phys usq false eps V ppc0 PN [lone 1] [1%Z] = Some b /\ 9 * b = 25 * a /\ a <> 0.
Proof. exact place_matters. Qed.
Print Assumptions C70_curvilinear_refuted.
(** And the average of the constant one grows with the unit of length, so it cannot be one. *)
Theorem C70_volume_refuted : forall m l, l <> 0 -> unit_mean (scaled l m) = l * unit_mean m.
Proof. exact scale_mean. Qed.
Print Assumptions C70_volume_refuted.

(** C70: the header and the rows have as many entries, provided T is requested with digits. *)
Theorem C70_columns_partial :
  forall l, (forall a b, In (RqT a b) l -> exists m n, a = In_ m /\ b = In_ n) -> row_width l = header_width l.
Proof. exact columns_plain. Qed.
Print Assumptions C70_columns_partial.
(** Otherwise the rows are longer, by two entries for T0i, Tii and the like, five for Tij. *)
Theorem C70_columns_refuted :
  forall l, row_width l = (header_width l +
    list_sum (map (fun q => match q with RqT a b => length (components_of a b) - 1 | _ => 0 end) l))%nat.
Proof. exact columns_T. Qed.
Print Assumptions C70_columns_refuted.

(** One cell of volume 4 with E1 = 3 on its edge, Cartesian: the density is 9 * 4. *)
Example C70_case_field :
  let EM : mem Z := fun c x => match x with [i] => if (c =? 0)%Z then 3 else 0 | _ => 0 end in
  density (fun _ _ v => v) (fun _ _ v => v) (fun _ v => v) (fun _ => 4) EM EM (SE2 1) [0%Z] = 36 /\
  reduce_fields 2 (fun _ _ v => v) (fun _ _ v => v) (fun _ v => v) (fun _ => 4) EM EM 8 (SE2 1) [[2%Z]; [3%Z]] = 9 /\
  valid_stat (SE2 1).
Proof. cbv zeta. unfold reduce_fields, rsum, density, comp_square, field_kernel, e2, squared. cbn. repeat split; try lia; lra. Qed.
(** Live particle, mass 2, charge -1, u = (2, 0, 2): energy 6; T01 of the file 2, of the field 4. *)
Example C70_case_particle :
  let p := {| ptag := 1; ppos := [(0%Z, 1/2)]; pvel := (2, 0, 2); pweight := 1 |} in
  let s := {| smass := 2; scharge := -1; sparts := [p] |} in
  let red := red_kernel (fun _ => 1) pvel (fun p => sq3 (pvel p)) false in
  red (PT 0 0) s p = 6 /\ red (PT 0 1) s p = 2 /\ red PCharge s p = -1 /\
  plain_mass (PT 0 0) s /\ clear_of (1/100) PCharge s.
Proof.
  cbv zeta. assert (S9 : sqrt (1 + (2 * 2 + 0 * 0 + 2 * 2)) = 3) by (replace (1 + (2 * 2 + 0 * 0 + 2 * 2)) with (3 * 3) by lra; apply sqrt_square; lra).
  unfold red_kernel, p_component, p_energy, sq3, contrib, clear_of, plain_mass. cbn [ptag negb Z.eqb Pos.eqb pvel smass scharge].
  destruct (Req_EM_T 2 0) as [E|_]; [lra|]. rewrite S9. repeat split; try lra. right.
  rewrite Rabs_left; lra.
Qed.
Example C70_case_columns : row_width [RqN; RqT (In_ 0) Ii; RqE2] = 9%nat /\ header_width [RqN; RqT (In_ 0) Ii; RqE2] = 7%nat /\
  row_width [RqN; RqT (In_ 0) (In_ 1); RqE2] = 7%nat.
Proof. repeat split; reflexivity. Qed.
