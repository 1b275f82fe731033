(** Property C23. *)
From Coq Require Import ZArith List Reals Lra Lia.
From Verif Require Import Base DecompModel DecompSpec DirsSpec TopoModel TopoSpec HaloModel HaloSpec FieldModel DepositModel FilterModel
  StepModel StepSpec StepProofs EnergySpec FilterSpec FilterProofs FilterTop.
Import ListNotations.
Open Scope R_scope.

(** C23: on a periodic box with any decomposition, any thread order and any interleaving of the
    messages, any number of passes leaves in every cell, ghost cells included, the currents of
    the whole grid filtered that many times. *)
Theorem C23_passes_filter_the_whole_grid :
  forall g ls gbc l cur cur' Jr,
  wide g ls -> length gbc = length ls -> all_periodic gbc -> dimension (length ls) -> (1 <= g)%Z ->
  Forall (fun te => any_order (fst te) /\ complete ls (snd te)) l -> periodic (map sumZ ls) Jr ->
  agree g ls cur Jr -> filter_passes g ls gbc l cur = Some cur' ->
  agree g ls cur' (fun c => passes (length l) (Jr c)).
Proof. intros g ls gbc l cur cur' Jr W L AP HD Hg. exact (filter_passes_agree g ls gbc W L AP HD Hg l cur cur' Jr). Qed.
Print Assumptions C23_passes_filter_the_whole_grid.

(** C23: each pass is the product of the one-dimensional filters in one and two dimensions. *)
Theorem C23_product_of_1d_filters_partial :
  forall F x, length x <> 3%nat -> coded_filter F x = product_filter F x.
Proof. exact coded_low. Qed.
Print Assumptions C23_product_of_1d_filters_partial.

(** C23: in three dimensions it is not. *)
Theorem C23_product_in_3d_refuted :
  exists cfg b arr x, fcart cfg = true /\ Forall (fun c => c = (false, false)) (fcond cfg) /\
  filter_body cfg b arr x Jx1 x <> product_filter (b Jx1) x.
Proof.
  exists {| fcart := true; faxis := (false, false); fcond := repeat (false, false) 3; fmin := 2; fmax := [10; 10; 10]%Z |}.
  exists (fun _ y => match y with [5; 5; 6]%Z => 1 | _ => 0 end), (fun _ _ => 0), [5; 5; 5]%Z.
  split; [reflexivity|]. split; [repeat constructor|].
  unfold filter_body, filter_3d, product_filter, smooth, stencil3, all3, set. cbn. lra.
Qed.
Print Assumptions C23_product_in_3d_refuted.

(** C23: the total of each component over the active cells of all subdomains is conserved, in
    any number of dimensions. *)
Theorem C23_total_current_is_conserved :
  forall g ls gbc l cur cur' Jr c,
  wide g ls -> length gbc = length ls -> all_periodic gbc -> dimension (length ls) -> (1 <= g)%Z ->
  Forall (fun l => l <> []) ls ->
  Forall (fun te => any_order (fst te) /\ complete ls (snd te)) l -> periodic (map sumZ ls) Jr ->
  agree g ls cur Jr -> filter_passes g ls gbc l cur = Some cur' ->
  rsum (cells 0 ls) (fun q => cur' (sub_offset_ndomains (fst q)) c (loc g (snd q))) =
  rsum (cells 0 ls) (fun q => cur (sub_offset_ndomains (fst q)) c (loc g (snd q))).
Proof. intros g ls gbc l cur cur' Jr c W L AP HD Hg NE. exact (code_total g ls gbc W L AP HD Hg NE l cur cur' Jr c). Qed.
Print Assumptions C23_total_current_is_conserved.

(** C23: filtered currents satisfy continuity for the filtered charge density. *)
Theorem C23_continuity_is_inherited :
  forall n V rho k, (forall x, rho x + k * divergence V x = 0) ->
  forall x, passes n rho x + k * divergence (fun a => passes n (V a)) x = 0.
Proof. exact passes_continuity. Qed.
Print Assumptions C23_continuity_is_inherited.

(** C23: no new extrema. *)
Theorem C23_values_stay_within_bounds :
  forall n lo hi f, (forall x, lo <= f x <= hi) -> forall x, lo <= passes n f x <= hi.
Proof. exact passes_bounds. Qed.
Print Assumptions C23_values_stay_within_bounds.

(** Two passes spread a unit current over five cells. *)
Example C23_case :
  let F := fun y : list Z => match y with [0%Z] => 1 | _ => 0 end in
  passes 2 F [0%Z] = 3 / 8 /\ passes 2 F [1%Z] = / 4 /\ passes 2 F [2%Z] = / 16 /\ passes 2 F [3%Z] = 0.
Proof. cbv zeta. unfold passes, coded_filter, product_filter, smooth. cbn. repeat split; field. Qed.
