(** Property C73. *)
From Coq Require Import ZArith List Bool Reals Lra Lia.
From Verif Require Import Base HaloSpec FieldModel WallModel DepositModel FilterModel StepSpec FilterSpec FwallSpec FwallProofs.
Import ListNotations.
Open Scope R_scope.

(** C73, conductor below the domain, 1D to 3D: one pass, threads in any order, filters the
    currents continued by their images; a component along the wall is left alone on the wall,
    where the electric field is reset.  Next to the wall the kernel applies the exact product
    of one-dimensional filters, elsewhere the kernel of the bulk. *)
Theorem C73_lower_wall :
  forall D d cfg b order x c, one_wall false D d cfg -> NoDup order -> In x order -> length x = D ->
  let e := fmin cfg in let i := nth d x 0%Z in (e <= i)%Z ->
  par_for (filter_body cfg b) order b c x =
  if (i =? e)%Z && negb (Nat.eqb (along c) d) then b c x
  else (if (e + 1 <? i)%Z then coded_filter else product_filter) (images false e d c (b c)) x.
Proof.
  intros D d cfg b order x c H N I L e i Hi. rewrite (pass_at cfg b order x c N I).
  exact (lower_wall D d cfg b b x c H L Hi).
Qed.
Print Assumptions C73_lower_wall.

(** C73, conductor above the domain: the component across the wall. *)
Theorem C73_upper_wall_partial :
  forall D d cfg b order x c, one_wall true D d cfg -> NoDup order -> In x order -> length x = D -> along c = d ->
  let e := nth d (fmax cfg) 0%Z in let i := nth d x 0%Z in (i < e)%Z ->
  par_for (filter_body cfg b) order b c x =
  (if (i <? e - 2)%Z then coded_filter else product_filter) (images true e d c (b c)) x.
Proof.
  intros D d cfg b order x c H N I L Hc e i Hi. rewrite (pass_at cfg b order x c N I).
  exact (upper_wall_normal D d cfg b b x c H L Hc Hi).
Qed.
Print Assumptions C73_upper_wall_partial.

(** C73: the components along an upper wall are filtered as if it stood one cell lower, inside
    the domain. *)
Theorem C73_upper_wall_one_cell_low :
  forall D d cfg b order x c, one_wall true D d cfg -> NoDup order -> In x order -> length x = D -> along c <> d ->
  let e := (nth d (fmax cfg) 0 - 1)%Z in let i := nth d x 0%Z in (i <= e)%Z ->
  par_for (filter_body cfg b) order b c x =
  if (i =? e)%Z then b c x
  else (if (i <? e - 1)%Z then coded_filter else product_filter) (images true e d c (b c)) x.
Proof.
  intros D d cfg b order x c H N I L Hc e i Hi. rewrite (pass_at cfg b order x c N I).
  exact (upper_wall_tangential D d cfg b b x c H L Hc Hi).
Qed.
Print Assumptions C73_upper_wall_one_cell_low.

(** C73: so they are not the filtered images: in the last two cells of a uniform current. *)
Theorem C73_upper_wall_refuted :
  exists cfg b, one_wall true 1 0 cfg /\ exists i i', (fmin cfg <= i' < i)%Z /\ (i < nth 0 (fmax cfg) 0)%Z /\
  let F := images true (nth 0 (fmax cfg) 0%Z) 0 Jx2 (b Jx2) in
  filter_body cfg b b [i] Jx2 [i] = 1 /\ product_filter F [i] = 3 / 4 /\
  filter_body cfg b b [i'] Jx2 [i'] = 3 / 4 /\ product_filter F [i'] = 1.
Proof.
  exists {| fcart := true; faxis := (false, false); fcond := [(false, true)]; fmin := 2; fmax := [10%Z] |}, (fun _ _ => 1).
  split; [repeat split; lia|]. exists 9%Z, 8%Z. split; [cbn; lia|]. split; [cbn; lia|].
  cbv zeta. unfold product_filter, smooth, images, beyond, filter_body, filter_1d, wall, next_wall, inward, set. cbn.
  repeat split; lra.
Qed.
Print Assumptions C73_upper_wall_refuted.

(** C73: between two walls the filter reads behind the upper one, also across it. *)
Theorem C73_two_walls_refuted :
  exists cfg b b' i, fcond cfg = [(true, true)] /\ (fmin cfg <= i < nth 0 (fmax cfg) 0)%Z /\
  (forall c k, (fmin cfg <= k < nth 0 (fmax cfg) 0)%Z -> b c [k] = b' c [k]) /\
  filter_body cfg b b [i] Jx1 [i] <> filter_body cfg b' b' [i] Jx1 [i].
Proof.
  exists {| fcart := true; faxis := (false, false); fcond := [(true, true)]; fmin := 2; fmax := [10%Z] |},
    (fun _ _ => 0), (fun _ x => if (nth 0 x 0 =? 10)%Z then 1 else 0), 9%Z.
  split; [reflexivity|]. split; [cbn; lia|]. split.
  - cbn. intros c k Hk. destruct (Z.eqb_spec k 10); [lia|reflexivity].
  - unfold filter_body, filter_1d, wall, next_wall, inward, set. cbn. lra.
Qed.
Print Assumptions C73_two_walls_refuted.

(** C73, polar axes of the spherical grids, on either side or both: one pass filters the
    currents continued across the axes, also in the extra row on the upper axis. *)
Theorem C73_axes :
  forall cfg b order x c, fcart cfg = false -> NoDup order -> In x order -> length x = 2%nat ->
  let lo := fmin cfg in let hi := nth 1 (fmax cfg) 0%Z in let j := nth 1 x 0%Z in
  (lo + 3 <= hi)%Z -> (lo <= j)%Z -> (j < hi \/ (snd (faxis cfg) = true /\ j = hi /\ c <> Jx2))%Z ->
  par_for (filter_body cfg b) order b c x = product_filter (axes_of lo hi (faxis cfg) c (b c)) x.
Proof.
  intros cfg b order x c H N I L lo hi j H1 H2 H3. rewrite (pass_at cfg b order x c N I).
  exact (axes cfg b b x c H L H1 H2 H3).
Qed.
Print Assumptions C73_axes.

(** A current of 1, 2, 3, ... above a wall at node 2: across the wall 5/4, along it 7/4 in the
    first cell off the wall. *)
Example C73_case :
  let cfg := {| fcart := true; faxis := (false, false); fcond := [(true, false)]; fmin := 2; fmax := [10%Z] |} in
  let b := fun (_ : jcomp) x => IZR (nth 0 x 0%Z - 1) in
  one_wall false 1 0 cfg /\
  par_for (filter_body cfg b) [[3]; [2]]%Z b Jx1 [2%Z] = 5 / 4 /\
  par_for (filter_body cfg b) [[3]; [2]]%Z b Jx2 [3%Z] = 7 / 4.
Proof.
  cbv zeta. split; [repeat split; lia|].
  unfold par_for, filter_body, filter_1d, wall, next_wall, inward, set. cbn. split; lra.
Qed.
(** On both axes the radial current is averaged with its neighbour. *)
Example C73_case_axes :
  let cfg := {| fcart := false; faxis := (true, true); fcond := [(false, false); (false, false)]; fmin := 2; fmax := [10; 8]%Z |} in
  let b := fun (_ : jcomp) x => IZR (nth 1 x 0%Z) in
  par_for (filter_body cfg b) [[4; 2]; [4; 8]]%Z b Jx1 [4; 2]%Z = 5 / 2 /\
  par_for (filter_body cfg b) [[4; 2]; [4; 8]]%Z b Jx1 [4; 8]%Z = 15 / 2 /\
  par_for (filter_body cfg b) [[4; 2]; [4; 8]]%Z b Jx3 [4; 8]%Z = 0.
Proof.
  cbv zeta. unfold par_for, filter_body, filter_2d_sph, in1, set. cbn. repeat split; lra.
Qed.
