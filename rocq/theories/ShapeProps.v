(** Property C18. *)
From Coq Require Import ZArith List Reals Lra Lia.
From Verif Require Import FieldModel ShapeModel ShapeSpec ShapeProofs ShapeTop InterpModel InterpSpec InterpProofs.
Import ListNotations.
Open Scope R_scope.

(** C18: the weights of order 1..11, for both staggerings and every offset, are the values of the
    central B-spline at the nodes of the window, and the spline vanishes at every other node. *)
Theorem C18_weights_are_splines : forall stag o i di m w,
  order stag o i di = Some (m, w) -> 0 <= di <= 1 ->
  (forall n, (0 <= n <= Z.of_nat o)%Z -> w n = bspline o (IZR i + di - node stag (m + n))) /\
  (forall k, (k < m \/ m + Z.of_nat o < k)%Z -> bspline o (IZR i + di - node stag k) = 0).
Proof. exact weights_are_splines. Qed.
Print Assumptions C18_weights_are_splines.

(** The orders for which weights are defined. *)
Theorem C18_orders : forall stag o i di, (1 <= o <= 11)%nat <-> order stag o i di <> None.
Proof. exact order_defined. Qed.
Print Assumptions C18_orders.

(** C18: they are not negative ... *)
Theorem C18_weights_nonnegative : forall stag o i di m w n,
  order stag o i di = Some (m, w) -> 0 <= di <= 1 -> (0 <= n <= Z.of_nat o)%Z -> 0 <= w n.
Proof. exact order_nonneg. Qed.
Print Assumptions C18_weights_nonnegative.

(** C18: ... and sum to one. *)
Theorem C18_weights_sum_to_one : forall stag o i di m w,
  order stag o i di = Some (m, w) -> 0 <= di <= 1 -> zsum w 0 (1 + o) = 1.
Proof. exact order_sum. Qed.
Print Assumptions C18_weights_sum_to_one.

(** Their centre of mass is the particle's position. *)
Theorem C18_weights_centred : forall stag o i di m w,
  order stag o i di = Some (m, w) -> 0 <= di <= 1 ->
  zsum (fun n => node stag (m + n) * w n) 0 (1 + o) = IZR i + di.
Proof. exact order_centre. Qed.
Print Assumptions C18_weights_centred.

(** The shape functions themselves, for every argument. *)
Theorem C18_shape_functions : forall x,
  S1 (Rabs x) = bspline 1 x /\ S2 (Rabs x) = bspline 2 x /\ S3 (Rabs x) = bspline 3 x /\
  S4 (Rabs x) = bspline 4 x /\ S5 (Rabs x) = bspline 5 x /\ S6 (Rabs x) = bspline 6 x /\
  S7 (Rabs x) = bspline 7 x /\ S8 (Rabs x) = bspline 8 x /\ S9 (Rabs x) = bspline 9 x /\
  S10 (Rabs x) = bspline 10 x /\ S11 (Rabs x) = bspline 11 x.
Proof. exact shape_functions. Qed.
Print Assumptions C18_shape_functions.

(** C18: interpolating a constant field returns the constant: every component, every order
    including the zig-zag build (0), 1D to 3D. *)
Theorem C18_interpolate_constant : forall o c ps a EB, (o <= 11)%nat ->
  Forall (fun p => 0 <= snd p <= 1) ps -> (length ps <= 3)%nat ->
  (forall k, length k = length ps -> EB c k = a) ->
  interp o c ps EB = Some a.
Proof. exact interp_constant. Qed.
Print Assumptions C18_interpolate_constant.

(** Interpolation of a field that is affine in the position of the component is exact: this
    fixes the staggering of every component. *)
Theorem C18_interpolate_affine : forall o c ps a b EB, (o <= 11)%nat ->
  Forall (fun p => 0 <= snd p <= 1) ps -> (length ps <= 3)%nat -> length b = length ps ->
  (forall k, length k = length ps -> EB c k = affine a b (place c k)) ->
  interp o c ps EB = Some (affine a b (map (fun p => IZR (fst p) + snd p) ps)).
Proof. exact interp_affine. Qed.
Print Assumptions C18_interpolate_affine.

(** The interpolated value lies between the extremes of the elements that are read. *)
Theorem C18_interpolate_between : forall o c ps EB lo hi, (o <= 11)%nat ->
  Forall (fun p => 0 <= snd p <= 1) ps ->
  (forall k, In k (reads o c ps) -> lo <= EB c k <= hi) ->
  exists v, interp o c ps EB = Some v /\ lo <= v <= hi.
Proof. exact interp_bounds. Qed.
Print Assumptions C18_interpolate_between.

(** A particle in the upper half of a cell, order 2, staggered: three weights. *)
Example C18_case : exists m w, order true 2 5 (3/4) = Some (m, w) /\ m = 4%Z /\ w 0%Z = 1/32 /\ w 1%Z = 11/16 /\ w 2%Z = 9/32.
Proof.
  cbn. eexists _, _. split; [reflexivity|]. cbn. unfold sqr. repeat split; try lia; lra.
Qed.

(** Ex1 in 2D is staggered along x1 only. *)
Example C18_case_affine : place Ex1 [3; 7]%Z = [3 + 1/2; 7 + 0].
Proof. reflexivity. Qed.
