(** Property C71. *)
From Coq Require Import ZArith List Bool Reals Lra Lia Permutation.
From Verif Require Import Base DecompModel DecompSpec HaloSpec FieldModel StepModel StepSpec PhysModel PhysSpec PhysProofs.
Import ListNotations.
Open Scope R_scope.

(** C71: the three output arrays hold, in every active cell and for every order of the threads,
    the requested field interpolated to the centre of the cell and transformed there to the
    output basis. *)
Theorem C71_fields_at_the_cell_centres :
  forall g S f tr em aux cur n order z,
  (1 <= length n <= 3)%nat -> Permutation order (range_active g n) -> in_box z n ->
  let out := write_vector g S f false tr em aux cur order in
  let A := array_of S f em aux cur in let x := loc g z in
  (out 3%Z x, out 4%Z x, out 5%Z x) =
  tr (basis_of S f) (cell_centre z)
     (centre (stagger f 0) (A 0%nat) x, centre (stagger f 1) (A 1%nat) x, centre (stagger f 2) (A 2%nat) x).
Proof. exact out_active. Qed.
Print Assumptions C71_fields_at_the_cell_centres.

(** C71: with output.debug.as_is the file holds the arrays themselves; otherwise the ghost
    cells do. *)
Theorem C71_as_is :
  forall g S f tr em aux cur order x a, (a < 3)%nat ->
  write_vector g S f true tr em aux cur order (Z.of_nat a + 3)%Z x = array_of S f em aux cur a x.
Proof. exact out_as_is. Qed.
Print Assumptions C71_as_is.
Theorem C71_ghost_cells :
  forall g S f tr em aux cur n order x a, (a < 3)%nat ->
  Permutation order (range_active g n) -> ~ In x (range_active g n) ->
  write_vector g S f false tr em aux cur order (Z.of_nat a + 3)%Z x = array_of S f em aux cur a x.
Proof. exact out_elsewhere. Qed.
Print Assumptions C71_ghost_cells.

(** C71: the interpolation puts every component at the same place: fields that are affine in
    every coordinate are reproduced exactly. *)
Theorem C71_exact_for_affine_fields :
  forall f a (V : list R -> R) x, multi_affine V ->
  centre (stagger f a) (fun y => V (position (stagger f a) y)) x = V (cell_centre x).
Proof. exact (fun f a => centre_affine (stagger f a)). Qed.
Print Assumptions C71_exact_for_affine_fields.

(** C71: no new extrema. *)
Theorem C71_within_the_neighbours :
  forall f a F x lo hi, (forall y, corner x y -> lo <= F y <= hi) -> lo <= centre (stagger f a) F x <= hi.
Proof. exact (fun f a => centre_bounds (stagger f a)). Qed.
Print Assumptions C71_within_the_neighbours.

(** C71: if every subdomain holds its part of the fields of the whole grid, ghost cells
    included, what it writes is the interpolation of the whole grid; [trG] is the
    transformation in global code coordinates. *)
Theorem C71_independent_of_the_decomposition :
  forall g ls S f tr trG (em aux cur : list Z -> mem Z) EM AUX CUR d z order,
  (1 <= g)%Z -> (1 <= length ls <= 3)%nat ->
  agree g ls em EM -> agree g ls aux AUX -> agree g ls cur CUR ->
  In d (domains ls) -> in_box z (sub_ncells d) ->
  let o := sub_offset_ndomains d in let s := sub_offset_ncells d in
  (forall b x v, tr b x v = trG b (map2 Rplus (map IZR s) x) v) ->
  Permutation order (range_active g (sub_ncells d)) ->
  let out := write_vector g S f false tr (em o) (aux o) (cur o) order in
  let x := loc g z in let X := map2 Z.add s z in let A := array_of S f EM AUX CUR in
  (out 3%Z x, out 4%Z x, out 5%Z x) =
  trG (basis_of S f) (cell_centre X)
      (centre (stagger f 0) (A 0%nat) X, centre (stagger f 1) (A 1%nat) X, centre (stagger f 2) (A 2%nat) X).
Proof. exact decomposed. Qed.
Print Assumptions C71_independent_of_the_decomposition.

(** A 2D grid of 2 x 1 cells, two ghost cells, E3 = i1 + 10 i2 at the nodes and a basis change
    that doubles: at the centre of the second cell 2 (1.5 + 5). *)
Example C71_case :
  let em : mem Z := fun c x => match x with [i; j] => if (c =? 2)%Z then IZR (i - 2) + 10 * IZR (j - 2) else 0 | _ => 0 end in
  let tr := fun (_ : basis) (_ : list R) (v : vec) => let '(a, b, c) := v in (2 * a, 2 * b, 2 * c) in
  let out := write_vector 2 SRPIC FE false tr em (fun _ _ => 0) (fun _ _ => 0) [[3; 2]; [2; 2]]%Z in
  Permutation [[3; 2]; [2; 2]]%Z (range_active 2 [2; 1]%Z) /\ out 5%Z [3; 2]%Z = 13.
Proof.
  cbv zeta. split; [apply perm_swap|].
  unfold write_vector, source, deep_copy3, par_for, phys_body, convert, store, interp_2d, set, output_flags. cbn. lra.
Qed.
(** The product of two coordinates is affine in each. *)
Example C71_case_affine : multi_affine (fun x => match x with [a; b] => 3 + a * b | _ => 0 end).
Proof.
  intros u v a b t. destruct u as [|u0 [|u1 u]], v as [|v0 [|v1 v]]; cbn [app]; try ring; destruct u; cbn [app]; ring.
Qed.
