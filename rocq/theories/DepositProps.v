(** Properties C16, C17 and C19. *)
From Coq Require Import ZArith List Reals Lra Lia Permutation.
From Verif Require Import FieldModel FieldSpec ShapeModel ShapeSpec DepositModel DepositSpec DepositProofs DepositTop
  InterpModel InterpSpec InterpProofs DepositBounds.
Import ListNotations.
Open Scope R_scope.

(** C16 in 1D and 2D: for every set of particles, whatever the order of the atomic additions,
    the zig-zag deposit adds [- (rho after - rho before) / dt] to the divergence of the current
    at every node, rho being the linearly weighted charge. *)
Theorem C16_zigzag_continuity_partial :
  forall g third inv_dt ps cs J k, (1 <= length k <= 2)%nat ->
  Forall (dims (length k) valid_move) ps ->
  Permutation cs (flat_map (deposit g 0 third inv_dt) ps) ->
  divJ (scatter cs J) k = divJ J k - inv_dt * (rho 1 g now ps k - rho 1 g before ps k).
Proof. exact zigzag_continuity. Qed.
Print Assumptions C16_zigzag_continuity_partial.

(** In 3D what is added differs by [zigzag_defects]: per straight segment, a quarter of the
    product of the three displacements, with alternating signs at the corners of the cell. *)
Theorem C16_zigzag_3d_defect :
  forall g third inv_dt ps cs J k, (1 <= length k <= 3)%nat ->
  Forall (dims (length k) valid_move) ps ->
  Permutation cs (flat_map (deposit g 0 third inv_dt) ps) ->
  divJ (scatter cs J) k = divJ J k - inv_dt * (rho 1 g now ps k - rho 1 g before ps k)
                          - inv_dt * zigzag_defects g ps k.
Proof. exact zigzag_all. Qed.
Print Assumptions C16_zigzag_3d_defect.

(** C16 is false in 3D. *)
Theorem C16_zigzag_3d_refuted : exists ps cs J k,
  Forall (dims 3 valid_move) ps /\ Permutation cs (flat_map (deposit 2 0 (1/3) 1) ps) /\ length k = 3%nat /\
  divJ (scatter cs J) k <> divJ J k - 1 * (rho 1 2 now ps k - rho 1 2 before ps k).
Proof. exact zigzag3_refuted. Qed.
Print Assumptions C16_zigzag_3d_refuted.

(** C17: orders 1..11, 1D to 3D, [third] being one third in 3D. *)
Theorem C17_esirkepov_continuity :
  forall o g third inv_dt ps cs J k, (1 <= o <= 11)%nat -> (1 <= length k <= 3)%nat ->
  (length k = 3%nat -> third = 1/3) ->
  Forall (dims (length k) short_move) ps ->
  Permutation cs (flat_map (deposit g o third inv_dt) ps) ->
  divJ (scatter cs J) k = divJ J k - inv_dt * (rho o g now ps k - rho o g before ps k).
Proof. exact esirkepov_continuity. Qed.
Print Assumptions C17_esirkepov_continuity.

(** C17 for whatever value the constant THIRD has. *)
Theorem C17_esirkepov_any_third :
  forall o g third inv_dt ps cs J k, (1 <= o <= 11)%nat -> (1 <= length k <= 3)%nat ->
  Forall (dims (length k) short_move) ps ->
  Permutation cs (flat_map (deposit g o third inv_dt) ps) ->
  divJ (scatter cs J) k = divJ J k
    - inv_dt * (if Nat.eqb (length k) 3 then 3 * third else 1) * (rho o g now ps k - rho o g before ps k).
Proof. exact esirkepov_all. Qed.
Print Assumptions C17_esirkepov_any_third.

(** With the decimal literals of numeric.h the identity fails in 3D even in exact arithmetic. *)
Theorem C17_third_literal_refuted : forall third, third = third_float \/ third = third_double ->
  exists ps cs J k,
  Forall (dims 3 short_move) ps /\ Permutation cs (flat_map (deposit 2 1 third 1) ps) /\ length k = 3%nat /\
  divJ (scatter cs J) k <> divJ J k - 1 * (rho 1 2 now ps k - rho 1 2 before ps k).
Proof. exact third_refuted. Qed.
Print Assumptions C17_third_literal_refuted.

(** C16, C17: the accumulated current does not depend on the order of the atomic additions. *)
Theorem C17_deposit_order_independent : forall cs cs' J c x, Permutation cs cs' ->
  scatter cs J c x = scatter cs' J c x.
Proof. exact scatter_perm. Qed.
Print Assumptions C17_deposit_order_independent.

(** C19, deposit: with the ghost width of the build, every element that is added to exists.
    For even orders the upper half of the cell above the box is excluded. *)
Theorem C19_deposit_in_bounds_partial : forall o third inv_dt ns p, (o <= 11)%nat ->
  Forall2 (move_in o) ns (mvs p) ->
  Forall (fun c => allocated (n_ghosts o) ns (index_of c)) (deposit (n_ghosts o) o third inv_dt p).
Proof. exact deposit_range. Qed.
Print Assumptions C19_deposit_in_bounds_partial.

(** C19 is false for order 2: a particle that leaves the box by 3/4 of a cell adds a non-zero
    value past the end of the array. *)
Theorem C19_even_order_refuted : exists p c,
  Forall short_move (mvs p) /\ Forall (fun m => (-1 <= ci m <= 10 /\ -1 <= pi m <= 10)%Z) (mvs p) /\
  In c (deposit (n_ghosts 2) 2 (1/3) 1 p) /\ snd c <> 0 /\ ~ allocated (n_ghosts 2) [10%Z] (index_of c).
Proof. exact deposit_overrun. Qed.
Print Assumptions C19_even_order_refuted.

(** C19, interpolation: every element that is read exists. *)
Theorem C19_interpolation_in_bounds : forall o c ps ns, Forall2 (inside_or_next o) ns ps ->
  Forall (allocated (n_ghosts o) ns) (reads o c (map (ghosted (n_ghosts o)) ps)).
Proof. exact reads_range. Qed.
Print Assumptions C19_interpolation_in_bounds.

(** A particle that crosses a cell edge; it moves charge from nodes 2, 3 to nodes 3, 4. *)
Definition crossing : prtl :=
  {| dead := false; mvs := [{| ci := 1; cdx := 1/4; pi := 0; pdx := 3/4 |}]; vp1 := 0; vp2 := 0; qw := 2 |}.
Example C16_case_valid : dims 1 short_move crossing.
Proof.
  split; [reflexivity|]. cbn. constructor; [|constructor]. unfold short_move, valid_move, now, before. cbn.
  repeat split; try lra; try lia. rewrite Rabs_pos_eq; lra.
Qed.
Example C16_case_zigzag : divJ (scatter (deposit 2 0 (1/3) 1 crossing) (fun _ _ => 0)) [3%Z] = 0 /\
                   divJ (scatter (deposit 2 0 (1/3) 1 crossing) (fun _ _ => 0)) [2%Z] = 1/2.
Proof.
  split; cbn; unfold add, set; repeat (destruct list_eq_dec; try discriminate; try congruence); cbn;
  unfold zz_F1, zz_F2, zz_r, bit; cbn; lra.
Qed.
Example C19_case : move_in 2 10 {| ci := 9; cdx := 3/4; pi := 10; pdx := 0 |}.
Proof. unfold move_in, inside_or_next. cbn. repeat split; try lra; try lia; try discriminate. Qed.
