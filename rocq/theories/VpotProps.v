(** C72: vector potential in the output (2D GR). *)
From Coq Require Import ZArith List Bool Reals Lra Lia.
From Verif Require Import Base DecompModel HaloSpec HaloProofs VpotModel VpotSpec VpotProofs.
Import ListNotations.
Open Scope R_scope.

(** Every rank in its place on an n1 x n2 grid of ranks, in any interleaving: once all ranks are
    through, each active cell of each rank holds the potential of the undivided grid. *)
Theorem C72_independent_of_the_decomposition :
  forall (l1 l2 : list Z) (sdG : R -> R -> R) (BG : Z -> Z -> R) (sd : Z -> R -> R -> R) (B1 : Z -> Z -> Z -> R) sched,
  let n1 := Z.of_nat (length l1) in let n2 := Z.of_nat (length l2) in
  let size k r := nth k (sub_ncells (sub_of [l1; l2] r)) 0%Z in
  let start k r := nth k (sub_offset_ncells (sub_of [l1; l2] r)) 0%Z in
  let is_rank r := (0 <= r < n1 * n2)%Z in
  Forall (fun n => 0 < n)%Z l1 -> Forall (fun n => 0 < n)%Z l2 ->
  (forall r x y, is_rank r -> sd r x y = sdG (IZR (start 0%nat r) + x) (IZR (start 1%nat r) + y)) ->
  (forall r i j, is_rank r -> (0 <= i < size 0%nat r)%Z -> (-1 <= j < size 1%nat r)%Z ->
     B1 r i j = BG (start 0%nat r + i)%Z (start 1%nat r + j)%Z) ->
  Forall is_rank sched ->
  let st := vexec (size 0%nat) (size 1%nat) sched (vstart (size 0%nat) (size 1%nat) sd B1 n1 n2) in
  vdone n1 n2 st ->
  forall r i j, is_rank r -> (0 <= i < size 0%nat r)%Z -> (0 <= j < size 1%nat r)%Z ->
  vbuf st r i j =
  potential (fun i k => sdG (IZR i) (IZR k + / 2) * BG i k) (start 0%nat r + i)%Z (start 1%nat r + j)%Z.
Proof. exact (fun l1 l2 sdG BG sd B1 sched W1 W2 Hs Hb F D r i j Hr Hi Hj => proj1 (whole_grid l1 l2 sdG BG sd B1 W2 Hs Hb sched F) r i j D Hr Hi Hj). Qed.
Print Assumptions C72_independent_of_the_decomposition.

(** However far the ranks have got, they can all finish: no deadlock. *)
Theorem C72_no_deadlock :
  forall (l1 l2 : list Z) (sd : Z -> R -> R -> R) (B1 : Z -> Z -> Z -> R) sched,
  let n1 := Z.of_nat (length l1) in let n2 := Z.of_nat (length l2) in
  let size k r := nth k (sub_ncells (sub_of [l1; l2] r)) 0%Z in
  let is_rank r := (0 <= r < n1 * n2)%Z in
  Forall (fun n => 0 < n)%Z l1 -> Forall (fun n => 0 < n)%Z l2 -> Forall is_rank sched ->
  let run l st := vexec (size 0%nat) (size 1%nat) l st in
  exists more, Forall is_rank more /\ vdone n1 n2 (run more (run sched (vstart (size 0%nat) (size 1%nat) sd B1 n1 n2))).
Proof. exact no_deadlock. Qed.
Print Assumptions C72_no_deadlock.

(** What the sum is: the change of A_3 from the face below the grid to the far face of the cell,
    exactly when A_3 is quadratic in the second coordinate (sqrt(h) B^1 is its derivative). *)
Theorem C72_exact_for_quadratic_potentials : forall w i c0 c1 c2 J, (-1 <= J)%Z ->
  (forall k, (-1 <= k <= J)%Z -> w i k = c1 + 2 * c2 * (IZR k + / 2)) ->
  let A y := c0 + c1 * y + c2 * (y * y) in potential w i J = A (IZR J + / 2) - A (- / 2).
Proof. exact potential_quadratic. Qed.
Print Assumptions C72_exact_for_quadratic_potentials.

(** Its difference between two neighbouring cells is the mean flux through their faces. *)
Theorem C72_difference : forall w i J, (0 <= J)%Z ->
  potential w i J - potential w i (J - 1) = (w i (J - 1)%Z + w i J) / 2.
Proof. exact potential_step. Qed.
Print Assumptions C72_difference.

(** The potential is not the flux counted from the axis: sqrt(h) B^1 changes sign there, so
    that the first row is zero whatever the field, whereas the flux between the axis (at 0) and
    the face at 1/2 is not, e.g. for A = y^2. *)
Theorem C72_axis_refuted : exists (w : Z -> Z -> R) (A : R -> R),
  (forall i k, w i k = 2 * (IZR k + / 2)) /\ (forall y, A y = y * y) /\
  forall i, potential w i 0 <> A (/ 2) - A 0.
Proof. exact axis_refuted. Qed.
Print Assumptions C72_axis_refuted.

(** 2 x 2 ranks of unequal size, sqrt(h) = x + y, B^1 = 1: rank 3 holds the sum over the whole column. *)
Definition ex_l1 : list Z := [2; 1]%Z.
Definition ex_l2 : list Z := [1; 2]%Z.
Example ex_ranks : map (fun r => (sub_ncells (sub_of [ex_l1; ex_l2] r), sub_offset_ncells (sub_of [ex_l1; ex_l2] r))) [0; 1; 2; 3]%Z =
  [([2; 1], [0; 0]); ([1; 1], [2; 0]); ([2; 2], [0; 1]); ([1; 2], [2; 1])]%Z.
Proof. reflexivity. Qed.
Definition ex_size (k : nat) (r : Z) : Z := nth k (sub_ncells (sub_of [ex_l1; ex_l2] r)) 0%Z.
Definition ex_start (k : nat) (r : Z) : Z := nth k (sub_offset_ncells (sub_of [ex_l1; ex_l2] r)) 0%Z.
Definition ex_st : vstate :=
  vexec (ex_size 0) (ex_size 1) [3; 2; 0; 2; 1; 2; 3]%Z
    (vstart (ex_size 0) (ex_size 1) (fun r x y => IZR (ex_start 0 r) + x + (IZR (ex_start 1 r) + y)) (fun _ _ _ => 1) 2 2).
Example ex_done : vdone 2 2 ex_st.
Proof.
  intros r Hr. assert (r = 0 \/ r = 1 \/ r = 2 \/ r = 3)%Z as [->|[->|[->| ->]]] by lia; reflexivity.
Qed.
Example ex_value : vbuf ex_st 3%Z 0%Z 1%Z = 9.
Proof.
  unfold ex_st.
  rewrite (C72_independent_of_the_decomposition ex_l1 ex_l2 (fun x y => x + y) (fun _ _ => 1) _ (fun _ _ _ => 1) [3; 2; 0; 2; 1; 2; 3]%Z).
  - change (nth 0 (sub_offset_ncells (sub_of [ex_l1; ex_l2] 3)) 0%Z) with 2%Z. change (nth 1 (sub_offset_ncells (sub_of [ex_l1; ex_l2] 3)) 0%Z) with 1%Z.
    unfold potential. change (zrange 0 (1 + 1 + 1)) with [0; 1; 2]%Z. cbn. lra.
  - repeat constructor.
  - repeat constructor.
  - intros r x y _. reflexivity.
  - reflexivity.
  - repeat constructor; discriminate.
  - exact ex_done.
  - vm_compute. intuition congruence.
  - vm_compute. intuition congruence.
  - vm_compute. intuition congruence.
Qed.
