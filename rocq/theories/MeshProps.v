(** C40: region queries on a mesh. *)
From Coq Require Import ZArith List Bool Lia Reals Lra.
From Verif Require Import Base MeshModel MeshSpec MeshProofs.
From Flocq Require Import Core.Raux.
Import ListNotations.
Open Scope R_scope.

(** The full statement also covers boxes with a lower end but no upper end; there it fails, see
    the refutation below.  For all other boxes, finite or open: one entry per dimension, which
    is exactly the common part of extent and box, or has its upper end not above its lower one if
    there is no common part (or only a single point). *)
Theorem C40_intersection_partial :
  forall ext box, Forall proper ext -> Forall not_half_open box -> length box = length ext ->
  exists l, intersection ext box = Ok l /\ length l = length ext /\
    forall d e b i, nth_error ext d = Some e -> nth_error box d = Some b -> nth_error l d = Some i ->
      (overlap e b -> exists x y, i = (Fin x, Fin y) /\ x < y /\ forall t, x <= t <= y <-> within_ext e t /\ within b t) /\
      (~ overlap e b -> exists x y, i = (Fin x, Fin y) /\ y <= x).
Proof. exact intersection_ok. Qed.
Print Assumptions C40_intersection_partial.

(** The yes/no query is right up to overlaps no longer than a rounding error. *)
Theorem C40_intersects_partial :
  forall eps ext box, 0 <= eps -> Forall proper ext -> Forall not_half_open box -> length box = length ext ->
  exists r, intersects eps ext box = Ok r /\
    (r = true -> Forall2 overlap ext box) /\
    (Forall2 overlap ext box -> r = true \/ exists d e b, nth_error ext d = Some e /\ nth_error box d = Some b /\ sliver eps e b).
Proof. exact intersects_ok. Qed.
Print Assumptions C40_intersects_partial.

(** A box open above only: its dimension disappears from the intersection, and a box far outside
    the mesh is reported as intersecting it. *)
Theorem C40_open_above_refuted :
  exists ext box, Forall proper ext /\ length box = length ext /\ intersection ext box = Ok [] /\
    (forall eps, intersects eps ext box = Ok true) /\
    forall d e b x, nth_error ext d = Some e -> nth_error box d = Some b -> ~ (within_ext e x /\ within b x).
Proof.
  exists [(0, 1)], [(Fin 5, PInf)]. split; [constructor; [unfold proper; cbn; lra|constructor]|]. split; [reflexivity|].
  split; [exact (proj1 half_open_wrong)|]. split; [exact (proj1 (proj2 half_open_wrong))|].
  intros [|[|d]] e b x He Hb; try discriminate He. injection He as <-. injection Hb as <-. exact (proj2 (proj2 half_open_wrong) x).
Qed.
Print Assumptions C40_open_above_refuted.

Open Scope Z_scope.
(** Cell ranges without ghost cells, for every kind of box: an index is in the range exactly when
    the box reaches into the interior of that active cell, in every dimension. *)
Theorem C40_range_covers_exactly_the_cells :
  forall eps g convs ext ns box ghs, (0 <= eps)%R -> dims_ok g convs ext ns -> length box = length ext ->
  length ghs = length ext -> Forall (fun gh => gh = (false, false)) ghs -> intersects eps ext box = Ok true ->
  exists rs, extent_to_range eps g convs ext ns box ghs = Ok rs /\ length rs = length ext /\
    forall d conv e n b r, nth_error convs d = Some conv -> nth_error ext d = Some e -> nth_error ns d = Some n -> nth_error box d = Some b ->
      nth_error rs d = Some r -> g <= fst r /\ snd r <= n + g /\ forall i, fst r <= i < snd r <-> cell_meets conv e b (i - g).
Proof. exact range_cells. Qed.
Print Assumptions C40_range_covers_exactly_the_cells.

(** No intersection: empty ranges. *)
Theorem C40_no_cells_outside :
  forall eps g convs ext ns box ghs, length box = length ext -> length ghs = length ext ->
  intersects eps ext box = Ok false -> extent_to_range eps g convs ext ns box ghs = Ok (map (fun _ => (0, 0)) box).
Proof. exact range_outside. Qed.
Print Assumptions C40_no_cells_outside.

(** With ghost cells requested on a side: a box reaching the end of the mesh gets them all; a box
    ending inside the mesh gets its first (last) index shifted by the ghost width, see below. *)
Theorem C40_ranges_with_ghosts :
  forall g conv e n b gh a c, 0 <= g -> 0 <= n -> n + 2 * g < 2 ^ 32 -> grid_map conv e n -> proper e ->
  range1 g conv e n b gh = Ok (a, c) ->
  (fst gh = true -> above_end (fst b) (fst e) -> a = 0) /\
  (snd gh = true -> below_end (snd b) (snd e) -> c = n + 2 * g) /\
  (fst gh = true -> forall y, fst b = Fin y -> (fst e <= y <= snd e)%R -> a = Zfloor (conv y)) /\
  (snd gh = true -> forall y, snd b = Fin y -> (fst e <= y <= snd e)%R -> c = Zceil (conv y) + 2 * g).
Proof. exact range_ghosts. Qed.
Print Assumptions C40_ranges_with_ghosts.

(** ... so that the range then contains active cells the box does not touch. *)
Theorem C40_interior_end_with_ghosts_refuted :
  exists g conv e n b a c i, grid_map conv e n /\ range1 g conv e n b (true, false) = Ok (a, c) /\
    g <= i /\ a <= i < c /\ ~ cell_meets conv e b (i - g).
Proof.
  destruct ghost_low_wrong as [a [c [H1 [H2 H3]]]]. exists 2, (fun x => x), (0%R, 10%R), 10, (Fin 4, Fin 10), a, c, 4.
  split; [|repeat split; auto; lia].
  split; [auto|]. split; [reflexivity|]. split; [reflexivity|]. intros x Hx. exists x. split; auto.
Qed.
Print Assumptions C40_interior_end_with_ghosts_refuted.

(** Cartesian meshes provide such conversions: metrics/minkowski.h:157-170. *)
Theorem C40_cartesian_conversion :
  forall x0 dx n, (0 < dx)%R -> 0 < n ->
  grid_map (fun x => (x - x0) / dx)%R (x0, x0 + IZR n * dx)%R n /\ proper (x0, x0 + IZR n * dx)%R.
Proof. exact linear_map. Qed.
Print Assumptions C40_cartesian_conversion.

(** Concrete cases.  Extent [0, 10], box (-inf, 3/2]: the first two cells of ten. *)
Example C40_example_range : forall eps, (0 <= eps)%R -> (eps <= 1 / 10)%R ->
  exists rs, extent_to_range eps 2 [fun x => (x - 0) / 1]%R [(0, 0 + 10 * 1)]%R [10] [(NInf, Fin (3 / 2))] [(false, false)] = Ok rs /\
    exists r, rs = [r] /\ fst r <= 3 < snd r /\ ~ fst r <= 4 < snd r.
Proof.
  intros eps He Hs. destruct (linear_map 0 1 10 ltac:(lra) ltac:(lia)) as [G P].
  assert (D : dims_ok 2 [fun x => (x - 0) / 1]%R [(0, 0 + 10 * 1)]%R [10]).
  { split; [lia|]. split; [auto|]. split; [auto|]. intros [|[|d]] conv e n H1 H2 H3; try discriminate H1.
    injection H1 as <-. injection H2 as <-. injection H3 as <-. split; [exact P|]. split; [exact G|]. lia. }
  assert (I : intersects eps [(0, 0 + 10 * 1)]%R [(NInf, Fin (3 / 2))] = Ok true).
  { destruct (intersects_ok eps [(0, 0 + 10 * 1)]%R [(NInf, Fin (3 / 2))] He) as [r [H [_ Hr]]].
    - constructor; auto.
    - constructor; [discriminate|constructor].
    - reflexivity.
    - rewrite H. f_equal. destruct Hr as [Hr|[d [e [b [H1 [H2 [x [y [S1 S2]]]]]]]]]; auto.
      + constructor; [|constructor]. exists 0%R, 1%R. unfold within_ext, within. cbn. repeat split; lra.
      + exfalso. destruct d as [|[|d]]; try discriminate H1. injection H1 as <-. injection H2 as <-. unfold within_ext, within in S1. cbn in S1.
        pose proof (proj2 (S1 0%R) ltac:(repeat split; lra)) as A0. pose proof (proj2 (S1 (3 / 2)%R) ltac:(repeat split; lra)) as A1.
        pose proof (proj1 (S1 x) ltac:(lra)) as A2. pose proof (proj1 (S1 y) ltac:(lra)) as A3.
        assert (x = 0%R) by lra. assert (y = (3 / 2)%R) by lra. subst x y. rewrite Rabs_R0 in S2. unfold Rmin in S2.
        rewrite (Rabs_pos_eq (3 / 2)) in S2 by lra. destruct (Rle_dec _ _); lra. }
  destruct (range_cells eps 2 _ _ _ [(NInf, Fin (3 / 2))] [(false, false)] He D eq_refl eq_refl ltac:(repeat constructor) I) as [rs [E [L H]]].
  exists rs. split; [exact E|]. destruct rs as [|r [|? ?]]; try discriminate L. exists r. split; auto.
  destruct (H 0%nat _ _ _ _ r eq_refl eq_refl eq_refl eq_refl eq_refl) as [_ [_ C]]. rewrite !C. unfold cell_meets, within_ext, within. cbn [fst snd above_end below_end].
  split.
  - exists (5 / 4)%R. change (3 - 2) with 1. repeat split; cbn; lra.
  - intros [x [A [[_ B] [X Y]]]]. change (4 - 2) with 2 in *. cbn in X. lra.
Qed.

Example C40_example_intersection :
  overlap (0, 10)%R (Fin 3, Fin 20) /\ not_half_open (Fin 3, Fin 20) /\ ~ overlap (0, 10)%R (NInf, Fin (-1)).
Proof.
  split; [|split].
  - exists 4%R, 5%R. unfold within_ext, within. cbn. repeat split; lra.
  - discriminate.
  - intros [x [y [H [A [B [[_ C] _]]]]]]. unfold within_ext in A. cbn in *. lra.
Qed.
