(** Vocabulary for region queries. *)
From Coq Require Import ZArith List Bool Reals.
From Verif Require Import Base MeshModel.
Import ListNotations.
Open Scope R_scope.

(** [x] lies in the box / in the extent, in one dimension. *)
Definition above_end (b : bnd) (x : R) : Prop := match b with NInf => True | Fin y => y <= x | PInf => False end.
Definition below_end (b : bnd) (x : R) : Prop := match b with NInf => False | Fin y => x <= y | PInf => True end.
Definition within (b : bnd * bnd) (x : R) : Prop := above_end (fst b) x /\ below_end (snd b) x.
Definition within_ext (e : R * R) (x : R) : Prop := fst e <= x <= snd e.
(** Both, and more than a single point. *)
Definition overlap (e : R * R) (b : bnd * bnd) : Prop :=
  exists x y, x < y /\ within_ext e x /\ within_ext e y /\ within b x /\ within b y.

(** Not open above with a lower end given. *)
Definition not_half_open (b : bnd * bnd) : Prop := snd b = PInf -> fst b = NInf.
Definition proper (e : R * R) : Prop := fst e < snd e.

(** A conversion to code coordinates on a mesh with [n] cells over the extent [e]. *)
Definition grid_map (conv : R -> R) (e : R * R) (n : Z) : Prop :=
  (forall x y, within_ext e x -> within_ext e y -> x < y -> conv x < conv y) /\
  conv (fst e) = 0 /\ conv (snd e) = IZR n /\
  (forall c, 0 <= c <= IZR n -> exists x, within_ext e x /\ conv x = c).

(** The interior of cell [j] has a point of the box and the extent. *)
Definition cell_meets (conv : R -> R) (e : R * R) (b : bnd * bnd) (j : Z) : Prop :=
  exists x, within_ext e x /\ within b x /\ IZR j < conv x < IZR (j + 1).

(** The common part of extent and box is no longer than a rounding error of its ends. *)
Definition sliver (eps : R) (e : R * R) (b : bnd * bnd) : Prop :=
  exists x y, (forall t, x <= t <= y <-> within_ext e t /\ within b t) /\ y - x <= Rmin (Rabs x) (Rabs y) * eps.

Open Scope Z_scope.
(** One increasing conversion, one extent and one cell count per dimension. *)
Definition dims_ok (g : Z) (convs : list (R -> R)) (ext : list (R * R)) (ns : list Z) : Prop :=
  0 <= g /\ length convs = length ext /\ length ns = length ext /\
  forall d conv e n, nth_error convs d = Some conv -> nth_error ext d = Some e -> nth_error ns d = Some n ->
    proper e /\ grid_map conv e n /\ 0 <= n /\ n + 2 * g < 2 ^ 32.
