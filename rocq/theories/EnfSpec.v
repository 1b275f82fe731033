(** Fields enforced inside an atmosphere: what the fields become. *)
From Coq Require Import ZArith List Bool Reals.
From Verif Require Import Base DecompModel DecompSpec FieldModel HaloSpec InterpSpec MatchSpec.
Import ListNotations.
Open Scope R_scope.

(** The element of component [c] with index [X] lies on the node [K] of axis [o] or on its outer side. *)
Definition outside (up : bool) (o : nat) (K : Z) (c : comp) (X : list Z) : Prop :=
  if up then IZR K <= nth o (place c X) 0 else nth o (place c X) 0 <= IZR K.
Definition outside_dec up o K c X : {outside up o K c X} + {~ outside up o K c X}.
Proof. unfold outside. destruct up; apply Rle_dec. Defined.

(** The user's fields at the elements outside node [K], everything else as it was. *)
Definition enforced (h : R) (x0 : list R) (o : nat) (up : bool) (K : Z) (tu : nat -> R -> R)
    (setter : comp -> option (list R -> R)) (on : comp -> bool) (F : fields) : fields := fun c X =>
  match setter c with
  | Some f => if on c then if outside_dec up o K c X then tu (S (axis_of c)) (f (point h x0 c X)) else F c X else F c X
  | None => F c X
  end.

(** Thickness of the atmosphere in cells: five, or two more than the number of filter passes. *)
Definition atm_cells (filters : Z) : Z := Z.max 5 (filters + 2).
(** The node at which the enforced fields end, on a grid of [N] cells. *)
Definition field_surface (up : bool) (N filters : Z) : Z := (if up then N - atm_cells filters else atm_cells filters - 1)%Z.
(** First cell of the atmosphere (upper side), or first cell beyond it (lower side). *)
Definition first_cell (up : bool) (N filters : Z) : Z := (if up then N - atm_cells filters else atm_cells filters)%Z.

(** A Cartesian grid divided into subdomains. *)
Definition grid_ok (eps h : R) (g : Z) (ls : list (list Z)) (x0 : list R) : Prop :=
  0 <= eps /\ 0 < h /\ (1 <= length ls <= 3)%nat /\ length x0 = length ls /\ wide g ls /\
  Forall (Forall (fun n => n + 2 * g < 2 ^ 32)%Z) ls /\ no_slivers eps h x0 ls.
(** The atmosphere on a side fits into the grid and stays clear of the borders between subdomains. *)
Definition side_ok (eps h : R) (g : Z) (ls : list (list Z)) (x0 : list R) (filters : Z) (o : nat) (up : bool) : Prop :=
  let N := nth o (map sumZ ls) 0%Z in
  (o < length ls)%nat /\ (atm_cells filters <= N < 2 ^ 32)%Z /\
  resolved eps (slab up (extent_along h x0 (map sumZ ls) o) (IZR (atm_cells filters) * h)) /\
  clear_of_borders g ls o up (first_cell up N filters).
