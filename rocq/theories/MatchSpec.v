(** Matching layers: what the fields become. *)
From Coq Require Import ZArith List Bool Reals.
From Verif Require Import Base DecompModel DecompSpec FieldModel HaloSpec InterpSpec.
Import ListNotations.
Open Scope R_scope.

(** The boundary update was asked for electric (bits 0-2) or magnetic (bits 3-5) components. *)
Definition asked (tags : Z) (c : comp) : Prop :=
  exists b, (if electric c then 0 <= b <= 2 else 3 <= b <= 5)%Z /\ Z.testbit tags b = true.

(** Weight of the old value at distance [d] from the edge: rises from zero to (almost) one over
    the thickness. *)
Definition weight (ds d : R) : R := 1 - 2 / (exp (8 * d / ds) + 1).
Definition blend (w old target : R) : R := w * old + (1 - w) * target.

(** Fields of the whole grid after matching along axis [o].  Cells of side [h], lower corner [x0].
    The cells of the layer: those with index at least [L] (upper side) or below [L]. *)
Definition in_layer (up : bool) (o : nat) (L : Z) (X : list Z) : bool :=
  if up then (L <=? nth o X 0)%Z else (nth o X 0 <? L)%Z.
Definition point (h : R) (x0 : list R) (c : comp) (X : list Z) : list R := map2 (fun a q => q * h + a) x0 (place c X).
Definition matched (h : R) (x0 : list R) (o : nat) (up : bool) (L : Z) (edge ds : R) (tu : nat -> R -> R)
    (setter : comp -> option (list R -> R)) (on : comp -> bool) (F : fields) : fields := fun c X =>
  match setter c with
  | Some f => if on c && in_layer up o L X
              then blend (weight ds (Rabs (nth o (point h x0 c X) 0 - edge))) (F c X) (tu (S (axis_of c)) (f (point h x0 c X)))
              else F c X
  | None => F c X
  end.

(** The layer reaches neither a border between subdomains nor the ghost cells of the neighbour. *)
Definition clear_of_borders (g : Z) (ls : list (list Z)) (o : nat) (up : bool) (L : Z) : Prop :=
  forall d, In d (domains ls) -> let s := nth o (sub_offset_ncells d) 0%Z in let n := nth o (sub_ncells d) 0%Z in
  if up then (s + n = nth o (map sumZ ls) 0 /\ s <= L \/ s + n + g <= L)%Z else (s = 0 /\ L <= n \/ L <= s - g)%Z.

(** Extent longer than a rounding error. *)
Definition resolved (eps : R) (e : R * R) : Prop := eps * Rmin (Rabs (fst e)) (Rabs (snd e)) < snd e - fst e.
(** Lower corner of a subdomain that starts at cell [s]; extent of the grid along [o]. *)
Definition corner (h : R) (x0 : list R) (s : list Z) : list R := map2 (fun a k => a + IZR k * h) x0 s.
Definition extent_along (h : R) (x0 : list R) (N : list Z) (o : nat) : R * R :=
  (nth o x0 0, nth o x0 0 + IZR (nth o N 0%Z) * h).
(** First cell of the layer (upper side), or first cell beyond it (lower side). *)
Definition starts (up : bool) (h ds : R) (N L : Z) : Prop :=
  if up then IZR L <= IZR N - ds / h < IZR L + 1 else IZR L - 1 < ds / h <= IZR L.
Definition no_slivers (eps h : R) (x0 : list R) (ls : list (list Z)) : Prop :=
  forall d i, In d (domains ls) -> (i < length ls)%nat -> let a := nth i (corner h x0 (sub_offset_ncells d)) 0 in
  resolved eps (a, a + IZR (nth i (sub_ncells d) 0%Z) * h).

(** The third electric component on a polar axis ([n2] cells between the axes) or beyond it. *)
Definition on_axis (axlo axhi : bool) (n2 : Z) (c : comp) (y : list Z) : bool :=
  match c, y with
  | Ex3, _ :: y2 :: _ => axlo && (y2 <=? 0)%Z || axhi && (n2 <=? y2)%Z
  | _, _ => false
  end.

(** The edge of the grid on the given side, and the layer of thickness [ds] inside it. *)
Definition edge_pos (up : bool) (e : R * R) : R := if up then snd e else fst e.
Definition slab (up : bool) (e : R * R) (ds : R) : R * R :=
  if up then (snd e - ds, snd e) else (fst e, fst e + ds).
