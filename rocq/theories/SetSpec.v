(** Fields set by the problem generator: what they become. *)
From Coq Require Import ZArith List Bool Reals.
From Verif Require Import Base FieldModel ShapeSpec InterpSpec.
Import ListNotations.
Open Scope R_scope.

(** The user's functions at the components' own positions, converted there. *)
Definition initial (PH : list R -> list R) (TU : nat -> list R -> R -> R) (setter : comp -> option (list R -> R)) (F : fields) : fields :=
  fun c X => match setter c with
             | Some f => TU (S (axis_of c)) (place c X) (f (PH (place c X)))
             | None => F c X
             end.
(** The component [s] at the position of component [t] of cell [y]: along each axis the element
    itself where the two are placed alike, else the mean of the two neighbours. *)
Fixpoint brought (t s : comp) (d : nat) (f : list Z -> R) (y : list Z) : R :=
  match y with
  | [] => f []
  | i :: r =>
      let at_ j := brought t s (S d) (fun r => f (j :: r)) r in
      if Bool.eqb (mid_cell t d) (mid_cell s d) then at_ i
      else if mid_cell t d then (at_ i + at_ (i + 1)%Z) / 2 else (at_ (i - 1)%Z + at_ i) / 2
  end.
(** The vectors handed to the user's function. *)
Definition e_there (t : comp) (F : fields) (y : list Z) : list R := map (fun s => brought t s 0 (F s) y) [Ex1; Ex2; Ex3].
Definition b_there (t : comp) (F : fields) (y : list Z) : list R := map (fun s => brought t s 0 (F s) y) [Bx1; Bx2; Bx3].
(** The update: every component decided from the fields before the update. *)
Definition updated (PH : list R -> list R) (TU : nat -> list R -> R -> R) (TT : list R -> list R -> list R)
    (setter : comp -> option (list R -> list R -> list R -> bool * R)) (F : fields) : fields :=
  fun c X => match setter c with
             | Some f =>
                 let p := place c X in
                 let '(flag, v) := f (PH p) (TT p (e_there c F X)) (TT p (b_there c F X)) in
                 if flag then TU (S (axis_of c)) p v else F c X
             | None => F c X
             end.
(** A position counted from a subdomain's corner, counted from the corner of the whole grid. *)
Definition shifted (s : list Z) (p : list R) : list R := map2 Rplus (map IZR s) p.
