(** Vocabulary for conducting walls, stated from the positions of the components on the
    staggered grid. *)
From Coq Require Import ZArith List Bool Reals.
From Verif Require Import Base FieldModel WallModel.
Import ListNotations.
Open Scope Z_scope.

(** E or B, and its direction. *)
Definition electric (c : comp) : bool := match c with Ex1 | Ex2 | Ex3 => true | _ => false end.
Definition along (c : comp) : nat := match c with Ex1 | Bx1 => 0 | Ex2 | Bx2 => 1 | Ex3 | Bx3 => 2 end%nat.
(** Twice the coordinate in direction [o], in cells, of the value of [c] with index [i]: E lies
    half a cell up in its own direction, B in the two others. *)
Definition twice_pos (c : comp) (o : nat) (i : Z) : Z :=
  2 * i + (if Bool.eqb (electric c) (Nat.eqb (along c) o) then 1 else 0).
(** Reflection in a perfect conductor changes the sign of tangential E and of normal B. *)
Definition sign (c : comp) (o : nat) : R :=
  if Bool.eqb (electric c) (Nat.eqb (along c) o) then 1%R else (-1)%R.

(** [y] is the mirror image of [x] in the wall at [e] in direction [o]. *)
Definition image (c : comp) (o : nat) (e : Z) (x y : list Z) : Prop :=
  length y = length x /\ twice_pos c o (nth o x 0) + twice_pos c o (nth o y 0) = 4 * e /\
  forall k, k <> o -> nth k y 0 = nth k x 0.

(** The array, ghost cells included. *)
Definition whole (g : Z) (n : list Z) : list Z := map (fun k => k + 2 * g) n.
Definition tagged (setE setB : bool) (c : comp) : bool := if electric c then setE else setB.

(** The values of [c] at the wall and, up to [depth] cells, behind it are those of a conductor. *)
Definition conducting (c : comp) (g : Z) (n : list Z) (o : nat) (P : bool) (depth : Z) (F : fields) : Prop :=
  let e := wall_edge g n o P in
  forall x, in_box x (whole g n) ->
    (twice_pos c o (nth o x 0) = 2 * e -> F c x = 0%R) /\
    ((if P then 2 * e < twice_pos c o (nth o x 0) < 2 * (e + depth)
      else 2 * (e - depth) <= twice_pos c o (nth o x 0) < 2 * e) ->
     forall y, image c o e x y -> F c x = (sign c o * F c y)%R).
(** Values at the wall that are not zero, and inside of it. *)
Definition inner (c : comp) (g : Z) (n : list Z) (o : nat) (P : bool) (x : list Z) : Prop :=
  let e := wall_edge g n o P in
  if P then twice_pos c o (nth o x 0) < 2 * e else 2 * e < twice_pos c o (nth o x 0).

(** A face and the order in which its threads ran: every cell of the range once. *)
Definition good_order (g : Z) (n : list Z) (o : nat) (P : bool) (order : list (list Z)) : Prop :=
  NoDup order /\ forall t, In t order <-> in_box t (wall_range g n o P).
Definition ok_face (g : Z) (n : list Z) (f : nat * bool * list (list Z)) : Prop :=
  let '(o, P, order) := f in (o < length n)%nat /\ good_order g n o P order.
(** Ghost cells filled: all, except the last one of an upper side for the components that lie
    half a cell off the wall. *)
Definition filled (c : comp) (g : Z) (o : nat) (P : bool) : Z :=
  if P && Bool.eqb (electric c) (Nat.eqb (along c) o) then g - 1 else g.
