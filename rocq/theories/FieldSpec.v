(** Discrete divergences and stencils, stated on plain array contents. *)
From Coq Require Import ZArith List Reals.
From Verif Require Import FieldModel.
Import ListNotations.
Open Scope R_scope.

(** Divergence of B (components on cell faces): forward differences. *)
Definition divB (F : fields) (x : list Z) : R :=
  match x with
  | [i1] => F Bx1 [(i1 + 1)%Z] - F Bx1 [i1]
  | [i1; i2] => (F Bx1 [(i1 + 1)%Z; i2] - F Bx1 [i1; i2])
              + (F Bx2 [i1; (i2 + 1)%Z] - F Bx2 [i1; i2])
  | [i1; i2; i3] => (F Bx1 [(i1 + 1)%Z; i2; i3] - F Bx1 [i1; i2; i3])
                  + (F Bx2 [i1; (i2 + 1)%Z; i3] - F Bx2 [i1; i2; i3])
                  + (F Bx3 [i1; i2; (i3 + 1)%Z] - F Bx3 [i1; i2; i3])
  | _ => 0
  end.

(** Divergence of E (components on cell edges) at a node: backward differences, as in
    src/kernels/divergences.hpp:45-96. *)
Definition divE (F : fields) (x : list Z) : R :=
  match x with
  | [i1] => F Ex1 [i1] - F Ex1 [(i1 - 1)%Z]
  | [i1; i2] => (F Ex1 [i1; i2] - F Ex1 [(i1 - 1)%Z; i2])
              + (F Ex2 [i1; i2] - F Ex2 [i1; (i2 - 1)%Z])
  | [i1; i2; i3] => (F Ex1 [i1; i2; i3] - F Ex1 [(i1 - 1)%Z; i2; i3])
                  + (F Ex2 [i1; i2; i3] - F Ex2 [i1; (i2 - 1)%Z; i3])
                  + (F Ex3 [i1; i2; i3] - F Ex3 [i1; i2; (i3 - 1)%Z])
  | _ => 0
  end.

(** Divergence of a current at a node. *)
Definition divJ (J : jcomp -> list Z -> R) (x : list Z) : R :=
  match x with
  | [i1] => J Jx1 [i1] - J Jx1 [(i1 - 1)%Z]
  | [i1; i2] => (J Jx1 [i1; i2] - J Jx1 [(i1 - 1)%Z; i2])
              + (J Jx2 [i1; i2] - J Jx2 [i1; (i2 - 1)%Z])
  | [i1; i2; i3] => (J Jx1 [i1; i2; i3] - J Jx1 [(i1 - 1)%Z; i2; i3])
                  + (J Jx2 [i1; i2; i3] - J Jx2 [i1; (i2 - 1)%Z; i3])
                  + (J Jx3 [i1; i2; i3] - J Jx3 [i1; i2; (i3 - 1)%Z])
  | _ => 0
  end.

(** The extended differences of the dispersion-tuned solver (delta: second neighbours,
    beta: neighbouring rows), and the divergence they define. *)
Definition ext1 (d : R) (f : Z -> R) (i : Z) : R :=
  (f (i + 1)%Z - f i) + d * ((f (i + 2)%Z - f (i - 1)%Z) - 3 * (f (i + 1)%Z - f i)).
Definition side (b : R) (u : Z -> R) (j : Z) : R := b * (u (j + 1)%Z + u (j - 1)%Z - 2 * u j).

Definition div_ext (k : fcoef) (F : fields) (x : list Z) : R :=
  match x with
  | [i1] => ext1 (deltax k) (fun i => F Bx1 [i]) i1
  | [i1; i2] =>
      ext1 (deltax k) (fun i => F Bx1 [i; i2]) i1
      + side (betaxy k) (fun j => F Bx1 [(i1 + 1)%Z; j] - F Bx1 [i1; j]) i2
      + (ext1 (deltay k) (fun j => F Bx2 [i1; j]) i2
         + side (betayx k) (fun i => F Bx2 [i; (i2 + 1)%Z] - F Bx2 [i; i2]) i1)
  | [i1; i2; i3] =>
      ext1 (deltax k) (fun i => F Bx1 [i; i2; i3]) i1
      + side (betaxy k) (fun j => F Bx1 [(i1 + 1)%Z; j; i3] - F Bx1 [i1; j; i3]) i2
      + side (betaxz k) (fun l => F Bx1 [(i1 + 1)%Z; i2; l] - F Bx1 [i1; i2; l]) i3
      + (ext1 (deltay k) (fun j => F Bx2 [i1; j; i3]) i2
         + side (betayx k) (fun i => F Bx2 [i; (i2 + 1)%Z; i3] - F Bx2 [i; i2; i3]) i1
         + side (betayz k) (fun l => F Bx2 [i1; (i2 + 1)%Z; l] - F Bx2 [i1; i2; l]) i3)
      + (ext1 (deltaz k) (fun l => F Bx3 [i1; i2; l]) i3
         + side (betazx k) (fun i => F Bx3 [i; i2; (i3 + 1)%Z] - F Bx3 [i; i2; i3]) i1
         + side (betazy k) (fun j => F Bx3 [i1; j; (i3 + 1)%Z] - F Bx3 [i1; j; i3]) i2)
  | _ => 0
  end.

Definition plain (k : fcoef) : Prop :=
  deltax k = 0 /\ deltay k = 0 /\ deltaz k = 0 /\ betaxy k = 0 /\ betayx k = 0 /\
  betaxz k = 0 /\ betazx k = 0 /\ betayz k = 0 /\ betazy k = 0.

(** All cells within [lo] below and [hi] above [x] are updated. *)
Definition covered (lo hi : Z) (cells : list (list Z)) (x : list Z) : Prop :=
  forall y, Forall2 (fun a b => (a - lo <= b <= a + hi)%Z) x y -> In y cells.

(** 2D curvilinear fluxes of B through the faces of cell (i1,i2): the component times the
    area element [sdh] at the centre of the face. *)
Definition flux_divB (g : Z) (mt : metric2) (b1 b2 : list Z -> R) (i1 i2 : Z) : R :=
  sdh mt (IZR (i1 + 1 - g)) (IZR (i2 - g) + / 2) * b1 [(i1 + 1)%Z; i2]
  - sdh mt (IZR (i1 - g)) (IZR (i2 - g) + / 2) * b1 [i1; i2]
  + (sdh mt (IZR (i1 - g) + / 2) (IZR (i2 + 1 - g)) * b2 [i1; (i2 + 1)%Z]
     - sdh mt (IZR (i1 - g) + / 2) (IZR (i2 - g)) * b2 [i1; i2]).

(** 2D curvilinear flux of E out of the dual cell around node (i1,i2).  Around a node on
    the axis the dual cell is the polar cap, whose radial area is [polar_area] and which
    has only one face in the second direction. *)
Definition flux_divE (g : Z) (mt : metric2) (e1 e2 : list Z -> R) (i1 i2 : Z) : R :=
  sdh mt (IZR (i1 - g) + / 2) (IZR (i2 - g)) * e1 [i1; i2]
  - sdh mt (IZR (i1 - g) - / 2) (IZR (i2 - g)) * e1 [(i1 - 1)%Z; i2]
  + (sdh mt (IZR (i1 - g)) (IZR (i2 - g) + / 2) * e2 [i1; i2]
     - sdh mt (IZR (i1 - g)) (IZR (i2 - g) - / 2) * e2 [i1; (i2 - 1)%Z]).
Definition flux_divE_lo (g : Z) (mt : metric2) (e1 e2 : list Z -> R) (i1 i2 : Z) : R :=
  polar_area mt (IZR (i1 - g) + / 2) * e1 [i1; i2]
  - polar_area mt (IZR (i1 - g) - / 2) * e1 [(i1 - 1)%Z; i2]
  + sdh mt (IZR (i1 - g)) (IZR (i2 - g) + / 2) * e2 [i1; i2].
Definition flux_divE_hi (g : Z) (mt : metric2) (e1 e2 : list Z -> R) (i1 i2 : Z) : R :=
  polar_area mt (IZR (i1 - g) + / 2) * e1 [i1; i2]
  - polar_area mt (IZR (i1 - g) - / 2) * e1 [(i1 - 1)%Z; i2]
  - sdh mt (IZR (i1 - g)) (IZR (i2 - g) - / 2) * e2 [i1; (i2 - 1)%Z].

(** The area element does not vanish where the kernels divide by it: at the nodes, face
    centres and cell centres of the columns a0..a1, except on an axis. *)
Definition regular (g : Z) (mt : metric2) (ax_lo ax_hi : bool) (i2max a0 a1 : Z) : Prop :=
  forall a b : Z, (a0 <= a <= a1)%Z -> (-1 <= b <= i2max - g)%Z ->
    sdh mt (IZR a) (IZR b + / 2) <> 0 /\ sdh mt (IZR a + / 2) (IZR b + / 2) <> 0 /\
    polar_area mt (IZR a + / 2) <> 0 /\
    (~ (ax_lo = true /\ b = 0%Z) -> ~ (ax_hi = true /\ b = (i2max - g)%Z) ->
       sdh mt (IZR a + / 2) (IZR b) <> 0 /\ sdh mt (IZR a) (IZR b) <> 0).

(** Where there is an axis the area element and the azimuthal metric component vanish. *)
Definition on_axis (g : Z) (mt : metric2) (ax_lo ax_hi : bool) (i2max : Z) : Prop :=
  (ax_lo = true -> forall r, sdh mt r 0 = 0 /\ h33 mt r 0 = 0) /\
  (ax_hi = true -> forall r, sdh mt r (IZR (i2max - g)) = 0 /\ h33 mt r (IZR (i2max - g)) = 0).

(** A node that is not on an axis. *)
Definition node_inside (g : Z) (ax_lo ax_hi : bool) (i2max i2 : Z) : Prop :=
  ~ (ax_lo = true /\ i2 = g) /\ ~ (ax_hi = true /\ i2 = i2max).
