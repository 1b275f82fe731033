(** Field-solver kernels.
    src/kernels/faraday_mink.hpp, ampere_mink.hpp (Cartesian special relativity),
    src/kernels/faraday_sr.hpp, ampere_sr.hpp (2D, diagonal spatial metric),
    src/kernels/faraday_gr.hpp, ampere_gr.hpp (2D general relativity),
    launched from src/engines/srpic/fieldsolvers.h and src/engines/grpic/fieldsolvers.h.

    Field arrays hold exact reals.  An array element is addressed by the name of its
    component (for GR: of the array and the component) and its multi-index, ghost cells
    included.  [real_t] rounding is not modelled here. *)
From Coq Require Import ZArith List Bool Reals.
From Verif Require Import Base DirsModel.
Import ListNotations.
Open Scope Z_scope.

(** src/global/global.h [em::ex1 .. em::bx3]; the aliases
    [dx1..3] and [hx1..3] are the same indices (global.h:149-177). *)
Inductive comp := Ex1 | Ex2 | Ex3 | Bx1 | Bx2 | Bx3.
Definition comp_eq_dec (a b : comp) : {a = b} + {a <> b}.
Proof. decide equality. Defined.

(** src/global/global.h [cur::jx1 .. cur::jx3]. *)
Inductive jcomp := Jx1 | Jx2 | Jx3.
Definition jcomp_eq_dec (a b : jcomp) : {a = b} + {a <> b}.
Proof. decide equality. Defined.

Section Memory.
  Context {K : Type} (K_dec : forall a b : K, {a = b} + {a <> b}).

  Definition mem := K -> list Z -> R.

  Definition set (m : mem) (c : K) (x : list Z) (v : R) : mem :=
    fun c' x' => if K_dec c' c then if list_eq_dec Z.eq_dec x' x then v else m c' x' else m c' x'.

  (** [a(x,c) += v]. *)
  Definition add (m : mem) (c : K) (x : list Z) (v : R) : mem := set m c x (m c x + v)%R.

  (** Kokkos::parallel_for: the body runs once for every index of the range, in an order
      that is not specified.  The order is the list [cells]; bodies are not interleaved. *)
  Definition par_for (body : mem -> list Z -> mem) (cells : list (list Z)) (m : mem) : mem :=
    fold_left body cells m.
End Memory.
Arguments mem : clear implicits.

Definition fields := mem comp.
Notation fadd := (add comp_eq_dec).
Notation fset := (set comp_eq_dec).

Local Open Scope R_scope.

(** Constructor arguments of mink::Faraday_kernel, faraday_mink.hpp:44-69. *)
Record fcoef := {
  coeff1 : R; coeff2 : R;
  deltax : R; deltay : R; betaxy : R; betayx : R;
  deltaz : R; betaxz : R; betazx : R; betayz : R; betazy : R
}.

(** faraday_mink.hpp:71-85. *)
Definition faraday_1d (k : fcoef) (EB : fields) (i1 : Z) : fields :=
  let alphax := 1 - 3 * deltax k in
  let EB := fadd EB Bx2 [i1] (coeff1 k * (
        alphax * (EB Ex3 [(i1 + 1)%Z] - EB Ex3 [i1])
      + deltax k * (EB Ex3 [(i1 + 2)%Z] - EB Ex3 [(i1 - 1)%Z]))) in
  fadd EB Bx3 [i1] (coeff1 k * (
      - alphax * (EB Ex2 [(i1 + 1)%Z] - EB Ex2 [i1])
      - deltax k * (EB Ex2 [(i1 + 2)%Z] - EB Ex2 [(i1 - 1)%Z]))).

(** faraday_mink.hpp:87-115. *)
Definition faraday_2d (k : fcoef) (EB : fields) (i1 i2 : Z) : fields :=
  let alphax := 1 - 2 * betaxy k - 3 * deltax k in
  let alphay := 1 - 2 * betayx k - 3 * deltay k in
  let EB := fadd EB Bx1 [i1; i2] (coeff1 k * (
      - alphay * (EB Ex3 [i1; (i2 + 1)%Z] - EB Ex3 [i1; i2])
      - deltay k * (EB Ex3 [i1; (i2 + 2)%Z] - EB Ex3 [i1; (i2 - 1)%Z])
      - betayx k * (EB Ex3 [(i1 + 1)%Z; (i2 + 1)%Z] - EB Ex3 [(i1 + 1)%Z; i2])
      - betayx k * (EB Ex3 [(i1 - 1)%Z; (i2 + 1)%Z] - EB Ex3 [(i1 - 1)%Z; i2]))) in
  let EB := fadd EB Bx2 [i1; i2] (coeff1 k * (
        alphax * (EB Ex3 [(i1 + 1)%Z; i2] - EB Ex3 [i1; i2])
      + deltax k * (EB Ex3 [(i1 + 2)%Z; i2] - EB Ex3 [(i1 - 1)%Z; i2])
      + betaxy k * (EB Ex3 [(i1 + 1)%Z; (i2 + 1)%Z] - EB Ex3 [i1; (i2 + 1)%Z])
      + betaxy k * (EB Ex3 [(i1 + 1)%Z; (i2 - 1)%Z] - EB Ex3 [i1; (i2 - 1)%Z]))) in
  fadd EB Bx3 [i1; i2] (coeff2 k * (
        alphay * (EB Ex1 [i1; (i2 + 1)%Z] - EB Ex1 [i1; i2])
      + deltay k * (EB Ex1 [i1; (i2 + 2)%Z] - EB Ex1 [i1; (i2 - 1)%Z])
      + betayx k * (EB Ex1 [(i1 + 1)%Z; (i2 + 1)%Z] - EB Ex1 [(i1 + 1)%Z; i2])
      + betayx k * (EB Ex1 [(i1 - 1)%Z; (i2 + 1)%Z] - EB Ex1 [(i1 - 1)%Z; i2])
      - alphax * (EB Ex2 [(i1 + 1)%Z; i2] - EB Ex2 [i1; i2])
      - deltax k * (EB Ex2 [(i1 + 2)%Z; i2] - EB Ex2 [(i1 - 1)%Z; i2])
      - betaxy k * (EB Ex2 [(i1 + 1)%Z; (i2 + 1)%Z] - EB Ex2 [i1; (i2 + 1)%Z])
      - betaxy k * (EB Ex2 [(i1 + 1)%Z; (i2 - 1)%Z] - EB Ex2 [i1; (i2 - 1)%Z]))).

(** faraday_mink.hpp:117-166. *)
Definition faraday_3d (k : fcoef) (EB : fields) (i1 i2 i3 : Z) : fields :=
  let alphax := 1 - 2 * betaxy k - 2 * betaxz k - 3 * deltax k in
  let alphay := 1 - 2 * betayx k - 2 * betayz k - 3 * deltay k in
  let alphaz := 1 - 2 * betazx k - 2 * betazy k - 3 * deltaz k in
  let p1 := (i1 + 1)%Z in let m1 := (i1 - 1)%Z in
  let p2 := (i2 + 1)%Z in let m2 := (i2 - 1)%Z in
  let p3 := (i3 + 1)%Z in let m3 := (i3 - 1)%Z in
  let EB := fadd EB Bx1 [i1; i2; i3] (coeff1 k * (
        alphaz * (EB Ex2 [i1; i2; p3] - EB Ex2 [i1; i2; i3])
      + deltaz k * (EB Ex2 [i1; i2; (i3 + 2)%Z] - EB Ex2 [i1; i2; m3])
      + betazx k * (EB Ex2 [p1; i2; p3] - EB Ex2 [p1; i2; i3])
      + betazx k * (EB Ex2 [m1; i2; p3] - EB Ex2 [m1; i2; i3])
      + betazy k * (EB Ex2 [i1; p2; p3] - EB Ex2 [i1; p2; i3])
      + betazy k * (EB Ex2 [i1; m2; p3] - EB Ex2 [i1; m2; i3])
      - alphay * (EB Ex3 [i1; p2; i3] - EB Ex3 [i1; i2; i3])
      - deltay k * (EB Ex3 [i1; (i2 + 2)%Z; i3] - EB Ex3 [i1; m2; i3])
      - betayx k * (EB Ex3 [p1; p2; i3] - EB Ex3 [p1; i2; i3])
      - betayx k * (EB Ex3 [m1; p2; i3] - EB Ex3 [m1; i2; i3])
      - betayz k * (EB Ex3 [i1; p2; p3] - EB Ex3 [i1; i2; p3])
      - betayz k * (EB Ex3 [i1; p2; m3] - EB Ex3 [i1; i2; m3]))) in
  let EB := fadd EB Bx2 [i1; i2; i3] (coeff1 k * (
        alphax * (EB Ex3 [p1; i2; i3] - EB Ex3 [i1; i2; i3])
      + deltax k * (EB Ex3 [(i1 + 2)%Z; i2; i3] - EB Ex3 [m1; i2; i3])
      + betaxy k * (EB Ex3 [p1; p2; i3] - EB Ex3 [i1; p2; i3])
      + betaxy k * (EB Ex3 [p1; m2; i3] - EB Ex3 [i1; m2; i3])
      + betaxz k * (EB Ex3 [p1; i2; p3] - EB Ex3 [i1; i2; p3])
      + betaxz k * (EB Ex3 [p1; i2; m3] - EB Ex3 [i1; i2; m3])
      - alphaz * (EB Ex1 [i1; i2; p3] - EB Ex1 [i1; i2; i3])
      - deltaz k * (EB Ex1 [i1; i2; (i3 + 2)%Z] - EB Ex1 [i1; i2; m3])
      - betazx k * (EB Ex1 [p1; i2; p3] - EB Ex1 [p1; i2; i3])
      - betazx k * (EB Ex1 [m1; i2; p3] - EB Ex1 [m1; i2; i3])
      - betazy k * (EB Ex1 [i1; p2; p3] - EB Ex1 [i1; p2; i3])
      - betazy k * (EB Ex1 [i1; m2; p3] - EB Ex1 [i1; m2; i3]))) in
  fadd EB Bx3 [i1; i2; i3] (coeff1 k * (
        alphay * (EB Ex1 [i1; p2; i3] - EB Ex1 [i1; i2; i3])
      + deltay k * (EB Ex1 [i1; (i2 + 2)%Z; i3] - EB Ex1 [i1; m2; i3])
      + betayx k * (EB Ex1 [p1; p2; i3] - EB Ex1 [p1; i2; i3])
      + betayx k * (EB Ex1 [m1; p2; i3] - EB Ex1 [m1; i2; i3])
      + betayz k * (EB Ex1 [i1; p2; p3] - EB Ex1 [i1; i2; p3])
      + betayz k * (EB Ex1 [i1; p2; m3] - EB Ex1 [i1; i2; m3])
      - alphax * (EB Ex2 [p1; i2; i3] - EB Ex2 [i1; i2; i3])
      - deltax k * (EB Ex2 [(i1 + 2)%Z; i2; i3] - EB Ex2 [m1; i2; i3])
      - betaxy k * (EB Ex2 [p1; p2; i3] - EB Ex2 [i1; p2; i3])
      - betaxy k * (EB Ex2 [p1; m2; i3] - EB Ex2 [i1; m2; i3])
      - betaxz k * (EB Ex2 [p1; i2; p3] - EB Ex2 [i1; i2; p3])
      - betaxz k * (EB Ex2 [p1; i2; m3] - EB Ex2 [i1; i2; m3]))).

(** The kernel instance of the dimension of the index; other lengths do not occur. *)
Definition faraday_mink (k : fcoef) (EB : fields) (x : list Z) : fields :=
  match x with
  | [i1] => faraday_1d k EB i1
  | [i1; i2] => faraday_2d k EB i1 i2
  | [i1; i2; i3] => faraday_3d k EB i1 i2 i3
  | _ => EB
  end.

(** ampere_mink.hpp:48-88. *)
Definition ampere_1d (c1 c2 : R) (EB : fields) (i1 : Z) : fields :=
  let EB := fadd EB Ex2 [i1] (c1 * (EB Bx3 [(i1 - 1)%Z] - EB Bx3 [i1])) in
  fadd EB Ex3 [i1] (c1 * (EB Bx2 [i1] - EB Bx2 [(i1 - 1)%Z])).

Definition ampere_2d (c1 c2 : R) (EB : fields) (i1 i2 : Z) : fields :=
  let EB := fadd EB Ex1 [i1; i2] (c1 * (EB Bx3 [i1; i2] - EB Bx3 [i1; (i2 - 1)%Z])) in
  let EB := fadd EB Ex2 [i1; i2] (c1 * (EB Bx3 [(i1 - 1)%Z; i2] - EB Bx3 [i1; i2])) in
  fadd EB Ex3 [i1; i2] (c2 * (EB Bx1 [i1; (i2 - 1)%Z] - EB Bx1 [i1; i2]
                              + EB Bx2 [i1; i2] - EB Bx2 [(i1 - 1)%Z; i2])).

Definition ampere_3d (c1 c2 : R) (EB : fields) (i1 i2 i3 : Z) : fields :=
  let EB := fadd EB Ex1 [i1; i2; i3] (c1 * (EB Bx2 [i1; i2; (i3 - 1)%Z] - EB Bx2 [i1; i2; i3]
                                            + EB Bx3 [i1; i2; i3] - EB Bx3 [i1; (i2 - 1)%Z; i3])) in
  let EB := fadd EB Ex2 [i1; i2; i3] (c1 * (EB Bx3 [(i1 - 1)%Z; i2; i3] - EB Bx3 [i1; i2; i3]
                                            + EB Bx1 [i1; i2; i3] - EB Bx1 [i1; i2; (i3 - 1)%Z])) in
  fadd EB Ex3 [i1; i2; i3] (c1 * (EB Bx1 [i1; (i2 - 1)%Z; i3] - EB Bx1 [i1; i2; i3]
                                  + EB Bx2 [i1; i2; i3] - EB Bx2 [(i1 - 1)%Z; i2; i3])).

Definition ampere_mink (c1 c2 : R) (EB : fields) (x : list Z) : fields :=
  match x with
  | [i1] => ampere_1d c1 c2 EB i1
  | [i1; i2] => ampere_2d c1 c2 EB i1 i2
  | [i1; i2; i3] => ampere_3d c1 c2 EB i1 i2 i3
  | _ => EB
  end.

(** ampere_mink.hpp:134-214 without an external current: E += J * coeff.  The rescaling of
    J by [ppc0] afterwards (for output only: J is zeroed before the next deposit,
    srpic/currents.h:66) is [currents_rescale]. *)
Definition currents_mink (coeff : R) (J : jcomp -> list Z -> R) (E : fields) (x : list Z) : fields :=
  fadd (fadd (fadd E Ex1 x (J Jx1 x * coeff)) Ex2 x (J Jx2 x * coeff)) Ex3 x (J Jx3 x * coeff).

Definition currents_rescale (ppc0 : R) (J : jcomp -> list Z -> R) : jcomp -> list Z -> R :=
  fun c x => J c x / ppc0.

(** srpic/fieldsolvers.h:44-76, 109-124: coefficients passed to the Cartesian kernels. *)
Definition solver_c1 (D : nat) (dT dx : R) : R := match D with 2%nat => dT / (dx * dx) | _ => dT / dx end.
Definition solver_c2 (D : nat) (dT : R) : R := match D with 2%nat => dT | _ => 0 end.

(** A 2D metric as the kernels see it: functions of code-unit coordinates
    (metric.sqrt_det_h, h_<i,i>, polar_area; src/metrics/*.h). *)
Record metric2 := {
  sdh : R -> R -> R;
  h11 : R -> R -> R; h22 : R -> R -> R; h33 : R -> R -> R;
  polar_area : R -> R
}.

Section Curvilinear.
  (** [g]: N_GHOSTS; [i2max]: ni2 + N_GHOSTS; is the low/high x2 side an axis. *)
  Variables (g : Z) (mt : metric2) (ax_lo ax_hi : bool) (i2max : Z).

  (** COORD(I): static_cast<real_t>(I) - N_GHOSTS, src/global/global.h:139-140. *)
  Definition coord (i : Z) : R := IZR (i - g).
  Definition half : R := / 2.

  (** faraday_sr.hpp:53-89. *)
  Definition faraday_sr (coeff : R) (EB : fields) (i1 i2 : Z) : fields :=
    let i1_ := coord i1 in let i2_ := coord i2 in
    let EB := fadd EB Bx1 [i1; i2] (coeff * (1 / sdh mt i1_ (i2_ + half))
        * (h33 mt i1_ i2_ * EB Ex3 [i1; i2] - h33 mt i1_ (i2_ + 1) * EB Ex3 [i1; (i2 + 1)%Z])) in
    let EB := if negb (i2 =? g)%Z || negb ax_lo then
        fadd EB Bx2 [i1; i2] (coeff * (1 / sdh mt (i1_ + half) i2_)
          * (h33 mt (i1_ + 1) i2_ * EB Ex3 [(i1 + 1)%Z; i2] - h33 mt i1_ i2_ * EB Ex3 [i1; i2]))
      else EB in
    fadd EB Bx3 [i1; i2] (coeff * (1 / sdh mt (i1_ + half) (i2_ + half))
        * (h11 mt (i1_ + half) (i2_ + 1) * EB Ex1 [i1; (i2 + 1)%Z]
           - h11 mt (i1_ + half) i2_ * EB Ex1 [i1; i2]
           + h22 mt i1_ (i2_ + half) * EB Ex2 [i1; i2]
           - h22 mt (i1_ + 1) (i2_ + half) * EB Ex2 [(i1 + 1)%Z; i2])).

  (** ampere_sr.hpp:58-109. *)
  Definition ampere_sr (coeff : R) (EB : fields) (i1 i2 : Z) : fields :=
    let i1_ := coord i1 in let i2_ := coord i2 in
    let ex2 EB := fadd EB Ex2 [i1; i2] (coeff * (1 / sdh mt i1_ (i2_ + half))
        * (h33 mt (i1_ - half) (i2_ + half) * EB Bx3 [(i1 - 1)%Z; i2]
           - h33 mt (i1_ + half) (i2_ + half) * EB Bx3 [i1; i2])) in
    if (i2 =? g)%Z && ax_lo then
      ex2 (fadd EB Ex1 [i1; i2] (1 / polar_area mt (i1_ + half) * coeff
             * (h33 mt (i1_ + half) (i2_ + half) * EB Bx3 [i1; i2])))
    else if (i2 =? i2max)%Z && ax_hi then
      fadd EB Ex1 [i1; i2] (- (1 / polar_area mt (i1_ + half) * coeff
             * (h33 mt (i1_ + half) (i2_ - half) * EB Bx3 [i1; i2])))
    else
      let EB := ex2 (fadd EB Ex1 [i1; i2] (coeff * (1 / sdh mt (i1_ + half) i2_)
          * (h33 mt (i1_ + half) (i2_ + half) * EB Bx3 [i1; i2]
             - h33 mt (i1_ + half) (i2_ - half) * EB Bx3 [i1; (i2 - 1)%Z]))) in
      fadd EB Ex3 [i1; i2] (coeff * (1 / sdh mt i1_ i2_)
          * (h11 mt i1_ (i2_ - half) * EB Bx1 [i1; (i2 - 1)%Z]
             - h11 mt i1_ (i2_ + half) * EB Bx1 [i1; i2]
             + h22 mt (i1_ + half) i2_ * EB Bx2 [i1; i2]
             - h22 mt (i1_ - half) i2_ * EB Bx2 [(i1 - 1)%Z; i2])).

  (** ampere_sr.hpp:163-209, effect on E ([inv_n0] times the "curly" current, converted). *)
  Definition currents_sr (coeff inv_n0 : R) (J : jcomp -> list Z -> R) (E : fields) (i1 i2 : Z) : fields :=
    let i1_ := coord i1 in let i2_ := coord i2 in
    let x := [i1; i2] in
    let ex2 E := fadd E Ex2 x (J Jx2 x * (inv_n0 / sdh mt i1_ (i2_ + half)) * coeff) in
    let ex1 w E := fadd E Ex1 x (J Jx1 x * w * coeff) in
    if (i2 =? g)%Z && ax_lo then
      ex1 (inv_n0 * half / polar_area mt (i1_ + half)) (ex2 E)
    else if (i2 =? i2max)%Z && ax_hi then
      ex1 (inv_n0 * half / polar_area mt (i1_ + half)) E
    else
      ex1 (inv_n0 / sdh mt (i1_ + half) i2_)
          (fadd (ex2 E) Ex3 x (J Jx3 x * (inv_n0 / sdh mt i1_ i2_) * coeff)).

  (** fields_bcs.hpp:836-867 with both E and B selected, launched over all x1 indices
      (srpic/fields_bcs.h:203-237): [i_edge] is the axis node. *)
  Definition axis_lo (e : Z) (F : fields) (i1 : Z) : fields :=
    let F := fset F Ex2 [i1; (e - 1)%Z] (- F Ex2 [i1; e]) in
    let F := fset F Ex3 [i1; e] 0 in
    let F := fset F Ex3 [i1; (e - 1)%Z] (F Ex3 [i1; (e + 1)%Z]) in
    let F := fset F Bx1 [i1; (e - 1)%Z] (F Bx1 [i1; e]) in
    let F := fset F Bx2 [i1; e] 0 in
    let F := fset F Bx2 [i1; (e - 1)%Z] (- F Bx2 [i1; (e + 1)%Z]) in
    fset F Bx3 [i1; (e - 1)%Z] (F Bx3 [i1; e]).
  Definition axis_hi (e : Z) (F : fields) (i1 : Z) : fields :=
    let F := fset F Ex2 [i1; e] (- F Ex2 [i1; (e - 1)%Z]) in
    let F := fset F Ex3 [i1; e] 0 in
    let F := fset F Ex3 [i1; (e + 1)%Z] (F Ex3 [i1; (e - 1)%Z]) in
    let F := fset F Bx1 [i1; e] (F Bx1 [i1; (e - 1)%Z]) in
    let F := fset F Bx2 [i1; e] 0 in
    let F := fset F Bx2 [i1; (e + 1)%Z] (- F Bx2 [i1; (e - 1)%Z]) in
    fset F Bx3 [i1; e] (F Bx3 [i1; (e - 1)%Z]).
End Curvilinear.

(** GR field arrays, src/framework/containers/fields.h:58-101 (cur, cur0 are arguments). *)
Inductive arr := Em | Em0 | Aux.
Definition loc_eq_dec (a b : arr * comp) : {a = b} + {a <> b}.
Proof. decide equality. apply comp_eq_dec. decide equality. Defined.
Definition gr_fields := mem (arr * comp).
Notation gset := (set loc_eq_dec).

Section GR.
  Variables (g : Z) (mt : metric2) (ax_lo ax_hi : bool) (i2max : Z).

  (** faraday_gr.hpp:63-93; [bin], [bout], [e] name the arrays passed to the kernel. *)
  Definition faraday_gr (bin bout e : arr) (coeff : R) (m : gr_fields) (i1 i2 : Z) : gr_fields :=
    let i1_ := coord g i1 in let i2_ := coord g i2 in
    let m := gset m (bout, Bx1) [i1; i2] (m (bin, Bx1) [i1; i2]
        + coeff * (1 / sdh mt i1_ (i2_ + half)) * (m (e, Ex3) [i1; i2] - m (e, Ex3) [i1; (i2 + 1)%Z])) in
    let m := if (i2 =? g)%Z && ax_lo then gset m (bout, Bx2) [i1; i2] 0
      else gset m (bout, Bx2) [i1; i2] (m (bin, Bx2) [i1; i2]
        + coeff * (1 / sdh mt (i1_ + half) i2_) * (m (e, Ex3) [(i1 + 1)%Z; i2] - m (e, Ex3) [i1; i2])) in
    gset m (bout, Bx3) [i1; i2] (m (bin, Bx3) [i1; i2]
        + coeff * (1 / sdh mt (i1_ + half) (i2_ + half))
          * (m (e, Ex1) [i1; (i2 + 1)%Z] - m (e, Ex1) [i1; i2]
             + m (e, Ex2) [i1; i2] - m (e, Ex2) [(i1 + 1)%Z; i2])).

  (** ampere_gr.hpp:65-102. *)
  Definition ampere_gr (din dout h : arr) (coeff : R) (m : gr_fields) (i1 i2 : Z) : gr_fields :=
    let i1_ := coord g i1 in let i2_ := coord g i2 in
    if (i2 =? g)%Z && ax_lo then
      let m := gset m (dout, Ex1) [i1; i2] (m (din, Ex1) [i1; (i2 + 1)%Z]) in
      gset m (dout, Ex2) [i1; i2] (m (din, Ex2) [i1; i2]
        + coeff * (1 / sdh mt i1_ half) * (m (h, Bx3) [(i1 - 1)%Z; i2] - m (h, Bx3) [i1; i2]))
    else if (i2 =? i2max)%Z && ax_hi then
      gset m (dout, Ex1) [i1; i2] (m (din, Ex1) [i1; (i2 - 1)%Z])
    else
      let m := gset m (dout, Ex1) [i1; i2] (m (din, Ex1) [i1; i2]
        + coeff * (1 / sdh mt (i1_ + half) i2_) * (m (h, Bx3) [i1; i2] - m (h, Bx3) [i1; (i2 - 1)%Z])) in
      let m := gset m (dout, Ex2) [i1; i2] (m (din, Ex2) [i1; i2]
        + coeff * (1 / sdh mt i1_ (i2_ + half)) * (m (h, Bx3) [(i1 - 1)%Z; i2] - m (h, Bx3) [i1; i2])) in
      gset m (dout, Ex3) [i1; i2] (m (din, Ex3) [i1; i2]
        + coeff * (1 / sdh mt i1_ i2_)
          * ((m (h, Bx1) [i1; (i2 - 1)%Z] - m (h, Bx1) [i1; i2])
             + (m (h, Bx2) [i1; i2] - m (h, Bx2) [(i1 - 1)%Z; i2]))).
End GR.

(** Array arguments of the launches in grpic/fieldsolvers.h:136-158 and 182-214. *)
Inductive gr_faraday_mode := FarAux | FarMain.
Inductive gr_ampere_mode := AmpAux | AmpMain | AmpInit.
Definition far_args (g : gr_faraday_mode) : arr * arr * arr :=
  match g with FarAux => (Em0, Em0, Aux) | FarMain => (Em, Em0, Aux) end.
Definition amp_args (g : gr_ampere_mode) : arr * arr * arr :=
  match g with AmpAux => (Em0, Em0, Aux) | AmpMain => (Em, Em0, Aux) | AmpInit => (Em, Em, Aux) end.

(** A 2D body as a body over multi-indices. *)
Definition body2 {M} (b : M -> Z -> Z -> M) (m : M) (x : list Z) : M :=
  match x with [i1; i2] => b m i1 i2 | _ => m end.

(** The GR kernels as launched in one of the modes of grpic/fieldsolvers.h, and the arrays they
    read from and write to. *)
Definition far_body (g : Z) (mt : metric2) (ax_lo : bool) (md : gr_faraday_mode) (c : R) : gr_fields -> list Z -> gr_fields :=
  body2 (let '(bin, bout, e) := far_args md in faraday_gr g mt ax_lo bin bout e c).
Definition amp_body (g : Z) (mt : metric2) (ax_lo ax_hi : bool) (i2max : Z) (md : gr_ampere_mode) (c : R) : gr_fields -> list Z -> gr_fields :=
  body2 (let '(d, d', h) := amp_args md in ampere_gr g mt ax_lo ax_hi i2max d d' h c).

Definition far_in (md : gr_faraday_mode) : arr := fst (fst (far_args md)).
Definition far_out (md : gr_faraday_mode) : arr := snd (fst (far_args md)).
Definition amp_in (md : gr_ampere_mode) : arr := fst (fst (amp_args md)).
Definition amp_out (md : gr_ampere_mode) : arr := snd (fst (amp_args md)).
