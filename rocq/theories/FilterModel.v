(** Digital filter of the currents: src/kernels/digital_filter.hpp.  Exact reals.

    [buf] is the copy of the current array that is read, [arr] the array that is written; both
    hold the same values when the kernel starts (src/engines/srpic/currents.h:108). *)
From Coq Require Import ZArith List Bool Reals.
From Verif Require Import FieldModel DepositModel.
Import ListNotations.
Open Scope R_scope.

Notation jset := (set jcomp_eq_dec).

(** Constructor arguments, digital_filter.hpp:71-101: which sides are conductors or axes, and
    the index past the last active cell ([i1_max] ..); [i1_min] .. are N_GHOSTS.  Lists of
    length D; [faxis] is only set in 2D. *)
Record filter_cfg := {
  fcart : bool; faxis : bool * bool; fcond : list (bool * bool); fmin : Z; fmax : list Z
}.

(** digital_filter.hpp:20-54, the FILTER macros. *)
Definition in1 (b : list Z -> R) (i j : Z) : R :=
  / 2 * b [i; j] + / 4 * (b [(i - 1)%Z; j] + b [(i + 1)%Z; j]).
Definition in2 (b : list Z -> R) (i j : Z) : R :=
  / 2 * b [i; j] + / 4 * (b [i; (j - 1)%Z] + b [i; (j + 1)%Z]).
Definition in12 (b : list Z -> R) (i j k : Z) : R :=
  / 4 * b [i; j; k]
  + / 8 * (b [(i - 1)%Z; j; k] + b [(i + 1)%Z; j; k] + b [i; (j - 1)%Z; k] + b [i; (j + 1)%Z; k])
  + / 16 * (b [(i - 1)%Z; (j - 1)%Z; k] + b [(i + 1)%Z; (j + 1)%Z; k]
            + b [(i - 1)%Z; (j + 1)%Z; k] + b [(i + 1)%Z; (j - 1)%Z; k]).
Definition in23 (b : list Z -> R) (i j k : Z) : R :=
  / 4 * b [i; j; k]
  + / 8 * (b [i; (j - 1)%Z; k] + b [i; (j + 1)%Z; k] + b [i; j; (k - 1)%Z] + b [i; j; (k + 1)%Z])
  + / 16 * (b [i; (j - 1)%Z; (k - 1)%Z] + b [i; (j + 1)%Z; (k + 1)%Z]
            + b [i; (j - 1)%Z; (k + 1)%Z] + b [i; (j + 1)%Z; (k - 1)%Z]).
Definition in13 (b : list Z -> R) (i j k : Z) : R :=
  / 4 * b [i; j; k]
  + / 8 * (b [(i - 1)%Z; j; k] + b [(i + 1)%Z; j; k] + b [i; j; (k - 1)%Z] + b [i; j; (k + 1)%Z])
  + / 16 * (b [(i - 1)%Z; j; (k - 1)%Z] + b [(i + 1)%Z; j; (k + 1)%Z]
            + b [(i - 1)%Z; j; (k + 1)%Z] + b [(i + 1)%Z; j; (k - 1)%Z]).

(** The stencils away from conductors and axes, lines 121-126, 174-186, 321-354. *)
Definition stencil1 (b : list Z -> R) (i : Z) : R := / 2 * b [i] + / 4 * (b [(i - 1)%Z] + b [(i + 1)%Z]).
Definition stencil2 (b : list Z -> R) (i j : Z) : R :=
  / 4 * b [i; j]
  + / 8 * (b [(i - 1)%Z; j] + b [(i + 1)%Z; j] + b [i; (j - 1)%Z] + b [i; (j + 1)%Z])
  + / 16 * (b [(i - 1)%Z; (j - 1)%Z] + b [(i + 1)%Z; (j + 1)%Z]
            + b [(i - 1)%Z; (j + 1)%Z] + b [(i + 1)%Z; (j - 1)%Z]).
Definition stencil3 (b : list Z -> R) (i j k : Z) : R :=
  let i' := (i - 1)%Z in let i'' := (i + 1)%Z in
  let j' := (j - 1)%Z in let j'' := (j + 1)%Z in
  let k' := (k - 1)%Z in let k'' := (k + 1)%Z in
  / 8 * b [i; j; k]
  + / 16 * (b [i'; j; k] + b [i''; j; k] + b [i; j'; k] + b [i; j''; k] + b [i; j; k'] + b [i; j; k''])
  + / 32 * (b [i'; j'; k] + b [i''; j''; k] + b [i'; j''; k] + b [i''; j'; k]
            + b [i; j'; k'] + b [i; j''; k''] + b [i; j; k'] + b [i; j; k'']
            + b [i'; j; k'] + b [i''; j; k''] + b [i'; j; k''] + b [i''; j; k'])
  + / 64 * (b [i'; j'; k'] + b [i''; j''; k''] + b [i'; j''; k''] + b [i''; j'; k']
            + b [i'; j'; k''] + b [i''; j''; k'] + b [i'; j''; k'] + b [i''; j'; k'']).

Section Kernel.
  Variable cfg : filter_cfg.
  Let cond d := nth d (fcond cfg) (false, false).
  Let imax d := nth d (fmax cfg) 0%Z.

  (** First and second cell next to a conductor, and the neighbour used there
      ([i1side]; the lower side is tested first in both places). *)
  Definition wall (d : nat) (i : Z) : bool :=
    (fst (cond d) && (i =? fmin cfg)%Z) || (snd (cond d) && (i =? imax d - 1)%Z).
  Definition next_wall (d : nat) (i : Z) : bool :=
    (fst (cond d) && (i =? fmin cfg + 1)%Z) || (snd (cond d) && (i =? imax d - 2)%Z).
  Definition inward (d : nat) (i : Z) : Z := if fst (cond d) then (i + 1)%Z else (i - 1)%Z.

  Definition all3 (arr : currents) (x : list Z) (f : jcomp -> R) : currents :=
    jset (jset (jset arr Jx1 x (f Jx1)) Jx2 x (f Jx2)) Jx3 x (f Jx3).

  (** Lines 103-127. *)
  Definition filter_1d (b arr : currents) (i : Z) : currents :=
    if wall 0 i then
      let s := inward 0 i in jset arr Jx1 [i] (3 * / 4 * b Jx1 [i] + / 4 * b Jx1 [s])
    else if next_wall 0 i then
      let s := inward 0 i in
      let arr := jset arr Jx1 [i] (/ 2 * b Jx1 [i] + / 4 * (b Jx1 [(i - 1)%Z] + b Jx1 [(i + 1)%Z])) in
      let arr := jset arr Jx2 [i] (/ 2 * b Jx2 [i] + / 4 * b Jx2 [s]) in
      jset arr Jx3 [i] (/ 2 * b Jx3 [i] + / 4 * b Jx3 [s])
    else all3 arr [i] (fun c => stencil1 (b c) i).

  (** Lines 132-187. *)
  Definition filter_2d_cart (b arr : currents) (i j : Z) : currents :=
    let x := [i; j] in
    if wall 0 i then
      let s := inward 0 i in jset arr Jx1 x (3 * / 4 * in2 (b Jx1) i j + / 4 * in2 (b Jx1) s j)
    else if next_wall 0 i then
      let s := inward 0 i in
      let arr := jset arr Jx1 x (/ 2 * in2 (b Jx1) i j + / 4 * (in2 (b Jx1) (i - 1) j + in2 (b Jx1) (i + 1) j)) in
      let arr := jset arr Jx2 x (/ 2 * in2 (b Jx2) i j + / 4 * in2 (b Jx2) s j) in
      jset arr Jx3 x (/ 2 * in2 (b Jx3) i j + / 4 * in2 (b Jx3) s j)
    else if wall 1 j then
      let s := inward 1 j in jset arr Jx2 x (3 * / 4 * in1 (b Jx2) i j + / 4 * in1 (b Jx2) i s)
    else if next_wall 1 j then
      let s := inward 1 j in
      let arr := jset arr Jx1 x (/ 2 * in1 (b Jx1) i j + / 4 * in1 (b Jx1) i s) in
      let arr := jset arr Jx2 x (/ 2 * in1 (b Jx2) i j + / 4 * (in1 (b Jx2) i (j - 1) + in1 (b Jx2) i (j + 1))) in
      jset arr Jx3 x (/ 2 * in1 (b Jx3) i j + / 4 * in1 (b Jx3) i s)
    else all3 arr x (fun c => stencil2 (b c) i j).

  (** Lines 188-273. *)
  Definition filter_2d_sph (b arr : currents) (i j : Z) : currents :=
    let x := [i; j] in
    let jm := (j - 1)%Z in let jp := (j + 1)%Z in
    if fst (faxis cfg) && (j =? fmin cfg)%Z then
      let arr := jset arr Jx1 x (/ 2 * in1 (b Jx1) i j + / 2 * in1 (b Jx1) i jp) in
      let arr := jset arr Jx3 x 0 in
      jset arr Jx2 x (/ 4 * (in1 (b Jx2) i j + in1 (b Jx2) i jp))
    else if fst (faxis cfg) && (j =? fmin cfg + 1)%Z then
      let arr := jset arr Jx1 x (/ 2 * in1 (b Jx1) i j + / 4 * (in1 (b Jx1) i jp + in1 (b Jx1) i jm)) in
      let arr := jset arr Jx3 x (/ 2 * in1 (b Jx3) i j + / 4 * in1 (b Jx3) i jp) in
      jset arr Jx2 x (/ 2 * in1 (b Jx2) i j + / 4 * (in1 (b Jx2) i jm + in1 (b Jx2) i jp))
    else if snd (faxis cfg) && (j =? imax 1 - 1)%Z then
      let arr := jset arr Jx1 x (/ 2 * in1 (b Jx1) i j + / 4 * (in1 (b Jx1) i jm + in1 (b Jx1) i jp)) in
      let arr := jset arr Jx3 x (/ 2 * in1 (b Jx3) i j + / 4 * in1 (b Jx3) i jm) in
      jset arr Jx2 x (/ 4 * (in1 (b Jx2) i j + in1 (b Jx2) i jm))
    else if snd (faxis cfg) && (j =? imax 1)%Z then
      let arr := jset arr Jx1 x (/ 2 * in1 (b Jx1) i j + / 2 * in1 (b Jx1) i jm) in
      jset arr Jx3 x 0
    else all3 arr x (fun c => stencil2 (b c) i j).

  (** Lines 282-355. *)
  Definition filter_3d (b arr : currents) (i j k : Z) : currents :=
    let x := [i; j; k] in
    if wall 0 i then
      let s := inward 0 i in jset arr Jx1 x (3 * / 4 * in23 (b Jx1) i j k + / 4 * in23 (b Jx1) s j k)
    else if next_wall 0 i then
      let s := inward 0 i in
      let arr := jset arr Jx1 x (/ 2 * in23 (b Jx1) i j k
                                 + / 4 * (in23 (b Jx1) (i - 1) j k + in23 (b Jx1) (i + 1) j k)) in
      let arr := jset arr Jx2 x (/ 2 * in23 (b Jx2) i j k + / 4 * in23 (b Jx2) s j k) in
      jset arr Jx3 x (/ 2 * in23 (b Jx3) i j k + / 4 * in23 (b Jx3) s j k)
    else if wall 1 j then
      let s := inward 1 j in jset arr Jx2 x (3 * / 4 * in13 (b Jx2) i j k + / 4 * in13 (b Jx2) i s k)
    else if next_wall 1 j then
      let s := inward 1 j in
      let arr := jset arr Jx1 x (/ 2 * in13 (b Jx1) i j k + / 4 * in13 (b Jx1) i s k) in
      let arr := jset arr Jx2 x (/ 2 * in13 (b Jx2) i j k
                                 + / 4 * (in13 (b Jx2) i (j - 1) k + in13 (b Jx2) i (j + 1) k)) in
      jset arr Jx3 x (/ 2 * in13 (b Jx3) i j k + / 4 * in13 (b Jx3) i s k)
    else if wall 2 k then
      let s := inward 2 k in jset arr Jx3 x (3 * / 4 * in12 (b Jx3) i j k + / 4 * in12 (b Jx3) i j s)
    else if next_wall 2 k then
      let s := inward 2 k in
      let arr := jset arr Jx1 x (/ 2 * in12 (b Jx1) i j k + / 4 * in12 (b Jx1) i j s) in
      let arr := jset arr Jx2 x (/ 2 * in12 (b Jx2) i j k + / 4 * in12 (b Jx2) i j s) in
      jset arr Jx3 x (/ 2 * in12 (b Jx3) i j k + / 4 * (in12 (b Jx3) i j (k - 1) + in12 (b Jx3) i j (k + 1)))
    else all3 arr x (fun c => stencil3 (b c) i j k).

  (** operator() of the dimension of the index. *)
  Definition filter_body (b arr : currents) (x : list Z) : currents :=
    match x with
    | [i] => filter_1d b arr i
    | [i; j] => if fcart cfg then filter_2d_cart b arr i j else filter_2d_sph b arr i j
    | [i; j; k] => filter_3d b arr i j k
    | _ => arr
    end.
End Kernel.
