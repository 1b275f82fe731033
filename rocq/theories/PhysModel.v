(** Output of vector fields at cell centres: src/kernels/fields_to_phys.hpp (FieldsToPhys_kernel),
    the flags of src/output/fields.cpp:66-83 and the vector branch of
    src/framework/domain/metadomain_io.cpp:560-697 (Metadomain::Write).

    Exact reals.  The array [bckp] has six components, numbered 0 .. 5; [em], [aux] and [cur]
    are functions of the component's number. *)
From Coq Require Import ZArith List Bool Reals.
From Verif Require Import Base FieldModel StepModel.
Import ListNotations.
Open Scope R_scope.

(** global.h, PrepareOutput flags. *)
Record pflags := { edges : bool; faces : bool; to_hat : bool; to_pcntrv : bool; to_pcov : bool }.

Definition vec := (R * R * R)%type.
(** The target bases of metric.transform that the kernel uses: U to T, U to PU, D to PD. *)
Inductive basis := Hat | PhysCntrv | PhysCov.

Notation oset := (set Z.eq_dec).

Section Kernel.
  (** [tr]: the transformation of the metric of the subdomain at a position in code units. *)
  Variables (g : Z) (fl : pflags) (tr : basis -> list R -> vec -> vec).
  Variables (cf1 cf2 cf3 ct1 ct2 ct3 : Z).

  (** Interpolation, lines 76-90. *)
  Definition interp_1d (F : mem Z) (i1 : Z) : vec :=
    if edges fl then
      (F cf1 [i1],
       / 2 * (F cf2 [i1] + F cf2 [(i1 + 1)%Z]),
       / 2 * (F cf3 [i1] + F cf3 [(i1 + 1)%Z]))
    else if faces fl then
      (/ 2 * (F cf1 [i1] + F cf1 [(i1 + 1)%Z]), F cf2 [i1], F cf3 [i1])
    else (F cf1 [i1], F cf2 [i1], F cf3 [i1]).
  (** Lines 127-142. *)
  Definition interp_2d (F : mem Z) (i1 i2 : Z) : vec :=
    let p1 := (i1 + 1)%Z in let p2 := (i2 + 1)%Z in
    if edges fl then
      (/ 2 * (F cf1 [i1; i2] + F cf1 [i1; p2]),
       / 2 * (F cf2 [i1; i2] + F cf2 [p1; i2]),
       / 4 * (F cf3 [i1; i2] + F cf3 [p1; i2] + F cf3 [i1; p2] + F cf3 [p1; p2]))
    else if faces fl then
      (/ 2 * (F cf1 [i1; i2] + F cf1 [p1; i2]),
       / 2 * (F cf2 [i1; i2] + F cf2 [i1; p2]),
       F cf3 [i1; i2])
    else (F cf1 [i1; i2], F cf2 [i1; i2], F cf3 [i1; i2]).
  (** Lines 182-203. *)
  Definition interp_3d (F : mem Z) (i1 i2 i3 : Z) : vec :=
    let p1 := (i1 + 1)%Z in let p2 := (i2 + 1)%Z in let p3 := (i3 + 1)%Z in
    if edges fl then
      (/ 4 * (F cf1 [i1; i2; i3] + F cf1 [i1; p2; i3] + F cf1 [i1; i2; p3] + F cf1 [i1; p2; p3]),
       / 4 * (F cf2 [i1; i2; i3] + F cf2 [p1; i2; i3] + F cf2 [i1; i2; p3] + F cf2 [p1; i2; p3]),
       / 4 * (F cf3 [i1; i2; i3] + F cf3 [p1; i2; i3] + F cf3 [i1; p2; i3] + F cf3 [p1; p2; i3]))
    else if faces fl then
      (/ 2 * (F cf1 [i1; i2; i3] + F cf1 [p1; i2; i3]),
       / 2 * (F cf2 [i1; i2; i3] + F cf2 [i1; p2; i3]),
       / 2 * (F cf3 [i1; i2; i3] + F cf3 [i1; i2; p3]))
    else (F cf1 [i1; i2; i3], F cf2 [i1; i2; i3], F cf3 [i1; i2; i3]).

  (** xi_field, lines 92-97, 144-151, 205-214; COORD(i) = i - N_GHOSTS. *)
  Definition place (x : list Z) : list R :=
    map (fun i => IZR (i - g) + if edges fl || faces fl then / 2 else 0) x.
  (** Lines 99-109. *)
  Definition convert (x : list R) (f : vec) : vec :=
    if to_hat fl then tr Hat x f
    else if to_pcntrv fl then tr PhysCntrv x f
    else if to_pcov fl then tr PhysCov x f
    else f.
  (** Lines 110-112. *)
  Definition store (F : mem Z) (x : list Z) (f : vec) : mem Z :=
    let '(a, b, c) := f in
    oset (oset (oset F ct1 x a) ct2 x b) ct3 x c.

  Definition phys_body (F : mem Z) (x : list Z) : mem Z :=
    match x with
    | [i1] => store F x (convert (place x) (interp_1d F i1))
    | [i1; i2] => store F x (convert (place x) (interp_2d F i1 i2))
    | [i1; i2; i3] => store F x (convert (place x) (interp_3d F i1 i2 i3))
    | _ => F
    end.
End Kernel.

(** The vector fields that can be requested, and the two engines. *)
Inductive engine := SRPIC | GRPIC.
Inductive fid := FE | FB | FD | FH | FJ.
(** fields.h:52-77. *)
Definition is_efield (f : fid) : bool := match f with FE | FD => true | _ => false end.
Definition is_gr_aux_field (f : fid) : bool := match f with FE | FH => true | _ => false end.
Definition is_current (f : fid) : bool := match f with FJ => true | _ => false end.

(** fields.cpp:66-83: prepare_flag | interp_flag. *)
Definition output_flags (S : engine) (f : fid) : pflags :=
  let e := is_current f || is_efield f in
  match S with
  | SRPIC => {| edges := e; faces := negb e; to_hat := true; to_pcntrv := false; to_pcov := false |}
  | GRPIC => {| edges := e; faces := negb e; to_hat := false;
                to_pcntrv := negb (is_gr_aux_field f); to_pcov := is_gr_aux_field f |}
  end.

(** metadomain_io.cpp:176-199: components [from ..] of one array into [to ..] of the other, all
    cells; three components. *)
Definition deep_copy3 (src dst : mem Z) (from to : Z) : mem Z :=
  fun c x => if (to <=? c)%Z && (c <? to + 3)%Z then src (c - to + from)%Z x else dst c x.

(** metadomain_io.cpp:640-672: where the three components are taken from. *)
Definition source (S : engine) (f : fid) (em aux cur : mem Z) : mem Z * Z :=
  if is_current f then (cur, 0%Z)
  else match S, is_gr_aux_field f with
       | GRPIC, true => if is_efield f then (aux, 0%Z) else (aux, 3%Z)
       | _, _ => if is_efield f then (em, 0%Z) else (em, 3%Z)
       end.

(** The vector branch of Write, lines 553, 632-695; [order]: the active cells in the order their
    threads run.  Components 3, 4, 5 of the result are written. *)
Definition write_vector (g : Z) (S : engine) (f : fid) (as_is : bool) (tr : basis -> list R -> vec -> vec)
    (em aux cur : mem Z) (order : list (list Z)) : mem Z :=
  let bckp : mem Z := fun _ _ => 0 in
  let '(src, from) := source S f em aux cur in
  let bckp := deep_copy3 src bckp from (if as_is then 3 else 0)%Z in
  if as_is then bckp
  else
    let bckp := deep_copy3 bckp bckp 0 3 in
    par_for (phys_body g (output_flags S f) tr 0 1 2 3 4 5) order bckp.
