(** Matching layers: src/kernels/fields_bcs.hpp (MatchBoundaries_kernel) and the routines
    MatchFieldsIn of src/engines/srpic/fields_bcs.h and src/engines/grpic/fields_bcs.h.

    Exact reals. *)
From Coq Require Import ZArith List Bool Reals.
From Verif Require Import Base FieldModel HaloSpec MeshModel.
Import ListNotations.
Open Scope R_scope.

(** fields_bcs.hpp:89-91. *)
Definition shape (dx_abs dx : R) : R := tanh (dx * 4 / dx_abs).

(** global.h:306-330: BC::E = BC::D = bits 0-2, BC::B = bits 3-5. *)
Definition tag_e : Z := 7.
Definition tag_b : Z := 56.

Section Kernel.
  (** [ph]: metric.convert<Cd, Ph>; [phi]: convert<i, Cd, Ph> along the normal; [tu a]:
      transform<a, T, U> at a position; [setter c]: the function of the field setter for the
      component, if it has one; [gr]: general relativity, 2D only. *)
  Variables (g : Z) (o : nat) (gr : bool) (ph : list R -> list R) (phi : R -> R) (tu : nat -> list R -> R -> R).
  Variables (setter : comp -> option (list R -> R)) (xg_edge dx_abs : R) (tags : Z).
  Variables (is_axis_i2min is_axis_i2max : bool) (extent_2 : Z).

  Definition tagged (c : comp) : bool :=
    match c with
    | Ex1 | Ex2 | Ex3 => negb (Z.land tags tag_e =? 0)%Z
    | _ => negb (Z.land tags tag_b =? 0)%Z
    end.
  (** COORD(i). *)
  Definition co (i : Z) : R := IZR (i - g).
  Definition ch (i : Z) : R := co i + 1 / 2.
  (** Positions written out in the branches: 1D lines 95-163, 2D 176-330, 3D 348-512. *)
  Definition where_ (c : comp) (x : list Z) : list R :=
    match x, c with
    | [i1], (Ex1 | Bx2 | Bx3) => [ch i1]
    | [i1], (Bx1 | Ex2 | Ex3) => [co i1]
    | [i1; i2], (Ex1 | Bx2) => [ch i1; co i2]
    | [i1; i2], (Ex2 | Bx1) => [co i1; ch i2]
    | [i1; i2], Ex3 => [co i1; co i2]
    | [i1; i2], Bx3 => [ch i1; ch i2]
    | [i1; i2; i3], Ex1 => [ch i1; co i2; co i3]
    | [i1; i2; i3], Ex2 => [co i1; ch i2; co i3]
    | [i1; i2; i3], Ex3 => [co i1; co i2; ch i3]
    | [i1; i2; i3], Bx1 => [co i1; ch i2; ch i3]
    | [i1; i2; i3], Bx2 => [ch i1; co i2; ch i3]
    | [i1; i2; i3], Bx3 => [ch i1; ch i2; co i3]
    | _, _ => []
    end.
  Definition number (c : comp) : nat := match c with Ex1 | Bx1 => 1 | Ex2 | Bx2 => 2 | Ex3 | Bx3 => 3 end%nat.
  (** The third electric component on and beyond an axis is only damped, lines 290-306, 431-437. *)
  Definition at_axis (c : comp) (x : list Z) : bool :=
    match c, x with
    | Ex3, (_ :: i2 :: _) => negb ((negb is_axis_i2min || (i2 >? g)%Z) && (negb is_axis_i2max || (i2 <? extent_2 - g)%Z))
    | _, _ => false
    end.
  (** One component of one cell; [xi_Cd] is the coordinate along the normal. *)
  Definition match1 (m : fields) (x : list Z) (c : comp) : fields :=
    match setter c with
    | None => m
    | Some f =>
        if tagged c then
          let p := where_ c x in
          let s := shape dx_abs (Rabs (phi (nth o p 0) - xg_edge)) in
          let m := fset m c x (s * m c x) in
          if at_axis c x then m
          else fset m c x (m c x + (1 - s) * (if gr then f (ph p) else tu (number c) p (f (ph p))))
        else m
    end.
  (** In the order of the branches. *)
  Definition match_body (m : fields) (x : list Z) : fields :=
    fold_left (fun m c => match1 m x c)
      (match x with
       | [_] => [Ex1; Bx2; Bx3; Bx1; Ex2; Ex3]
       | [_; _] => [Ex1; Bx2; Ex2; Bx1; Ex3; Bx3]
       | _ => [Ex1; Ex2; Ex3; Bx1; Bx2; Bx3]
       end) m.
End Kernel.

(** srpic/fields_bcs.h:74-100; grpic/fields_bcs.h:62-87 asks for ghost cells above on either side.
    [gext]: extent of the whole grid along the normal; [ds]: thickness. *)
Definition layer_of (up : bool) (gext : R * R) (ds : R) : R * R :=
  if up then (snd gext - ds, snd gext) else (fst gext, fst gext + ds).
Definition edge_of (up : bool) (gext : R * R) : R := if up then snd gext else fst gext.
Definition match_box (D o : nat) (l : R * R) : list (bnd * bnd) :=
  map (fun d => if Nat.eqb d o then (Fin (fst l), Fin (snd l)) else (NInf, PInf)) (seq 0 D).
Definition match_ghosts (D o : nat) (gr up : bool) : list (bool * bool) :=
  map (fun d => if Nat.eqb d o then (if gr || up then (false, true) else (true, false)) else (true, true)) (seq 0 D).
(** srpic/fields_bcs.h:101-201; [eps]: of the comparison in mesh.h; [order]: execution order. *)
Definition match_fields_in (eps : R) (g : Z) (convs : list (R -> R)) (ext : list (R * R)) (ns : list Z)
    (o : nat) (gr up : bool) (gext : R * R) (ds : R)
    (body : fields -> list Z -> fields) (order : list (list Z) -> list (list Z)) (m : fields) : res fields :=
  let D := length ns in
  let bx := match_box D o (layer_of up gext ds) in
  rbind (intersects eps ext bx) (fun hit =>
    if hit then rbind (extent_to_range eps g convs ext ns bx (match_ghosts D o gr up)) (fun rs =>
      Ok (par_for body (order (HaloSpec.box rs)) m))
    else Ok m).

(** Minkowski metric, metrics/minkowski.h: cubes of side [h]; [x0]: lower corner. *)
Definition mink_ph (h : R) (x0 p : list R) : list R := map2 (fun a q => q * h + a) x0 p.
Definition mink_cd (h x0 : R) (x : R) : R := (x - x0) / h.
Definition mink_ext (h : R) (x0 : list R) (ns : list Z) : list (R * R) := map2 (fun a n => (a, a + IZR n * h)) x0 ns.

(** The call on a subdomain of a special-relativistic Cartesian run. *)
Definition match_cartesian (eps : R) (g : Z) (h : R) (x0 : list R) (ns : list Z) (o : nat) (up : bool) (gext : R * R) (ds : R)
    (tu : nat -> R -> R) (setter : comp -> option (list R -> R)) (tags : Z)
    (order : list (list Z) -> list (list Z)) (m : fields) : res fields :=
  match_fields_in eps g (map (mink_cd h) x0) (mink_ext h x0 ns) ns o false up gext ds
    (match_body g o false (mink_ph h x0) (fun q => q * h + nth o x0 0) (fun a _ v => tu a v) setter
       (edge_of up gext) ds tags false false 0) order m.
