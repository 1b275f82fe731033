(** Fields enforced inside an atmosphere: src/kernels/fields_bcs.hpp (EnforcedBoundaries_kernel)
    and AtmosphereFieldsIn of src/engines/srpic/fields_bcs.h.

    Exact reals; machine integers of 32 bits where the code subtracts. *)
From Coq Require Import ZArith List Bool Reals.
From Verif Require Import Base FieldModel HaloSpec MeshModel MatchModel AtmosModel.
Import ListNotations.
Open Scope R_scope.

Section Kernel.
  (** [o]: the template parameter O; [up]: P; [ph], [tu], [setter] as in MatchModel. *)
  Variables (g : Z) (o : nat) (up : bool) (ph : list R -> list R) (tu : nat -> list R -> R -> R).
  Variables (setter : comp -> option (list R -> R)) (i_edge tags : Z).

  (** fields_bcs.hpp:913-925 (1D), 993-1018 (2D), 1096-1132 (3D): the components that are also
      compared with the edge. *)
  Definition guarded (c : comp) : bool :=
    match o, c with
    | 0%nat, (Ex1 | Bx2 | Bx3) => true
    | 1%nat, (Ex2 | Bx1 | Bx3) => true
    | 2%nat, (Ex3 | Bx1 | Bx2) => true
    | _, _ => false
    end.
  Definition past_edge (x : list Z) : bool :=
    if up then (i_edge <=? nth o x 0)%Z else (nth o x 0 <? i_edge)%Z.
  (** One component of one cell, 930-970, 1022-1062, 1136-1176. *)
  Definition enf1 (m : fields) (x : list Z) (c : comp) : fields :=
    match setter c with
    | None => m
    | Some f =>
        if tagged tags c && (negb (guarded c) || past_edge x) then
          let p := where_ g c x in fset m c x (tu (number c) p (f (ph p)))
        else m
    end.
  Definition enf_body (m : fields) (x : list Z) : fields :=
    fold_left (fun m c => enf1 m x c) [Ex1; Ex2; Ex3; Bx1; Bx2; Bx3] m.
End Kernel.

(** srpic/fields_bcs.h:487-529 and the constructor, fields_bcs.hpp:890-900.  [xg]: the extent of the
    buffer; [body i_edge]: the kernel. *)
Definition atm_fields_in (eps : R) (g : Z) (convs : list (R -> R)) (ext : list (R * R)) (ns : list Z)
    (o : nat) (up : bool) (xg : R * R) (body : Z -> fields -> list Z -> fields)
    (order : list (list Z) -> list (list Z)) (m : fields) : res fields :=
  let D := length ns in
  let bx := match_box D o xg in
  rbind (intersects eps ext bx) (fun hit =>
    if hit then rbind (extent_to_range eps g convs ext ns bx (match_ghosts D o false up)) (fun rs =>
      let r := nth o rs (0, 0)%Z in
      let il_edge := if up then w32 (fst r - g) else w32 (snd r - 1 - g) in
      Ok (par_for (body (w32 (il_edge + g))) (order (HaloSpec.box rs)) m))
    else Ok m).

(** The call on a subdomain of a Cartesian run; the whole grid has [N] cells along the normal and
    starts at [gx0] there.  utils.h GetAtmosphereExtent gives the nodes of the buffer. *)
Definition atm_extent (h gx0 : R) (up : bool) (N filters : Z) : R * R :=
  let '(a, b) := buffer_nodes up N filters in (IZR a * h + gx0, IZR b * h + gx0).
Definition atm_cartesian (eps : R) (g : Z) (h : R) (x0 : list R) (ns : list Z) (o : nat) (up : bool) (gx0 : R) (N filters : Z)
    (tu : nat -> R -> R) (setter : comp -> option (list R -> R)) (tags : Z)
    (order : list (list Z) -> list (list Z)) (m : fields) : res fields :=
  atm_fields_in eps g (map (mink_cd h) x0) (mink_ext h x0 ns) ns o up (atm_extent h gx0 up N filters)
    (fun i_edge => enf_body g o up (mink_ph h x0) (fun a _ v => tu a v) setter i_edge tags) order m.
