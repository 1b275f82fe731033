(** Field boundaries of the general-relativistic engine: src/kernels/fields_bcs.hpp:1187-1280
    (HorizonBoundaries_kernel, AbsorbCurrents_kernel) and src/engines/grpic/fields_bcs.h
    (HorizonFieldsIn, the currents of MatchFieldsIn, FieldBoundaries).  Exact reals. *)
From Coq Require Import ZArith List Bool Reals.
From Verif Require Import Base FieldModel HaloSpec MatchModel AxisModel DirsModel.
Import ListNotations.
Open Scope R_scope.

(** Lines 1210-1225: [Fld(i1_min - N_GHOSTS + i, i2, c) = Fld(i1_min + 1 + nfilter, i2, c)]. *)
Definition copy_row (i1_min g nfilter i2 : Z) (F : fields) (i : Z) (c : comp) : fields :=
  fset F c [(i1_min - g + i)%Z; i2] (F c [(i1_min + 1 + nfilter)%Z; i2]).
(** Lines 1207-1240, one column; the loop is [i = 0 ... 2 + nfilter]. *)
Definition horizon_col (i1_min g nfilter tags : Z) (F : fields) (i2 : Z) : fields :=
  let rows := zrange 0 (2 + nfilter + 1) in
  let F := if setE tags then fold_left (fun F i => fold_left (fun F c => copy_row i1_min g nfilter i2 F i c) [Ex1; Ex2; Ex3] F) rows F else F in
  if setB tags then fold_left (fun F i => fold_left (fun F c => copy_row i1_min g nfilter i2 F i c) [Bx1; Bx2; Bx3] F) rows F else F.

(** grpic/fields_bcs.h:139-176 on a subdomain of [n1] by [n2] cells; the loop over columns is
    [i_min(x2) <= i2 < i_max(x2) + 1]; a row beyond the array is undefined.  The kernel runs on two
    arrays alike. *)
Definition horizon_kernel (g : Z) (n : list Z) (nfilter tags : Z) (order : list Z -> list Z) (F : fields) : res fields :=
  match n with
  | [n1; n2] =>
      if (n1 + 2 * g <=? g + 1 + nfilter)%Z then UB
      else Ok (fold_left (horizon_col g g nfilter tags) (order (zrange g (g + n2 + 1))) F)
  | _ => Err
  end.

(** AbsorbCurrents_kernel, 1250-1280: [phi] converts the first coordinate to the radius. *)
Definition absorb_body (g : Z) (phi : R -> R) (xg_edge dx_abs : R) (J : mem jcomp) (x : list Z) : mem jcomp :=
  let dx := Rabs (phi (co g (nth 0 x 0%Z)) - xg_edge) in
  fold_left (fun J c => set jcomp_eq_dec J c x (J c x * tanh (dx / (1 / 4 * dx_abs)))) [Jx1; Jx2; Jx3] J.

(** ** FieldBoundaries, grpic/fields_bcs.h:234-266 *)
Inductive gr_bc := main | aux | curr.
Inductive fbc := MATCH | AXIS | CUSTOM | HORIZON | OTHER.
(** A direction: axis (from 0) and sign. *)
Definition dir := (nat * bool)%type.
(** direction_t::get_dim, get_sign of a direction along one axis, src/global/arch/directions.h:92-126. *)
Fixpoint side_of (d : list Z) : dir :=
  match d with
  | [] => (0%nat, false)
  | a :: r => if (a =? 0)%Z then (S (fst (side_of r)), snd (side_of r)) else (0%nat, (0 <? a)%Z)
  end.
(** dir::Directions<2D>::orth. *)
Definition orth : list dir := map side_of (DirsModel.orth_dirs 2).

Section Dispatch.
  (** [S]: the arrays of a subdomain.  [match_k], [absorb_k]: MatchFieldsIn; [axis_k]: AxisFieldsIn;
      [horizon_k]: the two kernels of HorizonFieldsIn. *)
  Context {S : Type}.
  Variables (match_k absorb_k axis_k horizon_k : dir -> S -> res S).
  (** Boundary conditions of the whole grid and of the subdomain; [absorbs]: the particle boundary
      of the subdomain is ABSORB. *)
  Variables (global local : dir -> fbc) (absorbs : dir -> bool) (cartesian : bool).

  (** 139-176. *)
  Definition horizon_fields_in (g : gr_bc) (d : dir) (s : S) : res S :=
    if cartesian then Err else if negb (Nat.eqb (fst d) 0) then Err
    else match g with main => horizon_k d s | _ => Ok s end.
  (** 58-60, 97: currents only above along x1. *)
  Definition match_fields_gr (g : gr_bc) (d : dir) (s : S) : res S :=
    match g with
    | curr => if Nat.eqb (fst d) 0 && snd d then absorb_k d s else Err
    | _ => match_k d s
    end.
  Definition in_direction (g : gr_bc) (d : dir) (s : S) : res S :=
    match g with
    | main =>
        match global d with
        | MATCH => match_fields_gr g d s
        | _ => match local d with
               | AXIS => axis_k d s
               | l => match global d with
                      | CUSTOM => Err
                      | _ => match l with HORIZON => horizon_fields_in g d s | _ => Ok s end
                      end
               end
        end
    | aux => match local d with HORIZON => horizon_fields_in g d s | _ => Ok s end
    | curr => if absorbs d then match_fields_gr g d s else Ok s
    end.
  Definition field_boundaries (g : gr_bc) (s : S) : res S :=
    fold_left (fun r d => rbind r (in_direction g d)) orth (Ok s).
End Dispatch.
