(** Fixed fields at a boundary: FixedFieldsIn, src/engines/srpic/fields_bcs.h:238-350.  Exact reals. *)
From Coq Require Import ZArith List Bool Reals.
From Verif Require Import Base FieldModel HaloSpec MatchModel MetModel TopoModel DirsModel HorModel.
Import ListNotations.
Open Scope R_scope.

Definition in_range (r : list (Z * Z)) (x : list Z) : bool :=
  Nat.eqb (length r) (length x) && forallb (fun p => (fst (fst p) <=? snd p)%Z && (snd p <? snd (fst p))%Z) (combine r x).
(** 318-341: deep_copy of a value to a subview. *)
Definition fill (F : fields) (c : comp) (r : list (Z * Z)) (v : R) : fields :=
  fun c' x => if comp_eq_dec c' c then if in_range r x then v else F c' x else F c' x.

(** 255-271: [xi_min], [xi_max] on a subdomain of [n] cells, [n_all = n + 2 N_GHOSTS]. *)
Definition fixed_range (g : Z) (o : nat) (up : bool) (n : list Z) : list (Z * Z) :=
  map (fun d => let n_all := (nth d n 0 + 2 * g)%Z in
                if Nat.eqb d o then (if up then (n_all - g, n_all)%Z else (0, g)%Z) else (0, n_all)%Z) (seq 0 (length n)).

(** 276-285. *)
Definition fixed_comps (tags : Z) : list comp :=
  (if negb (Z.land tags tag_e =? 0)%Z then [Ex1; Ex2; Ex3] else []) ++
  (if negb (Z.land tags tag_b =? 0)%Z then [Bx1; Bx2; Bx3] else []).

(** 289-345.  [fix_]: the user's FixFieldsConst for this side: value and whether to set it; [tu a x]:
    transform<a, T, U> at code position [x]; the position is the origin. *)
Definition fixed_fields_in (g : Z) (cartesian : bool) (o : nat) (up : bool) (n : list Z) (tags : Z)
    (tu : nat -> list R -> R -> R) (fix_ : comp -> R * bool) (F : fields) : res fields :=
  if negb (Nat.eqb o 0) && negb cartesian then Err
  else Ok (fold_left (fun F c => let '(v, shouldset) := fix_ c in
      if shouldset then fill F c (fixed_range g o up n) (tu (number c) (map (fun _ => 0) n) v) else F) (fixed_comps tags) F).

(** src/metrics/spherical.h:269-286: transform<i, T, U> at a two-dimensional position. *)
Definition spherical_tu (g : grid) : nat -> list R -> R -> R := fun i x v =>
  match s_transform1 g i IT IU (nth 0 x 0, nth 1 x 0) v with Some u => u | None => 0 end.

(** ** FieldBoundaries, srpic/fields_bcs.h:621-665.  A direction: axis (from 0) and sign. *)
Section Dispatch.
  (** [S]: the arrays of a subdomain; [k b d]: the routine called for condition [b] in direction [d]. *)
  Context {S : Type}.
  Variable k : TopoModel.flds_bc -> nat * bool -> S -> res S.
  (** Conditions of the whole grid and of the subdomain. *)
  Variables (global local : nat * bool -> TopoModel.flds_bc).
  Import TopoModel.
  Definition sr_in_direction (d : nat * bool) (s : S) : res S :=
    match global d with
    | F_MATCH => k F_MATCH d s
    | F_AXIS => match local d with F_AXIS => k F_AXIS d s | _ => Ok s end
    | F_ATMOSPHERE => k F_ATMOSPHERE d s
    | F_FIXED => match local d with F_FIXED => k F_FIXED d s | _ => Ok s end
    | F_CONDUCTOR => match local d with F_CONDUCTOR => k F_CONDUCTOR d s | _ => Ok s end
    | F_CUSTOM => match local d with F_CUSTOM => Err | _ => Ok s end
    | F_HORIZON => Err
    | _ => Ok s
    end.
  Definition sr_field_boundaries (dirs : list (nat * bool)) (s : S) : res S :=
    fold_left (fun r d => rbind r (sr_in_direction d)) dirs (Ok s).
End Dispatch.
(** dir::Directions<D>::orth, in DirsModel; [side_of] in HorModel. *)
Definition sr_orth (dim : nat) : list (nat * bool) := map HorModel.side_of (DirsModel.orth_dirs dim).
