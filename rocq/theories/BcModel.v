(** Boundary conditions from the input file: src/framework/parameters/grid.cpp:52-342,
    src/global/enums.h:90-99, src/global/utils/formatting.h:118-122. *)
From Coq Require Import ZArith List Bool String Ascii Arith Reals.
From Verif Require Import Base TopoModel.
Import ListNotations.
Open Scope string_scope.

(** ::tolower in the C locale. *)
Definition lower_char (c : ascii) : ascii :=
  let n := nat_of_ascii c in if (65 <=? n)%nat && (n <=? 90)%nat then ascii_of_nat (n + 32) else c.
Fixpoint to_lower (s : string) : string :=
  match s with EmptyString => EmptyString | String c s' => String (lower_char c) (to_lower s') end.

(** EnumBase::pick, enums.h:90-99, with the tables of FldsBC (236-246) and PrtlBC (201-213).
    Strings contain no NUL. *)
Fixpoint pick {B} (table : list (string * B)) (s : string) : res B :=
  match table with
  | [] => Err
  | (n, b) :: table' => if String.eqb n s then Ok b else pick table' s
  end.
Definition flds_table : list (string * flds_bc) :=
  [("periodic", F_PERIODIC); ("match", F_MATCH); ("fixed", F_FIXED); ("atmosphere", F_ATMOSPHERE); ("custom", F_CUSTOM);
   ("horizon", F_HORIZON); ("axis", F_AXIS); ("conductor", F_CONDUCTOR); ("sync", F_SYNC)].
Definition prtl_table : list (string * prtl_bc) :=
  [("periodic", P_PERIODIC); ("absorb", P_ABSORB); ("atmosphere", P_ATMOSPHERE); ("custom", P_CUSTOM);
   ("reflect", P_REFLECT); ("horizon", P_HORIZON); ("axis", P_AXIS); ("sync", P_SYNC)].

(** 68-88 and 100-120: the promises made, in order; [layer] is the word needing its own
    parameter.  An error if atmosphere occurs twice. *)
Definition atmosphere_keys : list string :=
  ["grid.boundaries.atmosphere.temperature"; "grid.boundaries.atmosphere.density"; "grid.boundaries.atmosphere.height";
   "grid.boundaries.atmosphere.ds"; "grid.boundaries.atmosphere.species"; "grid.boundaries.atmosphere.g"].
Fixpoint scan (layer key : string) (atm : bool) (l : list string) : res (list string) :=
  match l with
  | [] => Ok []
  | s :: l' =>
      let here := if String.eqb (to_lower s) layer then [key] else [] in
      if String.eqb (to_lower s) "atmosphere" then
        if atm then Err else rbind (scan layer key true l') (fun r => Ok (here ++ atmosphere_keys ++ r)%list)
      else rbind (scan layer key atm l') (fun r => Ok (here ++ r)%list)
  end.
Definition scan_all (own layer key : string) (spec : list (list string)) : res (list string) :=
  if Nat.eqb (List.length spec) 0 || (3 <? List.length spec)%nat then Err
  else rbind (scan layer key false (List.concat spec)) (fun r => Ok (own :: r)).

(** 133-182: one Cartesian dimension of one kind. *)
Definition cart_dim {B} (eq : forall a b : B, {a = b} + {a <> b}) (table : list (string * B)) (PERIODIC : B) (l : list string) : res (B * B) :=
  match l with
  | [s] => rbind (pick table (to_lower s)) (fun b => if eq b PERIODIC then Ok (PERIODIC, PERIODIC) else Err)
  | [s; s'] =>
      rbind (pick table (to_lower s)) (fun b =>
        if eq b PERIODIC then Err
        else rbind (pick table (to_lower s')) (fun b' => if eq b' PERIODIC then Err else Ok (b, b')))
  | _ => Err
  end.
Fixpoint rmap {A B} (f : A -> res B) (l : list A) : res (list B) :=
  match l with [] => Ok [] | a :: l' => rbind (f a) (fun b => rbind (rmap f l') (fun r => Ok (b :: r))) end.

Inductive engine := SRPIC | GRPIC.

(** 124-242 for one kind of boundary; the code treats fields and particles alike. *)
Definition kind_bcs {B} (eq : forall a b : B, {a = b} + {a <> b}) (table : list (string * B)) (PERIODIC AXIS HORIZON : B)
    (eng : engine) (cart : bool) (dim : nat) (spec : list (list string)) : res (list (B * B)) :=
  rbind
    (if cart then
       if Nat.eqb (List.length spec) dim then rmap (cart_dim eq table PERIODIC) spec else Err
     else
       let rest := (AXIS, AXIS) :: (if Nat.eqb dim 3 then [(PERIODIC, PERIODIC)] else []) in
       match eng, spec with
       | SRPIC, [[s; s']] => rbind (pick table (to_lower s)) (fun b => rbind (pick table (to_lower s')) (fun b' => Ok ((b, b') :: rest)))
       | GRPIC, [[s]] => rbind (pick table (to_lower s)) (fun b => Ok ((HORIZON, b) :: rest))
       | _, _ => Err
       end)
    (fun l => if Nat.eqb (List.length l) dim then Ok l else Err).

(** GetBoundaryConditions, 52-263: promises, field and particle conditions per dimension. *)
Definition get_bcs (eng : engine) (cart : bool) (dim : nat) (flds prtl : list (list string))
  : res (list string * list (flds_bc * flds_bc) * list (prtl_bc * prtl_bc)) :=
  rbind (scan_all "grid.boundaries.fields" "match" "grid.boundaries.match.ds" flds) (fun p1 =>
  rbind (scan_all "grid.boundaries.particles" "absorb" "grid.boundaries.absorb.ds" prtl) (fun p2 =>
  rbind (kind_bcs flds_bc_eq_dec flds_table F_PERIODIC F_AXIS F_HORIZON eng cart dim flds) (fun f =>
  rbind (kind_bcs prtl_bc_eq_dec prtl_table P_PERIODIC P_AXIS P_HORIZON eng cart dim prtl) (fun q =>
    Ok ((p1 ++ p2)%list, f, q))))).

(** ** Thickness of the matching layers, 265-325 *)
Open Scope R_scope.
(** What the input has under grid.boundaries.match.ds: a floating point number, a list of lists of
    them, or anything else (missing, an integer, ...), for which both toml::find calls throw. *)
Inductive ds_input := Number (ds : R) | Lists (l : list (list R)) | Other.

(** 293-304: what has been appended when the loop ends, and whether it ended by an exception. *)
Fixpoint read_lists (l : list (list R)) : list (R * R) * bool :=
  match l with
  | [] => ([], true)
  | ds :: l' =>
      match ds with
      | [] => let (r, ok) := read_lists l' in ((0, 0) :: r, ok)
      | [a] => let (r, ok) := read_lists l' in ((a, a) :: r, ok)
      | [a; b] => let (r, ok) := read_lists l' in ((a, b) :: r, ok)
      | _ => ([], false)
      end
  end.
(** 271-311 (Cartesian); [default] is a fraction of the smallest extent.  Without MPI, raise::Error
    throws, and the innermost handler appends the defaults to whatever is already there. *)
Definition match_ds (dim : nat) (default : R) (inp : ds_input) : list (R * R) :=
  match inp with
  | Number ds => repeat (ds, ds) dim
  | Other => repeat (default, default) dim
  | Lists l =>
      if Nat.eqb (List.length l) dim then
        let (r, ok) := read_lists l in if ok then r else (r ++ repeat (default, default) dim)%list
      else repeat (default, default) dim
  end.
(** With MPI, raise::Error ends the program. *)
Definition match_ds_mpi (dim : nat) (default : R) (inp : ds_input) : res (list (R * R)) :=
  match inp with
  | Number ds => Ok (repeat (ds, ds) dim)
  | Other => Ok (repeat (default, default) dim)
  | Lists l =>
      if Nat.eqb (List.length l) dim then let (r, ok) := read_lists l in if ok then Ok r else Err else Err
  end.
