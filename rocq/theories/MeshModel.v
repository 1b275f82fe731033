(** Region queries: src/framework/domain/mesh.h:65-215, src/global/global.h:355-362,
    src/global/utils/comparators.h:31-36.

    Arithmetic is exact; the ends of a box may be infinite.  [eps] is the machine epsilon.  The
    conversion from physical to code coordinates of dimension [d] is a parameter [conv d]. *)
From Coq Require Import ZArith List Bool Reals.
From Flocq Require Import Core.Raux.
From Verif Require Import Base.
Import ListNotations.
Open Scope R_scope.

(** A floating point number that may be infinite; Range::Min is [NInf], Range::Max is [PInf]. *)
Inductive bnd := NInf | Fin (x : R) | PInf.
Definition blt (a b : bnd) : bool :=
  match a, b with
  | NInf, NInf => false | NInf, _ => true
  | Fin x, Fin y => if Rlt_dec x y then true else false
  | Fin _, PInf => true | _, _ => false
  end.
(** std::max, std::min. *)
Definition bmax (a b : bnd) : bnd := if blt a b then b else a.
Definition bmin (a b : bnd) : bnd := if blt b a then b else a.
Definition is_ninf (a : bnd) : bool := match a with NInf => true | _ => false end.
Definition is_pinf (a : bnd) : bool := match a with PInf => true | _ => false end.
Definition is_all (b : bnd * bnd) : bool := is_ninf (fst b) && is_pinf (snd b).

(** mesh.h:79-100: one dimension; the pair is only stored inside the last [else]. *)
Definition intersect1 (e : R * R) (b : bnd * bnd) : list (bnd * bnd) :=
  if is_all b then [(Fin (fst e), Fin (snd e))]
  else
    let x_min := if is_ninf (fst b) then Fin (fst e) else bmin (Fin (snd e)) (bmax (Fin (fst e)) (fst b)) in
    if is_pinf (snd b) then []
    else [(x_min, bmax (Fin (fst e)) (bmin (Fin (snd e)) (snd b)))].
(** mesh.h:73-103. *)
Definition intersection (ext : list (R * R)) (box : list (bnd * bnd)) : res (list (bnd * bnd)) :=
  if Nat.eqb (length box) (length ext) then Ok (concat (map2 intersect1 ext box)) else Err.

(** comparators.h:31-36, for finite arguments (infinite ones do not occur here). *)
Definition almost_equal (eps : R) (a b : bnd) : bool :=
  match a, b with
  | Fin x, Fin y => if Rle_dec (Rabs (x - y)) (Rmin (Rabs x) (Rabs y) * eps) then true else if Req_EM_T x y then true else false
  | _, _ => false
  end.
(** mesh.h:111-120. *)
Definition intersects (eps : R) (ext : list (R * R)) (box : list (bnd * bnd)) : res bool :=
  rbind (intersection ext box) (fun l =>
    Ok (forallb (fun i => negb (blt (snd i) (fst i) || almost_equal eps (fst i) (snd i))) l)).

Open Scope Z_scope.
(** Conversion of a floating point integer to an unsigned 32-bit one: undefined out of range. *)
Definition to_u32 (z : Z) : res Z := if (0 <=? z) && (z <? 2 ^ 32) then Ok z else UB.
Definition fin (b : bnd) : R := match b with Fin x => x | _ => 0%R end.

(** mesh.h:150-207: one dimension.  [g]: N_GHOSTS, [n]: active cells, [gh]: incl_ghosts. *)
Definition range1 (g : Z) (conv : R -> R) (e : R * R) (n : Z) (b : bnd * bnd) (gh : bool * bool) : res (Z * Z) :=
  if is_all b then Ok (if fst gh then 0 else g, if snd gh then n + 2 * g else n + g)
  else
    let xi_min := bmin (bmax (Fin (fst e)) (fst b)) (Fin (snd e)) in
    let xi_max := bmax (bmin (Fin (snd e)) (snd b)) (Fin (fst e)) in
    let c_min := Zfloor (conv (fin xi_min)) in
    let c_max := Zceil (conv (fin xi_max)) in
    let c_min := if fst gh then c_min else Z.max c_min 0 in
    let c_max := if snd gh then c_max else Z.min c_max n in
    rbind (to_u32 c_min) (fun a => rbind (to_u32 c_max) (fun b =>
      Ok (w32 (a + if fst gh then 0 else g), w32 (b + if snd gh then 2 * g else g)))).

Fixpoint ranges (g : Z) (convs : list (R -> R)) (ext : list (R * R)) (ns : list Z) (box : list (bnd * bnd)) (ghs : list (bool * bool))
  : res (list (Z * Z)) :=
  match convs, ext, ns, box, ghs with
  | conv :: convs', e :: ext', n :: ns', b :: box', gh :: ghs' =>
      rbind (range1 g conv e n b gh) (fun r => rbind (ranges g convs' ext' ns' box' ghs') (fun rs => Ok (r :: rs)))
  | _, _, _, _, _ => Ok []
  end.
(** mesh.h:132-211. *)
Definition extent_to_range (eps : R) (g : Z) (convs : list (R -> R)) (ext : list (R * R)) (ns : list Z)
    (box : list (bnd * bnd)) (ghs : list (bool * bool)) : res (list (Z * Z)) :=
  if Nat.eqb (length box) (length ext) && Nat.eqb (length ghs) (length ext) then
    rbind (intersects eps ext box) (fun i =>
      if i then ranges g convs ext ns box ghs else Ok (map (fun _ => (0, 0)) box))
  else Err.
