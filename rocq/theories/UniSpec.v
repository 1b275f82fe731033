(** Vocabulary for uniform injection. *)
From Coq Require Import ZArith List Bool Reals.
From Verif Require Import Base MeshModel MeshSpec.
Import ListNotations.
Open Scope R_scope.

(** [L] is the length, in code coordinates, of the part of the extent inside the box. *)
Definition code_length (conv : R -> R) (e : R * R) (b : bnd * bnd) (L : R) : Prop :=
  (exists x y, x <= y /\ (forall t, x <= t <= y <-> within_ext e t /\ within b t) /\ L = conv y - conv x) \/
  ((forall t, ~ (within_ext e t /\ within b t)) /\ L = 0).
(** The same for all dimensions: [V] is the number of cells. *)
Fixpoint code_volume (convs : list (R -> R)) (ext : list (R * R)) (box : list (bnd * bnd)) (V : R) : Prop :=
  match convs, ext, box with
  | c :: cs, e :: es, b :: bs => exists L W, code_length c e b L /\ code_volume cs es bs W /\ V = L * W
  | [], [], [] => V = 1
  | _, _, _ => False
  end.

(** The common part is shorter than a rounding error of its ends, in some dimension. *)
Definition thin (eps : R) (ext : list (R * R)) (box : list (bnd * bnd)) : Prop :=
  exists d e b, nth_error ext d = Some e /\ nth_error box d = Some b /\
    exists x y, x < y /\ (forall t, x <= t <= y <-> within_ext e t /\ within b t) /\
      y - x <= Rmin (Rabs x) (Rabs y) * eps.

(** A conversion, an extent and a number of cells for each dimension. *)
Fixpoint mesh_ok (convs : list (R -> R)) (ext : list (R * R)) (ns : list Z) : Prop :=
  match convs, ext, ns with
  | c :: cs, e :: es, n :: ms => proper e /\ grid_map c e n /\ mesh_ok cs es ms
  | [], [], [] => True
  | _, _, _ => False
  end.

(** [full] is the box given, continued by whole dimensions up to the number of dimensions. *)
Definition continues (dim : nat) (box full : list (bnd * bnd)) : Prop :=
  length full = dim /\
  forall d, (d < dim)%nat -> nth_error full d = Some (match nth_error box d with Some b => b | None => (NInf, PInf) end).

(** The box has its ends in order in every dimension. *)
Definition ordered (b : bnd * bnd) : Prop :=
  match b with (Fin x, Fin y) => x <= y | (PInf, _) => False | (_, NInf) => False | _ => True end.

(** A grid cut at the given points in each dimension: the extents of its subdomains. *)
Fixpoint pieces (cuts : list R) : list (R * R) :=
  match cuts with
  | a :: ((b :: _) as r) => (a, b) :: pieces r
  | _ => []
  end.
Fixpoint subdomains (cuts : list (list R)) : list (list (R * R)) :=
  match cuts with
  | [] => [[]]
  | c :: r => flat_map (fun e => map (cons e) (subdomains r)) (pieces c)
  end.
(** The extent of the whole. *)
Definition whole (cuts : list (list R)) : list (R * R) := map (fun c => (hd 0 c, last c 0)) cuts.
Fixpoint increasing (l : list R) : Prop :=
  match l with
  | a :: ((b :: _) as r) => a < b /\ increasing r
  | _ => True
  end.
(** Code coordinates of a subdomain start at zero at its lower end. *)
Definition local (G : R -> R) (e : R * R) : R -> R := fun x => G x - G (fst e).
Fixpoint locals (Gs : list (R -> R)) (ext : list (R * R)) : list (R -> R) :=
  match Gs, ext with g :: gs, e :: es => local g e :: locals gs es | _, _ => [] end.

Definition totalR {A} (f : A -> R) (l : list A) : R := fold_right (fun a s => f a + s) 0 l.
Definition totalZ {A} (f : A -> Z) (l : list A) : Z := fold_right (fun a s => (f a + s)%Z) 0%Z l.
