(** Model of the field interpolation to a particle, src/kernels/pushers/sr.hpp:850-1362
    (getInterpolatedEMFields).  The code writes out, for each component and dimension, nested
    sums of products of one-dimensional weights; here the nesting is a recursion over the
    dimensions (exact reals, so the order of summation is immaterial). *)
From Coq Require Import ZArith List Reals Bool.
From Verif Require Import FieldModel ShapeModel.
Import ListNotations.
Open Scope R_scope.

(** sr.hpp "(dual, primal, ...)" comments: which components sit at half-integer positions
    along which axis (axes numbered from 0). *)
Definition dual (c : comp) (d : nat) : bool :=
  match c, d with
  | Ex1, 0%nat | Ex2, 1%nat | Ex3, 2%nat => true
  | Bx1, 1%nat | Bx1, 2%nat | Bx2, 0%nat | Bx2, 2%nat | Bx3, 0%nat | Bx3, 1%nat => true
  | _, _ => false
  end.

(** Cell (ghost offset included) and offset along one axis. *)
Definition pos := (Z * R)%type.

(** sr.hpp:859-871, 909-925, 988-1011: [indx = static_cast<int>(dx + HALF)] etc. *)
Definition zz_weights (stag : bool) (p : pos) : list (Z * R) :=
  let '(i, dx) := p in
  if stag then
    let ind := Int_part (dx + 1/2) in
    let pondm := IZR (ind + 1) - (dx + 1/2) in
    let pondp := 1 - pondm in
    [((i - 1 + ind)%Z, pondm); ((i + ind)%Z, pondp)]
  else [(i, 1 - dx); ((i + 1)%Z, dx)].

(** sr.hpp:1121-1138, 1172-1189, 1257-1277: weights of order O >= 1 and the loop
    [idx = 0; idx < O + 1]. *)
Definition order_weights (stag : bool) (o : nat) (p : pos) : option (list (Z * R)) :=
  match order stag o (fst p) (snd p) with
  | Some (m, wt) => Some (map (fun n => ((m + Z.of_nat n)%Z, wt (Z.of_nat n))) (seq 0 (o + 1)))
  | None => None
  end.

Definition weights (stag : bool) (o : nat) (p : pos) : option (list (Z * R)) :=
  match o with O => Some (zz_weights stag p) | _ => order_weights stag o p end.

Fixpoint wsum (w : list (Z * R)) (f : Z -> R) : R :=
  match w with
  | [] => 0
  | (i, s) :: w' => s * f i + wsum w' f
  end.

(** Component [c] of the field array [F] at a particle at [ps], axes [d], [d + 1], ... *)
Fixpoint interp_from (o : nat) (c : comp) (d : nat) (ps : list pos) (F : list Z -> R) : option R :=
  match ps with
  | [] => Some (F [])
  | p :: ps' =>
      match weights (dual c d) o p with
      | None => None
      | Some w =>
          (fix go (w : list (Z * R)) : option R :=
             match w with
             | [] => Some 0
             | (i, s) :: w' =>
                 match interp_from o c (S d) ps' (fun r => F (i :: r)), go w' with
                 | Some a, Some b => Some (s * a + b)
                 | _, _ => None
                 end
             end) w
      end
  end.

Definition interp (o : nat) (c : comp) (ps : list pos) (EB : fields) : option R :=
  interp_from o c 0 ps (EB c).

(** The array elements that are read. *)
Fixpoint reads_from (o : nat) (c : comp) (d : nat) (ps : list pos) : list (list Z) :=
  match ps with
  | [] => [[]]
  | p :: ps' =>
      match weights (dual c d) o p with
      | None => []
      | Some w => flat_map (fun '(i, _) => map (cons i) (reads_from o c (S d) ps')) w
      end
  end.
Definition reads (o : nat) (c : comp) (ps : list pos) : list (list Z) := reads_from o c 0 ps.
