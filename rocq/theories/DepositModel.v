(** Model of src/kernels/currents_deposit.hpp: DepositCurrents_kernel::operator().
    Exact reals.  A particle's effect is the list of atomic additions it makes to the current
    array; [scatter] performs a list of such additions, in the order given.  The velocity in
    the directions without a coordinate (lines 111-166) enters as the numbers [vp1], [vp2]. *)
From Coq Require Import ZArith List Reals Bool.
From Verif Require Import FieldModel ShapeModel.
Import ListNotations.
Open Scope R_scope.

(** One coordinate of a particle: cell and offset now and before the push. *)
Record mv := { ci : Z; cdx : R; pi : Z; pdx : R }.

(** What the kernel reads: [tag], the coordinates, [vp[1]], [vp[2]] and
    [coeff = weight * charge] (line 168). *)
Record prtl := { dead : bool; mvs : list mv; vp1 : R; vp2 : R; qw : R }.

Definition contrib := (jcomp * list Z * R)%type.

Definition bit (b : bool) : R := if b then 1 else 0.

(** Lines 175-194 (and 227-247, 309-330 for the other axes). *)
Definition zz_r (m : mv) : R := bit (Z.eqb (ci m) (pi m)) * (cdx m + pdx m) * (1/2).
Definition zz_W1 (m : mv) : R := (1/2) * (zz_r m + pdx m + bit (Z.ltb (pi m) (ci m))).
Definition zz_W2 (m : mv) : R :=
  (1/2) * (cdx m + zz_r m + IZR (Z.b2z (Z.ltb (pi m) (ci m)) + pi m - ci m)).
Definition zz_F1 (m : mv) (q inv_dt : R) : R := (bit (Z.ltb (pi m) (ci m)) + zz_r m - pdx m) * q * inv_dt.
Definition zz_F2 (m : mv) (q inv_dt : R) : R :=
  (IZR (ci m - pi m - Z.b2z (Z.ltb (pi m) (ci m))) + cdx m - zz_r m) * q * inv_dt.

(** Lines 198-219. *)
Definition zigzag1 (g : Z) (inv_dt : R) (p : prtl) (m1 : mv) : list contrib :=
  let i1 := ci m1 in let i1_prev := pi m1 in
  let Wx1_1 := zz_W1 m1 in let Wx1_2 := zz_W2 m1 in
  let Fx1_1 := zz_F1 m1 (qw p) inv_dt in let Fx1_2 := zz_F2 m1 (qw p) inv_dt in
  let Fx2_1 := (1/2) * vp1 p * qw p in let Fx2_2 := (1/2) * vp1 p * qw p in
  let Fx3_1 := (1/2) * vp2 p * qw p in let Fx3_2 := (1/2) * vp2 p * qw p in
  [  (Jx1, [i1_prev + g]%Z, Fx1_1);
     (Jx1, [i1 + g]%Z, Fx1_2);
     (Jx2, [i1_prev + g]%Z, Fx2_1 * (1 - Wx1_1));
     (Jx2, [i1_prev + g + 1]%Z, Fx2_1 * Wx1_1);
     (Jx2, [i1 + g]%Z, Fx2_2 * (1 - Wx1_2));
     (Jx2, [i1 + g + 1]%Z, Fx2_2 * Wx1_2);
     (Jx3, [i1_prev + g]%Z, Fx3_1 * (1 - Wx1_1));
     (Jx3, [i1_prev + g + 1]%Z, Fx3_1 * Wx1_1);
     (Jx3, [i1 + g]%Z, Fx3_2 * (1 - Wx1_2));
     (Jx3, [i1 + g + 1]%Z, Fx3_2 * Wx1_2) ].

(** Lines 249-306. *)
Definition zigzag2 (g : Z) (inv_dt : R) (p : prtl) (m1 m2 : mv) : list contrib :=
  let i1 := ci m1 in let i1_prev := pi m1 in let i2 := ci m2 in let i2_prev := pi m2 in
  let Wx1_1 := zz_W1 m1 in let Wx1_2 := zz_W2 m1 in
  let Fx1_1 := zz_F1 m1 (qw p) inv_dt in let Fx1_2 := zz_F2 m1 (qw p) inv_dt in
  let Wx2_1 := zz_W1 m2 in let Wx2_2 := zz_W2 m2 in
  let Fx2_1 := zz_F1 m2 (qw p) inv_dt in let Fx2_2 := zz_F2 m2 (qw p) inv_dt in
  let Fx3_1 := (1/2) * vp2 p * qw p in let Fx3_2 := (1/2) * vp2 p * qw p in
  [  (Jx1, [i1_prev + g; i2_prev + g]%Z, Fx1_1 * (1 - Wx2_1));
     (Jx1, [i1_prev + g; i2_prev + g + 1]%Z, Fx1_1 * Wx2_1);
     (Jx1, [i1 + g; i2 + g]%Z, Fx1_2 * (1 - Wx2_2));
     (Jx1, [i1 + g; i2 + g + 1]%Z, Fx1_2 * Wx2_2);
     (Jx2, [i1_prev + g; i2_prev + g]%Z, Fx2_1 * (1 - Wx1_1));
     (Jx2, [i1_prev + g + 1; i2_prev + g]%Z, Fx2_1 * Wx1_1);
     (Jx2, [i1 + g; i2 + g]%Z, Fx2_2 * (1 - Wx1_2));
     (Jx2, [i1 + g + 1; i2 + g]%Z, Fx2_2 * Wx1_2);
     (Jx3, [i1_prev + g; i2_prev + g]%Z, Fx3_1 * (1 - Wx1_1) * (1 - Wx2_1));
     (Jx3, [i1_prev + g + 1; i2_prev + g]%Z, Fx3_1 * Wx1_1 * (1 - Wx2_1));
     (Jx3, [i1_prev + g; i2_prev + g + 1]%Z, Fx3_1 * (1 - Wx1_1) * Wx2_1);
     (Jx3, [i1_prev + g + 1; i2_prev + g + 1]%Z, Fx3_1 * Wx1_1 * Wx2_1);
     (Jx3, [i1 + g; i2 + g]%Z, Fx3_2 * (1 - Wx1_2) * (1 - Wx2_2));
     (Jx3, [i1 + g + 1; i2 + g]%Z, Fx3_2 * Wx1_2 * (1 - Wx2_2));
     (Jx3, [i1 + g; i2 + g + 1]%Z, Fx3_2 * (1 - Wx1_2) * Wx2_2);
     (Jx3, [i1 + g + 1; i2 + g + 1]%Z, Fx3_2 * Wx1_2 * Wx2_2) ].

(** Lines 308-403. *)
Definition zigzag3 (g : Z) (inv_dt : R) (p : prtl) (m1 m2 m3 : mv) : list contrib :=
  let i1 := ci m1 in let i1_prev := pi m1 in let i2 := ci m2 in let i2_prev := pi m2 in
  let i3 := ci m3 in let i3_prev := pi m3 in
  let Wx1_1 := zz_W1 m1 in let Wx1_2 := zz_W2 m1 in
  let Fx1_1 := zz_F1 m1 (qw p) inv_dt in let Fx1_2 := zz_F2 m1 (qw p) inv_dt in
  let Wx2_1 := zz_W1 m2 in let Wx2_2 := zz_W2 m2 in
  let Fx2_1 := zz_F1 m2 (qw p) inv_dt in let Fx2_2 := zz_F2 m2 (qw p) inv_dt in
  let Wx3_1 := zz_W1 m3 in let Wx3_2 := zz_W2 m3 in
  let Fx3_1 := zz_F1 m3 (qw p) inv_dt in let Fx3_2 := zz_F2 m3 (qw p) inv_dt in
  [  (Jx1, [i1_prev + g; i2_prev + g; i3_prev + g]%Z, Fx1_1 * (1 - Wx2_1) * (1 - Wx3_1));
     (Jx1, [i1_prev + g; i2_prev + g + 1; i3_prev + g]%Z, Fx1_1 * Wx2_1 * (1 - Wx3_1));
     (Jx1, [i1_prev + g; i2_prev + g; i3_prev + g + 1]%Z, Fx1_1 * (1 - Wx2_1) * Wx3_1);
     (Jx1, [i1_prev + g; i2_prev + g + 1; i3_prev + g + 1]%Z, Fx1_1 * Wx2_1 * Wx3_1);
     (Jx1, [i1 + g; i2 + g; i3 + g]%Z, Fx1_2 * (1 - Wx2_2) * (1 - Wx3_2));
     (Jx1, [i1 + g; i2 + g + 1; i3 + g]%Z, Fx1_2 * Wx2_2 * (1 - Wx3_2));
     (Jx1, [i1 + g; i2 + g; i3 + g + 1]%Z, Fx1_2 * (1 - Wx2_2) * Wx3_2);
     (Jx1, [i1 + g; i2 + g + 1; i3 + g + 1]%Z, Fx1_2 * Wx2_2 * Wx3_2);
     (Jx2, [i1_prev + g; i2_prev + g; i3_prev + g]%Z, Fx2_1 * (1 - Wx1_1) * (1 - Wx3_1));
     (Jx2, [i1_prev + g + 1; i2_prev + g; i3_prev + g]%Z, Fx2_1 * Wx1_1 * (1 - Wx3_1));
     (Jx2, [i1_prev + g; i2_prev + g; i3_prev + g + 1]%Z, Fx2_1 * (1 - Wx1_1) * Wx3_1);
     (Jx2, [i1_prev + g + 1; i2_prev + g; i3_prev + g + 1]%Z, Fx2_1 * Wx1_1 * Wx3_1);
     (Jx2, [i1 + g; i2 + g; i3 + g]%Z, Fx2_2 * (1 - Wx1_2) * (1 - Wx3_2));
     (Jx2, [i1 + g + 1; i2 + g; i3 + g]%Z, Fx2_2 * Wx1_2 * (1 - Wx3_2));
     (Jx2, [i1 + g; i2 + g; i3 + g + 1]%Z, Fx2_2 * (1 - Wx1_2) * Wx3_2);
     (Jx2, [i1 + g + 1; i2 + g; i3 + g + 1]%Z, Fx2_2 * Wx1_2 * Wx3_2);
     (Jx3, [i1_prev + g; i2_prev + g; i3_prev + g]%Z, Fx3_1 * (1 - Wx1_1) * (1 - Wx2_1));
     (Jx3, [i1_prev + g + 1; i2_prev + g; i3_prev + g]%Z, Fx3_1 * Wx1_1 * (1 - Wx2_1));
     (Jx3, [i1_prev + g; i2_prev + g + 1; i3_prev + g]%Z, Fx3_1 * (1 - Wx1_1) * Wx2_1);
     (Jx3, [i1_prev + g + 1; i2_prev + g + 1; i3_prev + g]%Z, Fx3_1 * Wx1_1 * Wx2_1);
     (Jx3, [i1 + g; i2 + g; i3 + g]%Z, Fx3_2 * (1 - Wx1_2) * (1 - Wx2_2));
     (Jx3, [i1 + g + 1; i2 + g; i3 + g]%Z, Fx3_2 * Wx1_2 * (1 - Wx2_2));
     (Jx3, [i1 + g; i2 + g + 1; i3 + g]%Z, Fx3_2 * (1 - Wx1_2) * Wx2_2);
     (Jx3, [i1 + g + 1; i2 + g + 1; i3 + g]%Z, Fx3_2 * Wx1_2 * Wx2_2) ].

(** The running sums of lines 441-446, 516-541, 648-709:
    [j[0] = -Q * W[0]; j[i] = j[i-1] - Q * W[i]]. *)
Fixpoint running (Q : R) (W : Z -> R) (n : nat) : R :=
  match n with
  | O => - Q * W 0%Z
  | S n' => running Q W n' - Q * W (Z.of_nat n)
  end.

(** The loop range 0, ..., n - 1. *)
Definition upto (n : Z) : list Z := map Z.of_nat (seq 0 (Z.to_nat n)).

(** Lines 410-473. *)
Definition esirkepov1 (g : Z) (inv_dt : R) (p : prtl) (s1 : Z * Z * (Z -> R) * (Z -> R)) : list contrib :=
  let '(i1_min, i1_max, iS_x1, fS_x1) := s1 in
  let Wx1 i := fS_x1 i - iS_x1 i in
  let Wx23 i := (1/2) * (fS_x1 i + iS_x1 i) in
  let Qdx1dt := qw p * inv_dt in
  let QVx2 := qw p * vp1 p in
  let QVx3 := qw p * vp2 p in
  let jx1 i := running Qdx1dt Wx1 (Z.to_nat i) in
  let i1_min := (i1_min + g)%Z in let i1_max := (i1_max + g)%Z in
  let di_x1 := (i1_max - i1_min)%Z in
  map (fun i => (Jx1, [(i1_min + i)%Z], jx1 i)) (upto di_x1) ++
  map (fun i => (Jx2, [(i1_min + i)%Z], QVx2 * Wx23 i)) (upto (di_x1 + 1)) ++
  map (fun i => (Jx3, [(i1_min + i)%Z], QVx3 * Wx23 i)) (upto (di_x1 + 1)).

(** Lines 475-581.  [third] is the constant THIRD. *)
Definition esirkepov2 (g : Z) (third inv_dt : R) (p : prtl)
    (s1 s2 : Z * Z * (Z -> R) * (Z -> R)) : list contrib :=
  let '(i1_min, i1_max, iS_x1, fS_x1) := s1 in
  let '(i2_min, i2_max, iS_x2, fS_x2) := s2 in
  let Wx1 i j := (1/2) * (fS_x1 i - iS_x1 i) * (fS_x2 j + iS_x2 j) in
  let Wx2 i j := (1/2) * (fS_x1 i + iS_x1 i) * (fS_x2 j - iS_x2 j) in
  let Wx3 i j := third * (fS_x2 j * ((1/2) * iS_x1 i + fS_x1 i) + iS_x2 j * ((1/2) * fS_x1 i + iS_x1 i)) in
  let Qdx1dt := qw p * inv_dt in
  let Qdx2dt := qw p * inv_dt in
  let QVx3 := qw p * vp2 p in
  let jx1 i j := running Qdx1dt (fun i' => Wx1 i' j) (Z.to_nat i) in
  let jx2 i j := running Qdx2dt (fun j' => Wx2 i j') (Z.to_nat j) in
  let i1_min := (i1_min + g)%Z in let i1_max := (i1_max + g)%Z in
  let i2_min := (i2_min + g)%Z in let i2_max := (i2_max + g)%Z in
  let di_x1 := (i1_max - i1_min)%Z in
  let di_x2 := (i2_max - i2_min)%Z in
  flat_map (fun i => map (fun j => (Jx1, [(i1_min + i)%Z; (i2_min + j)%Z], jx1 i j)) (upto (di_x2 + 1))) (upto di_x1) ++
  flat_map (fun i => map (fun j => (Jx2, [(i1_min + i)%Z; (i2_min + j)%Z], jx2 i j)) (upto di_x2)) (upto (di_x1 + 1)) ++
  flat_map (fun i => map (fun j => (Jx3, [(i1_min + i)%Z; (i2_min + j)%Z], QVx3 * Wx3 i j)) (upto (di_x2 + 1))) (upto (di_x1 + 1)).

(** Lines 583-752. *)
Definition esirkepov3 (g : Z) (third inv_dt : R) (p : prtl)
    (s1 s2 s3 : Z * Z * (Z -> R) * (Z -> R)) : list contrib :=
  let '(i1_min, i1_max, iS_x1, fS_x1) := s1 in
  let '(i2_min, i2_max, iS_x2, fS_x2) := s2 in
  let '(i3_min, i3_max, iS_x3, fS_x3) := s3 in
  let Wx1 i j k := third * (fS_x1 i - iS_x1 i) *
      ((iS_x2 j * iS_x3 k + fS_x2 j * fS_x3 k) + (1/2) * (iS_x3 k * fS_x2 j + iS_x2 j * fS_x3 k)) in
  let Wx2 i j k := third * (fS_x2 j - iS_x2 j) *
      (iS_x1 i * iS_x3 k + fS_x1 i * fS_x3 k + (1/2) * (iS_x3 k * fS_x1 i + iS_x1 i * fS_x3 k)) in
  let Wx3 i j k := third * (fS_x3 k - iS_x3 k) *
      (iS_x1 i * iS_x2 j + fS_x1 i * fS_x2 j + (1/2) * (iS_x1 i * fS_x2 j + iS_x2 j * fS_x1 i)) in
  let Qdxdt := qw p * inv_dt in
  let Qdydt := qw p * inv_dt in
  let Qdzdt := qw p * inv_dt in
  let jx1 i j k := running Qdxdt (fun i' => Wx1 i' j k) (Z.to_nat i) in
  let jx2 i j k := running Qdydt (fun j' => Wx2 i j' k) (Z.to_nat j) in
  let jx3 i j k := running Qdzdt (fun k' => Wx3 i j k') (Z.to_nat k) in
  let i1_min := (i1_min + g)%Z in let i1_max := (i1_max + g)%Z in
  let i2_min := (i2_min + g)%Z in let i2_max := (i2_max + g)%Z in
  let i3_min := (i3_min + g)%Z in let i3_max := (i3_max + g)%Z in
  let di_x1 := (i1_max - i1_min)%Z in
  let di_x2 := (i2_max - i2_min)%Z in
  let di_x3 := (i3_max - i3_min)%Z in
  let loops c n1 n2 n3 (j : Z -> Z -> Z -> R) :=
    flat_map (fun i => flat_map (fun j' => map (fun k =>
      (c, [(i1_min + i)%Z; (i2_min + j')%Z; (i3_min + k)%Z], j i j' k)) (upto n3)) (upto n2)) (upto n1) in
  loops Jx1 di_x1 (di_x2 + 1)%Z (di_x3 + 1)%Z jx1 ++
  loops Jx2 (di_x1 + 1)%Z di_x2 (di_x3 + 1)%Z jx2 ++
  loops Jx3 (di_x1 + 1)%Z (di_x2 + 1)%Z di_x3 jx3.

Definition shapes (o : nat) (m : mv) : option (Z * Z * (Z -> R) * (Z -> R)) :=
  for_deposit o (pi m) (pdx m) (ci m) (cdx m).

(** operator(), lines 107-763: [o = 0] is the zig-zag scheme, 1..11 the Esirkepov scheme; dead
    particles are skipped.  Other orders do not compile (static_assert, line 34). *)
Definition deposit (g : Z) (o : nat) (third inv_dt : R) (p : prtl) : list contrib :=
  if dead p then []
  else match o, mvs p with
  | O, [m1] => zigzag1 g inv_dt p m1
  | O, [m1; m2] => zigzag2 g inv_dt p m1 m2
  | O, [m1; m2; m3] => zigzag3 g inv_dt p m1 m2 m3
  | _, [m1] =>
      match shapes o m1 with Some s1 => esirkepov1 g inv_dt p s1 | None => [] end
  | _, [m1; m2] =>
      match shapes o m1, shapes o m2 with
      | Some s1, Some s2 => esirkepov2 g third inv_dt p s1 s2 | _, _ => [] end
  | _, [m1; m2; m3] =>
      match shapes o m1, shapes o m2, shapes o m3 with
      | Some s1, Some s2, Some s3 => esirkepov3 g third inv_dt p s1 s2 s3 | _, _, _ => [] end
  | _, _ => []
  end.

(** Atomic additions to the (scatter view of the) current array, in some order. *)
Definition currents := mem jcomp.
Definition scatter (cs : list contrib) (J : currents) : currents :=
  fold_left (fun J '(c, x, v) => add jcomp_eq_dec J c x v) cs J.
