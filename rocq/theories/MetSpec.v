(** What the conversions of a metric are supposed to do. *)
From Coq Require Import Reals ZArith List.
From Verif Require Import MetModel.
Open Scope R_scope.

(** A box of positive size cut into a positive number of cells. *)
Definition sensible (g : grid) : Prop :=
  x1_min g < x1_max g /\ x2_min g < x2_max g /\ (0 < nx1 g)%Z /\ (0 < nx2 g)%Z.

Definition c1 (v : vec3) : R := fst (fst v).
Definition c2 (v : vec3) : R := snd (fst v).
Definition c3 (v : vec3) : R := snd v.
Definition dot3 (v w : vec3) : R := c1 v * c1 w + c2 v * c2 w + c3 v * c3 w.

(** Two one-dimensional maps undo each other everywhere. *)
Definition mutually_inverse (f : R -> R) (k : R -> R) : Prop :=
  (forall x, k (f x) = x) /\ (forall y, f (k y) = y).

(** [x] displaced by [s] times [u]. *)
Definition displaced (x u : vec3) (s : R) : vec3 :=
  (c1 x + s * c1 u, c2 x + s * c2 u, c3 x + s * c3 u).

(** A point that moves through [x] with velocity [u] in the coordinates
    mapped by [pos] to Cartesian ones has Cartesian velocity [w]. *)
Definition cartesian_velocity (pos : vec3 -> vec3) (x u w : vec3) : Prop :=
  derivable_pt_lim (fun s => c1 (pos (displaced x u s))) 0 (c1 w) /\
  derivable_pt_lim (fun s => c2 (pos (displaced x u s))) 0 (c2 w) /\
  derivable_pt_lim (fun s => c3 (pos (displaced x u s))) 0 (c3 w).

(** Properties of a family of basis changes at one point. *)
Definition undoes_itself (tr : idx -> idx -> vec3 -> option vec3) : Prop :=
  forall a b v w, tr a b v = Some w -> tr b a w = Some v.
Definition routes_agree (tr : idx -> idx -> vec3 -> option vec3) : Prop :=
  forall a b c v w u u', tr a b v = Some w -> tr b c w = Some u -> tr a c v = Some u' -> u = u'.
(** The bases between which vectors are converted in the SR engine. *)
Definition basic (a : idx) : Prop := a = IT \/ a = IU \/ a = ID.
Definition norms_agree (tr : idx -> idx -> vec3 -> option vec3) : Prop :=
  forall v, exists t c, tr IU IT v = Some t /\ tr IU ID v = Some c /\ dot3 t t = dot3 v c.

(** The [i]-th coordinate of a point of a two-dimensional grid; the third
    one is ignored by the metric and taken as 0. *)
Definition coord (i : nat) (x : coord2) : R :=
  match i with 1%nat => fst x | 2%nat => snd x | _ => 0 end.

(** Points off the axis and away from the origin. *)
Definition s_regular (g : grid) (x : coord2) : Prop :=
  0 < s_to_ph g 1 (fst x) /\ 0 < s_to_ph g 2 (snd x) < PI.
Definition q_regular (m : qmet) (x : coord2) : Prop :=
  0 < q_to_ph m 1 (fst x) /\ 0 < q_to_ph m 2 (snd x) < PI.

(** The parameters of the quasi-spherical metric for which its inverse
    stretching is a real number: the logarithm's origin below the box, the
    angular stretching not negative. *)
Definition q_ok (eps : R) (g : grid) (r0 h : R) : Prop :=
  0 <= eps /\ sensible g /\ r0 < x1_min g /\ 0 <= h < 1.

(** [A] is the integral of [f] from [a] to [b]. *)
Definition integral (f : R -> R) (a b A : R) : Prop :=
  exists F, (forall s, derivable_pt_lim F s (f s)) /\ A = F b - F a.
