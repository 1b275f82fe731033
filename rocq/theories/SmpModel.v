(** Sampling of particle velocities: src/archetypes/energy_dist.h:39-77 (Powerlaw), 79-135 (JuttnerSinge),
    222-229 (first part of Maxwellian::operator()).  The boost that follows, 231-242, is [boost_x1] of
    VelModel.

    Exact real arithmetic.  Random numbers are a list, used from the front; [None] means that the list
    was too short, that is, that the code still waits for a number it accepts. *)
From Coq Require Import Reals List Bool.
From Verif Require Import VelModel.
Import ListNotations.
Open Scope R_scope.

(** 52-62: the Lorentz factor from the first number. *)
Definition powerlaw_gamma (g_min g_max pl_ind X1 : R) : R :=
  if Req_EM_T pl_ind (-1) then 1 + Rpower g_min (1 - X1) * Rpower g_max X1
  else 1 + Rpower (Rpower g_min (1 + pl_ind) + (- Rpower g_min (1 + pl_ind) + Rpower g_max (1 + pl_ind)) * X1)
             (1 / (1 + pl_ind)).

(** 66-69 and 129-132: a vector of length [u]. *)
Definition direction (u X2 X3 : R) : vec :=
  let v2 := 2 * u * sqrt (X2 * (1 - X2)) in
  (u * (2 * X2 - 1), v2 * cos (2 * PI * X3), v2 * sin (2 * PI * X3)).

(** 48-72. *)
Definition powerlaw (g_min g_max pl_ind X1 X2 X3 : R) : vec :=
  let rand_gam := powerlaw_gamma g_min g_max pl_ind X1 in
  direction (sqrt (rand_gam * rand_gam - 1)) X2 X3.

(** cmp::AlmostZero. *)
Definition almost0 (eps x : R) : bool := if Rle_dec (Rabs x) eps then true else false.

(** 86-89, 121-124: the next number that is not almost zero. *)
Fixpoint draw (eps : R) (l : list R) : option (R * list R) :=
  match l with
  | [] => None
  | x :: r => if almost0 eps x then draw eps r else Some (x, r)
  end.
(** 114-119: the next product of three numbers that is not almost zero. *)
Fixpoint draw3 (eps : R) (l : list R) : option (R * list R) :=
  match l with
  | a :: b :: c :: r => if almost0 eps (a * b * c) then draw3 eps r else Some (a * b * c, r)
  | _ => None
  end.

Definition bind {A B} (o : option A) (k : A -> option B) : option B := match o with Some a => k a | None => None end.

(** 86-92: one component, non-relativistic. *)
Definition gauss (eps temp : R) (l : list R) : option (R * list R) :=
  bind (draw eps l) (fun '(x1, l) =>
  match l with
  | [] => None
  | x2 :: l => Some (sqrt (-2 * ln x1) * cos (2 * PI * x2) * sqrt temp, l)
  end).

(** 113-126: one turn of the loop needs at least four numbers, so the length of the list bounds the turns. *)
Fixpoint sobol (fuel : nat) (eps temp randu randeta : R) (l : list R) : option (R * list R) :=
  if Rle_dec (randeta * randeta) (randu * randu + 1) then
    match fuel with
    | O => None
    | S f =>
        bind (draw3 eps l) (fun '(x1, l) =>
        let randu := - temp * ln x1 in
        bind (draw eps l) (fun '(x2, l) =>
        sobol f eps temp randu (- temp * ln (x1 * x2)) l))
    end
  else Some (randu, l).

(** 79-135. *)
Definition juttner (eps temp : R) (l : list R) : option (vec * list R) :=
  if Rlt_dec temp (1 / 2) then
    bind (gauss eps temp l) (fun '(a, l) =>
    bind (gauss eps temp l) (fun '(b, l) =>
    bind (gauss eps temp l) (fun '(c, l) => Some ((a, b, c), l))))
  else
    match l with
    | [] => None
    | eta :: l =>
        bind (sobol (length l) eps temp 1 eta l) (fun '(u, l) =>
        match l with
        | x1 :: x2 :: l => Some (direction u x1 x2, l)
        | _ => None
        end)
    end.

(** 222-229. *)
Definition maxwellian_rest (eps temp : R) (l : list R) : option (vec * list R) :=
  if almost0 eps temp then Some ((0, 0, 0), l) else juttner eps temp l.
