(** Particle moments on the grid.
    src/kernels/particle_moments.hpp (ParticleMoments_kernel, NormalizeVectorByRho_kernel),
    launched by ComputeMoments, src/framework/domain/metadomain_io.cpp:121-175.

    Exact reals.  Not modelled: the transformation of a particle's stored velocity to the basis
    of the output in non-Cartesian metrics (it is the parameter [frame]) and the
    four-velocity normalisation of the GR engine. *)
From Coq Require Import ZArith List Bool Reals.
From Verif Require Import Base ShapeModel.
Import ListNotations.
Open Scope R_scope.

(** global/enums.h FldsID, those accepted at particle_moments.hpp:48-50. *)
Inductive moment := Rho | Charge | N | Nppc | T | V.

(** global/enums.h OutputSmoothingType. *)
Inductive smoothing := SPLINE | CONST.

(** The arrays of a particle that are read: tag, cell and offset per dimension, and weight.
    [vel] is what the engine stores for the velocity. *)
Record part := { ptag : Z; ppos : list (Z * R); pvel : R * R * R; pweight : R }.

(** Species properties, containers/species.h. *)
Record species := { smass : R; scharge : R; sparts : list part }.

(** Kernel parameters: N_GHOSTS, coordinates, axis flags (95-103), number of cells of the domain
    along x2, 1/n0, smoothing; [sqrt_det_h] of the metric; [frame mass p] is (u0, u1, u2, u3) of
    the particle in the basis of the output. *)
Record mcfg := {
  ghosts : Z; cartesian : bool; axis_min : bool; axis_max : bool; ni2 : Z;
  inv_n0 : R; use_weights : bool; order_ : nat; method : smoothing;
  sqrt_det_h : list R -> R;
  frame : R -> part -> R * R * R * R
}.

(** 93: ceil(order / 2). *)
Definition window (o : nat) : Z := (Z.of_nat o + 1) / 2.

(** 109-150.  An unsupported order aborts, here [None]. *)
Definition shapeFunction (c : mcfg) (x : R) : option R :=
  match method c with
  | SPLINE =>
      match order_ c with
      | 0%nat => Some 1
      | 1%nat => Some (S1 x) | 2%nat => Some (S2 x) | 3%nat => Some (S3 x)
      | 4%nat => Some (S4 x) | 5%nat => Some (S5 x) | 6%nat => Some (S6 x)
      | 7%nat => Some (S7 x) | 8%nat => Some (S8 x) | 9%nat => Some (S9 x)
      | 10%nat => Some (S10 x) | 11%nat => Some (S11 x)
      | _ => None
      end
  | CONST => Some (1 / (2 * IZR (window (order_ c)) + 1))
  end.

(** Minkowski metric, SRPIC: the velocity itself and u0, 157-163 and 180-182. *)
Definition cartesian_frame (mass : R) (p : part) : R * R * R * R :=
  let '(u1, u2, u3) := pvel p in
  let n := u1 * u1 + u2 * u2 + u3 * u3 in
  (if Req_EM_T mass 0 then sqrt n else sqrt (1 + n), u1, u2, u3).

(** [u_Phys[c - 1]] for c > 0, [u0] for c = 0; c > 3 reads past the array. *)
Definition component (u : R * R * R * R) (c : Z) : option R :=
  let '(u0, u1, u2, u3) := u in
  match c with 0%Z => Some u0 | 1%Z => Some u1 | 2%Z => Some u2 | 3%Z => Some u3 | _ => None end.

Definition opt2 (f : R -> R -> R) (a b : option R) : option R :=
  match a, b with Some x, Some y => Some (f x y) | _, _ => None end.

Definition mass1 (m : R) : R := if Req_EM_T m 0 then 1 else m.

(** 211-219. *)
Definition stress_energy (c : mcfg) (m : R) (p : part) (c1 c2 : Z) : option R :=
  let u := frame c m p in
  match component u 0 with
  | Some u0 =>
      fold_left (fun T_component k => opt2 Rmult T_component (component u k))
        [c1; c2] (Some (mass1 m / u0))
  | None => None
  end.

(** 222-256 (SRPIC): [u_Phys[c1 - 1]], c1 = 0 reads before the array. *)
Definition bulk_velocity (c : mcfg) (m : R) (p : part) (c1 : Z) : option R :=
  let u := frame c m p in
  match c1 with
  | 0%Z => None
  | _ => match component u 0, component u c1 with
         | Some u0, Some ui => Some (mass1 m * ui / u0)
         | _, _ => None
         end
  end.

(** 33-41 and 299-312. *)
Definition raw (c : mcfg) (F : moment) (s : species) (p : part) (c1 c2 : Z) : option R :=
  match F with
  | T => stress_energy c (smass s) p c1 c2
  | V => bulk_velocity c (smass s) p c1
  | Rho => Some (smass s)
  | Charge => Some (scharge s)
  | N | Nppc => Some 1
  end.

(** 313-334. *)
Definition coeff (c : mcfg) (F : moment) (s : species) (p : part) (c1 c2 : Z) : option R :=
  match raw c F s p c1 c2 with
  | None => None
  | Some a =>
      match F with
      | Nppc => Some a
      | _ =>
          let a := a * (inv_n0 c / sqrt_det_h c (map (fun q => IZR (fst q) + 1/2) (ppos p))) in
          Some (if use_weights c then a * pweight p else a)
      end
  end.

(** The loops [di = -window .. window], the last dimension outermost (336-366). *)
Definition offsets (w : Z) : list Z := map (fun j => (Z.of_nat j - w)%Z) (seq 0 (Z.to_nat (2 * w + 1))).
Fixpoint offsets_d (w : Z) (d : nat) : list (list Z) :=
  match d with
  | O => [[]]
  | S d' => flat_map (fun t => map (fun x => x :: t) (offsets w)) (offsets_d w d')
  end.

(** 338-356: product of the shape factors. *)
Fixpoint shape_coeff (c : mcfg) (q : list (Z * R)) (di : list Z) : option R :=
  match q, di with
  | (_, dx) :: q', d :: di' =>
      opt2 Rmult (shapeFunction c (Rabs (dx - (IZR d + 1/2)))) (shape_coeff c q' di')
  | _, _ => Some 1
  end.

(** 357-378, 394-421: array index along x2, with the reflection at the axes. *)
Definition index2 (c : mcfg) (a : Z) : Z :=
  if cartesian c then (a + ghosts c)%Z
  else if axis_min c && (a <? 0)%Z then (ghosts c - a)%Z
  else if axis_max c && (ni2 c <=? a)%Z then (2 * ni2 c - a + ghosts c)%Z
  else (a + ghosts c)%Z.

Definition cell_index (c : mcfg) (q : list (Z * R)) (di : list Z) : list Z :=
  match map2 Z.add (map fst q) di with
  | a1 :: a2 :: r => (a1 + ghosts c)%Z :: index2 c a2 :: map (fun a => (a + ghosts c)%Z) r
  | r => map (fun a => (a + ghosts c)%Z) r
  end.

Fixpoint all_some {A} (l : list (option A)) : option (list A) :=
  match l with
  | [] => Some []
  | Some a :: l' => option_map (cons a) (all_some l')
  | None :: _ => None
  end.

(** operator(), 295-427: the additions made by one particle. *)
Definition kernel (c : mcfg) (F : moment) (s : species) (c1 c2 : Z) (p : part)
    : option (list (list Z * R)) :=
  if Z.eqb (ptag p) 0 then Some []
  else match coeff c F s p c1 c2 with
       | None => None
       | Some a =>
           all_some (map (fun di =>
             option_map (fun sh => (cell_index c (ppos p) di, a * sh)) (shape_coeff c (ppos p) di))
             (offsets_d (window (order_ c)) (length (ppos p))))
       end.

(** Constructor checks, 95-100. *)
Definition constructor_ok (c : mcfg) (F : moment) (s : species) : bool :=
  (window (order_ c) <=? ghosts c)%Z &&
  negb (match F with Rho | Charge => if Req_EM_T (smass s) 0 then true else false | _ => false end).

(** metadomain_io.cpp:129-142: the species to sum; an empty list means the massive ones. *)
Definition selected (all : list species) (specs : list Z) : option (list species) :=
  match specs with
  | [] => Some (filter (fun s => if Rlt_dec 0 (smass s) then true else false) all)
  | _ => all_some (map (fun sp => if (0 <? sp)%Z then nth_error all (Z.to_nat (sp - 1)) else None) specs)
  end.

(** 157-174: all additions of all selected species. *)
Definition additions (c : mcfg) (F : moment) (all : list species) (specs : list Z) (c1 c2 : Z)
    : option (list (list Z * R)) :=
  match selected all specs with
  | None => None
  | Some ss =>
      if forallb (constructor_ok c F) ss
      then option_map (@concat _)
             (all_some (flat_map (fun s => map (kernel c F s c1 c2) (sparts s)) ss))
      else None
  end.

Definition buffer := list Z -> R.
Definition badd (b : buffer) (e : list Z * R) : buffer :=
  fun x => if list_eq_dec Z.eq_dec x (fst e) then b x + snd e else b x.

(** The additions are made by a parallel loop through a scatter view: in any order. *)
Definition accumulate (b : buffer) (adds : list (list Z * R)) : buffer := fold_left badd adds b.

(** ComputeMoments, 121-175: [sched] is the order in which the additions take effect. *)
Definition compute_moments (c : mcfg) (F : moment) (all : list species) (specs : list Z)
    (c1 c2 : Z) (sched : list (list Z * R) -> list (list Z * R)) (b : buffer) : option buffer :=
  option_map (fun adds => accumulate b (sched adds)) (additions c F all specs c1 c2).

(** NormalizeVectorByRho_kernel, 440-480; [eps] is the machine epsilon of [AlmostZero]. *)
Definition normalize_by_rho (eps : R) (rho v : buffer) : buffer :=
  fun x => if Rle_dec (Rabs (rho x)) eps then v x else v x / rho x.
