(** Output of particles: what the file should say. *)
From Coq Require Import ZArith List Bool Arith.
From Verif Require Import Base PrtlModel PrtlSpec PoutModel.
Import ListNotations.

(** What each variable says of a particle with the attributes [f], in the basis of the output:
    positions and velocities converted at the particle's own place, the rest as stored. *)
Section Says.
  Variables (d : nat) (azimuth gr : bool) (ntrack : nat) (xph : nat -> Z -> Z -> Z) (uph : nat -> list Z -> list Z -> Z).
  Definition place_of (f : attr -> Z) : list Z := concat (map (fun k => [f (I k); f (Dx k)]) (seq 1 d)) ++ (if azimuth then if gr then [] else [f Phi] else []).
  Definition says (f : attr -> Z) (k : column) : Z :=
    match k with
    | PX 3 => if azimuth then f Phi else xph 3 (f (I 3)) (f (Dx 3))
    | PX j => xph j (f (I j)) (f (Dx j))
    | PU j => uph j (place_of f) (map (fun j => f (Ux j)) [1; 2; 3])
    | PW => f Weight
    | PPLDR l => f (PldR l)
    | PIDX => f (PldI 0)
    | PRNK => f (PldI 1)
    | PPLDI l => f (PldI (ntrack + l))
    end.
End Says.
(** The file holds the rows [l] under the variables [cols], and nothing else. *)
Definition holds (f : ofile) (cols : list column) (l : list (column -> Z)) : Prop :=
  forall k, (In k cols -> shape f k = Some (length l) /\ forall q, data f k q = option_map (fun r => r k) (nth_error l q)) /\
            (~ In k cols -> shape f k = None /\ forall q, data f k q = None).
(** Every [k]-th element of a list, from the first, as many as there are complete groups. *)
Definition every (k : nat) (l : list nat) : list nat := map (fun j => nth (k * j) l O) (seq 0 (length l / k)).
(** A container that can be written. *)
Definition tidy (s : parts) : Prop := (forall p, p < np s -> tg s p = 0%Z \/ tg s p = 1%Z) /\ np s <= maxp s.
(** The flag says no more than is true. *)
Definition honest (r : bool * parts) : Prop := fst r = true -> forall p, p < np (snd r) -> tg (snd r) p = 1%Z.
(** The row of the particle in slot [p]: the values of the variables [cols]. *)
Definition row_of (c : cfg) (gr tr mpi : bool) xph uph (cols : list column) (s : parts) (p : nat) : list Z :=
  map (says (dim c) (has_phi c) gr (if tr then if mpi then 2 else 1 else 0) xph uph (fun a => ar s a p)) cols.
(** Variables a species has: coordinates (the azimuth too, in 2D axisymmetry), velocities, weight,
    payloads, and the identity of tracked particles. *)
Definition variable (c : cfg) (tr mpi : bool) (k : column) : Prop :=
  match k with
  | PX j => 1 <= j <= dim c \/ (dim c = 2 /\ cart c = false /\ j = 3)
  | PU j => 1 <= j <= 3
  | PW => True
  | PPLDR l => l < npld_r c
  | PIDX => tr = true
  | PRNK => tr = true /\ mpi = true
  | PPLDI l => l + (if tr then if mpi then 2 else 1 else 0) < npld_i c
  end.
