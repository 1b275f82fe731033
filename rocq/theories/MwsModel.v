(** Moments asked for by a problem generator: src/archetypes/utils.h:112-168
    (ComputeMomentWithSpecies).

    [deposits] of a species are the pairs of cell and value that ParticleMoments_kernel adds for its
    active particles (the kernel itself is in MomentModel); a launch adds them in the order
    [sched] gives.  The buffer is a function of cell and component.  Values are exact. *)
From Coq Require Import List Reals Arith.
From Verif Require Import Base.
Import ListNotations.
Open Scope R_scope.

Definition buffer := nat -> nat -> R.
Definition deposits := list (nat * R).
(** One addition to component [idx] of the scatter view. *)
Definition add (idx : nat) (b : buffer) (d : nat * R) : buffer :=
  fun cell comp => if andb (Nat.eqb cell (fst d)) (Nat.eqb comp idx) then b cell comp + snd d else b cell comp.
(** utils.h:149-166: the launches for the listed species (numbered from 1), one after the other;
    the number of the species is not checked, the component is
    (kernels/particle_moments.hpp:99). *)
Fixpoint launches (ncomp : nat) (sched : deposits -> deposits) (domain : list deposits) (idx : nat) (species : list nat) (b : buffer) : res buffer :=
  match species with
  | [] => Ok b
  | sp :: rest =>
      match sp with
      | O => UB
      | S i =>
          match nth_error domain i with
          | None => UB
          | Some l =>
              if Nat.ltb idx ncomp then launches ncomp sched domain idx rest (fold_left (add idx) (sched l) b) else Err
          end
      end
  end.
(** utils.h:135-168.  The scatter view starts from zero and is added to the buffer, set to zero before
    in all its components. *)
Definition compute_moment (ncomp : nat) (sched : deposits -> deposits) (domain : list deposits)
    (species : list nat) (idx : nat) (b : buffer) : res buffer :=
  let zeroed : buffer := fun _ _ => 0 in
  rbind (launches ncomp sched domain idx species (fun _ _ => 0)) (fun s =>
  Ok (fun cell comp => zeroed cell comp + s cell comp)).
