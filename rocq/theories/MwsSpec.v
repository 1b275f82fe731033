(** Vocabulary for moments over species. *)
From Coq Require Import List Reals Arith.
From Verif Require Import Base MwsModel.
Import ListNotations.
Open Scope R_scope.

(** What the particles of a species add up to in a cell. *)
Definition in_cell (l : deposits) (cell : nat) : R :=
  fold_right (fun d s => (if Nat.eq_dec (fst d) cell then snd d else 0) + s) 0 l.
(** The sum over the listed species. *)
Definition over_species (domain : list deposits) (species : list nat) (cell : nat) : R :=
  fold_right (fun sp s => in_cell (nth (sp - 1) domain []) cell + s) 0 species.
Definition known (domain : list deposits) (species : list nat) : Prop :=
  Forall (fun sp => (1 <= sp <= length domain)%nat) species.
