(** Vocabulary for field output. *)
From Coq Require Import ZArith List.
From Verif Require Import Base DecompModel OutModel.
Import ListNotations.
Open Scope Z_scope.

(** The cell of the grid that is element [j] of the file. *)
Definition sampled (dwn j : list Z) : list Z := map2 Z.mul j dwn.
(** Number of multiples of [d] in 0, ..., N - 1. *)
Definition samples (N d : Z) : Z := (N + d - 1) / d.
(** The blocks of dimension [k]: first cell and size. *)
Definition extent (k : nat) (s : subdomain) : Z * Z := (nth k (sub_offset_ncells s) 0, nth k (sub_ncells s) 0).
