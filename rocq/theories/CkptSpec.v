(** Vocabulary for the contents of a checkpoint. *)
From Coq Require Import ZArith List Bool Arith Permutation.
From Verif Require Import Base DecompModel DecompSpec HaloSpec PrtlModel PrtlSpec CkptModel.
Import ListNotations.
Open Scope Z_scope.

(** A grid that fits the 32-bit sizes of the checkpoint arrays: [G] ghost cells on either side
    of every block, at least one block per dimension, and no empty blocks. *)
Definition storable (G : Z) (ls : list (list Z)) : Prop :=
  0 <= G /\
  Forall (fun l => (l <> [] /\ Forall (fun n => 0 < n) l) /\ sumZ l + 2 * G * Z.of_nat (length l) < 2 ^ 32) ls.

(** Shape of the checkpoint array, and the element at which cell [y] (ghosts included, counted
    from the first ghost cell) of the subdomain at position [o] is expected: all blocks, each
    with its ghost cells, one after the other. *)
Definition full_shape (G : Z) (ls : list (list Z)) : list Z :=
  map (fun l => sumZ (map (fun n => n + 2 * G) l)) ls.
Definition element (G : Z) (ls : list (list Z)) (o y : list Z) : list Z :=
  map2 Z.add (map2 (fun l a => sumZ (map (fun n => n + 2 * G) (firstn (Z.to_nat a) l))) ls o) y.

(** Arrays whose content the next time step depends on. *)
Definition needed (gr : bool) (a : farray) : Prop := a = Em \/ gr = true.
Definition components (a : farray) : Z := match a with Cur => 3 | _ => 6 end.

(** Memory of an array: one value per cell (ghosts included) and component. *)
Definition full_memory {V} (G : Z) (a : farray) (d : subdomain) (mem : list V) : Prop :=
  Z.of_nat (length mem) = prodZ (map (fun n => n + 2 * G) (sub_ncells d)) * components a.

(** Two containers hold the same particles in the same slots, with all their attributes. *)
Definition same_particles (c : cfg) (s s' : parts) : Prop :=
  np s = np s' /\ forall p, (p < np s)%nat -> tagged_view c s p = tagged_view c s' p.
