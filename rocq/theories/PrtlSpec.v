(** Vocabulary for particle containers. *)
From Coq Require Import ZArith List Bool Arith Permutation.
From Verif Require Import Base PrtlModel.
Import ListNotations.

(** Slots of the live particles, and everything stored about the particle in a slot. *)
Definition live (s : parts) : list nat := filter (fun p => Z.eqb (tg s p) 1) (seq 0 (np s)).
Definition view (c : cfg) (s : parts) (p : nat) : list Z := map (fun a => ar s a p) (attrs c).
Definition tagged_view (c : cfg) (s : parts) (p : nat) : Z * list Z := (tg s p, view c s p).

(** Cell of a particle, and lexicographic order of cells. *)
Definition cell (c : cfg) (s : parts) (p : nat) : list Z := map (fun d => ar s (I d) p) (seq 1 (dim c)).
Fixpoint lex_le (a b : list Z) : Prop :=
  match a, b with
  | x :: a', y :: b' => (x < y)%Z \/ (x = y /\ lex_le a' b')
  | _, _ => True
  end.

(** A container whose live particles lie in the cells of a mesh with [ns] cells per dimension
    and whose other particles are dead. *)
Definition well_kept (ns : list Z) (c : cfg) (s : parts) : Prop :=
  np s <= maxp s /\ (forall p, p < np s -> tg s p = 0%Z \/ tg s p = 1%Z) /\
  (forall p, In p (live s) -> Forall2 (fun n i => 0 <= i < n)%Z ns (cell c s p)).
(** The live particles of two containers are the same, as a multiset of whole particles. *)
Definition same_live (c : cfg) (s s' : parts) : Prop :=
  Permutation (map (view c s) (live s)) (map (view c s') (live s')).

(** What one pass keeps of a species. *)
Definition kept (ns : list Z) (x y : species) : Prop :=
  scfg y = scfg x /\ clear_every y = clear_every x /\ sort_every y = sort_every x /\
  maxp (sparts y) = maxp (sparts x) /\ np (sparts y) <= np (sparts x) /\
  well_kept ns (scfg y) (sparts y) /\ same_live (scfg x) (sparts x) (sparts y).

(** A species that a pass can be applied to. *)
Definition usable (ns : list Z) (x : species) : Prop :=
  length ns = dim (scfg x) /\ 1 <= dim (scfg x) <= 3 /\ well_kept ns (scfg x) (sparts x).
