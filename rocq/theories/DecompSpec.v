(** Vocabulary for the decomposition properties. *)
From Coq Require Import ZArith List.
From Verif Require Import Base DecompModel.
Import ListNotations.
Open Scope Z_scope.

(** Block sizes [l] of one dimension with [c] cells are admissible: they add up, none is
    smaller than five, and no two differ by more than one cell. *)
Definition good_blocks (l : list Z) (c : Z) : Prop :=
  sumZ l = c /\
  (forall a, In a l -> 5 <= a) /\
  (forall a b, In a l -> In b l -> a <= b + 1).

(** The active cell with local multi-index [x] of subdomain [d] is the global cell [g]. *)
Definition is_global_cell (d : subdomain) (x g : list Z) : Prop :=
  in_box x (sub_ncells d) /\ g = map2 Z.add (sub_offset_ncells d) x.

(** 32-bit arguments of a [Decompose] call. *)
Definition valid_request (ndomains : Z) (ncells decomposition : list Z) : Prop :=
  1 <= ndomains < 2 ^ 32 /\
  Forall (fun c => 0 <= c < 2 ^ 32) ncells /\
  Forall (fun d => - 2 ^ 31 <= d < 2 ^ 31) decomposition.

(** The floating-point seeds are values of type [unsigned int]. *)
Definition unsigned_seeds (fp : fp_seeds) : Prop :=
  (forall n a b, 0 <= fp_sqrt fp n a b < 2 ^ 32) /\
  (forall n a b, 0 <= fp_cbrt fp n a b < 2 ^ 32).

(** A direction: one entry in {-1, 0, 1} per dimension. *)
Definition direction (D : nat) (d : list Z) : Prop :=
  length d = D /\ Forall (fun a => -1 <= a <= 1) d.

(** Number of subdomains per dimension. *)
Definition counts (ls : list (list Z)) : list Z := map (fun l => Z.of_nat (length l)) ls.

(** A requested count (positive) is fixed, any other (negative) is free: the product of the fixed
    ones among two or three requests, and a count that respects its request. *)
Definition fixed (d : Z) : Z := if 0 <? d then d else 1.
Definition respects (d n : Z) : Prop := 1 <= n /\ (0 < d -> n = d).
