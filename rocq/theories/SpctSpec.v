(** Energy spectra: what they should be. *)
From Coq Require Import Reals ZArith List.
From Verif Require Import MetModel MetSpec KsModel KsSpec SpctModel.
Import ListNotations.
Open Scope R_scope.

(** Edges of n bins between lo and hi, in arithmetic or geometric progression. *)
Definition even_edge (lo hi : R) (n k : nat) : R := lo + INR k * ((hi - lo) / INR n).
Definition ratio_edge (lo hi : R) (n k : nat) : R := lo * Rpower (hi / lo) (INR k / INR n).
Definition true_edge (logarithmic : bool) (lo hi : R) (n k : nat) : R :=
  if logarithmic then ratio_edge lo hi n k else even_edge lo hi n k.
(** Energies of the bin [b]; the first also takes all below. *)
Definition in_bin (edge : nat -> R) (b : nat) (e : R) : Prop := (b = O \/ edge b <= e) /\ e < edge (S b).
(** [w] is the sum of the weights of the particles of [l] that satisfy [P]. *)
Inductive weighs (P : prt -> Prop) : list prt -> R -> Prop :=
| weighs_nil : weighs P [] 0
| weighs_in p l w : P p -> weighs P l w -> weighs P (p :: l) (p_w p + w)
| weighs_out p l w : ~ P p -> weighs P l w -> weighs P (p :: l) w.
Definition alive (p : prt) : Prop := p_tag p = 1%Z.
(** Kinetic energy (energy, for massless particles) per unit mass seen by the local observers. *)
Definition kinetic (e : engine) (massive : bool) (p : prt) : R :=
  let m := if massive then 1 else 0 in
  match e with
  | SRPIC => sqrt (m + dot3 (p_u p) (p_u p)) - m
  | GRPIC M => gr_gamma M (p_x p) m (p_u p) - m
  end.
Definition usable (logarithmic : bool) (lo hi : R) (n : nat) : Prop := (0 < n)%nat /\ lo < hi /\ (logarithmic = true -> 0 < lo).
