(** C95: moments over chosen species. *)
From Coq Require Import List Reals Arith Lra Lia Permutation.
From Verif Require Import Base MwsModel MwsSpec MwsProofs.
Import ListNotations.
Open Scope R_scope.

(** The component asked for holds the sum over the listed species; the others hold zero. *)
Theorem C95_sum_over_species :
  forall ncomp sched domain species idx b,
  (forall l, Permutation (sched l) l) -> known domain species -> (idx < ncomp)%nat ->
  exists b', compute_moment ncomp sched domain species idx b = Ok b' /\
    (forall cell, b' cell idx = over_species domain species cell) /\
    (forall cell comp, comp <> idx -> b' cell comp = 0).
Proof. exact moment_ok. Qed.
Print Assumptions C95_sum_over_species.
Example C95_sum_ex : (forall l : deposits, Permutation (rev l) l) /\
  known [[(3%nat, 2)]; [(3%nat, 5); (4%nat, 1)]] [2; 1]%nat /\ over_species [[(3%nat, 2)]; [(3%nat, 5); (4%nat, 1)]] [2; 1]%nat 3 = 7.
Proof.
  split; [intros l; apply Permutation_sym, Permutation_rev|]. split; [repeat constructor|cbn; lra].
Qed.

(** Neither the order of the species nor that of the additions matters. *)
Theorem C95_order_free :
  forall ncomp sched sched' domain species species' idx b x y,
  (forall l, Permutation (sched l) l) -> (forall l, Permutation (sched' l) l) -> known domain species -> Permutation species species' ->
  (idx < ncomp)%nat -> compute_moment ncomp sched domain species idx b = Ok x -> compute_moment ncomp sched' domain species' idx b = Ok y ->
  forall cell comp, x cell comp = y cell comp.
Proof. exact order_free. Qed.
Print Assumptions C95_order_free.
Example C95_order_free_ex : Permutation [2; 1]%nat [1; 2]%nat.
Proof. constructor. Qed.

(** The other components of the buffer are not kept: a second moment erases the first. *)
Theorem C95_other_components_kept_refuted :
  exists domain x y, known domain [1%nat] /\
  compute_moment 3 (fun l => l) domain [1%nat] 0 (fun _ _ => 0) = Ok x /\ x 4%nat 0%nat = 7 /\
  compute_moment 3 (fun l => l) domain [1%nat] 1 x = Ok y /\ y 4%nat 0%nat = 0.
Proof.
  assert (K : known [[(4%nat, 7)]] [1%nat]) by (repeat constructor).
  destruct (moment_ok 3 (fun l => l) [[(4%nat, 7)]] [1%nat] 0 (fun _ _ => 0) (fun l => Permutation_refl l) K ltac:(lia)) as (x & X & X1 & _).
  destruct (moment_ok 3 (fun l => l) [[(4%nat, 7)]] [1%nat] 1 x (fun l => Permutation_refl l) K ltac:(lia)) as (y & Y & _ & Y2).
  exists [[(4%nat, 7)]], x, y. split; auto. split; auto. split; [rewrite X1; cbn; lra|]. split; auto.
Qed.
Print Assumptions C95_other_components_kept_refuted.

(** Species are numbered from 1; another number reads outside the list. *)
Theorem C95_unknown_species :
  forall ncomp sched domain sp rest idx b, (sp = 0 \/ length domain < sp)%nat ->
  compute_moment ncomp sched domain (sp :: rest) idx b = UB.
Proof. exact unknown_species. Qed.
Print Assumptions C95_unknown_species.
Example C95_unknown_ex : (length [[(4%nat, 7%R)]] < 2)%nat.
Proof. cbn. lia. Qed.

(** A component the buffer does not have is refused. *)
Theorem C95_bad_component :
  forall ncomp sched domain sp rest idx b, (ncomp <= idx)%nat -> (1 <= sp <= length domain)%nat ->
  compute_moment ncomp sched domain (sp :: rest) idx b = Err.
Proof. exact bad_component. Qed.
Print Assumptions C95_bad_component.
Example C95_bad_component_ex : (3 <= 5)%nat /\ (1 <= 1 <= length [[(4%nat, 7%R)]])%nat.
Proof. cbn. lia. Qed.
