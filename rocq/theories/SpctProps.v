(** Energy spectra (C83). *)
From Coq Require Import Reals ZArith List Bool Lia Lra Permutation.
From Verif Require Import Base MetModel MetSpec MetProofs KsModel KsSpec KsProofs KsTop KsProps PoutModel SpctModel SpctSpec SpctProofs SpctTop Fp32.
Import ListNotations.
Open Scope R_scope.

(** As long as no live particle reaches the last edge, each bin holds the weight of the live particles
    of all ranks whose energy lies between its edges (the first, also below), the bins add up to the
    weight of all live particles, and the edges written are those; whatever the order of the
    additions and the division. *)
Theorem C83_spectrum : forall en lg n lo hi order ranks, usable lg lo hi n -> (forall l, Permutation (order l) l) ->
  (forall p, In p (concat ranks) -> alive p -> (lg = true -> 0 <= en p) /\ en p < hi) ->
  exists dn, spectrum en lg n lo hi order ranks = Ok dn /\
    (forall b, (b < n)%nat -> weighs (fun p => alive p /\ in_bin (true_edge lg lo hi n) b (en p)) (concat ranks) (dn b)) /\
    weighs alive (concat ranks) (fold_right Rplus 0 (map dn (seq 0 n))).
Proof. intros en lg n lo hi order ranks HU. exact (spectrum_spec en lg n lo hi HU order ranks). Qed.
Print Assumptions C83_spectrum.

Theorem C83_edges : forall lg lo hi n k, usable lg lo hi n -> edge lg n lo hi k = Some (true_edge lg lo hi n k).
Proof. exact edge_ok. Qed.
Print Assumptions C83_edges.

(** The weights are determined by the set of particles alone. *)
Theorem C83_unique : forall P l w w', weighs P l w -> weighs P l w' -> w = w'.
Proof. exact weighs_unique. Qed.
Print Assumptions C83_unique.

(** The energy is that seen by the local observers, in both engines. *)
Theorem C83_energy : forall massive p,
  (energy SRPIC massive p = kinetic SRPIC massive p /\ 0 <= energy SRPIC massive p) /\
  (forall eps a g, sensible g -> gr_regular (ks eps a g) (p_x p) ->
     energy (GRPIC (ks eps a g)) massive p = kinetic (GRPIC (ks eps a g)) massive p /\ 0 <= energy (GRPIC (ks eps a g)) massive p) /\
  (forall g, sensible g -> gr_regular (ks0 g) (p_x p) ->
     energy (GRPIC (ks0 g)) massive p = kinetic (GRPIC (ks0 g)) massive p /\ 0 <= energy (GRPIC (ks0 g)) massive p) /\
  (forall eps a g r0 h m, q_ok eps g r0 h -> q_make eps g r0 h = Some m -> gr_regular (qks a m) (p_x p) ->
     energy (GRPIC (qks a m)) massive p = kinetic (GRPIC (qks a m)) massive p /\ 0 <= energy (GRPIC (qks a m)) massive p).
Proof.
  intros massive p. split; [apply sr_energy|]. split; [|split]; intros.
  - eapply form_energy; [eapply ks_form; eassumption|assumption].
  - eapply form_energy; [eapply ks0_form; eassumption|assumption].
  - eapply form_energy; [eapply qks_form; eassumption|assumption].
Qed.
Print Assumptions C83_energy.

(** One live particle at or above the last edge, on any rank, and the kernel writes past the end of
    the array of bins. *)
Theorem C83_overflow_refuted : forall en lg n lo hi order ranks, usable lg lo hi n -> (forall l, Permutation (order l) l) ->
  (forall p, In p (concat ranks) -> alive p -> lg = true -> 0 <= en p) ->
  (exists p, In p (concat ranks) /\ alive p /\ hi <= en p) -> spectrum en lg n lo hi order ranks = UB.
Proof. intros en lg n lo hi order ranks HU. exact (spectrum_over en lg n lo hi HU order ranks). Qed.
Print Assumptions C83_overflow_refuted.

(** In single precision and with the default bins (200 between 10^-3 and 10^3) the index can be 200
    for a logarithm strictly below the last edge. *)
Theorem C83_rounding_refuted : exists v, rnd32 v = v /\ -3 < v < 3 /\ index32 200 (-3) 3 v = 200%Z.
Proof. exact (ex_intro _ _ index_past). Qed.
Print Assumptions C83_rounding_refuted.

(** Default bins; two ranks, one dead particle, a particle at rest, one photon-like energy inside. *)
Example ex_usable : usable true (1/1000) 1000 200.
Proof. repeat split; try lia; lra. Qed.
Definition ex_ranks : list (list prt) :=
  [[Prt 1 (0, 0) (0, 0, 0) 2; Prt 0 (0, 0) (9000, 0, 0) 5]; [Prt 1 (0, 0) (3, 0, 4) 1]].
Example ex_inside : forall p, In p (concat ex_ranks) -> alive p -> (true = true -> 0 <= energy SRPIC false p) /\ energy SRPIC false p < 1000.
Proof.
  intros p Hp A. split; [intros _; apply sr_energy|]. cbn in Hp. destruct Hp as [<-|[<-|[<-|[]]]]; [|discriminate A|]; unfold energy; cbn [p_u].
  - replace (0 * 0 + 0 * 0 + 0 * 0) with 0 by ring. rewrite sqrt_0. lra.
  - replace (3 * 3 + 0 * 0 + 4 * 4) with (5 * 5) by ring. rewrite sqrt_square; lra.
Qed.
Example ex_total : exists dn, spectrum (energy SRPIC false) true 200 (1/1000) 1000 (@rev prt) ex_ranks = Ok dn /\ fold_right Rplus 0 (map dn (seq 0 200)) = 3.
Proof.
  destruct (C83_spectrum (energy SRPIC false) true 200 (1/1000) 1000 (@rev prt) ex_ranks ex_usable (fun l => Permutation_sym (Permutation_rev l)) ex_inside) as (dn & E & _ & W).
  exists dn. split; [exact E|]. apply (C83_unique _ _ _ _ W). replace 3 with (2 + (1 + 0)) by ring. cbn [concat ex_ranks app].
  apply (weighs_in alive (Prt 1 (0, 0) (0, 0, 0) 2)); [reflexivity|]. apply weighs_out; [intro C; discriminate C|].
  apply (weighs_in alive (Prt 1 (0, 0) (3, 0, 4) 1)); [reflexivity|constructor].
Qed.
Example ex_past : spectrum (energy SRPIC false) true 200 (1/1000) 1000 (@rev prt) [[Prt 1 (0, 0) (3000, 0, 4000) 1]] = UB.
Proof.
  apply C83_overflow_refuted; [exact ex_usable|exact (fun l => Permutation_sym (Permutation_rev l))|intros p _ _ _; apply sr_energy|].
  eexists. split; [left; reflexivity|]. split; [reflexivity|]. unfold energy. cbn [p_u].
  replace (3000 * 3000 + 0 * 0 + 4000 * 4000) with (5000 * 5000) by ring. rewrite sqrt_square; lra.
Qed.
