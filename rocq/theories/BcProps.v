(** C50: boundary conditions from the input file; C59: thickness of the matching layers. *)
From Coq Require Import ZArith List Bool String Ascii Reals.
From Verif Require Import Base TopoModel TopoSpec BcModel BcSpec BcProofs.
Import ListNotations.
Open Scope string_scope.

(** Whatever specification is accepted for a Cartesian grid: one pair per dimension, which is what
    the words say, and periodic on both sides or on neither, for fields and for particles. *)
Theorem C50_accepted_is_paired :
  forall eng dim flds prtl p f q, get_bcs eng true dim flds prtl = Ok (p, f, q) ->
  List.length f = dim /\ List.length q = dim /\ Forall2 flds_reads flds f /\ Forall2 prtl_reads prtl q /\
  Forall (fun b => fst b = F_PERIODIC <-> snd b = F_PERIODIC) f /\ Forall (fun b => fst b = P_PERIODIC <-> snd b = P_PERIODIC) q.
Proof. exact cartesian_result. Qed.
Print Assumptions C50_accepted_is_paired.

(** Exactly these specifications are accepted; all others are errors. *)
Theorem C50_what_is_accepted :
  forall eng dim flds prtl,
  (exists p f q, get_bcs eng true dim flds prtl = Ok (p, f, q)) <->
  (1 <= dim <= 3)%nat /\ List.length flds = dim /\ List.length prtl = dim /\ one_atmosphere flds /\ one_atmosphere prtl /\
  (exists f, Forall2 flds_reads flds f) /\ (exists q, Forall2 prtl_reads prtl q).
Proof. exact cartesian_accepted. Qed.
Print Assumptions C50_what_is_accepted.

(** The premise of the exchange properties (C07, C08, C13, ...) is met unless the input uses the
    internal word sync. *)
Theorem C50_premise_of_exchanges :
  forall eng dim flds prtl p f q, get_bcs eng true dim flds prtl = Ok (p, f, q) ->
  (~ mentions "sync" flds -> paired_flds f) /\ (~ mentions "sync" prtl -> paired_prtl q).
Proof. exact cartesian_paired. Qed.
Print Assumptions C50_premise_of_exchanges.

(** Parameters of layers and atmospheres are demanded exactly if some side uses them. *)
Theorem C50_layers_are_promised :
  forall eng cart dim flds prtl p f q, get_bcs eng cart dim flds prtl = Ok (p, f, q) ->
  (In "grid.boundaries.match.ds" p <-> mentions "match" flds) /\
  (In "grid.boundaries.absorb.ds" p <-> mentions "absorb" prtl) /\
  (forall k, In k atmosphere_keys -> (In k p <-> mentions "atmosphere" flds \/ mentions "atmosphere" prtl)).
Proof. exact promised_layers. Qed.
Print Assumptions C50_layers_are_promised.

(** What validation does not rule out: the internal word; particles reflected where fields are
    periodic; and, on spherical grids, a radial direction periodic at one end only. *)
Theorem C50_not_ruled_out :
  (exists p q, get_bcs SRPIC true 1 [["SYNC"; "SYNC"]] [["PERIODIC"]] = Ok (p, [(F_SYNC, F_SYNC)], q)) /\
  (exists p, get_bcs SRPIC true 1 [["PERIODIC"]] [["REFLECT"; "REFLECT"]] = Ok (p, [(F_PERIODIC, F_PERIODIC)], [(P_REFLECT, P_REFLECT)])) /\
  (exists p q, get_bcs SRPIC false 2 [["PERIODIC"; "MATCH"]] [["ABSORB"; "ABSORB"]] = Ok (p, [(F_PERIODIC, F_MATCH); (F_AXIS, F_AXIS)], q)).
Proof.
  split; [|split].
  - eexists _, _. vm_compute. reflexivity.
  - eexists. vm_compute. reflexivity.
  - eexists _, _. vm_compute. reflexivity.
Qed.
Print Assumptions C50_not_ruled_out.

Example C50_example : exists p,
  get_bcs SRPIC true 2 [["Periodic"]; ["MATCH"; "conductor"]] [["PERIODIC"]; ["absorb"; "Reflect"]] =
    Ok (p, [(F_PERIODIC, F_PERIODIC); (F_MATCH, F_CONDUCTOR)], [(P_PERIODIC, P_PERIODIC); (P_ABSORB, P_REFLECT)]) /\
  In "grid.boundaries.match.ds" p.
Proof. eexists. split; [vm_compute; reflexivity|]. vm_compute. tauto. Qed.
Example C50_example_rejected :
  get_bcs SRPIC true 1 [["PERIODIC"; "MATCH"]] [["PERIODIC"]] = Err /\ get_bcs SRPIC true 1 [["MATCH"]] [["PERIODIC"]] = Err /\
  get_bcs SRPIC true 1 [["PERIODIC"; "PERIODIC"]] [["PERIODIC"]] = Err.
Proof. vm_compute. auto. Qed.

Open Scope R_scope.
(** A thickness given as a number, or as one list per dimension with no, one or two entries, is
    used as given; a malformed list is an error if the program runs under MPI. *)
Theorem C59_thickness_as_given_partial :
  forall dim default,
  (forall ds, match_ds dim default (Number ds) = repeat (ds, ds) dim) /\
  (forall l r, List.length l = dim -> Forall2 thickness l r -> match_ds dim default (Lists l) = r) /\
  (forall l, (List.length l <> dim \/ ~ exists r, Forall2 thickness l r) -> match_ds_mpi dim default (Lists l) = Err).
Proof. exact match_ds_ok. Qed.
Print Assumptions C59_thickness_as_given_partial.

(** Without MPI, a malformed list is not reported: the defaults are appended to what had been read,
    so that dimensions get the wrong entries; and a list with the wrong number of dimensions is
    replaced by the default. *)
Theorem C59_malformed_lists_refuted :
  (forall default a b c d, match_ds 2 default (Lists [[a]; [b; c; d]]) = [(a, a); (default, default); (default, default)]) /\
  (forall default a, match_ds 2 default (Lists [[a]]) = [(default, default); (default, default)]).
Proof. split; reflexivity. Qed.
Print Assumptions C59_malformed_lists_refuted.

Example C59_example : Forall2 thickness [[1]; []; [2; 3]] [(1, 1); (0, 0); (2, 3)].
Proof. apply Forall2_cons; [right; left; auto|]. apply Forall2_cons; [right; right; auto|]. apply Forall2_cons; [left; auto|constructor]. Qed.
