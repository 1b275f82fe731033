(** C41: the parameter store. *)
From Coq Require Import ZArith List Bool String.
From Verif Require Import Base ParamModel ParamSpec ParamProofs.
Import ListNotations.
Open Scope list_scope.

(** After any sequence of set and promise calls, with values of any type: reading a parameter with
    the type it was last set with returns that value, whatever the default. *)
Theorem C41_read_returns_last_set :
  forall (base : Type) (base_eq : forall a b : base, {a = b} + {a <> b}) (bden : base -> Type)
         (cs : list (call bden)) k t v def,
  last_set cs k (mk bden t v) -> get base_eq bden (run bden cs) t k def = Ok (v, false).
Proof. exact @get_last. Qed.
Print Assumptions C41_read_returns_last_set.

(** Another type is an error, even with a default. *)
Theorem C41_wrong_type_is_an_error :
  forall (base : Type) (base_eq : forall a b : base, {a = b} + {a <> b}) (bden : base -> Type)
         (cs : list (call bden)) k t t' v def,
  last_set cs k (mk bden t' v) -> t' <> t -> get base_eq bden (run bden cs) t k def = Err.
Proof. exact @get_wrong_type. Qed.
Print Assumptions C41_wrong_type_is_an_error.

(** A parameter never set: an error, or the default together with a warning. *)
Theorem C41_missing_parameter :
  forall (base : Type) (base_eq : forall a b : base, {a = b} + {a <> b}) (bden : base -> Type)
         (cs : list (call bden)) k t, never_set cs k ->
  get base_eq bden (run bden cs) t k None = Err /\ forall v, get base_eq bden (run bden cs) t k (Some v) = Ok (v, true).
Proof. exact @get_never. Qed.
Print Assumptions C41_missing_parameter.

(** The final check passes exactly when every promised parameter was set at some point. *)
Theorem C41_promises_checked :
  forall (base : Type) (bden : base -> Type) (cs : list (call bden)),
  check_promises bden (run bden cs) = Ok tt <-> all_kept cs.
Proof. exact @check_iff. Qed.
Print Assumptions C41_promises_checked.

(** ... and from then on no read of a promised parameter falls back to a default. *)
Theorem C41_promised_parameters_readable :
  forall (base : Type) (base_eq : forall a b : base, {a = b} + {a <> b}) (bden : base -> Type) (cs : list (call bden)) k,
  check_promises bden (run bden cs) = Ok tt -> In (Promise bden k) cs ->
  exists t v, forall def, get base_eq bden (run bden cs) t k def = Ok (v, false).
Proof. exact @fulfilled_readable. Qed.
Print Assumptions C41_promised_parameters_readable.

Theorem C41_promised_means_promised :
  forall (base : Type) (bden : base -> Type) (cs : list (call bden)) k,
  is_promised bden (run bden cs) k = true <-> In (Promise bden k) cs.
Proof. exact @promised_iff. Qed.
Print Assumptions C41_promised_means_promised.

Open Scope string_scope.
(** Printing, for every way [show] of printing scalars and results shorter than 2^64 characters:
    scalars, pairs, vectors (also empty ones), vectors of pairs, and vectors of non-empty vectors. *)
Theorem C41_printing_partial :
  forall (base : Type) (base_eq : forall a b : base, {a = b} + {a <> b}) (bden : base -> Type) (show : forall b, bden b -> string)
         (cs : list (call bden)) k b,
  let print := stringize base_eq bden show (run bden cs) b k in
  (forall v, last_set cs k (mk bden (TBase b) v) -> print = Ok (show b v)) /\
  (forall v, last_set cs k (mk bden (TPair (TBase b)) v) -> print = Ok (bracketed [show b (fst v); show b (snd v)])) /\
  (forall v : list (bden b), last_set cs k (mk bden (TVec (TBase b)) v) -> fits (bracketed (map (show b) v) ++ ", ") ->
     print = Ok (bracketed (map (show b) v))) /\
  (forall v : list (bden b * bden b), last_set cs k (mk bden (TVec (TPair (TBase b))) v) ->
     fits (bracketed (map (fun p => braced [show b (fst p); show b (snd p)]) v) ++ ", ") ->
     print = Ok (bracketed (map (fun p => braced [show b (fst p); show b (snd p)]) v))) /\
  (forall v : list (list (bden b)), last_set cs k (mk bden (TVec (TVec (TBase b))) v) -> Forall (fun w => w <> []) v ->
     fits (bracketed (map (fun w => braced (map (show b) w)) v) ++ ", ") ->
     print = Ok (bracketed (map (fun w => braced (map (show b) w)) v))).
Proof.
  exact (fun base base_eq bden show cs k b =>
    conj (print_scalar base_eq show cs k b) (conj (print_pair base_eq show cs k b) (conj (print_vector base_eq show cs k b)
      (conj (print_pairs base_eq show cs k b) (print_nested base_eq show cs k b))))).
Qed.
Print Assumptions C41_printing_partial.

(** An empty inner vector eats the opening brackets. *)
Theorem C41_printing_empty_inner_refuted :
  forall (base : Type) (base_eq : forall a b : base, {a = b} + {a <> b}) (bden : base -> Type) (show : forall b, bden b -> string)
         (cs : list (call bden)) k b,
  last_set cs k (mk bden (TVec (TVec (TBase b))) [[]]) ->
  stringize base_eq bden show (run bden cs) b k = Ok "}]".
Proof. exact @print_empty_inner. Qed.
Print Assumptions C41_printing_empty_inner_refuted.

(** Concrete cases: one scalar type, numbers printed in unary. *)
Definition one_eq : forall a b : unit, {a = b} + {a <> b}.
Proof. decide equality. Defined.
Fixpoint unary (n : nat) : string := match n with O => "" | S n => "|" ++ unary n end.
Definition ub (_ : unit) : Type := nat.
Definition calls : list (call ub) :=
  [Promise ub "a"; Set_ ub "a" (mk ub (TBase tt) 1%nat); Set_ ub "b" (mk ub (TVec (TBase tt)) [1; 2]%nat); Set_ ub "a" (mk ub (TBase tt) 3%nat)].
Example C41_example_last : last_set calls "a" (mk ub (TBase tt) 3%nat) /\ last_set calls "b" (mk ub (TVec (TBase tt)) [1; 2]%nat) /\
  never_set calls "c" /\ all_kept calls /\ In (Promise ub "a") calls.
Proof.
  split; [|split; [|split; [|split]]].
  - exists (firstn 3 calls), []. split; [reflexivity|intros ? []].
  - exists (firstn 2 calls), (skipn 3 calls). split; [reflexivity|]. intros a [H|[]]. discriminate H.
  - intros a H. cbn in H. intuition discriminate.
  - intros k H. cbn in H. destruct H as [H|[H|[H|[H|[]]]]]; try discriminate H. injection H as <-. eexists. right. left. reflexivity.
  - left. auto.
Qed.
Example C41_example_read : get one_eq ub (run ub calls) (TBase tt) "a" None = Ok (3%nat, false) /\
  stringize one_eq ub (fun _ => unary) (run ub calls) tt "b" = Ok "[|, ||]".
Proof. vm_compute. auto. Qed.
