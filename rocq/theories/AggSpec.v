(** Vocabulary for the tuning of the output. *)
From Coq Require Import ZArith List Ascii String.
From Verif Require Import Base AggModel.
Import ListNotations.
Open Scope Z_scope.

(** A job: at least one rank on each node. *)
Definition job (nodes : list Z) : Prop := nodes <> [] /\ Forall (fun n => 0 < n) nodes.
Definition nodes_of (nodes : list Z) : Z := Z.of_nat (List.length nodes).
(** Same letters, apart from case. *)
Definition same_letter (a b : ascii) : Prop :=
  a = b \/ exists n, (65 <= n <= 90)%nat /\
    ((a = ascii_of_nat n /\ b = ascii_of_nat (n + 32)) \/ (b = ascii_of_nat n /\ a = ascii_of_nat (n + 32))).
Fixpoint same_word (a b : string) : Prop :=
  match a, b with
  | EmptyString, EmptyString => True
  | String c s, String d t => same_letter c d /\ same_word s t
  | _, _ => False
  end.
(** The value of a parameter. *)
Definition value (l : list (string * setting)) (key : string) : option setting :=
  option_map snd (find (fun p => String.eqb (fst p) key) l).
