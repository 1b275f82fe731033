(** Vocabulary for the parameter store. *)
From Coq Require Import ZArith List Bool String.
From Verif Require Import Base ParamModel.
Import ListNotations.

Section Spec.
  Context {base : Type} {bden : base -> Type}.
  (** [a] was the last value set under [k]. *)
  Definition last_set (cs : list (call bden)) (k : string) (a : any bden) : Prop :=
    exists before after, cs = before ++ Set_ bden k a :: after /\ forall a', ~ In (Set_ bden k a') after.
  Definition never_set (cs : list (call bden)) (k : string) : Prop := forall a, ~ In (Set_ bden k a) cs.
  (** Every promised parameter has been set, before or after the promise. *)
  Definition all_kept (cs : list (call bden)) : Prop :=
    forall k, In (Promise bden k) cs -> exists a, In (Set_ bden k a) cs.
End Spec.

Open Scope string_scope.
(** a, b, c *)
Fixpoint listing (l : list string) : string :=
  match l with [] => "" | [x] => x | x :: l' => x ++ ", " ++ listing l' end.
Definition bracketed (l : list string) : string := "[" ++ listing l ++ "]".
Definition braced (l : list string) : string := "{" ++ listing l ++ "}".
(** Short enough for the length type. *)
Definition fits (s : string) : Prop := (Z.of_nat (String.length s) < 2 ^ 64)%Z.
