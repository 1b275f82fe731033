(** Common vocabulary used by several model files.  Nothing here is specific
    to one part of the code base. *)
From Coq Require Import ZArith List Bool Lia.
Import ListNotations.
Open Scope Z_scope.

(** Outcome of a C++ call: a value, an exception raised through
    [raise::Error]/[raise::ErrorIf]/[raise::Fatal]
    (src/global/utils/error.h:38-99), or undefined behaviour (index past the
    end, float-to-integer cast out of range, division by zero). *)
Inductive res (A : Type) : Type :=
| Ok (a : A)
| Err
| UB.
Arguments Ok {A} a.
Arguments Err {A}.
Arguments UB {A}.

Definition rbind {A B} (x : res A) (f : A -> res B) : res B :=
  match x with Ok a => f a | Err => Err | UB => UB end.

(** Reduction of an unsigned 32-bit computation
    (ncells_t, npart_t, timestep_t, unsigned int: src/global/global.h:383-385). *)
Definition w32 (x : Z) : Z := x mod 2 ^ 32.

(** Sum and product of a list of integers. *)
Definition sumZ (l : list Z) : Z := fold_right Z.add 0 l.
Definition prodZ (l : list Z) : Z := fold_right Z.mul 1 l.

Fixpoint map2 {A B C} (f : A -> B -> C) (l1 : list A) (l2 : list B) : list C :=
  match l1, l2 with
  | a :: l1', b :: l2' => f a b :: map2 f l1' l2'
  | _, _ => []
  end.

(** A multi-index lies in the box [0,n_1) x ... x [0,n_D). *)
Definition in_box (x n : list Z) : Prop := Forall2 (fun a b => 0 <= a < b) x n.
