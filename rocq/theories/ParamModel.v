(** The parameter store: src/global/utils/param_container.h:34-180,
    src/framework/parameters/parameters.cpp:363-367. *)
From Coq Require Import ZArith List Bool String Arith.
From Verif Require Import Base.
Import ListNotations.

(** Types that std::any can hold here: scalar types [base] (numbers, strings, enumerations),
    vectors, pairs of equal types and dictionaries. *)
Section Store.
  Context {base : Type} (base_eq : forall a b : base, {a = b} + {a <> b}) (bden : base -> Type).

  Inductive ty := TBase (b : base) | TVec (t : ty) | TPair (t : ty) | TDict (t : ty).
  Definition ty_eq : forall a b : ty, {a = b} + {a <> b}.
  Proof. decide equality. Defined.
  Fixpoint den (t : ty) : Type :=
    match t with
    | TBase b => bden b
    | TVec t => list (den t)
    | TPair t => (den t * den t)%type
    | TDict t => list (string * den t)
    end.
  Definition any := {t : ty & den t}.
  Definition mk (t : ty) (v : den t) : any := existT _ t v.
  (** std::any_cast; [None] is std::bad_any_cast. *)
  Definition any_cast (t : ty) (a : any) : option (den t) :=
    match ty_eq (projT1 a) t with
    | left e => Some (eq_rect _ den (projT2 a) _ e)
    | right _ => None
    end.

  (** 37-39 *)
  Record store := { vars : string -> option any; promises : list string }.
  Definition empty : store := {| vars := fun _ => None; promises := [] |}.
  (** 46-48 *)
  Definition contains (s : store) (k : string) : bool := match vars s k with Some _ => true | None => false end.
  (** 56-58 *)
  Definition is_promised (s : store) (k : string) : bool := existsb (String.eqb k) (promises s).
  (** 50-54 *)
  Definition promise (s : store) (k : string) : store :=
    if is_promised s k then s else {| vars := vars s; promises := promises s ++ [k] |}.
  (** 60-64 *)
  Definition promises_fulfilled (s : store) : bool := forallb (contains s) (promises s).
  (** 66-68 *)
  Definition set (s : store) (k : string) (a : any) : store :=
    {| vars := fun k' => if String.eqb k' k then Some a else vars s k'; promises := promises s |}.
  (** 70-94; the flag says that the warning was issued. *)
  Definition get (s : store) (t : ty) (k : string) (def : option (den t)) : res (den t * bool) :=
    match vars s k with
    | None => match def with Some v => Ok (v, true) | None => Err end
    | Some a => match any_cast t a with Some v => Ok (v, false) | None => Err end
    end.
  (** parameters.cpp:363-367 *)
  Definition check_promises (s : store) : res unit := if promises_fulfilled s then Ok tt else Err.

  (** The calls that change the store. *)
  Inductive call := Set_ (k : string) (a : any) | Promise (k : string).
  Definition step (s : store) (c : call) : store :=
    match c with Set_ k a => set s k a | Promise k => promise s k end.
  Definition run (cs : list call) : store := fold_left step cs empty.

  (** ** Printing, 96-178 *)
  Context (show : forall b, bden b -> string).
  Open Scope string_scope.
  (** 101-106: the count is an unsigned 64-bit number; substr stops at the end of the string. *)
  Definition remove_last (n : Z) (s : string) : string :=
    let len := Z.of_nat (String.length s) in
    substring 0 (Z.to_nat (Z.min len ((len - n) mod 2 ^ 64))) s.
  (** The loop of 136-140 and its like: each element, then a comma. *)
  Definition emit {A} (f : string -> A -> string) (r : string) (l : list A) : string := fold_left (fun r i => f r i ++ ", ") l r.
  (** 118-163; [b] is the type parameter. *)
  Definition stringize (s : store) (b : base) (k : string) : res string :=
    let sh := fun (r : string) (i : bden b) => r ++ show b i in
    match vars s k with
    | None => Err
    | Some a =>
        match any_cast (TVec (TVec (TBase b))) a, any_cast (TVec (TBase b)) a, any_cast (TPair (TBase b)) a,
              any_cast (TVec (TPair (TBase b))) a, any_cast (TBase b) a with
        | Some vv, _, _, _, _ =>
            Ok (remove_last 2 (emit (fun r v => remove_last 2 (emit sh (r ++ "{") v) ++ "}") "[" vv) ++ "]")
        | None, Some v, _, _, _ => Ok (remove_last 2 (emit sh "[" v) ++ "]")
        | None, None, Some p, _, _ => Ok (sh (sh "[" (fst p) ++ ", ") (snd p) ++ "]")
        | None, None, None, Some vp, _ =>
            Ok (remove_last 2 (emit (fun r p => sh (sh (r ++ "{") (fst p) ++ ", ") (snd p) ++ "}") "[" vp) ++ "]")
        | None, None, None, None, Some v => Ok (sh "" v)
        | _, _, _, _, _ => Err
        end
    end.
End Store.
Arguments ty base : clear implicits.
Arguments any {base} bden.
Arguments store {base} bden.
Arguments call {base} bden.
