(** Specification for the output section. *)
From Coq Require Import ZArith List Reals.
From Verif Require Import OpModel.
Import ListNotations.

(** What a user asks for: nothing, every so many steps, or each time so much time has passed. *)
Inductive schedule := Off | Every (n : Z) | Each (t : R).
(** The first positive one of: the category's time, its number of steps, the common time, the common number of steps;
    100 steps if there is none at all. *)
Definition positive_time (o : option R) : option R := match o with Some t => if Rlt_dec 0 t then Some t else None | None => None end.
Definition positive_steps (o : option Z) : option Z := match o with Some n => if Z.ltb 0 n then Some n else None | None => None end.
Definition asked (g : global_in) (c : category_in) : schedule :=
  match c_enable c with
  | Some false => Off
  | _ =>
    match positive_time (c_time c), positive_steps (c_interval c), positive_time (g_time g), positive_steps (g_interval g) with
    | Some t, _, _, _ => Each t
    | None, Some n, _, _ => Every n
    | None, None, Some t, _ => Each t
    | None, None, None, Some n => Every n
    | None, None, None, None => Every 100
    end
  end.
(** Entries that fit their types: steps that fit, the common ones positive. *)
Definition fits (o : option Z) : Prop := match o with Some n => (0 <= n < 2 ^ 32)%Z | None => True end.
Definition sound_global (g : global_in) : Prop := fits (g_interval g) /\ g_interval g <> Some 0%Z.
(** A time, if given, is positive, or -1 for "none". *)
Definition sound_category (c : category_in) : Prop :=
  fits (c_interval c) /\ match c_time c with Some t => (0 < t \/ t = -1)%R | None => True end.

(** No positive number of steps, or no time at all. *)
Definition no_steps (o : option Z) : Prop := o = None \/ o = Some 0%Z.
Definition no_time (o : option R) : Prop := o = None \/ o = Some (-1)%R.
(** A time that is given and that is not one. *)
Definition bad_time (o : option R) : Prop := exists t, o = Some t /\ (t <= 0)%R /\ t <> (-1)%R.
Definition useless (g : global_in) (c : category_in) : Prop :=
  c_enable c <> Some false /\ no_steps (c_interval c) /\
  (bad_time (c_time c) \/ (no_time (c_time c) /\ g_interval g = Some 0%Z /\ (no_time (g_time g) \/ bad_time (g_time g)))).

(** The factors asked for in [dim] directions. *)
Definition asked_factors (dim : nat) (d : down_in) : option (list Z) :=
  match d with
  | DList l => if ((dim <=? length l) && (length l <=? 3))%nat%bool then Some (firstn dim l) else None
  | DInt z => Some (repeat z dim)
  | DOther => Some (repeat 1%Z dim)
  end.
Definition in_range (d : down_in) : Prop :=
  match d with DList l => Forall (fun z => (0 <= z < 2 ^ 32)%Z) l | DInt z => (0 <= z < 2 ^ 32)%Z | DOther => True end.
