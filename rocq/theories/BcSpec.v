(** Vocabulary for boundary conditions from the input file. *)
From Coq Require Import ZArith List Bool String Ascii Reals.
From Verif Require Import Base TopoModel BcModel.
Import ListNotations.
Open Scope string_scope.

(** The words of the input file, up to case, and what they stand for. *)
Definition flds_word (b : flds_bc) : string :=
  match b with
  | F_INVALID => "" | F_PERIODIC => "periodic" | F_MATCH => "match" | F_FIXED => "fixed" | F_ATMOSPHERE => "atmosphere"
  | F_CUSTOM => "custom" | F_HORIZON => "horizon" | F_AXIS => "axis" | F_CONDUCTOR => "conductor" | F_SYNC => "sync"
  end.
Definition prtl_word (b : prtl_bc) : string :=
  match b with
  | P_INVALID => "" | P_PERIODIC => "periodic" | P_ABSORB => "absorb" | P_ATMOSPHERE => "atmosphere" | P_CUSTOM => "custom"
  | P_REFLECT => "reflect" | P_HORIZON => "horizon" | P_AXIS => "axis" | P_SYNC => "sync"
  end.
Definition says {B} (word : B -> string) (INVALID : B) (s : string) (b : B) : Prop := b <> INVALID /\ to_lower s = word b.

(** How one dimension of the input is to be read: one word, periodic; or two words, neither periodic. *)
Definition reads {B} (word : B -> string) (INVALID PERIODIC : B) (l : list string) (p : B * B) : Prop :=
  (exists s, l = [s] /\ says word INVALID s PERIODIC /\ p = (PERIODIC, PERIODIC)) \/
  (exists s s', l = [s; s'] /\ says word INVALID s (fst p) /\ says word INVALID s' (snd p) /\ fst p <> PERIODIC /\ snd p <> PERIODIC).
Definition flds_reads := reads flds_word F_INVALID F_PERIODIC.
Definition prtl_reads := reads prtl_word P_INVALID P_PERIODIC.

(** At most one entry says atmosphere. *)
Definition is_word (w s : string) : bool := String.eqb (to_lower s) w.
Definition one_atmosphere (spec : list (list string)) : Prop := (List.length (filter (is_word "atmosphere") (List.concat spec)) <= 1)%nat.
Definition mentions (w : string) (spec : list (list string)) : Prop := exists s, In s (List.concat spec) /\ to_lower s = w.

(** A thickness given per dimension: both ends, one per end, or none. *)
Definition thickness (l : list R) (p : R * R) : Prop := l = [fst p; snd p] \/ (l = [fst p] /\ snd p = fst p) \/ (l = [] /\ p = (0, 0)%R).
