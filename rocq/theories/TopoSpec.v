(** Vocabulary for boundary conditions and communication partners. *)
From Coq Require Import ZArith List.
From Verif Require Import Base DecompSpec DirsSpec TopoModel.
Import ListNotations.
Open Scope Z_scope.

(** A boundary specification of the global grid: per dimension the condition below and
    above.  The user never specifies the internal values, and periodicity is paired
    (see C50 for when input validation guarantees this). *)
Definition paired {B} (INVALID PERIODIC SYNC : B) (gbc : list (B * B)) : Prop :=
  Forall (fun b => (fst b = PERIODIC <-> snd b = PERIODIC) /\
                   fst b <> SYNC /\ snd b <> SYNC /\
                   fst b <> INVALID /\ snd b <> INVALID) gbc.
Definition paired_flds := paired F_INVALID F_PERIODIC F_SYNC.
Definition paired_prtl := paired P_INVALID P_PERIODIC P_SYNC.

(** All dimensions periodic. *)
Definition all_periodic (gbc : list (flds_bc * flds_bc)) : Prop :=
  Forall (fun b => b = (F_PERIODIC, F_PERIODIC)) gbc.

(** A face direction of subdomain [o]: component [s] in dimension [k]. The face lies on the
    global boundary. *)
Definition on_global_boundary (ns o : list Z) (k : nat) (s : Z) : Prop :=
  (s = -1 /\ nth k o 0 = 0) \/ (s = 1 /\ nth k o 0 = nth k ns 0 - 1).

(** The user's condition on that side of the grid. *)
Definition user_bc {B} (d : B) (gbc : list (B * B)) (k : nat) (s : Z) : B :=
  if s =? -1 then fst (nth k gbc (d, d)) else snd (nth k gbc (d, d)).

(** A step from position [o] in direction [dir] that crosses the global boundary in
    dimension [k]. *)
Definition crosses (ns o dir : list Z) (k : nat) : Prop :=
  (nth k dir 0 = -1 /\ nth k o 0 = 0) \/ (nth k dir 0 = 1 /\ nth k o 0 = nth k ns 0 - 1).

(** Number of elements of a half-open slice. *)
Definition extent (s : Z * Z) : Z := snd s - fst s.

(** Extents of the message of a subdomain with [ns] active cells per dimension. *)
Definition extents (slice : Z -> Z -> Z * Z) (n dir : list Z) : list Z :=
  map2 (fun n d => extent (slice n d)) n dir.
