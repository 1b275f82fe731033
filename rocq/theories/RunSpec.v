(** Vocabulary for checkpoint files, restarts and output schedules. *)
From Coq Require Import String ZArith List Bool Reals Sorted.
From Verif Require Import Base RunModel.
Import ListNotations.
Open Scope Z_scope.

(** State of the file of step [s]: none, incomplete or complete. *)
Definition file (s : Z) (l : list (Z * bool)) : option bool :=
  option_map snd (find (fun p => fst p =? s) l).
Definition complete (s : Z) (d : disk) : Prop := file s (bps d) = Some true /\ file s (metas d) = Some true.
Definition absent (s : Z) (d : disk) : Prop := file s (bps d) = None /\ file s (metas d) = None.
Definition unchanged (s : Z) (d d' : disk) : Prop :=
  file s (bps d) = file s (bps d') /\ file s (metas d) = file s (metas d').

(** The last [k] elements of a list. *)
Definition newest {A} (k : Z) (l : list A) : list A := skipn (length l - Z.to_nat k) l.

(** Steps in increasing order, within the range the code can read back. *)
Definition increasing (l : list Z) : Prop := StronglySorted Z.lt l /\ Forall (fun s => 0 < s < 2 ^ 31) l.

(** A directory listing, in any order, possibly with other files. *)
Definition listing_of (names : list string) (d : disk) : Prop :=
  (forall s, file s (bps d) <> None -> In (bp_name s) names) /\
  (forall n, In n names -> prefix "step-" n = true -> exists s, n = bp_name s /\ file s (bps d) <> None).

(** The directory after a sequence of checkpoints of one run that started with directory [d]. *)
Definition after_saves (keep : Z) (steps : list Z) (d : disk) : disk :=
  snd (snd (run_events keep (map Save steps) ([], d))).
(** All its effects on the directory in order; a crash cuts this list anywhere. *)
Definition effects (keep : Z) (steps : list Z) (d : disk) : list op :=
  fst (run_events keep (map Save steps) ([], d)).

(** Times at which a sequence of queries answered yes. *)
Open Scope R_scope.
Definition answers (qs : list (Z * R * R)) (bs : list bool) : list R :=
  map (fun p => snd (fst (fst p))) (filter (fun p => snd p) (combine qs bs)).
(** Queries with non-negative, non-decreasing times, at most [dt] apart. *)
Fixpoint spaced (dt last : R) (qs : list (Z * R * R)) : Prop :=
  match qs with
  | [] => True
  | (_, t, _) :: qs' => last <= t <= last + dt /\ spaced dt t qs'
  end.
(** Consecutive elements differ by at least [lo] and less than [hi]. *)
Fixpoint gaps (lo hi : R) (l : list R) : Prop :=
  match l with
  | a :: ((b :: _) as l') => lo <= b - a < hi /\ gaps lo hi l'
  | _ => True
  end.
Close Scope R_scope.

(** States a run with arbitrary interruptions can be in: it starts at step 0, a process executes
    any number of steps, and a restart continues from any state that was reached (and saved)
    earlier, with the same number of steps. *)
Inductive reached {S : Type} (advance : Z -> S -> S) (max_steps : Z) (s0 : S) : Z -> S -> Prop :=
| reached_start : reached advance max_steps s0 0 s0
| reached_later : forall k step s step' s', reached advance max_steps s0 step s ->
    snd (loop k advance max_steps step s) = (step', s') -> reached advance max_steps s0 step' s'.
(** The integers from [a] to [b] - 1. *)
Definition from_to (a b : Z) : list Z := map (fun k => a + Z.of_nat k) (seq 0 (Z.to_nat (b - a))).
