(** Checkpoint files, resuming, run length and output schedule:
    src/output/checkpoint.cpp, src/framework/simulation.cpp, src/framework/parameters/parameters.cpp,
    src/engines/engine.hpp, src/global/utils/tools.h ([Tracker]). *)
From Coq Require Import String Ascii ZArith List Bool Reals.
From Flocq Require Import Core.
From Verif Require Import Base.
Import ListNotations.
Open Scope Z_scope.

(** ** The checkpoint directory *)

(** Data files (step-*.bp) and metadata files (meta-*.toml) by step; the flag says whether the
    file has been written completely. *)
Record disk := { bps : list (Z * bool); metas : list (Z * bool) }.

Definition erase (s : Z) (l : list (Z * bool)) : list (Z * bool) := filter (fun p => negb (fst p =? s)) l.
Definition present (s : Z) (l : list (Z * bool)) : bool := existsb (fun p => fst p =? s) l.
Definition write (s : Z) (complete : bool) (l : list (Z * bool)) : list (Z * bool) := (s, complete) :: erase s l.

(** Effects on the directory, in the order in which they can be separated by a crash.
    remove_all of a directory is not atomic: [TrashBp] leaves an incomplete data file. *)
Inductive op :=
| OpenBp (s : Z) | OpenMeta (s : Z) | CloseMeta (s : Z) | CloseBp (s : Z)
| TrashBp (s : Z) | RemoveBp (s : Z) | RemoveMeta (s : Z).
Definition apply_op (o : op) (d : disk) : disk :=
  match o with
  | OpenBp s | TrashBp s => {| bps := write s false (bps d); metas := metas d |}
  | CloseBp s => {| bps := write s true (bps d); metas := metas d |}
  | OpenMeta s => {| bps := bps d; metas := write s false (metas d) |}
  | CloseMeta s => {| bps := bps d; metas := write s true (metas d) |}
  | RemoveBp s => {| bps := erase s (bps d); metas := metas d |}
  | RemoveMeta s => {| bps := bps d; metas := erase s (metas d) |}
  end.
Definition apply_ops (l : list op) (d : disk) : disk := fold_left (fun d o => apply_op o d) l d.

(** metadomain_chckpt.cpp:119-164: beginSaving (checkpoint.cpp:72-73), saveTOML, the data, close. *)
Definition save_ops (s : Z) : list op := [OpenBp s; OpenMeta s; CloseMeta s; CloseBp s].

(** checkpoint.cpp:97-109, on the root rank: the oldest file of this run goes once there are
    more than [keep].  [w] is m_written. *)
Definition rotate_ops (keep : Z) (w : list Z) (d : disk) : list op * list Z :=
  if (0 <? keep) && (keep <? Z.of_nat (length w)) then
    match w with
    | oldest :: w' =>
        if present oldest (bps d) && present oldest (metas d)
        then ([TrashBp oldest; RemoveBp oldest; RemoveMeta oldest], w')
        else ([], w)
    | [] => ([], w)
    end
  else ([], w).

(** One checkpoint at step [s]; with [keep] = 0 the writer is disabled (checkpoint.cpp:31,57-59). *)
Definition save (keep s : Z) (st : list Z * disk) : list op * (list Z * disk) :=
  if keep =? 0 then ([], st)
  else
    let w := fst st ++ [s] in
    let d := apply_ops (save_ops s) (snd st) in
    let r := rotate_ops keep w d in
    (save_ops s ++ fst r, (snd r, apply_ops (fst r) d)).

(** What happens to the directory during a run: checkpoints, and files of a step deleted from
    outside. *)
Inductive event := Save (s : Z) | Lost (s : Z).
Definition event_ops (keep : Z) (e : event) (st : list Z * disk) : list op * (list Z * disk) :=
  match e with
  | Save s => save keep s st
  | Lost s => let l := [RemoveBp s; RemoveMeta s] in (l, (fst st, apply_ops l (snd st)))
  end.
Fixpoint run_events (keep : Z) (es : list event) (st : list Z * disk) : list op * (list Z * disk) :=
  match es with
  | [] => ([], st)
  | e :: es' =>
      let r := event_ops keep e st in
      let r' := run_events keep es' (snd r) in
      (fst r ++ fst r', snd r')
  end.

(** ** File names *)
Open Scope string_scope.
Open Scope Z_scope.
Definition digit (d : Z) : ascii := ascii_of_nat (48 + Z.to_nat d).
(** Decimal digits; [fuel] bounds their number (%lu prints at most 20). *)
Fixpoint digits (fuel : nat) (n : Z) : string :=
  match fuel with
  | O => ""
  | S f => if n <? 10 then String (digit n) "" else digits f (n / 10) ++ String (digit (n mod 10)) ""
  end.
Fixpoint zeros (k : nat) : string := match k with O => "" | S k' => String "0" (zeros k') end.
(** "%08lu". *)
Definition pad8 (n : Z) : string := let s := digits 20 n in zeros (8 - String.length s) ++ s.
(** checkpoint.cpp:69-71, simulation.cpp:83-84. *)
Definition bp_name (s : Z) : string := "step-" ++ pad8 s ++ ".bp".
Definition meta_name (s : Z) : string := "meta-" ++ pad8 s ++ ".toml".

(** std::stoi for strings of digits: the digits before the first other character; no digit is
    an exception, and so is a value that does not fit [int].  Leading blanks and signs are not
    modelled. *)
Definition digit_value (c : ascii) : option Z :=
  let k := nat_of_ascii c in
  if (Nat.leb 48 k && Nat.leb k 57)%bool then Some (Z.of_nat k - 48) else None.
Fixpoint number (acc : Z) (s : string) : Z :=
  match s with
  | EmptyString => acc
  | String c s' => match digit_value c with Some v => number (10 * acc + v) s' | None => acc end
  end.
Definition stoi (s : string) : res Z :=
  match s with
  | EmptyString => Err
  | String c _ =>
      match digit_value c with
      | None => Err
      | Some _ => let n := number 0 s in if n <=? 2147483647 then Ok n else Err
      end
  end.

(** simulation.cpp:76-77: the name starts with "step-"; five characters in front and three at
    the end are dropped.  A shorter name makes the length wrap around, so that everything after
    the fifth character is parsed. *)
Definition step_of_name (name : string) : option (res Z) :=
  if prefix "step-" name
  then Some (stoi (substring 5 (if Nat.ltb (String.length name) 8 then String.length name else String.length name - 8) name))
  else None.

(** simulation.cpp:73-82: the highest step among the directory entries, in listing order. *)
Fixpoint highest (best : Z) (names : list string) : res Z :=
  match names with
  | [] => Ok best
  | n :: names' =>
      match step_of_name n with
      | None => highest best names'
      | Some r => rbind r (fun s => highest (if best <? s then s else best) names')
      end
  end.

(** simulation.cpp:72-90: the step
    to resume from; a fatal error if its metadata file is missing. *)
Definition resume_step (listing : list string) (d : disk) : res Z :=
  rbind (highest 0 listing) (fun s => if present s (metas d) then Ok s else Err).
Close Scope string_scope.

(** ** Time in the metadata file *)
Open Scope R_scope.
(** parameters.cpp:369-377, "%f": the decimal number with six digits after the point that is
    nearest to [t]. *)
Definition printed (t : R) : R := IZR (ZnearestE (t * 1000000)) / 1000000.
(** simulation.cpp:93-95: parsed as a double. *)
Definition to_double (x : R) : R := round radix2 (FLT_exp (-1074) 53) ZnearestE x.
Definition restored_time (t : R) : R := to_double (printed t).
Close Scope R_scope.

(** ** Parameters across restarts *)

(** An input or metadata file: immutable and other parameters. *)
Record input (A B : Type) := { immutable : A; mutable : B }.
Arguments immutable {A B}. Arguments mutable {A B}. Arguments Build_input {A B}.

(** A running simulation: immutable parameters in effect, other parameters in effect, and the
    raw data kept for the metadata file (simulation.cpp:55). *)
Record params (A B : Type) := { in_effect : A; others : B; raw_data : input A B }.
Arguments in_effect {A B}. Arguments others {A B}. Arguments raw_data {A B}. Arguments Build_params {A B}.

(** simulation.cpp:100-106. *)
Definition fresh_run {A B} (i : input A B) : params A B :=
  {| in_effect := immutable i; others := mutable i; raw_data := i |}.
(** simulation.cpp:58-99: immutable parameters from the metadata file. *)
Definition resumed_run {A B} (meta i : input A B) : params A B :=
  {| in_effect := immutable meta; others := mutable i; raw_data := i |}.
(** parameters.cpp:369-377: what a checkpoint of the run stores. *)
Definition saved_meta {A B} (p : params A B) : input A B := raw_data p.

(** The run with first input [i], restarted with the inputs [is] one after the other, each time
    from a checkpoint of the previous run. *)
Fixpoint restarts {A B} (p : params A B) (is : list (input A B)) : params A B :=
  match is with
  | [] => p
  | i :: is' => restarts (resumed_run (saved_meta p) i) is'
  end.

(** ** Main loop *)

(** engine.hpp:242-: the indices of the steps executed from [start]. *)
Fixpoint loop {S : Type} (fuel : nat) (advance : Z -> S -> S) (max_steps step : Z) (s : S) : list Z * (Z * S) :=
  match fuel with
  | O => ([], (step, s))
  | Datatypes.S f =>
      if step <? max_steps then
        let r := loop f advance max_steps (step + 1) (advance step s) in (step :: fst r, snd r)
      else ([], (step, s))
  end.

(** ** Tracker *)
Open Scope R_scope.
Record tracker := {
  interval : Z; interval_time : R; use_time : bool; (* tools.h:285-287 *)
  end_walltime : R; pending : bool;                 (* tools.h:290-291 *)
  last_output : R                                   (* tools.h:293 *)
}.
(** tools.h:308-329; [limit]: the end of the wall-clock budget, if any. *)
Definition new_tracker (interval : Z) (interval_time : R) (limit : option R) : tracker :=
  {| interval := interval; interval_time := interval_time;
     use_time := if Rlt_dec 0 interval_time then true else false;
     end_walltime := match limit with Some t => t | None => 0 end;
     pending := match limit with Some _ => true | None => false end;
     last_output := -1 |}.
Definition with_pending (t : tracker) (p : bool) : tracker :=
  {| interval := interval t; interval_time := interval_time t; use_time := use_time t;
     end_walltime := end_walltime t; pending := p; last_output := last_output t |}.
Definition with_last (t : tracker) (l : R) : tracker :=
  {| interval := interval t; interval_time := interval_time t; use_time := use_time t;
     end_walltime := end_walltime t; pending := pending t; last_output := l |}.

(** tools.h:331-348, [now] is the reading of the system clock. *)
Definition should_write (t : tracker) (step : Z) (time now : R) : res (bool * tracker) :=
  if pending t && (if Rlt_dec (end_walltime t) now then true else false) then Ok (true, with_pending t false)
  else if use_time t then
    if Rlt_dec (last_output t) 0 then Ok (true, with_last t time)
    else if Rle_dec (interval_time t) (time - last_output t) then Ok (true, with_last t time)
    else Ok (false, t)
  else if (interval t =? 0)%Z then UB
  else Ok ((step mod interval t =? 0)%Z, t).

(** A sequence of queries (step, time, clock). *)
Fixpoint queries (t : tracker) (qs : list (Z * R * R)) : res (list bool * tracker) :=
  match qs with
  | [] => Ok ([], t)
  | (step, time, now) :: qs' =>
      rbind (should_write t step time now) (fun r =>
      rbind (queries (snd r) qs') (fun r' => Ok (fst r :: fst r', snd r')))
  end.

(** metadomain_chckpt.cpp:103-118, whether a checkpoint is written: the tracker is asked first
    (only if [keep] is not 0), then the first two steps are excluded. *)
Definition checkpoint_due (keep : Z) (t : tracker) (finished_step : Z) (finished_time now : R) : res (bool * tracker) :=
  if (keep =? 0)%Z then Ok (false, t)
  else rbind (should_write t finished_step finished_time now) (fun r =>
         Ok (fst r && negb (finished_step <=? 1)%Z, snd r)).
