(** The report of each step: src/global/utils/progressbar.h:37-76, progressbar.cpp:29-121, timer.cpp:27-128 (gather),
    timer.h:36-50 (convertTime), tools.h:38-55 (ArrayImbalance), diag.cpp:28-77 (npart_stats), engine.hpp:342-362.
    Exact reals; durations in microseconds.  A cast of a number that does not fit, or of a quotient by zero, is
    undefined; numbers of -1 or less count as not fitting. *)
From Coq Require Import ZArith List Bool Reals.
From Verif Require Import Base.
Import ListNotations.
Open Scope R_scope.

(** static_cast to an integer type with values below [bound]. *)
Definition to_int (bound : Z) (x : R) : res Z :=
  if Rlt_dec (-1) x then if Rlt_dec x (IZR bound) then Ok (Z.max 0 (Int_part x)) else UB else UB.
(** The cast of [x / y]. *)
Definition quotient (bound : Z) (x y k : R) : res Z := if Req_EM_T y 0 then UB else to_int bound (x / y * k).

(** progressbar.cpp:31-37; the units are microseconds, milliseconds, seconds, minutes and hours. *)
Definition scale (i : nat) : R :=
  match i with 0%nat => 1 | 1%nat => 1000 | 2%nat => 1000000 | 3%nat => 60000000 | _ => 3600000000 end.
(** progressbar.cpp:43-54 *)
Definition shift (t : R) : Z :=
  if Rlt_dec t 1 then -1 else if Rlt_dec t 1000 then 0 else if Rlt_dec t 1000000 then 1
  else if Rlt_dec t 60000000 then 2 else if Rlt_dec t 3600000000 then 3 else 4.
(** progressbar.cpp:29-59, for one of the five units; an index of five is past the end. *)
Definition normalize (t : R) (u : nat) : res (R * nat) :=
  let i := Z.to_nat (Z.min (Z.max 0 (Z.of_nat u + shift t)) 5) in
  if (i <? 5)%nat then Ok (t * (scale u / scale i), i) else UB.
(** progressbar.cpp:61-67: the two numbers printed, with their units. *)
Definition human (t : R) (u : nat) : res (Z * nat * Z * nat) :=
  rbind (normalize t u) (fun '(x, tu) =>
  rbind (to_int (2 ^ 31) x) (fun t1 =>
  rbind (normalize (x - IZR t1) tu) (fun '(y, tu2) =>
  rbind (to_int (2 ^ 31) y) (fun t2 => Ok (t1, tu, t2, tu2))))).

(** progressbar.h:51-60 *)
Definition tick (cap : nat) (l : list R) (d : R) : res (list R) :=
  if (cap <=? length l)%nat then match l with [] => UB | _ :: r => Ok (r ++ [d]) end else Ok (l ++ [d]).
Fixpoint ticks (cap : nat) (l ds : list R) : res (list R) :=
  match ds with [] => Ok l | d :: r => rbind (tick cap l d) (fun l' => ticks cap l' r) end.
Definition total (l : list R) : R := fold_right Rplus 0 l.
(** progressbar.h:62-69 *)
Definition average (l : list R) : R := match l with [] => 0 | _ => total l / INR (length l) end.

(** progressbar.cpp:95-103: how many of the 70 characters are filled, and how many not. *)
Definition bar (step max_steps : Z) : res (Z * Z) :=
  rbind (quotient (2 ^ 31) (IZR step) (IZR max_steps) 70) (fun f => let f := Z.min f 70 in Ok (f, 70 - f)%Z).
(** progressbar.cpp:95-97, engine.hpp:346-348: the report after [done] steps is given the number of the last one. *)
Definition remaining (done max_steps : Z) (avg : R) : R :=
  let step := ((done - 1) mod 2 ^ 32)%Z in IZR ((max_steps - step) mod 2 ^ 32) * avg.

(** timer.cpp:105-113: one timer of a single process; [tot] leaves out sorting, output and checkpoints. *)
Definition percent (tot t : R) : res Z := quotient 65536 t tot 100.
(** timer.cpp:74-98: the rank with the longest duration, the first of several. *)
Fixpoint longest (l : list R) : option (nat * R) :=
  match l with
  | [] => None
  | x :: r => match longest r with
              | None => Some (0%nat, x)
              | Some (i, y) => if Rlt_dec x y then Some (S i, y) else Some (0%nat, x)
              end
  end.
Definition rank_total (timers : list (list R)) (i : nat) : R := total (map (fun l => nth i l 0) timers).
Definition rank_percent (timers : list (list R)) (l : list R) : res Z :=
  match longest l with None => UB | Some (i, m) => percent (rank_total timers i) m end.

(** tools.h:39-55; the root of a negative number is not a number. *)
Definition imbalance (eps : R) (l : list R) : res Z :=
  match l with
  | [] => Err
  | _ =>
    let mean := total l / INR (length l) in
    let sq := total (map (fun x => x * x) l) in
    if ((if Rle_dec (Rabs sq) eps then true else false) || (if Rle_dec (Rabs mean) eps then true else false))%bool then Ok 0%Z
    else let d := sq / INR (length l) / mean - 1 in
      if Rlt_dec d 0 then UB else to_int 65536 (100 / (1 + exp (- sqrt d)))
  end.

(** diag.cpp:31-34 *)
Definition fullness (n maxn : Z) : res Z := quotient 65536 (100 * IZR n) (IZR maxn) 1.
(** What is shown for the imbalance, if anything. *)
Definition reported (eps : R) (l : list R) : option Z := match imbalance eps l with Ok r => Some r | _ => None end.
