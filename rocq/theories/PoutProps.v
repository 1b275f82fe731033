(** Output of particles (C82). *)
From Coq Require Import ZArith List Bool Arith Lia Permutation.
From Verif Require Import Base PrtlModel PrtlSpec PrtlProofs PoutModel PoutSpec PoutProofs.
Import ListNotations.

(** The variables declared are those of the species, each once; what is written is what is declared. *)
Theorem C82_variables : forall c tr mpi, NoDup (declared c tr mpi) /\ (forall k, In k (declared c tr mpi) <-> variable c tr mpi k) /\
  (1 <= dim c <= 3 -> forall k, In k (declared c tr mpi) <-> In k (written c tr mpi)).
Proof. intros c tr mpi. exact (conj (declared_nodup c tr mpi) (conj (declared_iff c tr mpi) (fun H k => same_columns c tr mpi k H))). Qed.
Print Assumptions C82_variables.

(** Tracked species: for any number of ranks, contents, flags, schedules of the threads and order in
    which ranks write, the file holds one row for each live particle of any rank whose counter is a
    multiple of the stride, with all its values, and nothing else. *)
Theorem C82_tracked : forall c gr (mpi : bool) xph uph stride (order : nat -> list nat -> list nat) (turns : list nat -> list nat) ranks, 1 <= dim c <= 3 -> (if mpi then 2 else 1) <= npld_i c ->
  0 < stride -> ranks <> [] -> (forall r l, Permutation (order r l) l) -> (forall l, Permutation (turns l) l) ->
  (forall rk, In rk ranks -> tidy (snd rk)) ->
  let cols := declared c true mpi in
  exists f l, output c gr true mpi xph uph stride order turns ranks = Ok f /\ holds f cols l /\
    Permutation (map (fun r => map r cols) l)
      (flat_map (fun rk => map (row_of c gr true mpi xph uph cols (snd rk))
                             (filter (fun p => Z.eqb (ar (snd rk) (PldI 0) p mod Z.of_nat stride) 0) (live (snd rk)))) ranks).
Proof. intros c gr mpi xph uph stride order turns ranks HD HT. exact (tracked_output c gr true mpi xph uph HD HT stride order turns ranks eq_refl). Qed.
Print Assumptions C82_tracked.

(** Species not tracked, stride 1, flags that are true: one row for each live particle of any rank. *)
Theorem C82_all : forall c gr mpi xph uph (order : nat -> list nat -> list nat) (turns : list nat -> list nat) ranks, 1 <= dim c <= 3 -> ranks <> [] ->
  (forall r l, Permutation (order r l) l) -> (forall l, Permutation (turns l) l) -> (forall rk, In rk ranks -> tidy (snd rk) /\ honest rk) ->
  let cols := declared c false mpi in
  exists f l, output c gr false mpi xph uph 1 order turns ranks = Ok f /\ holds f cols l /\
    Permutation (map (fun r => map r cols) l) (flat_map (fun rk => map (row_of c gr false mpi xph uph cols (snd rk)) (live (snd rk))) ranks).
Proof. intros c gr mpi xph uph order turns ranks HD. exact (whole_output c gr false mpi xph uph HD (Nat.le_0_l _) order turns ranks eq_refl). Qed.
Print Assumptions C82_all.

(** Any stride: the rows are, rank after rank, every stride-th particle of some listing of that
    rank's live particles. *)
Theorem C82_stride : forall c gr (mpi : bool) xph uph stride (order : nat -> list nat -> list nat) (turns : list nat -> list nat) ranks, 1 <= dim c <= 3 -> 0 < stride -> ranks <> [] ->
  (forall r l, Permutation (order r l) l) -> (forall l, Permutation (turns l) l) -> (forall rk, In rk ranks -> tidy (snd rk) /\ honest rk) ->
  let cols := declared c false mpi in
  exists f l picks, output c gr false mpi xph uph stride order turns ranks = Ok f /\ holds f cols l /\
    Forall2 (fun rk p => Permutation p (live (snd rk))) ranks picks /\
    map (fun r => map r cols) l = flat_map (fun x => map (row_of c gr false mpi xph uph cols (snd (fst x))) (every stride (snd x))) (combine ranks picks).
Proof. intros c gr mpi xph uph stride order turns ranks HD. exact (untracked_output c gr false mpi xph uph HD (Nat.le_0_l _) stride order turns ranks eq_refl). Qed.
Print Assumptions C82_stride.

(** Two ranks, 2D axisymmetric, tracked with MPI, one payload of each kind; dead particles and
    counters that are not multiples of the stride. *)
Example ex_c : cfg := {| dim := 2; cart := false; npld_r := 1; npld_i := 3 |}.
Example ex_s (k : Z) : parts := {| np := 4; maxp := 6; tg := fun p => nth p [1; 0; 1; 1]%Z 0%Z;
  ar := fun a p => match a with PldI 0 => nth p [2; 4; 3; 6]%Z 0%Z | PldI 1 => k | Weight => k + Z.of_nat p | _ => 7 end%Z |}.
Example ex_ranks : list (bool * parts) := [(false, ex_s 100); (true, ex_s 200)].
Example ex_tidy : forall rk, In rk ex_ranks -> tidy (snd rk).
Proof. intros rk [<-|[<-|[]]]; (split; [|cbn; lia]); intros p Hp; cbn in Hp; do 4 (destruct p as [|p]; [cbn; auto|]); lia. Qed.
Example ex_columns : declared ex_c true true = [PX 1; PX 2; PX 3; PU 1; PU 2; PU 3; PW; PPLDR 0; PIDX; PRNK; PPLDI 0].
Proof. reflexivity. Qed.
Example ex_rows : match output ex_c false true true (fun _ i dx => i + dx)%Z (fun d _ _ => Z.of_nat d) 2 (fun _ => @rev nat) (@rev nat) ex_ranks with
  | Ok f => shape f PIDX = Some 4 /\ map (data f PIDX) (seq 0 5) = [Some 2; Some 6; Some 6; Some 2; None]%Z /\
            map (data f PRNK) (seq 0 5) = [Some 100; Some 100; Some 200; Some 200; None]%Z /\ map (data f PW) (seq 0 4) = [Some 100; Some 103; Some 203; Some 200]%Z
  | _ => False end.
Proof. vm_compute. auto. Qed.
Example ex_schedules : (forall r l, Permutation ((fun _ : nat => @rev nat) r l) l) /\ (forall l : list nat, Permutation (rev l) l).
Proof. split; intros; apply Permutation_sym, Permutation_rev. Qed.

(** Without tracking the flag is believed: after a clearing, particles marked dead by user code run
    at the end of the step are still written. *)
Theorem C82_dead_refuted : exists c s0 order killed s1, tidy s0 /\ Permutation order (seq 0 (np s0)) /\
  lives c (false, s0) [Pushed (fun _ => false); Cleared order; UserKills killed] = Ok (true, s1) /\ tidy s1 /\ length (live s1) = 1 /\
  forall gr mpi xph uph, exists f, output c gr false mpi xph uph 1 (fun _ l => l) (fun l => l) [(true, s1)] = Ok f /\
    shape f PW = Some 2 /\ data f PW 1 = Some (ar s1 Weight 1) /\ tg s1 1 = 0%Z.
Proof.
  set (c := {| dim := 1; cart := true; npld_r := 0; npld_i := 0 |}).
  set (s0 := {| np := 2; maxp := 2; tg := fun _ => 1%Z; ar := fun _ _ => 5%Z |}).
  destruct (lives c (false, s0) [Pushed (fun _ => false); Cleared [0; 1]; UserKills (Nat.eqb 1)]) as [[b s1]| |] eqn:E; [|vm_compute in E; discriminate|vm_compute in E; discriminate].
  exists c, s0, [0; 1], (Nat.eqb 1), s1.
  assert (X : b = true /\ np s1 = 2 /\ maxp s1 = 2 /\ tg s1 0 = 1%Z /\ tg s1 1 = 0%Z) by (vm_compute in E; injection E as <- <-; cbn; auto).
  destruct X as (-> & Hn & Hm & T0 & T1).
  split; [split; [intros p _; right; reflexivity|cbn; lia]|]. split; [apply Permutation_refl|]. split; [exact E|]. split.
  { split; [|lia]. intros p Hp. rewrite Hn in Hp. destruct p as [|[|p]]; auto. lia. }
  split; [unfold live; rewrite Hn; cbn; rewrite T0, T1; reflexivity|].
  intros gr mpi xph uph. unfold output, mapM, combine, seq, prepare. cbn [length rbind select Nat.eqb]. rewrite Hn. eexists. split; [reflexivity|].
  cbn. auto.
Qed.
Print Assumptions C82_dead_refuted.

(** Without tracking and with a stride above one, the number of rows depends on the division: two
    particles on one rank give a row, one on each of two ranks give none. *)
Theorem C82_division_refuted : forall c gr mpi xph uph, exists s1 s2, tidy s1 /\ honest (true, s1) /\ tidy s2 /\ honest (true, s2) /\
  length (live s1) = 2 /\ length (live s2) = 1 /\
  exists f g, output c gr false mpi xph uph 2 (fun _ l => l) (fun l => l) [(true, s1)] = Ok f /\
    output c gr false mpi xph uph 2 (fun _ l => l) (fun l => l) [(true, s2); (true, s2)] = Ok g /\ shape f PW = Some 1 /\ shape g PW = Some 0.
Proof.
  intros c gr mpi xph uph.
  exists {| np := 2; maxp := 2; tg := fun _ => 1%Z; ar := fun _ _ => 5%Z |}, {| np := 1; maxp := 2; tg := fun _ => 1%Z; ar := fun _ _ => 5%Z |}.
  repeat split; try (cbn; lia); try (intros p Hp; right; reflexivity).
  eexists. eexists. split; [reflexivity|]. split; [reflexivity|].
  cbn [seq length map fold_left nth_error Nat.div Nat.divmod fst snd list_sum fold_right Nat.add Nat.mul app].
  split.
  - exact (proj1 (puts _ _ _ _ _ _ _)).
  - exact (proj1 (puts _ _ _ _ _ _ _)).
Qed.
Print Assumptions C82_division_refuted.

(** A stride of zero, which the parameters do not reject, divides by zero. *)
Theorem C82_zero_stride : forall c gr mpi xph uph order turns s rest,
  output c gr false mpi xph uph 0 order turns ((true, s) :: rest) = UB.
Proof. reflexivity. Qed.
Print Assumptions C82_zero_stride.
