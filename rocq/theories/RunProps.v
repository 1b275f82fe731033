(** Properties C32 to C36, C51 and C57. *)
From Coq Require Import String ZArith List Bool Reals Sorted Lia Lra.
From Flocq Require Import Core.
From Verif Require Import Base RunModel RunSpec RunProofs RunTop.
Import ListNotations.
Open Scope Z_scope.

(** ** C32 *)

(** With [keep] > 0, after any sequence of checkpoints of a run, whatever the directory held
    before: the newest [keep] of them are complete, the others are gone, and files of other
    steps have not been touched. *)
Theorem C32_newest_are_kept : forall keep steps d0, 0 < keep -> NoDup steps ->
  let d := after_saves keep steps d0 in
  (forall s, In s (newest keep steps) -> complete s d) /\
  (forall s, In s steps -> ~ In s (newest keep steps) -> absent s d) /\
  (forall s, ~ In s steps -> unchanged s d d0).
Proof. exact rotation_ok. Qed.
Print Assumptions C32_newest_are_kept.

Example ex_newest : newest 2 [10; 20; 30; 40] = [30; 40] /\ newest 7 [10; 20] = [10; 20].
Proof. split; reflexivity. Qed.
Example ex_rotation : after_saves 2 [10; 20; 30; 40] {| bps := [(5, true)]; metas := [(5, true)] |} =
  {| bps := [(40, true); (30, true); (5, true)]; metas := [(40, true); (30, true); (5, true)] |}.
Proof. reflexivity. Qed.

Theorem C32_negative_keeps_all : forall keep steps d0, keep < 0 -> NoDup steps ->
  let d := after_saves keep steps d0 in
  (forall s, In s steps -> complete s d) /\ (forall s, ~ In s steps -> unchanged s d d0).
Proof. exact keep_all_ok. Qed.
Print Assumptions C32_negative_keeps_all.

Theorem C32_zero_writes_nothing : forall steps d0, after_saves 0 steps d0 = d0 /\ effects 0 steps d0 = [].
Proof. exact keep_none. Qed.
Print Assumptions C32_zero_writes_nothing.

(** Once the data of the oldest checkpoint of the run have been deleted from outside, no
    checkpoint is removed any more. *)
Theorem C32_external_deletion_refuted : forall keep steps w d oldest, 0 < keep ->
  ~ In oldest steps -> file oldest (bps d) = None ->
  let d' := snd (snd (run_events keep (map Save steps) (oldest :: w, d))) in
  (forall x, unchanged x d' d \/ In x steps) /\ (NoDup steps -> forall x, In x steps -> complete x d').
Proof. intros keep steps w d oldest Hk Hn Hf. exact (stuck keep steps Hk w d oldest Hn Hf _ eq_refl). Qed.
Print Assumptions C32_external_deletion_refuted.

Example ex_stuck : snd (snd (run_events 1 [Save 10; Lost 10; Save 20; Save 30; Save 40] ([], {| bps := []; metas := [] |}))) =
  {| bps := [(40, true); (30, true); (20, true)]; metas := [(40, true); (30, true); (20, true)] |}.
Proof. reflexivity. Qed.

(** ** C33 *)

(** At every crash point (every prefix [p] of the effects on the directory) the checkpoint that
    was completed last is on disk, complete. *)
Theorem C33_last_completed_survives : forall keep steps d0, keep <> 0 -> NoDup steps ->
  forall p q, effects keep steps d0 = p ++ q ->
  forall p1 s p2, p = p1 ++ CloseBp s :: p2 -> (forall s', ~ In (CloseBp s') p2) ->
  complete s (apply_ops p d0).
Proof. exact crash_safe. Qed.
Print Assumptions C33_last_completed_survives.

Example ex_effects : effects 1 [10; 20] {| bps := []; metas := [] |} =
  [OpenBp 10; OpenMeta 10; CloseMeta 10; CloseBp 10; OpenBp 20; OpenMeta 20; CloseMeta 20; CloseBp 20;
   TrashBp 10; RemoveBp 10; RemoveMeta 10].
Proof. reflexivity. Qed.

(** If the crash does not happen while a checkpoint is being written, the restart uses the
    newest one and it is complete. *)
Theorem C33_restart_uses_newest_partial : forall keep steps z d0 p q names,
  keep <> 0 -> increasing (steps ++ [z]) ->
  (forall s, file s (bps d0) <> None -> 0 <= s < z) ->
  effects keep (steps ++ [z]) d0 = p ++ q -> In (CloseBp z) p ->
  listing_of names (apply_ops p d0) ->
  resume_step names (apply_ops p d0) = Ok z /\ complete z (apply_ops p d0).
Proof. exact resume_ok. Qed.
Print Assumptions C33_restart_uses_newest_partial.

Example ex_listing : listing_of [meta_name 10; bp_name 10; meta_name 20; bp_name 20]
  (apply_ops [OpenBp 10; OpenMeta 10; CloseMeta 10; CloseBp 10; OpenBp 20; OpenMeta 20; CloseMeta 20; CloseBp 20; TrashBp 10]
     {| bps := []; metas := [] |}).
Proof.
  split.
  - intros s Hs. destruct (Z.eq_dec s 10) as [->|N1]; [right; left; reflexivity|].
    destruct (Z.eq_dec s 20) as [->|N2]; [do 3 right; left; reflexivity|]. exfalso. apply Hs.
    match goal with |- file s (bps (apply_ops ?l ?d)) = None => destruct (apply_ops_other l d s) as [E _] end.
    + intros o Ho. cbn in Ho. repeat (destruct Ho as [<-|Ho]; [cbn; congruence|]). destruct Ho.
    + rewrite E. reflexivity.
  - intros n [<-|[<-|[<-|[<-|[]]]]] P; try discriminate.
    + exists 10. split; auto. discriminate.
    + exists 20. split; auto. discriminate.
Qed.
Example ex_resume : resume_step [meta_name 10; bp_name 10; meta_name 20; bp_name 20]
  {| bps := [(10, false); (20, true)]; metas := [(20, true); (10, true)] |} = Ok 20.
Proof. vm_compute. reflexivity. Qed.

(** If it does, the restart stops with an error or uses the incomplete checkpoint, although the
    previous one is there, complete. *)
Theorem C33_crash_while_writing_refuted : forall keep steps z d0 p q names,
  keep <> 0 -> increasing (steps ++ [z]) ->
  (forall s, file s (bps d0) <> None -> 0 <= s < z) ->
  save_ops z = p ++ q -> p <> [] -> q <> [] ->
  let d := apply_ops p (after_saves keep steps d0) in
  listing_of names d ->
  ~ complete z d /\ (resume_step names d = Err \/ resume_step names d = Ok z) /\
  (steps <> [] -> complete (last steps 0) d).
Proof. exact resume_bad. Qed.
Print Assumptions C33_crash_while_writing_refuted.

Example ex_bad_resume :
  let d := apply_ops [OpenBp 20; OpenMeta 20; CloseMeta 20] (after_saves 2 [10] {| bps := []; metas := [] |}) in
  resume_step [bp_name 10; meta_name 10; bp_name 20; meta_name 20] d = Ok 20 /\ file 20 (bps d) = Some false /\ complete 10 d.
Proof. vm_compute. auto. Qed.

(** ** C34 *)

(** The step is recovered from the name of the file, for all steps below 2^31 ... *)
Theorem C34_step_is_restored : forall s, 0 <= s < 2 ^ 31 -> step_of_name (bp_name s) = Some (Ok s).
Proof.
  intros s H. assert (H' : 0 <= s < 10 ^ 20) by lia. rewrite (step_of_bp s H').
  destruct (Z.ltb_spec s (2 ^ 31)); [reflexivity|lia].
Qed.
Print Assumptions C34_step_is_restored.

Example ex_name : bp_name 120 = "step-00000120.bp"%string /\ bp_name 123456789 = "step-123456789.bp"%string /\
  step_of_name "step-00000120.bp" = Some (Ok 120).
Proof. vm_compute. auto. Qed.

(** ... but not for larger ones, which a 32-bit step counter can reach: no restart is possible
    from a directory with such a file. *)
Theorem C34_large_step_refuted : forall names best s, 2 ^ 31 <= s < 2 ^ 32 -> In (bp_name s) names ->
  highest best names = Err.
Proof. exact highest_err. Qed.
Print Assumptions C34_large_step_refuted.

(** The time is restored up to half of the last digit printed and the rounding of the reader. *)
Theorem C34_time_error_partial : forall t, (0 <= t)%R ->
  (Rabs (restored_time t - t) <= 5 / 10000000 + (t + 1) * bpow radix2 (-53))%R.
Proof. exact restored_error. Qed.
Print Assumptions C34_time_error_partial.

(** It is not restored exactly, even if it is exactly representable. *)
Theorem C34_exact_time_refuted : exists t, generic_format radix2 (FLT_exp (-1074) 53) t /\ (0 < t)%R /\ restored_time t <> t.
Proof.
  exists (bpow radix2 (-22)). split; [apply generic_format_bpow; unfold FLT_exp; lia|].
  split; [apply bpow_gt_0|]. change (bpow radix2 (-22)) with (/ 4194304)%R. rewrite time_lost. lra.
Qed.
Print Assumptions C34_exact_time_refuted.

(** ** C35 *)

(** The first restart uses the immutable parameters of the original run. *)
Theorem C35_first_restart_partial : forall A B (i0 i1 : input A B),
  in_effect (restarts (fresh_run i0) [i1]) = immutable i0 /\ others (restarts (fresh_run i0) [i1]) = mutable i1.
Proof. split; reflexivity. Qed.
Print Assumptions C35_first_restart_partial.

(** Any number of restarts do, if the input files never change them. *)
Theorem C35_unchanged_inputs_partial : forall A B (i0 : input A B) is,
  Forall (fun i => immutable i = immutable i0) is ->
  in_effect (restarts (fresh_run i0) is) = immutable i0.
Proof. exact @same_immutables. Qed.
Print Assumptions C35_unchanged_inputs_partial.

(** From the second restart on they are those of the input file of the previous run, whatever
    the original run used. *)
Theorem C35_second_restart_refuted : forall A B (i0 : input A B) is a b,
  in_effect (restarts (fresh_run i0) (is ++ [a; b])) = immutable a.
Proof. exact @effective_last. Qed.
Print Assumptions C35_second_restart_refuted.

Example ex_changed : in_effect (restarts (fresh_run (Build_input 256 true)) [Build_input 512 true; Build_input 512 true]) <> 256.
Proof. vm_compute. discriminate. Qed.

(** ** C36 *)
Open Scope R_scope.

(** Step interval: exactly the multiples. *)
Theorem C36_step_interval : forall i it qs, (0 < i)%Z -> it <= 0 ->
  queries (new_tracker i it None) qs =
  Ok (map (fun q => (fst (fst q) mod i =? 0)%Z) qs, new_tracker i it None).
Proof.
  intros i it qs Hi Ht. destruct (step_tracker i it None Ht) as [U I].
  rewrite (step_mode (new_tracker i it None) qs U); [rewrite I; reflexivity|rewrite I; exact Hi|reflexivity].
Qed.
Print Assumptions C36_step_interval.

Example ex_steps : queries (new_tracker 3 (-1) None) [(2%Z, 0.2, 0); (3%Z, 0.3, 0); (4%Z, 0.4, 0); (6%Z, 0.6, 0)] =
  Ok ([false; true; false; true], new_tracker 3 (-1) None).
Proof. rewrite C36_step_interval; [reflexivity|lia|lra]. Qed.

(** Time interval, queries at most [dt] apart: output at the first query; consecutive outputs
    are at least the interval and less than interval plus [dt] apart; and the last output is
    less than one interval before the last query. *)
Theorem C36_time_interval : forall i it dt s0 x0 n0 qs, 0 < it -> 0 <= x0 -> spaced dt x0 qs ->
  exists bs t', queries (new_tracker i it None) ((s0, x0, n0) :: qs) = Ok (true :: bs, t') /\ length bs = length qs /\
    gaps it (it + dt) (x0 :: answers qs bs) /\
    last (map (fun q => snd (fst q)) qs) x0 - last (answers qs bs) x0 < it.
Proof.
  intros i it dt s0 x0 n0 qs Hi H0 Sp. destruct (time_tracker i it Hi) as (U & P & I & L).
  destruct (time_mode_start (new_tracker i it None) dt s0 x0 n0 qs U P ltac:(rewrite I; exact Hi) L H0 Sp) as [bs [t' H]].
  exists bs, t'. rewrite I in H. exact H.
Qed.
Print Assumptions C36_time_interval.

Example ex_spaced : spaced (1 / 2) 0 [(1%Z, 1 / 2, 0); (2%Z, 1, 0); (3%Z, 3 / 2, 0)].
Proof. cbn. repeat split; lra. Qed.

(** Wall-time limit with a step interval: one additional output, at the first query after the
    limit. *)
Theorem C36_wall_time_fires_once : forall i it limit a q b, (0 < i)%Z -> it <= 0 ->
  (forall q', In q' a -> snd q' <= limit) -> limit < snd q ->
  queries (new_tracker i it (Some limit)) (a ++ q :: b) =
  Ok (map (fun q => (fst (fst q) mod i =? 0)%Z) a ++ true :: map (fun q => (fst (fst q) mod i =? 0)%Z) b,
      with_pending (new_tracker i it (Some limit)) false).
Proof.
  intros i it limit a q b Hi Ht Ha Hq. destruct (step_tracker i it (Some limit) Ht) as [U I].
  rewrite (walltime_once (new_tracker i it (Some limit)) a q b U); [rewrite I; reflexivity|rewrite I; exact Hi|reflexivity|exact Ha|exact Hq].
Qed.
Print Assumptions C36_wall_time_fires_once.

Example ex_wall : queries (new_tracker 10 (-1) (Some 60)) ([(2%Z, 0.2, 59)] ++ (3%Z, 0.3, 61) :: [(4%Z, 0.4, 63)]) =
  Ok ([false; true; false], with_pending (new_tracker 10 (-1) (Some 60)) false).
Proof. rewrite C36_wall_time_fires_once; [reflexivity|lia|lra|intros q [<-|[]]; cbn; lra|cbn; lra]. Qed.

(** The wall-time checkpoint is written if the limit passes after the second step ... *)
Theorem C36_wall_time_checkpoint_partial : forall keep t step time now, keep <> 0%Z -> pending t = true ->
  end_walltime t < now -> (1 < step)%Z -> checkpoint_due keep t step time now = Ok (true, with_pending t false).
Proof. exact walltime_checkpoint. Qed.
Print Assumptions C36_wall_time_checkpoint_partial.

(** ... but if it passes before, the trigger is used up and nothing is written, then or later. *)
Theorem C36_wall_time_checkpoint_refuted : forall keep t step time now, keep <> 0%Z -> pending t = true ->
  end_walltime t < now -> (step <= 1)%Z -> checkpoint_due keep t step time now = Ok (false, with_pending t false).
Proof. exact lost_trigger. Qed.
Print Assumptions C36_wall_time_checkpoint_refuted.

(** A step interval of zero, if no time interval is given, is a division by zero. *)
Theorem C36_zero_interval_refuted : forall it s x n, it <= 0 -> should_write (new_tracker 0 it None) s x n = UB.
Proof. intros it s x n H. unfold should_write. cbn. destruct (Rlt_dec 0 it); [lra|reflexivity]. Qed.
Print Assumptions C36_zero_interval_refuted.

(** ** C57 *)

(** Without a wall-time limit the decisions do not depend on the clock, so all ranks take the
    same ones. *)
Theorem C57_ranks_agree_partial : forall i it qs qs', map fst qs = map fst qs' ->
  queries (new_tracker i it None) qs = queries (new_tracker i it None) qs'.
Proof. intros i it qs qs' E. exact (clock_free (new_tracker i it None) qs qs' eq_refl E). Qed.
Print Assumptions C57_ranks_agree_partial.

Example ex_clocks : map fst [(1%Z, 0.5, 10); (2%Z, 1, 20)] = map fst [(1%Z, 0.5, 11); (2%Z, 1, 19)].
Proof. reflexivity. Qed.

(** With a wall-time limit two ranks whose clocks differ, however little, around the limit take
    different decisions at the same step: one starts a collective output, the other does not. *)
Theorem C57_wall_time_ranks_differ_refuted : forall i it limit s x eps, (0 < i)%Z -> it <= 0 -> (s mod i <> 0)%Z -> 0 < eps ->
  exists now now', Rabs (now - now') <= eps /\
  (exists t, should_write (new_tracker i it (Some limit)) s x now = Ok (true, t)) /\
  (exists t, should_write (new_tracker i it (Some limit)) s x now' = Ok (false, t)).
Proof.
  intros i it limit s x eps Hi Ht Hs He. exists (limit + eps), limit.
  split; [replace (limit + eps - limit) with eps by ring; rewrite Rabs_pos_eq; lra|].
  unfold should_write. cbn.
  destruct (Rlt_dec limit (limit + eps)) as [_|?]; [|lra]. destruct (Rlt_dec limit limit) as [?|_]; [lra|].
  destruct (Rlt_dec 0 it) as [?|_]; [lra|]. cbn. split; [eexists; reflexivity|].
  destruct (Z.eqb_spec i 0); [lia|]. destruct (Z.eqb_spec (s mod i) 0); [contradiction|]. eexists; reflexivity.
Qed.
Print Assumptions C57_wall_time_ranks_differ_refuted.
Close Scope R_scope.

(** ** C51 *)

(** Whatever state [s] at step [a] a run with any number of interruptions is resumed from, it
    executes the steps from [a] to the end and arrives where the uninterrupted run arrives. *)
Theorem C51_interruptions_do_not_matter : forall S (advance : Z -> S -> S) max_steps s0 a s,
  reached advance max_steps s0 a s ->
  forall k j, max_steps - a <= Z.of_nat k -> max_steps <= Z.of_nat j ->
  fst (loop k advance max_steps a s) = from_to a max_steps /\
  snd (loop k advance max_steps a s) = snd (loop j advance max_steps 0 s0).
Proof. exact @interrupted_same. Qed.
Print Assumptions C51_interruptions_do_not_matter.

Example ex_reached : reached (fun i (l : list Z) => i :: l) 5 [] 3 [2; 1; 0].
Proof. apply (reached_later _ _ _ 1 2 [1; 0]); [|reflexivity]. apply (reached_later _ _ _ 2 0 []); [constructor|reflexivity]. Qed.
Example ex_loop : loop 9 (fun i (l : list Z) => i :: l) 5 3 [2; 1; 0] = ([3; 4], (5, [4; 3; 2; 1; 0])).
Proof. reflexivity. Qed.
