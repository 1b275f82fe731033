(** C91: the report of a step says what happened. *)
From Coq Require Import ZArith List Bool Reals Lra Lia.
From Verif Require Import Base RepModel RepSpec RepProofs.
Import ListNotations.
Open Scope R_scope.

(** Durations up to a quarter of a million years are written in the usual way. *)
Theorem C91_duration : forall t, 0 <= t < IZR (2 ^ 31) * micros_in 4 -> exists a u b v, human t 0 = Ok (a, u, b, v) /\ reads t a u b v.
Proof. exact duration. Qed.
Print Assumptions C91_duration.
(** One and a half minutes: "1min 30s" is the only reading. *)
Example C91_duration_case : 0 <= 90000000 < IZR (2 ^ 31) * micros_in 4 /\ reads 90000000 1 3 30 2.
Proof.
  unfold reads, micros_in, micros. cbn. repeat split; try lia; try lra; intros; lra.
Qed.

(** Whatever the unit of the argument, the value is kept ... *)
Theorem C91_same_value : forall t u x v, (u < 5)%nat -> normalize t u = Ok (x, v) -> (v < 5)%nat /\ x * micros_in v = t * micros_in u.
Proof. exact normalize_value. Qed.
Print Assumptions C91_same_value.
(** ... but long durations given in minutes or hours, or moderately long ones in hours, are looked up past the end of the table. *)
Theorem C91_units_refuted : forall t u, (u < 5)%nat -> normalize t u = UB <-> (5 <= Z.of_nat u + shift t)%Z.
Proof. exact normalize_undefined. Qed.
Print Assumptions C91_units_refuted.
Example C91_units_case : normalize 2000 4 = UB /\ exists x, normalize 2000 2 = Ok (x, 3%nat) /\ x * 60 = 2000.
Proof.
  split; [apply C91_units_refuted; [lia|]|]; unfold normalize, shift; destruct (Rlt_dec 2000 1); try lra; destruct (Rlt_dec 2000 1000); try lra; destruct (Rlt_dec 2000 1000000); try lra.
  - cbn. lia.
  - exists (2000 * (1000000 / 60000000)). split; [reflexivity|lra].
Qed.

(** The average is over the last durations, as many as are kept. *)
Theorem C91_history : forall cap ds, (1 <= cap)%nat -> ticks cap [] ds = Ok (skipn (length ds - cap) ds).
Proof. exact history. Qed.
Print Assumptions C91_history.
Theorem C91_average : forall lo hi l, l <> [] -> List.Forall (fun x => lo <= x <= hi) l -> lo <= average l <= hi.
Proof. exact average_between. Qed.
Print Assumptions C91_average.
Example C91_history_case : ticks 2 [] [5; 6; 8; 10] = Ok [8; 10] /\ average [8; 10] = 9.
Proof. split; [reflexivity|]. unfold average, total. cbn. lra. Qed.
Theorem C91_history_refuted : forall d ds, ticks 0 [] (d :: ds) = UB.
Proof. exact history_zero. Qed.
Print Assumptions C91_history_refuted.

(** The bar: 70 characters, filled in proportion, full only at the end. *)
Theorem C91_bar : forall step maxs, (0 <= step <= maxs)%Z -> (0 < maxs)%Z -> exists f, bar step maxs = Ok (f, 70 - f)%Z
  /\ (f * maxs <= 70 * step < (f + 1) * maxs)%Z /\ (0 <= f <= 70)%Z /\ (f = 70%Z <-> step = maxs).
Proof. exact bar_ok. Qed.
Print Assumptions C91_bar.
Example C91_bar_case : bar 999 1000 = Ok (69, 1)%Z.
Proof. destruct (C91_bar 999 1000) as (f & -> & B & _); [lia|lia|]. assert (f = 69)%Z by lia. subst f. reflexivity. Qed.
(** The remaining time counts one step too many. *)
Theorem C91_remaining_refuted : forall done maxs avg, (1 <= done <= maxs)%Z -> (maxs < 2 ^ 32)%Z -> remaining done maxs avg = IZR (maxs - done) * avg + avg.
Proof. exact remaining_is. Qed.
Print Assumptions C91_remaining_refuted.
(** After the last step. *)
Example C91_remaining_case : remaining 100 100 7 = 7.
Proof. rewrite C91_remaining_refuted by lia. cbn. lra. Qed.

(** One process: the shares of the ordinary timers are percentages that add up to 100 but for rounding. *)
Theorem C91_percentages : forall l, List.Forall (fun x => 0 <= x) l -> 0 < total l -> exists ps, map (percent (total l)) l = map (@Ok Z) ps
  /\ List.Forall (fun p => (0 <= p <= 100)%Z) ps /\ (100 - Z.of_nat (length l) < fold_right Z.add 0 ps <= 100)%Z.
Proof. exact percents. Qed.
Print Assumptions C91_percentages.
Example C91_percentages_case : List.Forall (fun x => 0 <= x) [1; 0; 2] /\ 0 < total [1; 0; 2].
Proof. split; [repeat constructor; lra|unfold total; cbn; lra]. Qed.
(** If nothing has been measured at all, the share is undefined. *)
Theorem C91_nothing_refuted : forall t, percent 0 t = UB.
Proof. exact percent_none. Qed.
Print Assumptions C91_nothing_refuted.

(** Several processes: the share of a timer is that on the rank where it took longest ... *)
Theorem C91_ranks : forall timers l, In l timers -> List.Forall (List.Forall (fun x => 0 <= x)) timers -> (exists x, In x l /\ 0 < x) ->
  exists i m p, (i < length l)%nat /\ nth i l 0 = m /\ (forall x, In x l -> x <= m) /\ rank_percent timers l = Ok p /\ (0 <= p <= 100)%Z
    /\ IZR p * rank_total timers i <= 100 * m < (IZR p + 1) * rank_total timers i.
Proof. exact ranks. Qed.
Print Assumptions C91_ranks.
(** ... so that they need not add up to 100. *)
Theorem C91_ranks_refuted : rank_percent [[7; 0]; [0; 5]] [7; 0] = Ok 100%Z /\ rank_percent [[7; 0]; [0; 5]] [0; 5] = Ok 100%Z.
Proof. exact ranks_sum. Qed.
Print Assumptions C91_ranks_refuted.

(** Imbalance: never between 1 and 49 ... *)
Theorem C91_imbalance : forall eps l r, imbalance eps l = Ok r -> r = 0%Z \/ (50 <= r < 100)%Z.
Proof. exact imbalance_range. Qed.
Print Assumptions C91_imbalance.
(** ... and for equal durations on all ranks it is undefined below a microsecond and at least 50 above. *)
Theorem C91_balanced_refuted : forall eps x n, 0 <= eps < 1 -> (0 < n)%nat -> 0 < x ->
  (eps < x < 1 -> eps < INR n * (x * x) -> imbalance eps (repeat x n) = UB) /\ (1 <= x -> exists r, imbalance eps (repeat x n) = Ok r /\ (50 <= r < 100)%Z).
Proof. exact balanced. Qed.
Print Assumptions C91_balanced_refuted.
Example C91_balanced_case : exists r, imbalance (1 / 1000) [1000; 1000; 1000] = Ok r /\ (50 <= r < 100)%Z.
Proof. destruct (C91_balanced_refuted (1 / 1000) 1000 3) as [_ B]; [lra|lia|lra|]. apply B. lra. Qed.
(** So it is not a measure of imbalance, and depends on the unit of time. *)
Theorem C91_zero_refuted : forall eps, 0 <= eps < 1 -> ~ balanced_is_zero (reported eps).
Proof. exact not_zero. Qed.
Print Assumptions C91_zero_refuted.
Theorem C91_unit_refuted : forall eps, 0 <= eps < 1 / 4 -> ~ unit_free (reported eps).
Proof. exact not_unit_free. Qed.
Print Assumptions C91_unit_refuted.

(** How full the arrays of a species are. *)
Theorem C91_fullness : forall n maxn, (0 <= n <= maxn)%Z -> (0 < maxn)%Z ->
  exists p, fullness n maxn = Ok p /\ (p * maxn <= 100 * n < (p + 1) * maxn)%Z /\ (0 <= p <= 100)%Z /\ (p = 100%Z <-> n = maxn).
Proof. exact fullness_ok. Qed.
Print Assumptions C91_fullness.
Example C91_fullness_case : fullness 2 3 = Ok 66%Z.
Proof. destruct (C91_fullness 2 3) as (p & -> & B & _); [lia|lia|]. f_equal. lia. Qed.
Theorem C91_fullness_refuted : forall n, fullness n 0 = UB.
Proof. exact fullness_none. Qed.
Print Assumptions C91_fullness_refuted.
