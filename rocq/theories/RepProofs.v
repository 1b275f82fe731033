(** Proofs for the report of a step. *)
From Coq Require Import ZArith List Bool Reals Lra Lia.
From Verif Require Import Base RepModel RepSpec.
Import ListNotations.
Open Scope R_scope.

Lemma int_part x : IZR (Int_part x) <= x < IZR (Int_part x) + 1.
Proof. destruct (base_Int_part x). lra. Qed.
Lemma int_nonneg x : 0 <= x -> (0 <= Int_part x)%Z.
Proof. intros H. destruct (int_part x) as [_ B]. assert (IZR (-1) < IZR (Int_part x)) by lra. apply lt_IZR in H0. lia. Qed.
Lemma to_int_ok b x : 0 <= x < IZR b -> exists n, to_int b x = Ok n /\ (0 <= n)%Z /\ IZR n <= x < IZR n + 1.
Proof.
  intros H. unfold to_int. destruct (Rlt_dec (-1) x); [|lra]. destruct (Rlt_dec x (IZR b)); [|lra].
  exists (Int_part x). pose proof (int_nonneg x (proj1 H)). split; [f_equal; lia|]. split; [assumption|apply int_part].
Qed.
Lemma to_int_inv b x n : to_int b x = Ok n -> 0 <= x -> (0 <= n)%Z /\ IZR n <= x < IZR n + 1.
Proof.
  unfold to_int. destruct (Rlt_dec (-1) x); [|discriminate]. destruct (Rlt_dec x (IZR b)); [|discriminate]. intros H P. injection H as <-.
  pose proof (int_nonneg x P). rewrite Z.max_r by lia. split; [assumption|apply int_part].
Qed.
Lemma int_unique n m x : IZR n <= x < IZR n + 1 -> IZR m <= x < IZR m + 1 -> n = m.
Proof.
  intros A B. assert (H1 : IZR n < IZR (m + 1)) by (rewrite plus_IZR; lra). assert (H2 : IZR m < IZR (n + 1)) by (rewrite plus_IZR; lra).
  apply lt_IZR in H1, H2. lia.
Qed.

(** Durations. *)
Lemma scale_is u : (u < 5)%nat -> scale u = micros_in u.
Proof. intros H. do 5 (destruct u as [|u]; [unfold scale, micros_in, micros; cbn; lra|]). lia. Qed.
Lemma scale_pos u : 1 <= scale u.
Proof. do 5 (destruct u as [|u]; [cbn; lra|]). cbn. lra. Qed.
Theorem normalize_value t u x v : (u < 5)%nat -> normalize t u = Ok (x, v) -> (v < 5)%nat /\ x * micros_in v = t * micros_in u.
Proof.
  intros U. unfold normalize. set (i := Z.to_nat _). cbv zeta. destruct (Nat.ltb_spec i 5) as [L|L]; [|discriminate].
  intros H. assert (E : i = v) by congruence. assert (X : t * (scale u / scale i) = x) by congruence. subst v x. split; [exact L|].
  rewrite <- !scale_is by assumption. pose proof (scale_pos i). field. lra.
Qed.
Theorem normalize_undefined t u : (u < 5)%nat -> normalize t u = UB <-> (5 <= Z.of_nat u + shift t)%Z.
Proof.
  intros U. unfold normalize. cbv zeta. destruct (Nat.ltb_spec (Z.to_nat (Z.min (Z.max 0 (Z.of_nat u + shift t)) 5)) 5); split; intros H'; try reflexivity; try discriminate; lia.
Qed.
Lemma first_unit t : 0 <= t -> exists u, (u < 5)%nat /\ normalize t 0 = Ok (t * (scale 0 / scale u), u)
  /\ (u = 0%nat \/ scale u <= t) /\ ((u < 4)%nat -> t < scale (S u)).
Proof.
  intros T. unfold normalize, shift.
  destruct (Rlt_dec t 1); [exists 0%nat; cbn; repeat split; auto; try lia; intros; lra|].
  destruct (Rlt_dec t 1000); [exists 0%nat; cbn; repeat split; auto; try lia; intros; lra|].
  destruct (Rlt_dec t 1000000); [exists 1%nat; cbn; repeat split; auto; try (right; lra); try lia; intros; lra|].
  destruct (Rlt_dec t 60000000); [exists 2%nat; cbn; repeat split; auto; try (right; lra); try lia; intros; lra|].
  destruct (Rlt_dec t 3600000000); [exists 3%nat; cbn; repeat split; auto; try (right; lra); try lia; intros; lra|].
  exists 4%nat. cbn. repeat split; auto; try (right; lra); try lia; intros; lia.
Qed.
Lemma next_unit x u : 0 <= x < 1 -> (u < 5)%nat -> normalize x u = Ok (x * (scale u / scale (pred u)), pred u).
Proof.
  intros X U. unfold normalize, shift. destruct (Rlt_dec x 1); [|lra]. do 5 (destruct u as [|u]; [cbn; reflexivity|]). lia.
Qed.
Lemma ratio u : (u < 5)%nat -> 0 < scale u / scale (pred u) <= 1000.
Proof. intros U. do 5 (destruct u as [|u]; [cbn; lra|]). lia. Qed.
Theorem duration t : 0 <= t < IZR (2 ^ 31) * micros_in 4 -> exists a u b v, human t 0 = Ok (a, u, b, v) /\ reads t a u b v.
Proof.
  intros T. destruct (first_unit t (proj1 T)) as (u & U & N & Lo & Hi). unfold human. rewrite N. cbn [rbind].
  pose proof (scale_pos u) as SP. set (x := t * (scale 0 / scale u)).
  assert (X : x * scale u = t) by (unfold x; cbn [scale]; field; lra).
  assert (XB : 0 <= x < IZR (2 ^ 31)).
  { assert (E : x = t / scale u) by (rewrite <- X; field; lra). split.
    - rewrite E. apply Rmult_le_pos; [lra|left; apply Rinv_0_lt_compat; lra].
    - apply (Rmult_lt_reg_r (scale u)); [lra|]. rewrite X. do 5 (destruct u as [|u]; [unfold micros_in, micros in T; cbn in *; try (specialize (Hi ltac:(lia))); lra|]). lia. }
  destruct (to_int_ok _ x XB) as (a & -> & A0 & A). cbn [rbind]. rewrite next_unit by (assumption || lra). cbn [rbind].
  pose proof (ratio u U) as RA. set (q := scale u / scale (pred u)) in *.
  assert (QS : q * scale (pred u) = scale u) by (unfold q; pose proof (scale_pos (pred u)); field; lra).
  assert (YB : 0 <= (x - IZR a) * q < IZR (2 ^ 31)).
  { split; [apply Rmult_le_pos; lra|]. apply (Rle_lt_trans _ (1 * 1000)); [apply Rmult_le_compat; lra|cbn; lra]. }
  destruct (to_int_ok _ _ YB) as (b & -> & B0 & B). cbn [rbind].
  exists a, u, b, (pred u). split; [reflexivity|]. unfold reads. rewrite <- (scale_is u U), <- (scale_is (pred u)) by lia.
  assert (TE : t = IZR a * scale u + (x - IZR a) * q * scale (pred u)) by (rewrite Rmult_assoc, QS, <- X; ring).
  pose proof (scale_pos (pred u)) as SP'. split; [exact U|]. split; [reflexivity|]. split; [|split; [exact A0|split; [exact B0|split; [|split]]]].
  - rewrite plus_IZR. split.
    + rewrite TE at 1. apply Rplus_le_compat_l, Rmult_le_compat_r; lra.
    + rewrite TE at 1. apply Rplus_lt_compat_l, Rmult_lt_compat_r; lra.
  - rewrite <- QS. apply Rmult_lt_compat_r; [lra|]. assert ((x - IZR a) * q < 1 * q) by (apply Rmult_lt_compat_r; lra). lra.
  - intros NZ. destruct Lo as [Lo|Lo]; [contradiction|]. assert (X1 : 1 <= x) by (apply (Rmult_le_reg_r (scale u)); lra).
    assert (HL : IZR 0 < IZR a) by lra. apply lt_IZR in HL. apply IZR_le. lia.
  - intros U4. rewrite <- scale_is by lia. apply (Rle_lt_trans _ t); [|exact (Hi U4)]. rewrite <- X. apply Rmult_le_compat_r; lra.
Qed.

(** History. *)
Lemma ticks_inv cap : (1 <= cap)%nat -> forall ds pre, ticks cap (skipn (length pre - cap) pre) ds = Ok (skipn (length (pre ++ ds) - cap) (pre ++ ds)).
Proof.
  intros C. induction ds as [|d ds IH]; intros pre; cbn [ticks]; [now rewrite app_nil_r|].
  assert (E : tick cap (skipn (length pre - cap) pre) d = Ok (skipn (length (pre ++ [d]) - cap) (pre ++ [d]))).
  { unfold tick. rewrite skipn_length, app_length. cbn [length]. destruct (Nat.leb_spec cap (length pre - (length pre - cap))) as [L|L].
    - destruct (skipn (length pre - cap) pre) as [|y r] eqn:K.
      + apply (f_equal (@length R)) in K. rewrite skipn_length in K. cbn in K. lia.
      + f_equal. replace (length pre + 1 - cap)%nat with (S (length pre - cap)) by lia.
        rewrite skipn_app. replace (S (length pre - cap) - length pre)%nat with 0%nat by lia. cbn [skipn].
        f_equal. clear - K. revert K. generalize (length pre - cap)%nat as k. intros k; revert pre. induction k as [|k IH]; intros pre K.
        * cbn in K. subst pre. reflexivity.
        * destruct pre as [|z pre]; [discriminate|]. cbn in K |- *. apply IH in K. rewrite K. destruct pre; reflexivity.
    - replace (length pre - cap)%nat with 0%nat by lia. replace (length pre + 1 - cap)%nat with 0%nat by lia. reflexivity. }
  rewrite E. cbn [rbind]. rewrite IH, <- app_assoc. reflexivity.
Qed.
Theorem history cap ds : (1 <= cap)%nat -> ticks cap [] ds = Ok (skipn (length ds - cap) ds).
Proof. intros C. exact (ticks_inv cap C ds []). Qed.
Theorem history_zero d ds : ticks 0 [] (d :: ds) = UB.
Proof. reflexivity. Qed.
Lemma total_bounds lo hi l : List.Forall (fun x => lo <= x <= hi) l -> lo * INR (length l) <= total l <= hi * INR (length l).
Proof.
  induction 1 as [|x l X _ IH]; [cbn; lra|]. unfold total in *. cbn [fold_right length]. rewrite S_INR. lra.
Qed.
Theorem average_between lo hi l : l <> [] -> List.Forall (fun x => lo <= x <= hi) l -> lo <= average l <= hi.
Proof.
  intros N F. pose proof (total_bounds _ _ _ F) as B. destruct l as [|x l]; [contradiction|]. unfold average.
  assert (P : 0 < INR (length (x :: l))) by (apply lt_0_INR; cbn; lia). set (n := INR _) in *. unfold Rdiv. split.
  - apply (Rmult_le_reg_r n); [exact P|]. rewrite Rmult_assoc, Rinv_l by lra. lra.
  - apply (Rmult_le_reg_r n); [exact P|]. rewrite Rmult_assoc, Rinv_l by lra. lra.
Qed.

(** Progress. *)
Theorem bar_ok step maxs : (0 <= step <= maxs)%Z -> (0 < maxs)%Z -> exists f, bar step maxs = Ok (f, 70 - f)%Z
  /\ (f * maxs <= 70 * step < (f + 1) * maxs)%Z /\ (0 <= f <= 70)%Z /\ (f = 70%Z <-> step = maxs).
Proof.
  intros S M. unfold bar, quotient. assert (MP : 0 < IZR maxs) by now apply IZR_lt. destruct (Req_EM_T (IZR maxs) 0); [lra|].
  assert (S0 : 0 <= IZR step) by (apply IZR_le; lia). assert (S1 : IZR step <= IZR maxs) by (apply IZR_le; lia).
  set (x := IZR step / IZR maxs * 70). assert (X : x * IZR maxs = 70 * IZR step) by (unfold x; field; lra).
  assert (X0 : 0 <= x) by (unfold x; apply Rmult_le_pos; [apply Rmult_le_pos; [lra|left; now apply Rinv_0_lt_compat]|lra]).
  assert (X1 : x <= 70) by (apply (Rmult_le_reg_r (IZR maxs)); lra).
  destruct (to_int_ok (2 ^ 31) x) as (f & -> & F0 & F); [cbn; lra|]. cbn [rbind].
  assert (F1 : (f <= 70)%Z) by (apply le_IZR; lra). rewrite Z.min_l by lia. exists f. split; [reflexivity|].
  assert (I : (f * maxs <= 70 * step < (f + 1) * maxs)%Z).
  { split; [apply le_IZR|apply lt_IZR]; rewrite !mult_IZR, <- X, ?plus_IZR; [apply Rmult_le_compat_r|apply Rmult_lt_compat_r]; lra. }
  split; [exact I|]. split; [lia|]. split; intros E; nia.
Qed.
Theorem remaining_is done maxs avg : (1 <= done <= maxs)%Z -> (maxs < 2 ^ 32)%Z -> remaining done maxs avg = IZR (maxs - done) * avg + avg.
Proof.
  intros D M. unfold remaining. cbv zeta. rewrite (Z.mod_small (done - 1)) by lia. rewrite Z.mod_small by lia.
  replace (maxs - (done - 1))%Z with (maxs - done + 1)%Z by lia. rewrite plus_IZR. ring.
Qed.

(** Percentages. *)
Lemma percent_ok tot t : 0 < tot -> 0 <= t <= tot -> exists p, percent tot t = Ok p /\ (0 <= p <= 100)%Z /\ IZR p * tot <= 100 * t < (IZR p + 1) * tot.
Proof.
  intros P T. unfold percent, quotient. destruct (Req_EM_T tot 0); [lra|]. set (x := t / tot * 100).
  assert (X : x * tot = 100 * t) by (unfold x; field; lra).
  assert (X0 : 0 <= x) by (unfold x; apply Rmult_le_pos; [apply Rmult_le_pos; [lra|left; now apply Rinv_0_lt_compat]|lra]).
  assert (X1 : x <= 100) by (apply (Rmult_le_reg_r tot); lra).
  destruct (to_int_ok 65536 x) as (p & -> & P0 & B); [lra|]. exists p. split; [reflexivity|]. split; [split; [exact P0|apply le_IZR; lra]|].
  rewrite <- X. split; [apply Rmult_le_compat_r|apply Rmult_lt_compat_r]; lra.
Qed.
Lemma total_nonneg l : List.Forall (fun x => 0 <= x) l -> 0 <= total l.
Proof. induction 1; unfold total in *; cbn; lra. Qed.
Lemma total_in l x : List.Forall (fun x => 0 <= x) l -> In x l -> 0 <= x <= total l.
Proof.
  induction 1 as [|y l Y F IH]; [intros []|]. pose proof (total_nonneg l F). unfold total in *. cbn [fold_right]. intros [->|I]; [lra|]. specialize (IH I). lra.
Qed.
Theorem percents l : List.Forall (fun x => 0 <= x) l -> 0 < total l -> exists ps, map (percent (total l)) l = map (@Ok Z) ps
  /\ List.Forall (fun p => (0 <= p <= 100)%Z) ps /\ (100 - Z.of_nat (length l) < fold_right Z.add 0 ps <= 100)%Z.
Proof.
  intros F P. set (tot := total l) in *.
  assert (A : forall r, (forall x, In x r -> 0 <= x <= tot) -> exists ps, map (percent tot) r = map (@Ok Z) ps /\ List.Forall (fun p => (0 <= p <= 100)%Z) ps
    /\ IZR (fold_right Z.add 0%Z ps) * tot <= 100 * total r /\ 100 * total r <= (IZR (fold_right Z.add 0%Z ps) + INR (length r)) * tot
    /\ (r <> [] -> 100 * total r < (IZR (fold_right Z.add 0%Z ps) + INR (length r)) * tot)).
  { induction r as [|x r IH]; intros H.
    - exists []. cbn. repeat split; auto; try lra; intros; contradiction.
    - destruct IH as (ps & E & FP & L & U & _); [intros y I; apply H; now right|]. destruct (percent_ok tot x P (H x (or_introl eq_refl))) as (p & EP & B & C).
      exists (p :: ps). split; [cbn [map]; now rewrite EP, E|]. split; [now constructor|].
      change (fold_right Z.add 0%Z (p :: ps)) with (p + fold_right Z.add 0%Z ps)%Z. change (total (x :: r)) with (x + total r). cbn [length]. rewrite plus_IZR, S_INR.
      repeat split; try intros _; lra. }
  destruct (A l (fun x I => total_in l x F I)) as (ps & E & FP & L & _ & U). exists ps. split; [exact E|]. split; [exact FP|].
  assert (N : l <> []) by (intros ->; unfold tot, total in P; cbn in P; lra). specialize (U N). fold tot in L, U.
  assert (H1 : IZR (fold_right Z.add 0%Z ps) <= 100) by (apply (Rmult_le_reg_r tot); lra).
  assert (H2 : 100 < IZR (fold_right Z.add 0%Z ps) + INR (length l)) by (apply (Rmult_lt_reg_r tot); lra).
  split; [apply lt_IZR; rewrite minus_IZR, <- INR_IZR_INZ; lra|now apply le_IZR].
Qed.
Theorem percent_none t : percent 0 t = UB.
Proof. unfold percent, quotient. destruct (Req_EM_T 0 0); [reflexivity|contradiction]. Qed.
Lemma longest_max l i m : longest l = Some (i, m) -> (i < length l)%nat /\ nth i l 0 = m /\ forall x, In x l -> x <= m.
Proof.
  revert i m. induction l as [|x l IH]; intros i m; [discriminate|]. cbn [longest]. destruct (longest l) as [[j y]|] eqn:E.
  - destruct (IH j y eq_refl) as (J & N & M). destruct (Rlt_dec x y); intros H.
    + assert (i = S j) by congruence. assert (m = y) by congruence. subst i m. cbn [length nth]. split; [lia|]. split; [exact N|]. intros z [->|I]; [lra|auto].
    + assert (i = 0%nat) by congruence. assert (m = x) by congruence. subst i m. cbn [length nth]. split; [lia|]. split; [reflexivity|]. intros z [->|I]; [lra|]. specialize (M z I). lra.
  - intros H. assert (i = 0%nat) by congruence. assert (m = x) by congruence. subst i m. destruct l as [|z l]; [|cbn in E; destruct (longest l) as [[? ?]|]; [destruct (Rlt_dec _ _)|]; discriminate].
    cbn. split; [lia|]. split; [reflexivity|]. intros z [->|[]]. lra.
Qed.
Lemma longest_some l : l <> [] -> exists i m, longest l = Some (i, m).
Proof. destruct l as [|x l]; [contradiction|]. intros _. cbn. destruct (longest l) as [[j y]|]; [destruct (Rlt_dec x y)|]; eauto. Qed.
Theorem ranks timers l : In l timers -> List.Forall (List.Forall (fun x => 0 <= x)) timers -> (exists x, In x l /\ 0 < x) ->
  exists i m p, (i < length l)%nat /\ nth i l 0 = m /\ (forall x, In x l -> x <= m) /\ rank_percent timers l = Ok p /\ (0 <= p <= 100)%Z
    /\ IZR p * rank_total timers i <= 100 * m < (IZR p + 1) * rank_total timers i.
Proof.
  intros I F (x & X & XP). destruct (longest_some l) as (i & m & E); [intros ->; destruct X|]. destruct (longest_max l i m E) as (L & N & M).
  assert (MP : 0 < m) by (specialize (M x X); lra).
  assert (T : 0 <= m <= rank_total timers i).
  { apply total_in; [|rewrite <- N; apply (in_map (fun l => nth i l 0)); exact I]. apply Forall_forall. intros y Y. apply in_map_iff in Y. destruct Y as (r & <- & R).
    rewrite Forall_forall in F. specialize (F r R). rewrite Forall_forall in F. destruct (Nat.lt_ge_cases i (length r)); [apply F; now apply nth_In|rewrite nth_overflow by assumption; lra]. }
  destruct (percent_ok (rank_total timers i) m) as (p & EP & B & C); [lra|lra|]. exists i, m, p. unfold rank_percent. rewrite E. auto 10.
Qed.
Theorem ranks_sum : rank_percent [[7; 0]; [0; 5]] [7; 0] = Ok 100%Z /\ rank_percent [[7; 0]; [0; 5]] [0; 5] = Ok 100%Z.
Proof.
  split; (match goal with |- rank_percent ?T ?l = _ => destruct (ranks T l) as (i & m & p & L & N & M & E & B & C) end;
    [cbn; auto|repeat constructor; lra|first [exists 7; split; [now left|lra]|exists 5; split; [right; now left|lra]]|]).
  - rewrite E. destruct i as [|[|i]]; [| |cbn in L; lia]; cbn in N; subst m; [|specialize (M 7 (or_introl eq_refl)); lra].
    unfold rank_total, total in C. cbn in C. assert (99 < IZR p) by lra. apply lt_IZR in H. f_equal. lia.
  - rewrite E. destruct i as [|[|i]]; [| |cbn in L; lia]; cbn in N; subst m; [specialize (M 5 (or_intror (or_introl eq_refl))); lra|].
    unfold rank_total, total in C. cbn in C. assert (99 < IZR p) by lra. apply lt_IZR in H. f_equal. lia.
Qed.

(** Imbalance. *)
Lemma total_repeat x n : total (repeat x n) = INR n * x.
Proof. induction n as [|n IH]; [cbn; lra|]. unfold total in *. cbn [repeat fold_right]. rewrite IH, S_INR. ring. Qed.
Lemma map_rep {A B} (f : A -> B) x n : map f (repeat x n) = repeat (f x) n.
Proof. induction n; cbn; congruence. Qed.
Lemma logistic s : 0 <= s -> 50 <= 100 / (1 + exp (- s)) < 100.
Proof.
  intros S. pose proof (exp_pos (- s)) as E. assert (E1 : exp (- s) <= 1). { destruct S as [S|<-]; [|rewrite Ropp_0, exp_0; lra]. left. rewrite <- exp_0. apply exp_increasing. lra. }
  split; [apply (Rmult_le_reg_r (1 + exp (- s)))|apply (Rmult_lt_reg_r (1 + exp (- s)))]; try lra; unfold Rdiv; rewrite Rmult_assoc, Rinv_l; lra.
Qed.
Theorem imbalance_range eps l r : imbalance eps l = Ok r -> r = 0%Z \/ (50 <= r < 100)%Z.
Proof.
  unfold imbalance. destruct l as [|x l]; [discriminate|]. cbv zeta. destruct (_ || _)%bool; [intros H; left; congruence|].
  destruct (Rlt_dec _ 0) as [|D]; [discriminate|]. intros H. right. set (d := _ - 1) in *. pose proof (logistic (sqrt d) (sqrt_pos d)) as B.
  apply to_int_inv in H; [|lra]. destruct H as [P H]. assert (H1 : 49 < IZR r) by lra. assert (H2 : IZR r < 100) by lra. apply lt_IZR in H1, H2. lia.
Qed.
Theorem balanced eps x n : 0 <= eps < 1 -> (0 < n)%nat -> 0 < x ->
  (eps < x < 1 -> eps < INR n * (x * x) -> imbalance eps (repeat x n) = UB) /\ (1 <= x -> exists r, imbalance eps (repeat x n) = Ok r /\ (50 <= r < 100)%Z).
Proof.
  intros E N X. assert (NP : 1 <= INR n) by (apply (le_INR 1); lia). unfold imbalance. destruct (repeat x n) as [|y l] eqn:RR; [destruct n; [lia|discriminate]|].
  rewrite <- RR. clear RR y l. cbv zeta. rewrite map_rep, !total_repeat, repeat_length.
  replace (INR n * x / INR n) with x by (field; lra). replace (INR n * (x * x) / INR n / x - 1) with (x - 1) by (field; split; lra).
  assert (XX : 0 < INR n * (x * x)) by (apply Rmult_lt_0_compat; [lra|apply Rmult_lt_0_compat; lra]).
  rewrite (Rabs_right x), (Rabs_right (INR n * (x * x))) by lra. split.
  - intros XE QE. destruct (Rle_dec (INR n * (x * x)) eps); [lra|]. destruct (Rle_dec x eps); [lra|]. cbn [orb]. destruct (Rlt_dec (x - 1) 0); [reflexivity|lra].
  - intros X1. assert (Q : 1 <= INR n * (x * x)) by (rewrite <- (Rmult_1_r 1) at 1; apply Rmult_le_compat; try lra; rewrite <- (Rmult_1_r 1) at 1; apply Rmult_le_compat; lra).
    destruct (Rle_dec (INR n * (x * x)) eps); [lra|]. destruct (Rle_dec x eps); [lra|]. cbn [orb]. destruct (Rlt_dec (x - 1) 0); [lra|].
    pose proof (logistic (sqrt (x - 1)) (sqrt_pos _)) as B. destruct (to_int_ok 65536 (100 / (1 + exp (- sqrt (x - 1))))) as (r & -> & P & H); [lra|].
    exists r. split; [reflexivity|]. assert (H1 : 49 < IZR r) by lra. assert (H2 : IZR r < 100) by lra. apply lt_IZR in H1, H2. lia.
Qed.
Theorem not_zero eps : 0 <= eps < 1 -> ~ balanced_is_zero (reported eps).
Proof.
  intros E H. specialize (H 1 1%nat ltac:(lra) ltac:(lia)). destruct (balanced eps 1 1 E) as [_ B]; [lia|lra|]. destruct (B ltac:(lra)) as (r & RE & RB). unfold reported in H. rewrite RE in H. injection H as ->. lia.
Qed.
Theorem not_unit_free eps : 0 <= eps < 1 / 4 -> ~ unit_free (reported eps).
Proof.
  intros E H. specialize (H 2 [1 / 2] ltac:(lra)). destruct (balanced eps (1 / 2) 1 ltac:(lra)) as [B _]; [lia|lra|]. destruct (balanced eps 1 1 ltac:(lra)) as [_ C]; [lia|lra|].
  destruct (C ltac:(lra)) as (r & RE & RB). unfold reported in H. cbn [map repeat] in *. replace (2 * (1 / 2)) with 1 in H by lra. rewrite RE, (B ltac:(lra)) in H; [discriminate|]. cbn. lra.
Qed.

(** Particles. *)
Theorem fullness_ok n maxn : (0 <= n <= maxn)%Z -> (0 < maxn)%Z -> exists p, fullness n maxn = Ok p /\ (p * maxn <= 100 * n < (p + 1) * maxn)%Z /\ (0 <= p <= 100)%Z /\ (p = 100%Z <-> n = maxn).
Proof.
  intros N M. unfold fullness, quotient. assert (MP : 0 < IZR maxn) by now apply IZR_lt. destruct (Req_EM_T (IZR maxn) 0); [lra|].
  assert (S0 : 0 <= IZR n) by (apply IZR_le; lia). assert (S1 : IZR n <= IZR maxn) by (apply IZR_le; lia).
  set (x := 100 * IZR n / IZR maxn * 1). assert (X : x * IZR maxn = 100 * IZR n) by (unfold x; field; lra).
  assert (X0 : 0 <= x) by (unfold x; apply Rmult_le_pos; [apply Rmult_le_pos; [lra|left; now apply Rinv_0_lt_compat]|lra]).
  assert (X1 : x <= 100) by (apply (Rmult_le_reg_r (IZR maxn)); lra).
  destruct (to_int_ok 65536 x) as (f & -> & F0 & F); [lra|]. exists f. split; [reflexivity|].
  assert (F1 : (f <= 100)%Z) by (apply le_IZR; lra).
  assert (I : (f * maxn <= 100 * n < (f + 1) * maxn)%Z).
  { split; [apply le_IZR|apply lt_IZR]; rewrite !mult_IZR, <- X, ?plus_IZR; [apply Rmult_le_compat_r|apply Rmult_lt_compat_r]; lra. }
  split; [exact I|]. split; [lia|]. split; intros E; nia.
Qed.
Theorem fullness_none n : fullness n 0 = UB.
Proof. unfold fullness, quotient. destruct (Req_EM_T 0 0); [reflexivity|contradiction]. Qed.
