(** Proofs about moments over species. *)
From Coq Require Import List Reals Arith Lra Lia Permutation.
From Verif Require Import Base MwsModel MwsSpec.
Import ListNotations.
Open Scope R_scope.

Lemma in_cell_perm l l' cell : Permutation l l' -> in_cell l cell = in_cell l' cell.
Proof. unfold in_cell. induction 1; cbn [fold_right] in *; lra. Qed.
Lemma adds idx l : forall b cell comp, fold_left (add idx) l b cell comp = b cell comp + (if Nat.eqb comp idx then in_cell l cell else 0).
Proof.
  induction l as [|d l IH]; intros b cell comp; [cbn; destruct (Nat.eqb comp idx); lra|].
  cbn [fold_left]. rewrite IH. unfold add, in_cell at 2. cbn [fold_right]. fold (in_cell l cell).
  destruct (Nat.eqb comp idx), (Nat.eqb_spec cell (fst d)), (Nat.eq_dec (fst d) cell); cbn [andb]; try lra; congruence.
Qed.
Lemma launches_ok ncomp sched domain idx : (idx < ncomp)%nat -> (forall l, Permutation (sched l) l) -> forall species b, known domain species ->
  exists b', launches ncomp sched domain idx species b = Ok b' /\
    forall cell comp, b' cell comp = b cell comp + (if Nat.eqb comp idx then over_species domain species cell else 0).
Proof.
  intros I P. induction species as [|sp rest IH]; intros b K.
  - exists b. split; auto. intros cell comp. cbn. destruct (Nat.eqb comp idx); lra.
  - inversion K as [|? ? K1 K2]; subst. destruct sp as [|i]; [lia|]. cbn [launches].
    destruct (nth_error domain i) as [l|] eqn:E; [|apply nth_error_None in E; lia]. rewrite (proj2 (Nat.ltb_lt _ _) I).
    destruct (IH (fold_left (add idx) (sched l) b) K2) as (b' & -> & H). exists b'. split; auto.
    intros cell comp. rewrite H, adds. unfold over_species at 2. cbn [fold_right]. fold (over_species domain rest cell).
    assert (N : nth (S i - 1) domain [] = l) by (replace (S i - 1)%nat with i by lia; apply nth_error_nth; auto).
    rewrite N, (in_cell_perm _ _ cell (P l)).
    destruct (Nat.eqb comp idx); lra.
Qed.

Theorem moment_ok ncomp sched domain species idx b : (forall l, Permutation (sched l) l) -> known domain species -> (idx < ncomp)%nat ->
  exists b', compute_moment ncomp sched domain species idx b = Ok b' /\
    (forall cell, b' cell idx = over_species domain species cell) /\
    (forall cell comp, comp <> idx -> b' cell comp = 0).
Proof.
  intros P K I. unfold compute_moment. cbv zeta.
  destruct (launches_ok ncomp sched domain idx I P species (fun _ _ => 0) K) as (s & -> & H). cbn [rbind]. eexists. split; [reflexivity|].
  split; intros; rewrite H.
  - rewrite Nat.eqb_refl. lra.
  - rewrite (proj2 (Nat.eqb_neq _ _)) by auto. lra.
Qed.
Lemma over_perm domain a b cell : Permutation a b -> over_species domain a cell = over_species domain b cell.
Proof. unfold over_species. induction 1; cbn [fold_right] in *; lra. Qed.

Theorem order_free ncomp sched sched' domain species species' idx b x y :
  (forall l, Permutation (sched l) l) -> (forall l, Permutation (sched' l) l) -> known domain species -> Permutation species species' ->
  (idx < ncomp)%nat -> compute_moment ncomp sched domain species idx b = Ok x -> compute_moment ncomp sched' domain species' idx b = Ok y ->
  forall cell comp, x cell comp = y cell comp.
Proof.
  intros P P' K S I X Y cell comp. assert (K' : known domain species') by (unfold known in *; rewrite Forall_forall in *; intros s Hs; apply K; eapply Permutation_in; [apply Permutation_sym; eauto|auto]).
  destruct (moment_ok ncomp sched domain species idx b P K I) as (x' & X' & X1 & X2).
  destruct (moment_ok ncomp sched' domain species' idx b P' K' I) as (y' & Y' & Y1 & Y2).
  rewrite X in X'. injection X' as <-. rewrite Y in Y'. injection Y' as <-.
  destruct (Nat.eq_dec comp idx) as [->|N]; [rewrite X1, Y1; apply over_perm; auto|rewrite X2, Y2; auto].
Qed.
Theorem unknown_species ncomp sched domain sp rest idx b : (sp = 0 \/ length domain < sp)%nat ->
  compute_moment ncomp sched domain (sp :: rest) idx b = UB.
Proof.
  intros H. unfold compute_moment. cbn [launches]. destruct sp as [|i]; auto.
  rewrite (proj2 (nth_error_None domain i)) by lia. auto.
Qed.
Theorem bad_component ncomp sched domain sp rest idx b : (ncomp <= idx)%nat -> (1 <= sp <= length domain)%nat ->
  compute_moment ncomp sched domain (sp :: rest) idx b = Err.
Proof.
  intros I H. unfold compute_moment. cbn [launches]. destruct sp as [|i]; [lia|].
  destruct (nth_error domain i) eqn:E; [|apply nth_error_None in E; lia]. rewrite (proj2 (Nat.ltb_ge _ _) I). auto.
Qed.
