(** Proofs about the tuning of the output. *)
From Coq Require Import ZArith List Bool Ascii String Lia.
From Verif Require Import Base BcModel AggModel AggSpec.
Import ListNotations.
Open Scope Z_scope.

Lemma on_node_value nodes k per local : nth_error nodes k = Some local -> 0 < local -> 0 < per ->
  sumZ nodes / local * per < 2 ^ 31 -> on_node nodes k per = Ok (Z.max 1 (sumZ nodes / local * per)).
Proof.
  intros E L P B. unfold on_node, total_aggregators. rewrite E. rewrite (proj2 (Z.leb_gt _ _)) by lia.
  rewrite (proj2 (Z.ltb_lt 0 local)) by lia. cbv zeta. rewrite (proj2 (Z.ltb_lt _ (2 ^ 31))) by lia. auto.
Qed.
Lemma sum_equal s nodes : Forall (fun n => n = s) nodes -> sumZ nodes = nodes_of nodes * s.
Proof. unfold nodes_of. induction 1 as [|n l -> F IH]; [cbn; lia|]. cbn [sumZ fold_right List.length]. fold (sumZ l). lia. Qed.
Lemma sum_le m nodes : Forall (fun n => n <= m) nodes -> sumZ nodes <= nodes_of nodes * m.
Proof. unfold nodes_of. induction 1 as [|n l L F IH]; [cbn; lia|]. cbn [sumZ fold_right List.length]. fold (sumZ l). lia. Qed.
Lemma sum_ge m nodes : Forall (fun n => m <= n) nodes -> nodes_of nodes * m <= sumZ nodes.
Proof. unfold nodes_of. induction 1 as [|n l L F IH]; [cbn; lia|]. cbn [sumZ fold_right List.length]. fold (sumZ l). lia. Qed.

Theorem equal_nodes s nodes k per : job nodes -> Forall (fun n => n = s) nodes -> (k < List.length nodes)%nat -> 0 < per ->
  nodes_of nodes * per < 2 ^ 31 -> on_node nodes k per = Ok (nodes_of nodes * per).
Proof.
  intros [N J] F K P B. destruct (nth_error nodes k) as [l|] eqn:E; [|apply nth_error_None in E; lia].
  rewrite Forall_forall in F, J. pose proof (nth_error_In _ _ E) as I. pose proof (J l I). pose proof (F l I). subst l.
  assert (V : sumZ nodes / s = nodes_of nodes) by (rewrite (sum_equal s) by (apply Forall_forall; auto); apply Z.div_mul; lia).
  assert (0 < nodes_of nodes) by (unfold nodes_of; destruct nodes; cbn [List.length]; [congruence|lia]).
  rewrite (on_node_value nodes k per s) by (auto; rewrite V; auto). rewrite V. rewrite Z.max_r; auto. nia.
Qed.
Theorem no_tuning nodes k per : (k < List.length nodes)%nat -> per <= 0 -> on_node nodes k per = Ok 0.
Proof.
  intros K P. unfold on_node, total_aggregators. destruct (nth_error nodes k) eqn:E; [|apply nth_error_None in E; lia].
  rewrite (proj2 (Z.leb_le _ _)) by lia. auto.
Qed.
Theorem one_process per : 0 < per < 2 ^ 31 -> forall w l, total_aggregators false w l per = Ok per.
Proof.
  intros P w l. unfold total_aggregators. rewrite (proj2 (Z.leb_gt _ _)) by lia. cbv zeta. rewrite Z.mul_1_l, (proj2 (Z.ltb_lt _ _)) by lia. f_equal. lia.
Qed.
(** Ranks on the largest nodes get too few, on the smallest too many. *)
Theorem largest nodes k per local n : job nodes -> nth_error nodes k = Some local -> Forall (fun m => m <= local) nodes -> 0 < per ->
  on_node nodes k per = Ok n -> n <= nodes_of nodes * per.
Proof.
  intros [N J] E F P. rewrite Forall_forall in J. pose proof (J local (nth_error_In _ _ E)) as L0.
  pose proof (sum_le local nodes F) as S. assert (1 <= nodes_of nodes) by (unfold nodes_of; destruct nodes; cbn [List.length]; [congruence|lia]).
  assert (D : sumZ nodes / local <= nodes_of nodes) by (apply Z.div_le_upper_bound; lia).
  unfold on_node, total_aggregators. rewrite E. rewrite (proj2 (Z.leb_gt _ _)) by lia. rewrite (proj2 (Z.ltb_lt 0 local)) by lia. cbv zeta.
  destruct (_ <? 2 ^ 31); [|discriminate]. intros H0. injection H0 as <-. nia.
Qed.
Theorem smallest nodes k per local n : job nodes -> nth_error nodes k = Some local -> Forall (fun m => local <= m) nodes -> 0 < per ->
  on_node nodes k per = Ok n -> nodes_of nodes * per <= n.
Proof.
  intros [N J] E F P. rewrite Forall_forall in J. pose proof (J local (nth_error_In _ _ E)) as L0.
  pose proof (sum_ge local nodes F) as S.
  assert (D : nodes_of nodes <= sumZ nodes / local) by (apply Z.div_le_lower_bound; lia).
  unfold on_node, total_aggregators. rewrite E. rewrite (proj2 (Z.leb_gt _ _)) by lia. rewrite (proj2 (Z.ltb_lt 0 local)) by lia. cbv zeta.
  destruct (_ <? 2 ^ 31); [|discriminate]. intros H0. injection H0 as <-. nia.
Qed.

(** Names of engines. *)
Lemma lower_same c d : lower_char d = d -> (lower_char c = d <-> same_letter c d).
Proof.
  intros D. split.
  - unfold lower_char. cbv zeta. destruct (_ && _) eqn:B; intros H; [|left; auto].
    apply andb_true_iff in B. destruct B as [B1 B2]. apply Nat.leb_le in B1. apply Nat.leb_le in B2.
    right. exists (nat_of_ascii c). split; [lia|]. left. split; [symmetry; apply ascii_nat_embedding|auto].
  - intros [->|(n & N & [[-> ->]|[-> ->]])]; auto.
    + unfold lower_char. cbv zeta. rewrite nat_ascii_embedding by lia.
      rewrite (proj2 (Nat.leb_le 65 n)), (proj2 (Nat.leb_le n 90)) by lia. auto.
    + exfalso. unfold lower_char in D. cbv zeta in D. rewrite nat_ascii_embedding in D by lia.
      rewrite (proj2 (Nat.leb_le 65 n)), (proj2 (Nat.leb_le n 90)) in D by lia. cbn [andb] in D.
      apply (f_equal nat_of_ascii) in D. rewrite !nat_ascii_embedding in D by lia. lia.
Qed.
Lemma lower_word s : forall t, to_lower t = t -> (to_lower s = t <-> same_word s t).
Proof.
  induction s as [|c s IH]; intros [|d t] T; cbn [to_lower same_word] in *; try (split; [discriminate|contradiction]); [tauto|].
  injection T as T1 T2. rewrite <- (lower_same c d T1), <- (IH t T2). split; [intros H; injection H; auto|intros [-> ->]; auto].
Qed.

Theorem tuned engine total shm chunk : same_word engine "bpfile" \/ same_word engine "bp5" ->
  let l := apply_tuning engine total shm chunk in
  value l "NumAggregators" = Some (Num total) /\ value l "NumSubFiles" = Some (Num total) /\
  value l "MaxShmSize" = Some (Num shm) /\ value l "BufferChunkSize" = Some (Num chunk) /\
  value l "AggregationType" = Some (Txt "TwoLevelShm") /\ value l "AsyncWrite" = Some (Txt "true").
Proof.
  intros H. cbv zeta. unfold apply_tuning. cbv zeta.
  assert (E : negb (String.eqb (to_lower engine) "bpfile") && negb (String.eqb (to_lower engine) "bp5") = false).
  { destruct H as [H|H]; apply lower_word in H; auto; rewrite H; reflexivity. }
  rewrite E. repeat split.
Qed.
Theorem untuned engine total shm chunk : ~ same_word engine "bpfile" -> ~ same_word engine "bp5" ->
  apply_tuning engine total shm chunk = [].
Proof.
  intros A B. rewrite <- lower_word in A, B by reflexivity. unfold apply_tuning. cbv zeta.
  destruct (String.eqb_spec (to_lower engine) "bpfile"); [contradiction|]. destruct (String.eqb_spec (to_lower engine) "bp5"); [contradiction|]. auto.
Qed.
