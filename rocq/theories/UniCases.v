(** Uniform injection: cases, and the mean of the weights. *)
From Coq Require Import ZArith List Bool Reals Lra Lia.
From Flocq Require Import Core.Raux.
From Coquelicot Require Import Hierarchy RInt.
From Verif Require Import Base MeshModel MeshSpec MeshProofs UniModel UniSpec UniProofs UniTop.
Import ListNotations.
Open Scope R_scope.

Theorem mean_weight sq V0 s pre post ua ub I : fst s < snd s ->
  is_RInt (V := R_NormedModule) (fun x => sq (pre ++ x :: post)) (draw s ua) (draw s ub) I ->
  is_RInt (V := R_NormedModule) (fun u => weight_of false sq (1 / V0) (pre ++ draw s u :: post)) ua ub (I / V0 / (snd s - fst s)).
Proof.
  intros L H. unfold draw in H.
  replace (fst s + ua * (snd s - fst s)) with ((snd s - fst s) * ua + fst s) in H by ring.
  replace (fst s + ub * (snd s - fst s)) with ((snd s - fst s) * ub + fst s) in H by ring.
  apply is_RInt_comp_lin in H.
  apply (is_RInt_scal _ _ _ (/ V0 / (snd s - fst s))) in H.
  replace (I / V0 / (snd s - fst s)) with (scal (V := R_ModuleSpace) (/ V0 / (snd s - fst s)) I) by (unfold scal; cbn; unfold mult; cbn; unfold Rdiv; ring).
  eapply is_RInt_ext; [|exact H]. intros u _. unfold weight_of, scal; cbn; unfold mult; cbn. unfold draw.
  replace ((snd s - fst s) * u + fst s) with (fst s + u * (snd s - fst s)) by ring.
  set (q := sq _). unfold Rdiv. rewrite Rmult_1_l. set (iv := / V0). clearbody q iv. field. lra.
Qed.

(** A line of [n] cells of unit size starting at [a]. *)
Definition shift (a : R) : R -> R := fun x => x - a.
Lemma shift_ok a n : (0 < n)%Z -> mesh_ok [shift a] [(a, a + IZR n)] [n].
Proof.
  intros N. apply IZR_lt in N. cbn. split; [unfold proper; cbn; lra|]. split; auto. unfold grid_map, shift, within_ext. cbn [fst snd].
  split; [intros; lra|]. split; [lra|]. split; [lra|]. intros c C. exists (c + a). lra.
Qed.
Lemma shift_volume a n b V : (0 < n)%Z -> V = len (shift a) (a, a + IZR n) b -> code_volume [shift a] [(a, a + IZR n)] [b] V.
Proof.
  intros N ->. apply IZR_lt in N. cbn [code_volume]. exists (len (shift a) (a, a + IZR n) b), 1. split; [|split; [auto|lra]].
  apply code_length_len; auto. unfold proper. cbn. lra.
Qed.
Lemma all_volume a n : (0 < n)%Z -> code_volume [shift a] [(a, a + IZR n)] [(NInf, PInf)] (IZR n).
Proof.
  intros N. apply shift_volume; auto. apply IZR_lt in N. unfold len, shift. cbn [lo hi fst snd]. destruct (Rlt_dec _ _); lra.
Qed.
Lemma all_continues : continues 1 [] [(NInf, PInf)].
Proof. split; auto. intros [|d] D; [auto|lia]. Qed.
Lemma not_thin eps e : 0 <= eps < 1 -> e = (0, 0 + 2) \/ e = (0, 0 + 1) \/ e = (1, 1 + 1) -> ~ thin eps [e] [(NInf, PInf)].
Proof.
  intros He E (d & e' & b & E1 & E2 & x & y & XY & T & S). destruct d as [|[|d]]; cbn in E1, E2; try discriminate. injection E1 as <-. injection E2 as <-.
  unfold within_ext, within, above_end, below_end in T. cbn [fst snd] in T.
  assert (Q : fst e <= snd e) by (destruct E as [->|[->| ->]]; cbn; lra).
  pose proof (proj1 (T x) ltac:(lra)). pose proof (proj1 (T y) ltac:(lra)).
  pose proof (proj2 (T (fst e)) ltac:(split; [lra|auto])). pose proof (proj2 (T (snd e)) ltac:(split; [lra|auto])).
  assert (x = fst e) by lra. assert (y = snd e) by lra. subst x y.
  destruct E as [->|[->| ->]]; cbn [fst snd] in *.
  - rewrite Rmin_left in S by (rewrite Rabs_R0; apply Rabs_pos). rewrite Rabs_R0 in S. lra.
  - rewrite Rmin_left in S by (rewrite Rabs_R0; apply Rabs_pos). rewrite Rabs_R0 in S. lra.
  - rewrite (Rabs_pos_eq 1), (Rabs_pos_eq (1 + 1)), Rmin_left in S by lra. lra.
Qed.

Lemma half_run eps a n us : 0 <= eps < 1 -> (a = 0 /\ n = 2%Z) \/ (a = 0 /\ n = 1%Z) \/ (a = 1 /\ n = 1%Z) ->
  exists l, inject_uniform eps [shift a] true (fun _ => 1) false 1 1 [(a, a + IZR n)] 1 false [] us = Ok l /\
    Z.of_nat (length l) = Zfloor (1 * 1 / 2 * IZR n).
Proof.
  intros He C. assert (N : (0 < n)%Z) by lia. assert (NR : IZR n <= 2) by (apply (IZR_le n 2); lia). assert (N0 : 0 < IZR n) by (apply (IZR_lt 0 n); auto).
  destruct (count_ok eps [shift a] true (fun _ => 1) 1 1 [(a, a + IZR n)] [n] 1 [] [(NInf, PInf)] us (IZR n)) as (l & E & H).
  - lra.
  - apply shift_ok; auto.
  - exact all_continues.
  - apply all_volume; auto.
  - lra.
  - apply Rlt_trans with 2; [lra|]. apply IZR_lt. reflexivity.
  - exists l. split; [exact E|]. destruct H as [H|[_ H]]; auto. exfalso. revert H. apply not_thin; auto.
    destruct C as [[-> ->]|[[-> ->]|[-> ->]]]; auto.
Qed.

(** One line of two cells gets a pair; cut in the middle, it gets none. *)
Theorem cut_loses eps us : 0 <= eps < 1 ->
  (exists q, inject_uniform eps [shift 0] true (fun _ => 1) false 1 1 [(0, 0 + 2)] 1 false [] us = Ok [q]) /\
  inject_uniform eps [shift 0] true (fun _ => 1) false 1 1 [(0, 0 + 1)] 1 false [] us = Ok [] /\
  inject_uniform eps [shift 1] true (fun _ => 1) false 1 1 [(1, 1 + 1)] 1 false [] us = Ok [].
Proof.
  intros He. split; [|split].
  - destruct (half_run eps 0 2 us He ltac:(auto)) as (l & E & H). rewrite (Zfloor_imp 1) in H by (simpl; lra).
    destruct l as [|q [|q' l]]; cbn [length] in H; try lia. exists q. exact E.
  - destruct (half_run eps 0 1 us He ltac:(auto)) as (l & E & H). rewrite (Zfloor_imp 0) in H by (simpl; lra).
    destruct l as [|q l]; cbn [length] in H; try lia. exact E.
  - destruct (half_run eps 1 1 us He ltac:(auto)) as (l & E & H). rewrite (Zfloor_imp 0) in H by (simpl; lra).
    destruct l as [|q l]; cbn [length] in H; try lia. exact E.
Qed.
