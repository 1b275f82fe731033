(** InjectGlobally does not look at the weights of the list. *)
From Coq Require Import Reals Lra ZArith List Bool Arith Lia Permutation.
From Verif Require Import Base ListLemmas DecompModel HaloSpec PrtlModel PrtlSpec CkptModel InjectModel InjectSpec InjectProofs InjectGlob InjectCases.
Import ListNotations.
Open Scope nat_scope.

Theorem weights_ignored cd rot enc c mpi track uw dom ext off data data' order s :
  Forall2 (fun e e' => l_x e = l_x e' /\ l_u e = l_u e' /\ l_phi e = l_phi e') data data' ->
  inject_global cd rot enc c mpi track uw dom ext off data order s = inject_global cd rot enc c mpi track uw dom ext off data' order s.
Proof.
  intros F. unfold inject_global.
  assert (T : forall n0 k0 acc p, global_thread cd rot enc c mpi track uw dom ext off data n0 k0 acc p =
                                  global_thread cd rot enc c mpi track uw dom ext off data' n0 k0 acc p).
  { intros n0 k0 acc p. unfold global_thread. destruct acc as [[k q]| |]; auto. cbn [rbind].
    assert (N : match nth_error data p, nth_error data' p with
                | Some e, Some e' => l_x e = l_x e' /\ l_u e = l_u e' /\ l_phi e = l_phi e' | None, None => True | _, _ => False end).
    { clear -F. revert p. induction F; intros [|p]; cbn [nth_error]; try apply IHF; auto. }
    destruct (nth_error data p) as [e|], (nth_error data' p) as [e'|]; try contradiction; auto.
    destruct N as (-> & -> & ->). auto. }
  assert (X : forall l acc, fold_left (global_thread cd rot enc c mpi track uw dom ext off data (np (cont s)) (counter s)) l acc =
                            fold_left (global_thread cd rot enc c mpi track uw dom ext off data' (np (cont s)) (counter s)) l acc).
  { induction l as [|a l IH]; intros acc; cbn [fold_left]; auto. rewrite T. apply IH. }
  rewrite X. auto.
Qed.

Definition same_x (d : nat) (x : R) : R := x.
Definition keep_u (x : list R) (p : R) (u : list R) : list R := u.
Definition entry (x w : R) : listed := {| l_x := [x]; l_u := [0%R; 1%R; 2%R]; l_phi := 0; l_w := w |}.
Lemma same_converts N : (0 <= N)%Z -> converts (fun x => x) (fun x => x) N.
Proof.
  intros H. split; [auto|]. intros k Hk. split; auto. split; [apply IZR_le; lia|apply IZR_le; lia].
Qed.
Lemma entry_inside x w : (0 <= x < 8)%R -> inside_grid same_x [8%Z] (entry x w).
Proof. intros H. split; auto. split; auto. intros [|d] L; simpl in *; auto; lia. Qed.

Theorem weights_wrong enc w : enc w <> 0%Z ->
  exists s', inject_global same_x keep_u enc c1 true true true 0 (phys_extent same_x [0%Z] [8%Z]) [0%Z] [entry (5 / 2) w] [0] (blank 4) = Ok s' /\
    np (cont s') = 1 /\ ar (cont s') (PrtlModel.I 1) 0 = 2%Z /\ ar (cont s') Weight 0 <> enc w.
Proof.
  intros W. unfold inject_global. cbn [fold_left]. unfold global_thread. cbn [rbind nth_error entry l_x].
  assert (B : within_all (phys_extent same_x [0%Z] [8%Z]) [(5 / 2)%R] = true).
  { cbn. unfold within, same_x. cbn. destruct (Rle_dec 0 (5 / 2)); [|lra]. destruct (Rlt_dec (5 / 2) 8); [auto|lra]. }
  rewrite B. cbn [locate_all]. unfold same_x at 1.
  rewrite (locate_ok 0 8 (5 / 2)) by (try lia; cbn; lra). cbn [rbind].
  assert (IP : Int_part (5 / 2) = 2%Z).
  { pose proof (Int_part_bounds (5 / 2) 2 1). cbn in H. assert (2 <= Int_part (5 / 2) < 3)%Z by (apply H; lra). lia. }
  rewrite IP. eexists. split; [reflexivity|]. cbn. repeat split; auto.
Qed.
