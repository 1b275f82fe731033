(** Proofs about the fields enforced inside an atmosphere. *)
From Coq Require Import ZArith List Bool Reals Lra Lia Permutation.
From Verif Require Import Base DecompModel DecompSpec ListLemmas FieldModel FieldProofs HaloSpec HaloProofs SyncProofs ShapeSpec InterpSpec StepSpec MeshModel MeshProofs
  MatchModel MatchSpec MatchProofs MatchTop AtmosModel EnfModel EnfSpec.
Import ListNotations.
Open Scope R_scope.
Ltac Zify.zify_post_hook ::= Z.div_mod_to_equations.

(** ** Body *)
Section Body.
  Variables (g : Z) (o : nat) (up : bool) (ph : list R -> list R) (tu : nat -> list R -> R -> R).
  Variables (setter : comp -> option (list R -> R)) (i_edge tags : Z).
  Notation e1 := (enf1 g o up ph tu setter i_edge tags).
  Notation body := (enf_body g o up ph tu setter i_edge tags).

  Definition evalue (old : R) (x : list Z) (c : comp) : R :=
    match setter c with
    | None => old
    | Some f => if tagged tags c && (negb (guarded o c) || past_edge o up i_edge x) then tu (number c) (where_ g c x) (f (ph (where_ g c x))) else old
    end.
  Lemma e1_at m x c : e1 m x c c x = evalue (m c x) x c.
  Proof. unfold enf1, evalue. destruct (setter c); [|reflexivity]. destruct (_ && _); [|reflexivity]. cbv zeta. apply set_eq. Qed.
  Lemma e1_other m x c c' y : c' <> c \/ y <> x -> e1 m x c c' y = m c' y.
  Proof.
    intro H. unfold enf1. destruct (setter c); [|reflexivity]. destruct (_ && _); [|reflexivity]. cbv zeta.
    destruct H; [rewrite set_neq_c by assumption|rewrite set_neq_x by assumption]; reflexivity.
  Qed.
  Lemma efold_notin l : forall m x c y, ~ In c l \/ y <> x -> fold_left (fun m c => e1 m x c) l m c y = m c y.
  Proof.
    induction l as [|a l IH]; intros m x c y H; [reflexivity|]. cbn [fold_left]. rewrite IH by (cbn in H; tauto).
    apply e1_other. cbn in H. destruct H as [H|H]; [left; intro E; apply H; left; congruence|tauto].
  Qed.
  Lemma efold_in l : forall m x c, NoDup l -> In c l -> fold_left (fun m c => e1 m x c) l m c x = evalue (m c x) x c.
  Proof.
    induction l as [|a l IH]; intros m x c N H; [destruct H|]. inversion N as [|? ? Na N']; subst. cbn [fold_left].
    destruct H as [<-|H].
    - rewrite efold_notin by (left; exact Na). apply e1_at.
    - rewrite IH by assumption. rewrite e1_other; [reflexivity|]. left. intros ->. contradiction.
  Qed.
  Lemma ebody_at m x c : body m x c x = evalue (m c x) x c.
  Proof.
    unfold enf_body. apply efold_in.
    - repeat (constructor; [cbn; intuition discriminate|]); constructor.
    - destruct c; cbn; tauto.
  Qed.
  Lemma ebody_other m x c y : y <> x -> body m x c y = m c y.
  Proof. intro H. unfold enf_body. apply efold_notin. right. exact H. Qed.

  Lemma enf_loop cells order m c x : NoDup cells -> Permutation order cells ->
    par_for body order m c x = if in_dec cell_dec x cells then evalue (m c x) x c else m c x.
  Proof.
    intros N P. assert (N' : NoDup order) by (eapply Permutation_NoDup; [symmetry; exact P|exact N]).
    rewrite (par_for_spec (fun _ => true) body).
    - destruct (in_dec cell_dec x order) as [A|A], (in_dec cell_dec x cells) as [B|B].
      + apply ebody_at.
      + exfalso. apply B. eapply Permutation_in; [exact P|exact A].
      + exfalso. apply A. eapply Permutation_in; [symmetry; exact P|exact B].
      + reflexivity.
    - intros m' x' c' y [H|H]; [discriminate H|]. apply ebody_other. exact H.
    - intros m' m'' c' x' _ _ H. rewrite !ebody_at, H by exact I. reflexivity.
    - exact N'.
  Qed.
End Body.

(** ** The guard and the position *)
Lemma guarded_mid o c : (o < 3)%nat -> guarded o c = mid_cell c o.
Proof. intro H. destruct o as [|[|[|o]]]; [| | |lia]; destruct c; reflexivity. Qed.

Lemma place_o c y o : (o < length y)%nat -> nth o (place c y) 0 = IZR (nth o y 0%Z) + (if mid_cell c o then 1 / 2 else 0).
Proof.
  intro H. unfold place. assert (G : forall d k y, (k < length y)%nat -> nth k (place_from c d y) 0 = node (mid_cell c (d + k)) (nth k y 0%Z)).
  { intros d k. revert d. induction k as [|k IH]; intros d [|a z] L; cbn in L; try lia; cbn [place_from nth]; [rewrite Nat.add_0_r; reflexivity|].
    rewrite IH by lia. f_equal. f_equal. lia. }
  rewrite G by exact H. cbn [Nat.add]. unfold node. destruct (mid_cell c o); lra.
Qed.

(** Of the cells on the outer side of the layer, those the kernel updates. *)
Lemma half_le a b : (IZR a <= IZR b + 1 / 2 <-> (a <= b)%Z) /\ (IZR b + 1 / 2 <= IZR a <-> (b < a)%Z).
Proof.
  split; split; intro H.
  - destruct (Z_le_gt_dec a b); [assumption|]. assert (b + 1 <= a)%Z by lia. apply IZR_le in H0. rewrite plus_IZR in H0. lra.
  - apply IZR_le in H. lra.
  - apply lt_IZR. lra.
  - assert (b + 1 <= a)%Z by lia. apply IZR_le in H0. rewrite plus_IZR in H0. lra.
Qed.
Lemma outside_cells up o L c y : (o < length y)%nat -> (o < 3)%nat ->
  outside up o (if up then L else L - 1)%Z c y <->
  in_layer up o L y = true /\ (guarded o c = false \/ (if up then (L <= nth o y 0)%Z else (nth o y 0 < L - 1)%Z)).
Proof.
  intros Hy Ho. unfold outside, in_layer. rewrite guarded_mid by exact Ho. rewrite (place_o c y o Hy).
  destruct up; destruct (mid_cell c o); rewrite ?Rplus_0_r, ?Z.leb_le, ?Z.ltb_lt.
  - rewrite (proj1 (half_le _ _)). tauto.
  - split; [intro H; apply le_IZR in H; tauto|]. intros [H _]. apply IZR_le. exact H.
  - rewrite (proj2 (half_le _ _)). split; [intro H; split; [lia|right; lia]|]. intros [_ [H|H]]; [discriminate|lia].
  - split; [intro H; apply le_IZR in H; split; [lia|tauto]|]. intros [H _]. apply IZR_le. lia.
Qed.

(** ** Values *)
Lemma values g o (up : bool) ph tu setter K tags cells order m c y (on : comp -> bool) :
  (1 <= length y <= 3)%nat -> (o < length y)%nat -> NoDup cells -> Permutation order (map (loc g) cells) -> (forall c', on c' = true <-> asked tags c') ->
  (forall z, In z cells -> if up then (K <= nth o z 0)%Z else (nth o z 0 <= K)%Z) ->
  par_for (enf_body g o up ph tu setter (K + g) tags) order m c (loc g y) =
  match setter c with
  | Some f =>
      if on c && (if in_dec cell_dec y cells then true else false) then
        if outside_dec up o K c y then tu (S (axis_of c)) (place c y) (f (ph (place c y))) else m c (loc g y)
      else m c (loc g y)
  | None => m c (loc g y)
  end.
Proof.
  intros Ly Hoy ND P Hon HK.
  rewrite (enf_loop _ _ _ _ _ _ _ _ (map (loc g) cells)); [|apply FinFun.Injective_map_NoDup; [intros a b; apply MomentTop.loc_inj|exact ND]|exact P].
  assert (IN : In (loc g y) (map (loc g) cells) <-> In y cells).
  { rewrite in_map_iff. split; [intros [z [E I]]; apply MomentTop.loc_inj in E; congruence|intro I; exists y; auto]. }
  unfold evalue. destruct (setter c) as [f|]; [|destruct (in_dec _ _ _); reflexivity].
  destruct (in_dec cell_dec (loc g y) _) as [A|A]; destruct (in_dec cell_dec y cells) as [B|B]; try tauto; [|rewrite andb_false_r; reflexivity].
  rewrite andb_true_r. specialize (HK y B).
  assert (Nl : nth o (loc g y) 0%Z = (nth o y 0 + g)%Z).
  { unfold loc. rewrite (nth_indep _ 0%Z (0 + g)%Z) by (rewrite map_length; lia). apply (map_nth (fun a => a + g)%Z). }
  assert (Nc : number c = S (axis_of c)) by (destruct c; reflexivity).
  assert (T : tagged tags c = on c) by (apply eq_true_iff_eq; rewrite Hon; apply tagged_asked).
  rewrite T, where_place, Nc by exact Ly. destruct (on c); [|reflexivity]. cbn [andb].
  pose proof (outside_cells up o (if up then K else K + 1)%Z c y Hoy ltac:(lia)) as OC. unfold past_edge. rewrite Nl.
  destruct (outside_dec up o K c y) as [O|O].
  - assert (Q : negb (guarded o c) || (if up then (K + g <=? nth o y 0 + g)%Z else (nth o y 0 + g <? K + g)%Z) = true).
    { destruct up; [|rewrite Z.add_simpl_r in OC]; apply OC in O; destruct O as [_ [O|O]]; rewrite ?O; try reflexivity;
      apply orb_true_iff; right; [apply Z.leb_le|apply Z.ltb_lt]; lia. }
    rewrite Q. reflexivity.
  - destruct (negb (guarded o c)) eqn:Eg.
    + exfalso. apply O. apply negb_true_iff in Eg. destruct up; [|rewrite Z.add_simpl_r in OC]; apply OC; (split; [|left; exact Eg]); unfold in_layer; [apply Z.leb_le|apply Z.ltb_lt]; lia.
    + cbn [orb]. assert (Q : (if up then (K + g <=? nth o y 0 + g)%Z else (nth o y 0 + g <? K + g)%Z) = false); [|rewrite Q; reflexivity].
      destruct up.
      * apply Z.leb_gt. destruct (Z_lt_le_dec (nth o y 0%Z + g) (K + g)); [assumption|]. exfalso. apply O, OC. unfold in_layer. rewrite Z.leb_le. split; [lia|right; lia].
      * apply Z.ltb_ge. destruct (Z_lt_le_dec (nth o y 0%Z + g) (K + g)); [|assumption]. exfalso. rewrite Z.add_simpl_r in OC. apply O, OC. unfold in_layer. rewrite Z.ltb_lt. split; [lia|right; lia].
Qed.
