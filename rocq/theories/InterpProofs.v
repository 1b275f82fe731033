(** Interpolation: weights, affine fields, bounds. *)
From Coq Require Import ZArith List Reals Lra Lia Bool.
From Verif Require Import FieldModel ShapeModel ShapeSpec ShapeProofs ShapeTop InterpModel InterpSpec.
Import ListNotations.
Open Scope R_scope.
Ltac Zify.zify_post_hook ::= Z.div_mod_to_equations.

Lemma wsum_plus : forall w f h, wsum w (fun i => f i + h i) = wsum w f + wsum w h.
Proof. induction w as [|[i s] w IH]; intros; cbn; [ring|]. rewrite IH. ring. Qed.
Lemma wsum_scal : forall w c f, wsum w (fun i => c * f i) = c * wsum w f.
Proof. induction w as [|[i s] w IH]; intros; cbn; [ring|]. rewrite IH. ring. Qed.
Lemma wsum_ext : forall w f h, (forall i s, In (i, s) w -> f i = h i) -> wsum w f = wsum w h.
Proof.
  induction w as [|[i s] w IH]; intros f h H; cbn; [reflexivity|].
  rewrite (H i s) by now left. rewrite (IH f h); [reflexivity|]. intros. eapply H. right. eassumption.
Qed.
Lemma wsum_seq : forall n lo m (wt : Z -> R) f,
  wsum (map (fun k => ((m + Z.of_nat k)%Z, wt (Z.of_nat k))) (seq lo n)) f
  = zsum (fun k => wt k * f (m + k)%Z) (Z.of_nat lo) n.
Proof.
  induction n as [|n IH]; intros lo m wt f; cbn; [reflexivity|]. rewrite IH. do 2 f_equal. lia.
Qed.

Lemma half_bit : forall dx, 0 <= dx <= 1 ->
  (dx < 1/2 /\ Int_part (dx + 1/2) = 0%Z) \/ (1/2 <= dx /\ Int_part (dx + 1/2) = 1%Z).
Proof.
  intros dx H. unfold Int_part. destruct (Rlt_le_dec dx (1/2)) as [L|L]; [left|right]; (split; [assumption|]).
  - rewrite <- (tech_up (dx + 1/2) 1); [reflexivity|lra|lra].
  - rewrite <- (tech_up (dx + 1/2) 2); [reflexivity|lra|lra].
Qed.

(** The weights are non-negative, sum to one and their centre is the particle. *)
Lemma weights_facts : forall stag o p w, weights stag o p = Some w -> 0 <= snd p <= 1 ->
  Forall (fun x => 0 <= snd x) w /\ wsum w (fun _ => 1) = 1 /\ wsum w (node stag) = IZR (fst p) + snd p.
Proof.
  intros stag o [i dx] w H Hd. cbn [fst snd] in *. destruct o as [|o].
  - cbn in H. injection H as <-. destruct stag; unfold node.
    + destruct (half_bit dx Hd) as [[L ->]|[L ->]]; cbn [wsum]; rewrite ?plus_IZR, ?minus_IZR;
      (split; [repeat apply Forall_cons; try apply Forall_nil; cbn [snd]; try lra|lra]).
    + cbn [wsum]; rewrite ?plus_IZR. split; [repeat apply Forall_cons; try apply Forall_nil; cbn [snd]; try lra|lra].
  - unfold weights, order_weights in H. cbn [fst snd] in H. set (o' := S o) in *.
    destruct (order stag o' i dx) as [[m wt]|] eqn:E; [|discriminate].
    match type of H with Some ?a = Some ?b => assert (b = a) as -> by congruence end. split; [|split].
    + apply Forall_forall. intros x Hx. apply in_map_iff in Hx. destruct Hx as (k & <- & Hk). apply in_seq in Hk. cbn [snd].
      eapply order_nonneg; [eassumption|assumption|lia].
    + rewrite wsum_seq. transitivity (zsum wt 0 (1 + o')); [|exact (order_sum _ _ _ _ _ _ E Hd)]. rewrite (Nat.add_comm o' 1). apply zsum_ext. intros. cbv beta. ring.
    + rewrite wsum_seq. rewrite <- (order_centre _ _ _ _ _ _ E Hd). rewrite (Nat.add_comm o' 1). apply zsum_ext. intros. cbv beta. ring.
Qed.

Lemma weights_some : forall stag o p, (o <= 11)%nat -> exists w, weights stag o p = Some w.
Proof.
  intros stag o p Ho. destruct o as [|o]; [eexists; reflexivity|]. unfold weights, order_weights.
  pose proof (proj1 (order_defined stag (S o) (fst p) (snd p))) as H.
  destruct (order stag (S o) (fst p) (snd p)) as [[m wt]|]; [eexists; reflexivity|]. elim H; [lia|reflexivity].
Qed.

Lemma interp_cons : forall o c d p ps F w v, weights (dual c d) o p = Some w ->
  (forall i s, In (i, s) w -> interp_from o c (S d) ps (fun r => F (i :: r)) = Some (v i)) ->
  interp_from o c d (p :: ps) F = Some (wsum w v).
Proof.
  intros o c d p ps F w v Hw H. cbn [interp_from]. rewrite Hw. clear Hw.
  induction w as [|[i s] w IH]; [reflexivity|]. cbn [wsum].
  rewrite (H i s) by now left. rewrite IH; [reflexivity|]. intros. eapply H. right. eassumption.
Qed.

Lemma mid_dual c d : (d < 3)%nat -> mid_cell c d = dual c d.
Proof. intros H. destruct d as [|[|[|d]]]; [destruct c; reflexivity..|lia]. Qed.

Lemma interp_affine_from : forall o c ps d a b (F : list Z -> R), (o <= 11)%nat ->
  Forall (fun p => 0 <= snd p <= 1) ps -> (d + length ps <= 3)%nat -> length b = length ps ->
  (forall k, length k = length ps -> F k = affine a b (place_from c d k)) ->
  interp_from o c d ps F = Some (affine a b (map (fun p => IZR (fst p) + snd p) ps)).
Proof.
  intros o c ps. induction ps as [|p ps IH]; intros d a b F Ho HF Hl Hb H.
  - destruct b; [|discriminate]. cbn. rewrite H by reflexivity. reflexivity.
  - destruct b as [|b0 b]; [discriminate|]. cbn [length] in Hl. assert (Hm : mid_cell c d = dual c d) by (apply mid_dual; lia). inversion HF as [|? ? Hp HF']; subst.
    destruct (weights_some (dual c d) o p Ho) as [w Hw].
    destruct (weights_facts _ _ _ _ Hw Hp) as (_ & W1 & W2).
    assert (Hi : forall i s, In (i, s) w -> interp_from o c (S d) ps (fun r => F (i :: r)) =
       Some (affine (a + b0 * node (dual c d) i) b (map (fun p => IZR (fst p) + snd p) ps))).
    { intros i s _. apply (IH (S d) (a + b0 * node (dual c d) i) b); [assumption|assumption|lia|now injection Hb|].
      intros k Hk. rewrite H by (cbn; congruence). cbn [place_from affine]. rewrite Hm.
      generalize (place_from c (S d) k). clear. intros x. revert x.
      induction b as [|b1 b IHb]; intros [|x0 x]; cbn; try ring.
      specialize (IHb x). lra. }
    transitivity (Some (wsum w (fun i => affine (a + b0 * node (dual c d) i) b (map (fun p => IZR (fst p) + snd p) ps)))); [exact (interp_cons _ _ _ _ _ _ _ _ Hw Hi)|]. f_equal.
    assert (A : forall c0 y, affine (a + c0) b y = affine a b y + c0).
    { clear. intros c0. induction b as [|b1 b IHb]; intros [|x0 x]; cbn; try ring. rewrite IHb. ring. }
    set (y := map (fun p => IZR (fst p) + snd p) ps).
    rewrite (wsum_ext w _ (fun i => affine a b y * 1 + b0 * node (dual c d) i)) by (intros; rewrite A; ring).
    rewrite wsum_plus, !wsum_scal, W1, W2. cbn [map affine]. fold y. ring.
Qed.

Theorem interp_affine : forall o c ps a b EB, (o <= 11)%nat ->
  Forall (fun p => 0 <= snd p <= 1) ps -> (length ps <= 3)%nat -> length b = length ps ->
  (forall k, length k = length ps -> EB c k = affine a b (place c k)) ->
  interp o c ps EB = Some (affine a b (map (fun p => IZR (fst p) + snd p) ps)).
Proof. intros. now apply interp_affine_from. Qed.

Lemma affine_zero : forall a x n, affine a (repeat 0 n) x = a.
Proof. intros a x. induction x as [|x0 x IH]; intros [|n]; cbn; try reflexivity. rewrite IH. ring. Qed.

Theorem interp_constant : forall o c ps a EB, (o <= 11)%nat ->
  Forall (fun p => 0 <= snd p <= 1) ps -> (length ps <= 3)%nat ->
  (forall k, length k = length ps -> EB c k = a) ->
  interp o c ps EB = Some a.
Proof.
  intros o c ps a EB Ho HF Hl H. rewrite (interp_affine o c ps a (repeat 0 (length ps)) EB Ho HF Hl).
  - now rewrite affine_zero.
  - apply repeat_length.
  - intros. rewrite affine_zero. now apply H.
Qed.

Lemma wsum_bounds : forall w v lo hi, Forall (fun x => 0 <= snd x) w -> (forall i s, In (i, s) w -> lo <= v i <= hi) ->
  lo * wsum w (fun _ => 1) <= wsum w v <= hi * wsum w (fun _ => 1).
Proof.
  induction w as [|[i s] w IH]; intros v lo hi HF H; cbn; [lra|]. inversion HF as [|? ? Hs HF']; subst. cbn in Hs.
  destruct (H i s) as [A B]; [now left|].
  destruct (IH v lo hi HF') as [C D]; [intros; eapply H; right; eassumption|].
  split; nra.
Qed.

Lemma interp_bounds_from : forall o c ps d (F : list Z -> R) lo hi, (o <= 11)%nat ->
  Forall (fun p => 0 <= snd p <= 1) ps ->
  (forall k, In k (reads_from o c d ps) -> lo <= F k <= hi) ->
  exists v, interp_from o c d ps F = Some v /\ lo <= v <= hi.
Proof.
  intros o c ps. induction ps as [|p ps IH]; intros d F lo hi Ho HF H.
  - exists (F []). split; [reflexivity|]. apply H. now left.
  - inversion HF as [|? ? Hp HF']; subst.
    destruct (weights_some (dual c d) o p Ho) as [w Hw].
    destruct (weights_facts _ _ _ _ Hw Hp) as (W0 & W1 & _).
    assert (K : forall i s, In (i, s) w -> exists v, interp_from o c (S d) ps (fun r => F (i :: r)) = Some v /\ lo <= v <= hi).
    { intros i s Hi. apply IH; [assumption|assumption|]. intros k Hk. apply H. cbn [reads_from]. rewrite Hw.
      apply in_flat_map. exists (i, s). split; [assumption|]. now apply in_map. }
    set (v := fun i => match interp_from o c (S d) ps (fun r => F (i :: r)) with Some v => v | None => 0 end).
    exists (wsum w v). split.
    + apply interp_cons; [assumption|]. intros i s Hi. destruct (K i s Hi) as (x & E & _). unfold v. now rewrite E.
    + destruct (wsum_bounds w v lo hi W0) as [A B].
      * intros i s Hi. destruct (K i s Hi) as (x & E & R). unfold v. now rewrite E.
      * rewrite W1 in A, B. lra.
Qed.

Theorem interp_bounds : forall o c ps EB lo hi, (o <= 11)%nat ->
  Forall (fun p => 0 <= snd p <= 1) ps ->
  (forall k, In k (reads o c ps) -> lo <= EB c k <= hi) ->
  exists v, interp o c ps EB = Some v /\ lo <= v <= hi.
Proof. intros. now apply interp_bounds_from. Qed.

(** ** Which elements are read *)
Definition ghosted (g : Z) (p : pos) : pos := ((fst p + g)%Z, snd p).

Lemma weights_range : forall stag o n p w, inside_or_next o n p ->
  weights stag o (ghosted (n_ghosts o) p) = Some w ->
  Forall (fun x => (0 <= fst x < n + 2 * n_ghosts o)%Z) w.
Proof.
  intros stag o n [i dx] w (Hd & Hi & He) H. unfold ghosted in H. cbn [fst snd] in *. destruct o as [|o].
  - cbn in H. injection H as <-. cbn [n_ghosts]. destruct stag.
    + destruct (half_bit dx Hd) as [[L ->]|[L ->]]; repeat apply Forall_cons; try apply Forall_nil; cbn [fst]; lia.
    + repeat apply Forall_cons; try apply Forall_nil; cbn [fst]; lia.
  - unfold weights, order_weights in H. cbn [fst snd] in H. set (o' := S o) in *.
    destruct (order stag o' (i + n_ghosts o') dx) as [[m wt]|] eqn:E; [|discriminate].
    match type of H with Some ?a = Some ?b => assert (b = a) as -> by congruence end.
    apply Forall_forall. intros x Hx. apply in_map_iff in Hx. destruct Hx as (k & <- & Hk). apply in_seq in Hk. cbn [fst].
    pose proof (order_min _ _ _ _ _ _ E Hd) as Hm. cbv zeta in Hm.
    assert (G : n_ghosts o' = ((Z.of_nat o' + 1) / 2 + 1)%Z) by reflexivity.
    assert (Ev : Z.even (Z.of_nat o') = Nat.even o').
    { clear. destruct (Nat.even o') eqn:E; [apply Nat.even_spec in E|apply Nat.Even_or_Odd in E || idtac].
      - destruct E as [q ->]. rewrite Nat2Z.inj_mul. now rewrite Z.even_mul.
      - destruct (Nat.Even_or_Odd o') as [Q|[q ->]]; [apply Nat.even_spec in Q; congruence|].
        rewrite Nat2Z.inj_add, Nat2Z.inj_mul, Z.even_add, Z.even_mul. reflexivity. }
    pose proof (Zeven_mod (Z.of_nat o')) as Mo. pose proof (Z.even_spec (Z.of_nat o')) as Sp.
    assert (Par : if Nat.even o' then (Z.of_nat o' mod 2 = 0)%Z else (Z.of_nat o' mod 2 = 1)%Z).
    { rewrite <- Ev. rewrite Zmod_even. destruct (Z.even (Z.of_nat o')); reflexivity. }
    clear Mo Sp. rewrite Ev in Hm.
    destruct (Nat.even o') eqn:P; destruct stag; cbn [Bool.eqb] in Hm; try (destruct Rlt_dec as [L|L]); try lia.
    assert (i <> n). { intros ->. specialize (He eq_refl ltac:(lia) eq_refl). lra. }
    lia.
Qed.

Lemma reads_range_from : forall o c ps ns d, Forall2 (inside_or_next o) ns ps ->
  Forall (allocated (n_ghosts o) ns) (reads_from o c d (map (ghosted (n_ghosts o)) ps)).
Proof.
  intros o c ps ns d H. revert d. induction H as [|n p ns ps Hp H IH]; intros d; cbn [map reads_from].
  - repeat constructor.
  - destruct (weights (dual c d) o (ghosted (n_ghosts o) p)) as [w|] eqn:E; [|constructor].
    pose proof (weights_range _ _ _ _ _ Hp E) as Hw.
    apply Forall_flat_map, Forall_forall. intros [i s] Hi. apply Forall_map. 
    rewrite Forall_forall in Hw. specialize (Hw _ Hi). cbn [fst] in Hw.
    eapply Forall_impl; [|apply IH]. intros k Hk. constructor; assumption.
Qed.

Theorem reads_range : forall o c ps ns, Forall2 (inside_or_next o) ns ps ->
  Forall (allocated (n_ghosts o) ns) (reads o c (map (ghosted (n_ghosts o)) ps)).
Proof. intros. now apply reads_range_from. Qed.
