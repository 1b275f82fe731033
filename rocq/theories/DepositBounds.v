(** Array elements touched by the deposit. *)
From Coq Require Import ZArith List Reals Lra Lia Bool.
From Verif Require Import FieldModel ShapeModel ShapeSpec ShapeProofs ShapeTop DepositModel DepositSpec InterpModel InterpSpec InterpProofs.
Import ListNotations.
Open Scope R_scope.
Ltac Zify.zify_post_hook ::= Z.div_mod_to_equations.

(** Both ends of the move are inside or one cell outside a box of [n] cells. *)
Definition move_in (o : nat) (n : Z) (m : mv) : Prop :=
  inside_or_next o n (ci m, cdx m) /\ inside_or_next o n (pi m, pdx m).

Definition index_of (c : contrib) : list Z := snd (fst c).

Lemma upto_in : forall n i, In i (upto n) -> (0 <= i < n)%Z.
Proof.
  intros n i H. unfold upto in H. apply in_map_iff in H. destruct H as (k & <- & Hk). apply in_seq in Hk. lia.
Qed.

Lemma order_min_range : forall o n i dx m S, order false o i dx = Some (m, S) -> inside_or_next o n (i, dx) ->
  (0 <= m + n_ghosts o /\ m + Z.of_nat o + n_ghosts o < n + 2 * n_ghosts o)%Z.
Proof.
  intros o n i dx m S H (Hd & Hi & He). cbn [fst snd] in *.
  destruct o as [|o]; [discriminate|]. set (o' := Datatypes.S o) in *.
  pose proof (order_min _ _ _ _ _ _ H Hd) as Hm. cbv zeta in Hm.
  assert (G : n_ghosts o' = ((Z.of_nat o' + 1) / 2 + 1)%Z) by reflexivity.
  assert (Par : if Nat.even o' then (Z.of_nat o' mod 2 = 0)%Z else (Z.of_nat o' mod 2 = 1)%Z).
  { destruct (Nat.even o') eqn:E.
    - apply Nat.even_spec in E. destruct E as [q ->]. lia.
    - destruct (Nat.Even_or_Odd o') as [Q|[q ->]]; [apply Nat.even_spec in Q; congruence|]. lia. }
  assert (Ev : Z.even (Z.of_nat o') = Nat.even o').
  { rewrite Zeven_mod. destruct (Nat.even o'); rewrite Par; reflexivity. }
  rewrite Ev in Hm. 
  destruct (Nat.even o') eqn:P; cbn [Bool.eqb] in Hm; try (destruct Rlt_dec as [L|L]); try lia.
  assert (i <> n). { intros ->. specialize (He eq_refl ltac:(lia) eq_refl). lra. }
  lia.
Qed.

Lemma shapes_range : forall o n m lo hi iS fS, shapes o m = Some (lo, hi, iS, fS) -> move_in o n m ->
  (0 <= lo + n_ghosts o /\ lo <= hi /\ hi + n_ghosts o < n + 2 * n_ghosts o)%Z.
Proof.
  intros o n m lo hi iS fS H [H1 H2]. unfold shapes, for_deposit in H.
  destruct (order false o (pi m) (pdx m)) as [[a A]|] eqn:E; [|discriminate].
  destruct (order false o (ci m) (cdx m)) as [[b B]|] eqn:E'; [|discriminate].
  pose proof (order_min_range _ _ _ _ _ _ E H2). pose proof (order_min_range _ _ _ _ _ _ E' H1).
  destruct (Z.ltb_spec a b); [|destruct (Z.ltb_spec b a)]; injection H as <- <- _ _; lia.
Qed.

Lemma zz_range : forall n m, move_in 0 n m ->
  (0 <= pi m + 2 /\ pi m + 2 + 1 < n + 4 /\ 0 <= ci m + 2 /\ ci m + 2 + 1 < n + 4)%Z.
Proof. intros n m [(_ & A & _) (_ & B & _)]. cbn [fst] in *. lia. Qed.

Theorem deposit_range : forall o third t ns p, (o <= 11)%nat ->
  Forall2 (move_in o) ns (mvs p) ->
  Forall (fun c => allocated (n_ghosts o) ns (index_of c)) (deposit (n_ghosts o) o third t p).
Proof.
  intros o third t ns p Ho H. unfold deposit. destruct (dead p); [constructor|].
  destruct o as [|o].
  - destruct (mvs p) as [|m1 [|m2 [|m3 [|m4 l]]]]; [constructor| | | |constructor].
    + inversion H as [|n1 ? ns1 ? K1 H1]; subst. inversion H1; subst.
      pose proof (zz_range _ _ K1). unfold zigzag1, allocated, index_of, n_ghosts. cbv zeta.
      repeat apply Forall_cons; try apply Forall_nil; cbn [fst snd]; repeat apply Forall2_cons; try apply Forall2_nil; lia.
    + inversion H as [|n1 ? ns1 ? K1 H1]; subst. inversion H1 as [|n2 ? ns2 ? K2 H2]; subst. inversion H2; subst.
      pose proof (zz_range _ _ K1). pose proof (zz_range _ _ K2). unfold zigzag2, allocated, index_of, n_ghosts. cbv zeta.
      repeat apply Forall_cons; try apply Forall_nil; cbn [fst snd]; repeat apply Forall2_cons; try apply Forall2_nil; lia.
    + inversion H as [|n1 ? ns1 ? K1 H1]; subst. inversion H1 as [|n2 ? ns2 ? K2 H2]; subst.
      inversion H2 as [|n3 ? ns3 ? K3 H3]; subst. inversion H3; subst.
      pose proof (zz_range _ _ K1). pose proof (zz_range _ _ K2). pose proof (zz_range _ _ K3).
      unfold zigzag3, allocated, index_of, n_ghosts. cbv zeta.
      repeat apply Forall_cons; try apply Forall_nil; cbn [fst snd]; repeat apply Forall2_cons; try apply Forall2_nil; lia.
  - set (o' := S o) in *.
    destruct (mvs p) as [|m1 [|m2 [|m3 [|m4 l]]]]; [constructor| | | |constructor].
    + inversion H as [|n1 ? ns1 ? K1 H1]; subst. inversion H1; subst.
      destruct (shapes o' m1) as [[[[lo1 hi1] iS1] fS1]|] eqn:E1; [|constructor].
      pose proof (shapes_range _ _ _ _ _ _ _ E1 K1) as R1.
      apply Forall_forall. intros c Hc. unfold esirkepov1 in Hc. cbv zeta in Hc.
      rewrite !in_app_iff, !in_map_iff in Hc.
      destruct Hc as [(i & <- & Hi)|[(i & <- & Hi)|(i & <- & Hi)]]; apply upto_in in Hi;
        unfold allocated, index_of; cbn [fst snd]; repeat apply Forall2_cons; try apply Forall2_nil; lia.
    + inversion H as [|n1 ? ns1 ? K1 H1]; subst. inversion H1 as [|n2 ? ns2 ? K2 H2]; subst. inversion H2; subst.
      destruct (shapes o' m1) as [[[[lo1 hi1] iS1] fS1]|] eqn:E1; [|constructor].
      destruct (shapes o' m2) as [[[[lo2 hi2] iS2] fS2]|] eqn:E2; [|constructor].
      pose proof (shapes_range _ _ _ _ _ _ _ E1 K1) as R1. pose proof (shapes_range _ _ _ _ _ _ _ E2 K2) as R2.
      apply Forall_forall. intros c Hc. unfold esirkepov2 in Hc. cbv zeta in Hc.
      rewrite !in_app_iff, !in_flat_map in Hc.
      destruct Hc as [(i & Hi & Hc)|[(i & Hi & Hc)|(i & Hi & Hc)]]; apply in_map_iff in Hc; destruct Hc as (j & <- & Hj);
        apply upto_in in Hi; apply upto_in in Hj;
        unfold allocated, index_of; cbn [fst snd]; repeat apply Forall2_cons; try apply Forall2_nil; lia.
    + inversion H as [|n1 ? ns1 ? K1 H1]; subst. inversion H1 as [|n2 ? ns2 ? K2 H2]; subst.
      inversion H2 as [|n3 ? ns3 ? K3 H3]; subst. inversion H3; subst.
      destruct (shapes o' m1) as [[[[lo1 hi1] iS1] fS1]|] eqn:E1; [|constructor].
      destruct (shapes o' m2) as [[[[lo2 hi2] iS2] fS2]|] eqn:E2; [|constructor].
      destruct (shapes o' m3) as [[[[lo3 hi3] iS3] fS3]|] eqn:E3; [|constructor].
      pose proof (shapes_range _ _ _ _ _ _ _ E1 K1) as R1. pose proof (shapes_range _ _ _ _ _ _ _ E2 K2) as R2.
      pose proof (shapes_range _ _ _ _ _ _ _ E3 K3) as R3.
      apply Forall_forall. intros c Hc. unfold esirkepov3 in Hc. cbv zeta in Hc.
      rewrite !in_app_iff, !in_flat_map in Hc.
      destruct Hc as [(i & Hi & Hc)|[(i & Hi & Hc)|(i & Hi & Hc)]]; apply in_flat_map in Hc; destruct Hc as (j & Hj & Hc);
        apply in_map_iff in Hc; destruct Hc as (k & <- & Hk);
        apply upto_in in Hi; apply upto_in in Hj; apply upto_in in Hk;
        unfold allocated, index_of; cbn [fst snd]; repeat apply Forall2_cons; try apply Forall2_nil; lia.
Qed.

(** ** Even orders write past the end from the cell above the box *)
Definition m_above : mv := {| ci := 10; cdx := 3/4; pi := 9; pdx := 1 |}.
Definition p_above : prtl := {| dead := false; mvs := [m_above]; vp1 := 1; vp2 := 0; qw := 1 |}.

Lemma above_short : Forall short_move (mvs p_above) /\ Forall (fun m => (-1 <= ci m <= 10 /\ -1 <= pi m <= 10)%Z) (mvs p_above).
Proof.
  cbn. split; (constructor; [|constructor]).
  - unfold short_move, valid_move, now, before. cbn. repeat split; try lra; try lia. rewrite Rabs_pos_eq; lra.
  - cbn. lia.
Qed.

Theorem deposit_overrun : exists p c,
  Forall short_move (mvs p) /\ Forall (fun m => (-1 <= ci m <= 10 /\ -1 <= pi m <= 10)%Z) (mvs p) /\
  In c (deposit (n_ghosts 2) 2 (1/3) 1 p) /\ snd c <> 0 /\ ~ allocated (n_ghosts 2) [10%Z] (index_of c).
Proof.
  exists p_above. destruct above_short as [Q1 Q2].
  enough (exists c, In c (deposit (n_ghosts 2) 2 (1/3) 1 p_above) /\ snd c <> 0 /\ ~ allocated (n_ghosts 2) [10%Z] (index_of c))
    as [c Hc] by (exists c; tauto).
  cbn [deposit p_above dead mvs]. unfold shapes, for_deposit. cbn [pi pdx ci cdx m_above].
  destruct (order false 2 9 1) as [[a A]|] eqn:Ea; [|now apply (order_defined false 2 9 1) in Ea; [|lia]].
  destruct (order false 2 10 (3/4)) as [[b B]|] eqn:Eb; [|now apply (order_defined false 2 10 (3/4)) in Eb; [|lia]].
  pose proof (order_min _ _ _ _ _ _ Ea ltac:(lra)) as Ha. pose proof (order_min _ _ _ _ _ _ Eb ltac:(lra)) as Hb.
  destruct (order_ok _ _ _ _ _ _ Eb ltac:(lra)) as (Sb & _ & _). specialize (Sb 2%Z ltac:(lia)).
  cbn in Ha, Hb. destruct Rlt_dec as [L|_] in Ha; [exfalso; lra|]. destruct Rlt_dec as [L|_] in Hb; [exfalso; lra|].
  subst a b. change (10 - 1 + 1)%Z with 10%Z in *. change (9 - 1 + 1)%Z with 9%Z in *.
  exists (Jx2, [14%Z], 1 * 1 * ((1/2) * (B 2%Z + 0))). split; [|split].
  - unfold esirkepov1. cbv zeta. apply in_app_iff. right. apply in_app_iff. left. apply in_map_iff.
    exists 3%Z. split; [reflexivity|]. vm_compute. auto.
  - cbn [snd]. rewrite Sb. unfold node. change (10 + 2)%Z with 12%Z. rewrite <- code_2. unfold S2.
    rewrite Rabs_left by lra. unfold sqr. 
    repeat (destruct Rle_dec; try (exfalso; lra)); repeat (destruct Rlt_dec; try (exfalso; lra)); lra.
  - intros K. inversion K as [|? ? ? ? K1 _]; subst. cbn in K1. lia.
Qed.
