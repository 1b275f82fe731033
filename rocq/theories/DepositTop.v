(** Continuity for a whole species, deposited in any order. *)
From Coq Require Import ZArith List Reals Lra Lia Permutation.
From Verif Require Import FieldModel FieldSpec ShapeModel ShapeSpec ShapeProofs ShapeTop DepositModel DepositSpec DepositProofs EsirkProofs.
Import ListNotations.
Open Scope R_scope.

Lemma shapes_some : forall o m, (1 <= o <= 11)%nat -> exists s, shapes o m = Some s.
Proof.
  intros o m Ho. unfold shapes, for_deposit.
  pose proof (proj1 (order_defined false o (pi m) (pdx m)) Ho) as H1.
  pose proof (proj1 (order_defined false o (ci m) (cdx m)) Ho) as H2.
  destruct (order false o (pi m) (pdx m)) as [[? ?]|]; [|now elim H1].
  destruct (order false o (ci m) (cdx m)) as [[? ?]|]; [|now elim H2].
  repeat (match goal with |- context [if ?b then _ else _] => destruct b end); eexists; reflexivity.
Qed.

(** One particle, all cases: what its additions do to the divergence. *)
Definition change (o : nat) (g : Z) (p : prtl) (k : list Z) : R :=
  rho o g now [p] k - rho o g before [p] k.

Lemma zigzag_one : forall g third t p k, length (mvs p) = length k -> (1 <= length k <= 3)%nat -> Forall valid_move (mvs p) ->
  divJ (total (deposit g 0 third t p)) k = - t * change 1 g p k - t * zigzag_defects g [p] k.
Proof.
  intros g third t p k L Hk V. unfold deposit, change. cbn [rho zigzag_defects].
  destruct (dead p) eqn:D.
  { destruct k as [|? [|? [|? [|? ?]]]]; cbn; ring. }
  destruct (mvs p) as [|m1 [|m2 [|m3 [|m4 l]]]] eqn:E; cbn [length] in *; try lia.
  - destruct k as [|k1 [|]]; cbn [length] in *; try lia. inversion V; subst.
    rewrite zigzag1_div by assumption. unfold zigzag_defect. rewrite E. cbn [map weight].
    rewrite weight_now, weight_prev by assumption. ring.
  - destruct k as [|k1 [|k2 [|]]]; cbn [length] in *; try lia. inversion V as [|? ? V1 V2]; subst. inversion V2; subst.
    rewrite zigzag2_div by assumption. unfold zigzag_defect. rewrite E. cbn [map weight].
    rewrite !weight_now, !weight_prev by assumption. ring.
  - destruct k as [|k1 [|k2 [|k3 [|]]]]; cbn [length] in *; try lia.
    inversion V as [|? ? V1 V2]; subst. inversion V2 as [|? ? V3 V4]; subst. inversion V4; subst.
    rewrite zigzag3_div by assumption. cbn [map weight].
    rewrite !weight_now, !weight_prev by assumption. ring.
Qed.

Lemma esirkepov_one : forall o g third t p k, (1 <= o <= 11)%nat ->
  length (mvs p) = length k -> (1 <= length k <= 3)%nat -> Forall short_move (mvs p) ->
  divJ (total (deposit g o third t p)) k = - t * (if Nat.eqb (length k) 3 then 3 * third else 1) * change o g p k.
Proof.
  intros o g third t p k Ho L Hk V. unfold deposit, change. cbn [rho].
  destruct (dead p) eqn:D.
  { destruct k as [|? [|? [|? [|? ?]]]]; cbn; ring. }
  destruct o as [|o]; [lia|]. set (o' := S o) in *.
  destruct (mvs p) as [|m1 [|m2 [|m3 [|m4 l]]]] eqn:E; cbn [length] in *; try lia.
  - destruct k as [|k1 [|]]; cbn [length Nat.eqb] in *; try lia. inversion V; subst.
    destruct (shapes_some o' m1 Ho) as [s1 Q1]. rewrite Q1.
    rewrite (esirkepov1_div o' g t p m1) by assumption. cbn [map weight]. unfold B1, B0. ring.
  - destruct k as [|k1 [|k2 [|]]]; cbn [length Nat.eqb] in *; try lia. inversion V as [|? ? V1 V2]; subst. inversion V2; subst.
    destruct (shapes_some o' m1 Ho) as [s1 Q1]. destruct (shapes_some o' m2 Ho) as [s2 Q2]. rewrite Q1, Q2.
    rewrite (esirkepov2_div o' g third t p m1 m2) by assumption. cbn [map weight]. unfold B1, B0. ring.
  - destruct k as [|k1 [|k2 [|k3 [|]]]]; cbn [length Nat.eqb] in *; try lia.
    inversion V as [|? ? V1 V2]; subst. inversion V2 as [|? ? V3 V4]; subst. inversion V4; subst.
    destruct (shapes_some o' m1 Ho) as [s1 Q1]. destruct (shapes_some o' m2 Ho) as [s2 Q2].
    destruct (shapes_some o' m3 Ho) as [s3 Q3]. rewrite Q1, Q2, Q3.
    rewrite (esirkepov3_div o' g third t p m1 m2 m3) by assumption. cbn [map weight]. unfold B1, B0. ring.
Qed.

Lemma divJ_nil : forall k, divJ (total []) k = 0.
Proof. intros k. destruct k as [|? [|? [|? [|? ?]]]]; cbn; ring. Qed.

Definition dims (d : nat) (ok : mv -> Prop) (p : prtl) : Prop := length (mvs p) = d /\ Forall ok (mvs p).

Theorem zigzag_all : forall g third t ps cs J k, (1 <= length k <= 3)%nat ->
  Forall (dims (length k) valid_move) ps ->
  Permutation cs (flat_map (deposit g 0 third t) ps) ->
  divJ (scatter cs J) k = divJ J k - t * (rho 1 g now ps k - rho 1 g before ps k) - t * zigzag_defects g ps k.
Proof.
  intros g third t ps cs J k Hk HF HP. rewrite divJ_scatter, (divJ_perm _ _ _ HP). clear HP cs.
  enough (divJ (total (flat_map (deposit g 0 third t) ps)) k
     = - t * (rho 1 g now ps k - rho 1 g before ps k) - t * zigzag_defects g ps k) by lra.
  induction HF as [|p ps [H1 H2] _ IH]; cbn [flat_map].
  - rewrite divJ_nil. cbn. ring.
  - rewrite divJ_app, IH, zigzag_one by assumption. unfold change. cbn [rho zigzag_defects]. ring.
Qed.

Lemma no_defect : forall g ps k, (length k < 3)%nat -> zigzag_defects g ps k = 0.
Proof.
  intros g ps k Hk. induction ps as [|p ps IH]; cbn [zigzag_defects]; [reflexivity|]. rewrite IH.
  unfold zigzag_defect. destruct (dead p); [ring|].
  destruct (mvs p) as [|? [|? [|? [|? ?]]]]; try ring.
  destruct k as [|? [|? [|? ?]]]; cbn [length] in Hk; try ring; lia.
Qed.

Theorem zigzag_continuity : forall g third t ps cs J k, (1 <= length k <= 2)%nat ->
  Forall (dims (length k) valid_move) ps ->
  Permutation cs (flat_map (deposit g 0 third t) ps) ->
  divJ (scatter cs J) k = divJ J k - t * (rho 1 g now ps k - rho 1 g before ps k).
Proof.
  intros. erewrite zigzag_all by (eassumption || lia). rewrite no_defect by lia. ring.
Qed.

Theorem esirkepov_all : forall o g third t ps cs J k, (1 <= o <= 11)%nat -> (1 <= length k <= 3)%nat ->
  Forall (dims (length k) short_move) ps ->
  Permutation cs (flat_map (deposit g o third t) ps) ->
  divJ (scatter cs J) k = divJ J k
    - t * (if Nat.eqb (length k) 3 then 3 * third else 1) * (rho o g now ps k - rho o g before ps k).
Proof.
  intros o g third t ps cs J k Ho Hk HF HP. rewrite divJ_scatter, (divJ_perm _ _ _ HP). clear HP cs.
  set (f := if Nat.eqb (length k) 3 then 3 * third else 1).
  enough (divJ (total (flat_map (deposit g o third t) ps)) k
     = - t * f * (rho o g now ps k - rho o g before ps k)) by lra.
  induction HF as [|p ps [H1 H2] _ IH]; cbn [flat_map].
  - rewrite divJ_nil. cbn. ring.
  - rewrite divJ_app, IH, esirkepov_one by assumption. fold f. unfold change. cbn [rho]. ring.
Qed.

Theorem esirkepov_continuity : forall o g third t ps cs J k, (1 <= o <= 11)%nat -> (1 <= length k <= 3)%nat ->
  (length k = 3%nat -> third = 1/3) ->
  Forall (dims (length k) short_move) ps ->
  Permutation cs (flat_map (deposit g o third t) ps) ->
  divJ (scatter cs J) k = divJ J k - t * (rho o g now ps k - rho o g before ps k).
Proof.
  intros o g third t ps cs J k Ho Hk Ht HF HP. erewrite esirkepov_all by eassumption.
  destruct (Nat.eqb_spec (length k) 3) as [E|E]; [rewrite (Ht E); field|ring].
Qed.

(** ** The 3D zig-zag scheme does not conserve charge *)
Definition m_diag : mv := {| ci := 0; cdx := 1; pi := 0; pdx := 0 |}.
Definition p_diag : prtl := {| dead := false; mvs := [m_diag; m_diag; m_diag]; vp1 := 0; vp2 := 0; qw := 1 |}.

Lemma diag_valid : dims 3 valid_move p_diag.
Proof.
  split; [reflexivity|]. cbn. repeat constructor; cbn; try lra; lia.
Qed.

Theorem zigzag3_refuted : exists ps cs J k,
  Forall (dims 3 valid_move) ps /\ Permutation cs (flat_map (deposit 2 0 (1/3) 1) ps) /\ length k = 3%nat /\
  divJ (scatter cs J) k <> divJ J k - 1 * (rho 1 2 now ps k - rho 1 2 before ps k).
Proof.
  exists [p_diag], (flat_map (deposit 2 0 (1/3) 1) [p_diag]), (fun _ _ => 0), [2; 2; 2]%Z.
  split; [constructor; [apply diag_valid|constructor]|]. split; [apply Permutation_refl|]. split; [reflexivity|].
  erewrite zigzag_all; [|cbn; lia|constructor; [apply diag_valid|constructor]|apply Permutation_refl].
  assert (E : zigzag_defects 2 [p_diag] [2; 2; 2]%Z = 1/16).
  { unfold zigzag_defects, zigzag_defect, p_diag, m_diag, relay, corner, now, before. cbn. 
    repeat (destruct Z.eq_dec; try (exfalso; lia)). lra. }
  rewrite E. lra.
Qed.

(** ** The literal used for one third *)
Definition m_step : mv := {| ci := 0; cdx := 1/2; pi := 0; pdx := 0 |}.
Definition p_step : prtl := {| dead := false; mvs := [m_step; m_step; m_step]; vp1 := 0; vp2 := 0; qw := 1 |}.
Definition third_float : R := 333333 / 1000000.
Definition third_double : R := 3333333333333333 / 10000000000000000.

Lemma step_valid : valid_move m_step.
Proof. unfold valid_move. cbn. repeat split; try lra; lia. Qed.
Lemma step_short : dims 3 short_move p_step.
Proof.
  split; [reflexivity|]. cbn.
  assert (short_move m_step).
  { unfold short_move, valid_move, now, before. cbn. repeat split; try lra; try lia. rewrite Rabs_pos_eq; lra. }
  auto using Forall_cons, Forall_nil.
Qed.

Theorem third_refuted : forall third, third = third_float \/ third = third_double ->
  exists ps cs J k,
  Forall (dims 3 short_move) ps /\ Permutation cs (flat_map (deposit 2 1 third 1) ps) /\ length k = 3%nat /\
  divJ (scatter cs J) k <> divJ J k - 1 * (rho 1 2 now ps k - rho 1 2 before ps k).
Proof.
  intros third Ht.
  exists [p_step], (flat_map (deposit 2 1 third 1) [p_step]), (fun _ _ => 0), [2; 2; 2]%Z.
  split; [constructor; [apply step_short|constructor]|]. split; [apply Permutation_refl|]. split; [reflexivity|].
  erewrite (esirkepov_all 1); [|lia|cbn; lia|constructor; [apply step_short|constructor]|apply Permutation_refl].
  cbn [length Nat.eqb].
  assert (E1 : rho 1 2 now [p_step] [2; 2; 2]%Z = 1/8).
  { cbn [rho p_step dead qw mvs map weight]. replace (bspline 1 (now m_step - IZR (2 - 2))) with (1/2); [lra|].
    rewrite (weight_now 2 m_step 2) by apply step_valid. unfold lin, m_step. cbn. unfold kd. repeat (destruct Z.eq_dec; try (exfalso; lia)). lra. }
  assert (E0 : rho 1 2 before [p_step] [2; 2; 2]%Z = 1).
  { cbn [rho p_step dead qw mvs map weight]. replace (bspline 1 (before m_step - IZR (2 - 2))) with 1; [lra|].
    rewrite (weight_prev 2 m_step 2) by apply step_valid. unfold lin, m_step. cbn. unfold kd. repeat (destruct Z.eq_dec; try (exfalso; lia)). lra. }
  rewrite E1, E0. destruct Ht as [-> | ->]; unfold third_float, third_double; lra.
Qed.
