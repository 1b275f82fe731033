(** C48: time levels of the GR step.  C67: independence of the GR field update from the
    subdomain borders. *)
From Coq Require Import ZArith List Bool Lia Reals Lra.
From Verif Require Import Base FieldModel FieldSpec FieldProofs MetModel KsModel GrStepModel GrStepSpec GrStepProofs GrStepTop.
Import ListNotations.
Open Scope Z_scope.

(** C48.  If the arrays are at the levels the comments state for a step n - and with currents
    on, cur::J at n - 1/2 - then every operation of the step finds its inputs at the instants
    it needs (fields that are combined at one instant, sources exactly in the middle of the
    interval, particles in leapfrog with D and B both at the instant of the positions), and
    after the step the arrays are at the levels of n + 1. *)
Theorem C48_one_step : forall deposit n s, at_level n deposit s ->
  at_level (n + 1) deposit (execs (levels midpoint) (gr_main true deposit) s).
Proof. exact main_level. Qed.
Print Assumptions C48_one_step.

Example C48_one_step_ex : at_level 1 true
  (fun k => match k with SD => Some 4 | SB => Some 2 | SD0 => Some 0 | SB0 => Some (-2) | SJ => Some 2 | _ => None end, Some (4, 2)).
Proof. repeat split. Qed.

(** C48.  A run that starts with D and B at -1/2, positions at 1, velocities at 1/2, cur0::J at
    1/2 (cur::J after the swap of the start-up) is at the levels of the comments after every
    number of steps; the two half steps of the start-up use sources inside their interval. *)
Theorem C48_every_step_partial : forall deposit n f, f SD = Some (-2) -> f SB = Some (-2) ->
  (deposit = true -> f SJ0 = Some 2) ->
  at_level (Z.of_nat n + 2) deposit (gr_run (levels within) true deposit (S n) (f, Some (4, 2))).
Proof. exact run_level. Qed.
Print Assumptions C48_every_step_partial.

Example C48_every_step_ex : at_level 12 false
  (gr_run (levels within) true false 11 (fun k => match k with SD | SB => Some (-2) | _ => None end, Some (4, 2))).
Proof. exact (C48_every_step_partial false 10 _ eq_refl eq_refl (fun H => match Bool.diff_false_true H with end)). Qed.

(** C48, what is missing: the particles are not advanced by the start-up, so particles given
    (as the comment says, and as a problem generator does) at the instant of the initial fields,
    or at any other instants than 1 and 1/2, are never at the instant of the fields that push
    them, at any step. *)
Theorem C48_initial_particles_refuted : forall deposit n f x u, f SD = Some (-2) -> f SB = Some (-2) ->
  (x, u) <> (4, 2) ->
  snd (gr_run (levels within) true deposit (S n) (f, Some (x, u))) = None.
Proof. exact run_none. Qed.
Print Assumptions C48_initial_particles_refuted.

Example C48_initial_particles_ex : snd (gr_run (levels within) true true 3
  (fun k => match k with SD | SB => Some (-2) | _ => None end, Some (-2, -2))) = None.
Proof. apply (C48_initial_particles_refuted true 2 _ (-2) (-2)); [reflexivity..|discriminate]. Qed.

Open Scope R_scope.

(** C48, first step: the current of the preceding half step is the zero the arrays were
    allocated with, so the averaged current is half of the deposited one. *)
Theorem C48_first_current_refuted : forall cells (J : gr_currents) c y, NoDup cells -> In y cells ->
  (forall c y, J (false, c) y = 0) ->
  par_for avgJ_body cells J (false, c) y = J (true, c) y / 2.
Proof. exact first_current. Qed.
Print Assumptions C48_first_current_refuted.

Example C48_first_current_ex : par_for avgJ_body [[2; 2]; [3; 2]]%Z (fun k _ => if fst k then 6 else 0) (false, Jx2) [3; 2]%Z = 3.
Proof.
  rewrite C48_first_current_refuted; [cbn; lra | | cbn; auto | reflexivity].
  repeat constructor; cbn; intuition discriminate.
Qed.

(** C48, poles: the averages run over the active cells, which contain the nodes of the lower
    axis and not those of the upper one.  On the upper axis em0 keeps the old level. *)
Theorem C48_poles_refuted : forall g n1 n2 cells m i1 c, (g <= i1 < n1 + g)%Z -> (0 < n2)%Z -> NoDup cells ->
  (forall x, In x cells <-> active g n1 n2 x) ->
  let m' := par_for avgDB_body cells m in
  m' (Em0, c) [i1; g] = (m (Em0, c) [i1; g] + m (Em, c) [i1; g]) / 2 /\
  m' (Em0, c) [i1; (n2 + g)%Z] = m (Em0, c) [i1; (n2 + g)%Z].
Proof. exact poles. Qed.
Print Assumptions C48_poles_refuted.

(** The cells of the examples: one or two columns of two cells, two ghost cells. *)
Definition ex_one : list (list Z) := [[2; 2]; [2; 3]]%Z.
Definition ex_two : list (list Z) := [[2; 2]; [2; 3]; [3; 2]; [3; 3]]%Z.
Lemma ex_nodup : NoDup ex_one /\ NoDup ex_two.
Proof. split; repeat constructor; cbn; intuition discriminate. Qed.
Lemma ex_active : (forall x, In x ex_one <-> active 2 1 2 x) /\ (forall x, In x ex_two <-> active 2 2 2 x).
Proof.
  split; intro x; unfold active; split.
  - cbn. intros [<-|[<-|[]]]; eexists; eexists; (split; [reflexivity|lia]).
  - intros (i1 & i2 & -> & r1 & r2). cbn. assert (i1 = 2%Z) as -> by lia.
    assert (i2 = 2 \/ i2 = 3)%Z as [->| ->] by lia; auto.
  - cbn. intros [<-|[<-|[<-|[<-|[]]]]]; eexists; eexists; (split; [reflexivity|lia]).
  - intros (i1 & i2 & -> & r1 & r2). cbn.
    assert (i1 = 2 \/ i1 = 3)%Z as [->| ->] by lia; assert (i2 = 2 \/ i2 = 3)%Z as [->| ->] by lia; auto 6.
Qed.

Example C48_poles_ex : let m := fun (k : arr * comp) (_ : list Z) => match fst k with Em => 4 | _ => 2 end in
  par_for avgDB_body ex_one m (Em0, Ex1) [2; 2]%Z = 3 /\ par_for avgDB_body ex_one m (Em0, Ex1) [2; 4]%Z = 2.
Proof.
  cbv zeta. match goal with |- context [par_for _ _ ?m _ _] => set (m0 := m) end.
  destruct (C48_poles_refuted 2 1 2 ex_one m0 2 Ex1 ltac:(lia) ltac:(lia) (proj1 ex_nodup) (proj1 ex_active)) as [A B].
  cbv zeta in A, B. split; [rewrite A; cbn; lra | exact B].
Qed.

(** C67.  Every field kernel of the GR step (average, E, H, Faraday, Ampere) launched on a
    subdomain leaves in an active cell exactly what the same kernel launched on the undivided
    domain leaves there, for every order of both loops, provided the memory around the cell -
    ghost cells included - holds the same values.  The in-place Ampere launches are excluded on
    the axis nodes, where the result depends on the order of the loop (C09). *)
Theorem C67_kernels : forall g o1 o2 Ml Mg lo hi lo' hi' top top' k cl cg ml mg i1 i2,
  same_metric Ml Mg o1 o2 -> subdom g o2 lo hi lo' hi' top top' -> (g <= i2 <= top)%Z ->
  agree_around [Em; Em0; Aux] o1 o2 ml mg i1 i2 ->
  NoDup cl -> In [i1; i2] cl -> NoDup cg -> In [i1 + o1; i2 + o2]%Z cg ->
  (match k with KAmp (AmpAux | AmpInit) _ => node_inside g lo hi top i2 | _ => True end) ->
  agree [Em; Em0; Aux] o1 o2 (par_for (kbody g Ml lo hi top k) cl ml) (par_for (kbody g Mg lo' hi' top' k) cg mg) i1 i2.
Proof. exact kernel_indep. Qed.
Print Assumptions C67_kernels.

(** ... and the metric object of a subdomain of a Kerr-Schild grid is the metric of the grid. *)
Theorem C67_same_metric : forall eps a g g' o1 o2, s_dr g' = s_dr g -> s_dth g' = s_dth g ->
  x1_min g' = x1_min g + IZR o1 * s_dr g -> x2_min g' = x2_min g + IZR o2 * s_dth g ->
  same_metric (ks eps a g') (ks eps a g) o1 o2.
Proof. exact ks_same. Qed.
Print Assumptions C67_same_metric.

Example C67_kernels_ex : let big := Grid 8 8 1 2 10 0 PI 0 1 in let small := Grid 4 8 1 6 10 0 PI 0 1 in
  same_metric (ks 0 (9/10) small) (ks 0 (9/10) big) 4 0 /\
  subdom 2 0 true true true true 10 10 /\
  agree_around [Em; Em0; Aux] 4 0 (fun _ _ => 1) (fun _ _ => 1) 3 5 /\ node_inside 2 true true 10 5.
Proof.
  cbv zeta. split.
  - apply C67_same_metric; unfold s_dr, s_dth; cbn; lra.
  - split; [constructor; (lia || reflexivity)|]. split; [intros ? ? ? ? ? ? ?; reflexivity|].
    split; intros [_ H]; discriminate.
Qed.

(** C67.  Which kernels find their ghost cells exchanged: in every step of a run with the
    field solver, whatever the initial memory, all of them except the computation of E at
    n - 1/2 from the averaged D. *)
Theorem C67_exchanges_partial : forall deposit n s,
  stale_reads (step_forward true deposit n) (gr_run fresh_ops true deposit n s) = [ComputeAuxE E_D0_B].
Proof. exact run_reads. Qed.
Print Assumptions C67_exchanges_partial.

(** C67.  With the field solver switched off the initial fields are never exchanged, and every
    push of every step reads ghost cells that were never set. *)
Theorem C67_test_particles_refuted : forall deposit n s, fst s SD = false ->
  stale_reads (step_forward false deposit n) (gr_run fresh_ops false deposit n s) = [ParticlePush].
Proof. exact nofs_reads. Qed.
Print Assumptions C67_test_particles_refuted.

Example C67_exchanges_ex :
  stale_reads (step_forward true true 0) (fun _ => false, tt) = [ComputeAuxE E_D0_B] /\
  stale_reads (step_forward false true 7) (gr_run fresh_ops false true 7 (fun _ => false, tt)) = [ParticlePush].
Proof. split; [exact (C67_exchanges_partial true 0 _) | exact (C67_test_particles_refuted true 7 (fun _ => false, tt) eq_refl)]. Qed.

(** C67.  The error of that E: subdomain of the first [n1] columns, undivided domain with [k]
    more, the same exchanged memory in both. *)
Theorem C67_border_error : forall g n1 n2 k Ml Mg Al Ag Cl Cg m i2,
  let last := (n1 + g - 1)%Z in
  same_metric Ml Mg 0 0 -> (0 < k)%Z -> (g <= i2 < n2 + g)%Z -> (0 < n1)%Z ->
  NoDup Al -> NoDup Ag -> NoDup Cl -> NoDup Cg ->
  (forall x, In x Al <-> active g n1 n2 x) -> (forall x, In x Ag <-> active g (n1 + k) n2 x) ->
  In [last; i2] Cl -> In [last; i2] Cg ->
  let a := coord g last in let b := coord g i2 in
  avg_then_E g Ml Al Cl m (Aux, Ex1) [last; i2] - avg_then_E g Mg Ag Cg m (Aux, Ex1) [last; i2] =
    m_alpha Mg (a + half, b) * (m_sqrt_det_h_tilde Mg (a + 1, b) * m_h_ Mg 1 3 (a + 1, b)
      / (2 * m_sqrt_det_h_tilde Mg (a + half, b)))
    * (half * (m (Em0, Ex3) [(n1 + g)%Z; i2] - m (Em, Ex3) [(n1 + g)%Z; i2])).
Proof. exact border. Qed.
Print Assumptions C67_border_error.

(** Around a rotating hole E at the border is therefore wrong whenever D changed in the last
    step in the neighbouring column. *)
Theorem C67_rotating_refuted : forall eps a gr g n1 n2 k Ml Al Ag Cl Cg m i2,
  let last := (n1 + g - 1)%Z in
  0 < s_dr gr -> 0 < s_dth gr -> a <> 0 -> 0 < k_r gr (coord g last) -> 0 < k_th gr (coord g i2) < PI ->
  same_metric Ml (ks eps a gr) 0 0 -> (0 < k)%Z -> (g <= i2 < n2 + g)%Z -> (0 < n1)%Z ->
  NoDup Al -> NoDup Ag -> NoDup Cl -> NoDup Cg ->
  (forall x, In x Al <-> active g n1 n2 x) -> (forall x, In x Ag <-> active g (n1 + k) n2 x) ->
  In [last; i2] Cl -> In [last; i2] Cg ->
  m (Em0, Ex3) [(n1 + g)%Z; i2] <> m (Em, Ex3) [(n1 + g)%Z; i2] ->
  avg_then_E g Ml Al Cl m (Aux, Ex1) [last; i2] <> avg_then_E g (ks eps a gr) Ag Cg m (Aux, Ex1) [last; i2].
Proof. exact ks_border. Qed.
Print Assumptions C67_rotating_refuted.

Example C67_rotating_ex : let big := Grid 2 8 1 2 4 0 PI 0 1 in let small := Grid 1 8 1 2 3 0 PI 0 1 in
  let m := fun (k : arr * comp) (_ : list Z) => match fst k with Em => 4 | _ => 2 end in
  avg_then_E 2 (ks 0 (9/10) small) ex_one ex_one m (Aux, Ex1) [2; 3]%Z
  <> avg_then_E 2 (ks 0 (9/10) big) ex_two ex_two m (Aux, Ex1) [2; 3]%Z.
Proof.
  cbv zeta. pose proof PI_RGT_0.
  apply (C67_rotating_refuted 0 (9/10) (Grid 2 8 1 2 4 0 PI 0 1) 2 1 2 1 (ks 0 (9/10) (Grid 1 8 1 2 3 0 PI 0 1)) ex_one ex_two ex_one ex_two _ 3);
    try (apply ex_nodup); try (exact (proj1 ex_active)); try (exact (proj2 ex_active)); try lia; try (cbn; tauto).
  - unfold s_dr; cbn; lra.
  - unfold s_dth; cbn; lra.
  - lra.
  - unfold k_r, s_dr, coord; cbn; lra.
  - unfold k_th, s_dth, coord; cbn; lra.
  - apply C67_same_metric; unfold s_dr, s_dth; cbn; lra.
  - cbn. lra.
Qed.

(** C67.  Without rotation (h_13 = 0) the missing exchange does not matter. *)
Theorem C67_no_rotation : forall g o1 o2 Ml Mg Al Ag Cl Cg ml mg i1 i2 c,
  same_metric Ml Mg o1 o2 -> (forall x, m_h_ Mg 1 3 x = 0) ->
  agree_around [Em; Em0; Aux] o1 o2 ml mg i1 i2 ->
  NoDup Al -> NoDup Ag -> NoDup Cl -> NoDup Cg ->
  In [i1; i2] Al -> In [(i1 + o1)%Z; (i2 + o2)%Z] Ag -> In [i1; i2] Cl -> In [(i1 + o1)%Z; (i2 + o2)%Z] Cg ->
  avg_then_E g Ml Al Cl ml c [i1; i2] = avg_then_E g Mg Ag Cg mg c [(i1 + o1)%Z; (i2 + o2)%Z].
Proof. exact no_rotation. Qed.
Print Assumptions C67_no_rotation.

Example C67_no_rotation_ex : let M := ks 0 0 (Grid 8 8 1 2 10 0 PI 0 1) in
  (forall x, m_h_ M 1 3 x = 0) /\ same_metric M M 0 0.
Proof.
  cbv zeta. split.
  - intro x. cbn [m_h_ ks]. unfold k_h_. ring.
  - apply C67_same_metric; try reflexivity; ring.
Qed.
