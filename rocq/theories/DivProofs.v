(** Proofs about the output of the divergence of E. *)
From Coq Require Import ZArith List Bool Reals Lra Lia Permutation.
From Verif Require Import Base ListLemmas DecompModel DecompSpec DirsModel DirsSpec DirsProofs FieldModel FieldProofs FieldSpec TopoModel TopoSpec TopoTop HaloModel HaloSpec HaloProofs SyncProofs
  ShapeSpec StepSpec MetModel SetModel SetProofs DivModel DivSpec.
From Verif Require DepositModel DepositSpec GaussSpec GaussTop StepModel FilterSpec InterpSpec.
From Verif Require MomentTop.
Import ListNotations.
Open Scope R_scope.

(** ** One subdomain *)
Lemma div_par g cartesian sd F k x : forall cells m, par_for (div_body g cartesian sd F k) cells m k x =
  if in_dec cell_dec x cells then div_value g cartesian sd F x else m k x.
Proof.
  induction cells as [|a cells IH]; intro m; [reflexivity|]. unfold par_for in *. cbn [fold_left]. rewrite IH.
  destruct (in_dec cell_dec x cells) as [I|I].
  - destruct (in_dec cell_dec x (a :: cells)) as [_|N]; [reflexivity|]. exfalso. apply N. right. exact I.
  - unfold div_body. destruct (cell_dec x a) as [->|N].
    + rewrite set_eq. destruct (in_dec cell_dec a (a :: cells)) as [_|N]; [reflexivity|]. exfalso. apply N. left. reflexivity.
    + rewrite set_neq_x by exact N. destruct (in_dec cell_dec x (a :: cells)) as [[A|A]|_]; [congruence|contradiction|reflexivity].
Qed.

(** ** Synchronisation of arrays whose ghost cells are zero *)
Lemma shifted_out g n_o n_a dir : (0 <= g)%Z -> length n_o = length dir -> length n_a = length dir ->
  Forall (fun a => -1 <= a <= 1)%Z dir -> Exists (fun a => a <> 0)%Z dir ->
  forall y z, in_box y n_o -> in_slices (loc g y) (slices (recv_slice_sync g) n_o dir) = true ->
  map2 Z.add (map fst (slices (send_slice_sync g) n_a dir)) (map2 Z.sub (loc g y) (map fst (slices (recv_slice_sync g) n_o dir))) = loc g z -> ~ in_box z n_a.
Proof.
  intros Hg L1 L2 F E. revert n_o n_a L1 L2. induction dir as [|a dir IH]; [inversion E|]. intros n_o n_a L1 L2 y z Hy I Q B.
  destruct n_o as [|no n_o]; [discriminate|]. destruct n_a as [|na n_a]; [discriminate|].
  inversion Hy as [|y0 ? y' ? Hy0 Hy']; subst. inversion B as [|z0 ? z' ? Hz0 Hz']; subst.
  unfold loc, slices in *. cbn in I, Q. injection Q as Q1 Q2.
  destruct (recv_slice_sync g no a) as [rl rh] eqn:R. apply andb_prop in I as [I I'].
  inversion F as [|? ? Fa F']; subst.
  destruct (Z.eq_dec a 0) as [->|Na].
  - inversion E as [? ? N|? ? E']; subst; [congruence|]. eapply (IH F' E' n_o n_a); eauto.
  - unfold recv_slice_sync in R. unfold send_slice_sync in Q1. unfold i_min, i_max in *. cbn [fst snd] in Q1.
    apply andb_prop in I as [Ia Ib]. apply Z.leb_le in Ia. apply Z.ltb_lt in Ib.
    assert (C : a = 1%Z \/ a = (-1)%Z) by lia. destruct C as [-> | ->]; cbn in R, Q1; injection R as <- <-; lia.
Qed.

Lemma sync_quiet g ls gbc f o y : (0 <= g)%Z -> length gbc = length ls -> paired_flds gbc -> dimension (length ls) ->
  in_box o (counts ls) -> in_box y (size ls o) ->
  (forall a x, in_box a (counts ls) -> (forall z, x = loc g z -> ~ in_box z (size ls a)) -> f a x = 0) ->
  synchronize g ls gbc f (length ls) o (loc g y) = f o (loc g y).
Proof.
  intros Hg L P HD Ho Hy H. unfold synchronize.
  assert (S : sync_buff g ls gbc f (length ls) o (loc g y) = 0).
  { unfold sync_buff. assert (A : forall dir, In dir (all_dirs (length ls)) -> sync_add g ls gbc f o (loc g y) dir = 0).
    { intros dir I. apply all_direction in I; [|exact HD]. unfold sync_add. fold (counts ls).
      destruct (recv_from (counts ls) gbc o dir) as [a|] eqn:E; [|reflexivity].
      pose proof (recv_from_box ls gbc L P o a dir Ho I E) as Ha.
      destruct (in_slices (loc g y) (slices (recv_slice_sync g) (size ls o) dir)) eqn:Is; [|reflexivity].
      apply H; [exact Ha|]. intros z Z. destruct I as [[Ld Fd] Nz].
      apply (shifted_out g (size ls o) (size ls a) dir Hg) with (y := y); rewrite ?size_length by assumption; auto. apply Exists_exists. exact Nz. }
    revert A. generalize (all_dirs (length ls)). intro l. assert (G : forall acc, (forall dir, In dir l -> sync_add g ls gbc f o (loc g y) dir = 0) ->
      fold_left (fun acc dir => acc + sync_add g ls gbc f o (loc g y) dir) l acc = acc).
    { induction l as [|d l IH]; intros acc A; [reflexivity|]. cbn [fold_left]. rewrite IH by (intros; apply A; right; assumption). rewrite A by (left; reflexivity). lra. }
    intro A. apply G. exact A. }
  rewrite S. destruct (in_slices _ _); lra.
Qed.

(** ** The output *)
Lemma out_value g ls gbc cartesian sd order k em : (0 <= g)%Z -> length gbc = length ls -> paired_flds gbc -> dimension (length ls) ->
  (forall o l, Permutation (order o l) l) -> (k < 6)%nat ->
  exists out, divergence_output g ls gbc cartesian sd order k em = Ok out /\
  forall d y, In d (domains ls) -> in_box y (sub_ncells d) ->
  out (sub_offset_ndomains d) (loc g y) = div_value g cartesian (sd (sub_offset_ndomains d)) (em (sub_offset_ndomains d)) (loc g y).
Proof.
  intros Hg L P HD HO Hk. unfold divergence_output. destruct (6 <=? k)%nat eqn:E; [apply Nat.leb_le in E; lia|].
  eexists. split; [reflexivity|]. intros d y Hd Hy. destruct (dom_pos ls d Hd) as [B [E1 E2]]. rewrite E1 in Hy.
  rewrite sync_quiet; auto.
  - rewrite div_par. destruct (in_dec cell_dec _ _) as [_|N]; [reflexivity|]. exfalso. apply N.
    eapply Permutation_in; [apply Permutation_sym, HO|]. apply active_in. exact Hy.
  - intros a x Ha N. rewrite div_par. destruct (in_dec cell_dec _ _) as [I|_]; [|reflexivity]. exfalso.
    apply (Permutation_in _ (HO _ _)) in I. unfold active_cells in I. apply in_map_iff in I as [z [Z I]].
    apply (N z); [congruence|]. apply active_in with (g := g). unfold active_cells. apply in_map. exact I.
Qed.


Lemma cart_value g sd F y : (1 <= length y <= 3)%nat -> div_value g true sd F (loc g y) = node_divergence (fun c z => F c (loc g z)) y.
Proof.
  intro L. destruct y as [|a [|b [|c [|? ?]]]]; cbn in L; try lia; unfold node_divergence, rsum, below, loc; cbn;
    rewrite ?Z.sub_0_r; repeat match goal with |- context[(?u + g - 1)%Z] => replace (u + g - 1)%Z with (u - 1 + g)%Z by ring end; ring.
Qed.
Lemma curv_value g sd F y : (2 <= length y <= 3)%nat -> sd (middle y) <> 0 ->
  div_value g false sd F (loc g y) * sd (middle y) = node_flux sd (fun c z => F c (loc g z)) y.
Proof.
  intros L N. destruct y as [|a [|b [|c [|? ?]]]]; cbn in L; try lia; unfold node_flux, half_step, rsum, below, loc, middle, at_, hlf in *; cbn in N |- *; unfold at_, hlf;
    rewrite ?Z.sub_0_r, ?Z.add_simpl_r; repeat match goal with |- context[(?u + g - 1)%Z] => replace (u + g - 1)%Z with (u - 1 + g)%Z by ring end; field; exact N.
Qed.
Lemma box_len (y n : list Z) : in_box y n -> length y = length n.
Proof. apply Forall2_length. Qed.
Lemma dim_small n : dimension n -> (1 <= n <= 3)%nat.
Proof. unfold dimension. lia. Qed.

Lemma out_cartesian g ls gbc sd order k em : (0 <= g)%Z -> length gbc = length ls -> paired_flds gbc -> dimension (length ls) ->
  (forall o l, Permutation (order o l) l) -> (k < 6)%nat ->
  exists out, divergence_output g ls gbc true sd order k em = Ok out /\
  forall d y, In d (domains ls) -> in_box y (sub_ncells d) ->
  out (sub_offset_ndomains d) (loc g y) = node_divergence (fun c z => em (sub_offset_ndomains d) c (loc g z)) y.
Proof.
  intros Hg L P HD HO Hk. destruct (out_value g ls gbc true sd order k em Hg L P HD HO Hk) as [out [E H]].
  exists out. split; [exact E|]. intros d y Hd Hy. rewrite H by assumption. apply cart_value.
  destruct (dom_pos ls d Hd) as [B [E1 E2]]. rewrite (box_len _ _ Hy), E1, size_length by assumption. apply dim_small. exact HD.
Qed.
(** Agreement with fields on the undivided grid; [h]: the cell size, by which physical components
    are divided in memory. *)
Lemma node_shift F s y : length s = length y -> (length y <= 3)%nat ->
  node_divergence (fun c z => F c (map2 Z.add s z)) y = node_divergence F (map2 Z.add s y).
Proof.
  intros L L3. destruct y as [|a [|b [|c [|? ?]]]]; cbn in L3; try lia; destruct s as [|sa [|sb [|sc [|? ?]]]]; try discriminate; unfold node_divergence, rsum, below; cbn;
    rewrite ?Z.sub_0_r; rewrite ?Z.add_sub_assoc; reflexivity.
Qed.
Lemma node_scale h F y : h <> 0 -> node_divergence (fun c z => F c z / h) y = node_divergence F y / h.
Proof.
  intro N. unfold node_divergence, rsum. induction (seq 0 (length y)) as [|d l IH]; cbn [fold_right]; [field; exact N|]. rewrite IH. field. exact N.
Qed.
Lemma below_ext g y n d : (1 <= g)%Z -> in_box y n -> in_extended g (below d y) n.
Proof.
  intros Hg H. unfold below. generalize 0%nat. unfold in_extended, in_box in *. induction H as [|a b y n Hab H IH]; intro s; cbn; constructor; auto.
  destruct (Nat.eqb s d); lia.
Qed.
Lemma box_ext g y n : (1 <= g)%Z -> in_box y n -> in_extended g y n.
Proof. intros Hg H. unfold in_extended, in_box in *. eapply Forall2_impl; [|exact H]. cbn. intros; lia. Qed.
Lemma node_ext F G y : (forall c, F c y = G c y) -> (forall c d, F c (below d y) = G c (below d y)) -> node_divergence F y = node_divergence G y.
Proof. intros A B. unfold node_divergence. apply rsum_ext. intros d _. rewrite A, B. reflexivity. Qed.

Lemma out_physical g ls gbc sd order k em ET h : (1 <= g)%Z -> length gbc = length ls -> paired_flds gbc -> dimension (length ls) ->
  (forall o l, Permutation (order o l) l) -> (k < 6)%nat -> h <> 0 ->
  agree g ls em (fun c X => ET c X / h) ->
  exists out, divergence_output g ls gbc true sd order k em = Ok out /\
  forall d y, In d (domains ls) -> in_box y (sub_ncells d) ->
  out (sub_offset_ndomains d) (loc g y) = node_divergence ET (map2 Z.add (sub_offset_ncells d) y) / h.
Proof.
  intros Hg L P HD HO Hk Hh A. destruct (out_cartesian g ls gbc sd order k em ltac:(lia) L P HD HO Hk) as [out [E H]].
  exists out. split; [exact E|]. intros d y Hd Hy. rewrite H by assumption. destruct (dom_pos ls d Hd) as [B [E1 E2]].
  assert (Ly : length y = length ls) by (rewrite (box_len _ _ Hy), E1, size_length by assumption; reflexivity).
  rewrite <- node_scale by exact Hh. rewrite <- (node_shift (fun c z => ET c z / h)).
  - apply node_ext; [intro c|intros c d']; apply A; auto; [apply box_ext|apply below_ext]; auto.
  - pose proof (box_len _ _ B) as LB. unfold counts in LB. rewrite map_length in LB. rewrite E2, Ly. unfold offs. rewrite map2_length. lia.
  - rewrite Ly. apply dim_small in HD. lia.
Qed.

(** ** Link to Gauss's law *)
Lemma value_divE g sd F x : (1 <= length x <= 3)%nat -> div_value g true sd F x = divE F x.
Proof. intro L. destruct x as [|a [|b [|c [|? ?]]]]; cbn in L; try lia; cbn; ring. Qed.
Import DepositModel DepositSpec InterpSpec StepModel StepSpec FilterSpec GaussSpec.
Open Scope R_scope.
Lemma out_charge o ls gbc third inv_dt p nf l c c' eE eB em0 em em' sd order order' k k' :
  wide (n_ghosts o) ls -> length gbc = length ls -> all_periodic gbc -> dimension (length ls) -> sdx p <> 0 ->
  complete ls eE -> complete ls eB -> first_exchange (n_ghosts o) ls gbc eE eB em0 = Some em ->
  Forall (good_step o ls third inv_dt nf) l -> carried ls c l c' ->
  pic_run (n_ghosts o) ls gbc p (map fst l) em = Some em' ->
  (forall o l, Permutation (order o l) l) -> (forall o l, Permutation (order' o l) l) -> (k < 6)%nat -> (k' < 6)%nat ->
  exists before after,
  divergence_output (n_ghosts o) ls gbc true sd order k em = Ok before /\
  divergence_output (n_ghosts o) ls gbc true sd order' k' em' = Ok after /\
  forall d y, In d (domains ls) -> in_box y (sub_ncells d) ->
  after (sub_offset_ndomains d) (loc (n_ghosts o) y) - before (sub_offset_ndomains d) (loc (n_ghosts o) y)
  = - scur p * inv_dt * (passes nf (charge_at (charge_order o) (map sumZ ls) c') (map2 Z.add (sub_offset_ncells d) y)
                         - passes nf (charge_at (charge_order o) (map sumZ ls) c) (map2 Z.add (sub_offset_ncells d) y)).
Proof.
  intros W L AP HD Hh CE CB X0 HG HC X1 HO HO' Hk Hk'.
  assert (P : paired_flds gbc) by (apply AP_paired; exact AP).
  assert (Hg : (0 <= n_ghosts o)%Z) by (destruct W; lia).
  destruct (out_value (n_ghosts o) ls gbc true sd order k em Hg L P HD HO Hk) as [b [Eb Hb]].
  destruct (out_value (n_ghosts o) ls gbc true sd order' k' em' Hg L P HD HO' Hk') as [a [Ea Ha]].
  exists b, a. repeat split; auto. intros d y Hd Hy. rewrite Ha, Hb by assumption.
  assert (Ll : (1 <= length (loc (n_ghosts o) y) <= 3)%nat).
  { destruct (dom_pos ls d Hd) as [B [E1 E2]]. unfold loc. rewrite map_length, (box_len _ _ Hy), E1, size_length by assumption. apply dim_small. exact HD. }
  rewrite !value_divE by exact Ll.
  exact (GaussTop.gauss_run o ls gbc third inv_dt p nf l c c' eE eB em0 em em' W L AP HD Hh CE CB X0 HG HC X1 d y Hd Hy).
Qed.

(** ** Curvilinear grids *)
Lemma out_curvilinear g ls gbc sd order k em : (0 <= g)%Z -> length gbc = length ls -> paired_flds gbc -> (2 <= length ls <= 3)%nat ->
  (forall o l, Permutation (order o l) l) -> (k < 6)%nat ->
  exists out, divergence_output g ls gbc false sd order k em = Ok out /\
  forall d y, In d (domains ls) -> in_box y (sub_ncells d) -> sd (sub_offset_ndomains d) (middle y) <> 0 ->
  out (sub_offset_ndomains d) (loc g y) * sd (sub_offset_ndomains d) (middle y) = node_flux (sd (sub_offset_ndomains d)) (fun c z => em (sub_offset_ndomains d) c (loc g z)) y.
Proof.
  intros Hg L P HD HO Hk. assert (HD' : dimension (length ls)) by (unfold dimension; lia).
  destruct (out_value g ls gbc false sd order k em Hg L P HD' HO Hk) as [out [E H]].
  exists out. split; [exact E|]. intros d y Hd Hy N. rewrite H by assumption. apply curv_value; [|exact N].
  destruct (dom_pos ls d Hd) as [B [E1 E2]]. rewrite (box_len _ _ Hy), E1, size_length by assumption. exact HD.
Qed.
(** The field r in the radial direction, of divergence 3, on the undivided spherical grid. *)
Definition sph_sd (G : grid) (p : list R) : R := match p with [a; b] => s_sqrt_det_h G (a, b) | _ => 0 end.
Lemma radial g G F i j : s_dr G <> 0 -> s_dth G <> 0 ->
  (forall a b, F Ex1 (loc g [a; b]) = ((IZR a + / 2) * s_dr G + x1_min G) / s_dr G) -> (forall a b, F Ex2 (loc g [a; b]) = 0) ->
  let r := IZR i * s_dr G + x1_min G in let th := IZR j * s_dth G + x2_min G in
  r + s_dr G / 2 <> 0 -> sin (th + s_dth G / 2) <> 0 ->
  div_value g false (sph_sd G) F (loc g [i; j]) = (3 * r ^ 2 + s_dr G ^ 2 / 4) / (r + s_dr G / 2) ^ 2 * (sin th / sin (th + s_dth G / 2)).
Proof.
  intros Hr Ht H1 H2 r th N1 N2. pose proof (H1 i j) as A. pose proof (H1 (i - 1)%Z j) as B. pose proof (H2 i j) as C. pose proof (H2 i (j - 1)%Z) as D.
  unfold loc in *. cbn in A, B, C, D |- *. unfold at_, hlf, s_sqrt_det_h. rewrite !Z.add_simpl_r.
  replace (i + g - 1)%Z with (i - 1 + g)%Z by ring. replace (j + g - 1)%Z with (j - 1 + g)%Z by ring. rewrite A, B, C, D. rewrite minus_IZR.
  replace ((IZR j + / 2) * s_dth G + x2_min G) with (th + s_dth G / 2) by (unfold th; field).
  replace (IZR j * s_dth G + x2_min G) with th by reflexivity.
  replace ((IZR i + / 2) * s_dr G + x1_min G) with (r + s_dr G / 2) by (unfold r; field).
  replace ((IZR i - / 2) * s_dr G + x1_min G) with (r - s_dr G / 2) by (unfold r; field).
  replace ((IZR i - 1 + / 2) * s_dr G + x1_min G) with (r - s_dr G / 2) by (unfold r; field).
  unfold sqr. field. repeat split; try assumption; try lra.
Qed.

(** On the axis and on the next row, at any resolution. *)
Lemma radial_axis g G F i : s_dr G <> 0 -> s_dth G <> 0 -> x2_min G = 0 ->
  (forall a b, F Ex1 (loc g [a; b]) = ((IZR a + / 2) * s_dr G + x1_min G) / s_dr G) -> (forall a b, F Ex2 (loc g [a; b]) = 0) ->
  IZR i * s_dr G + x1_min G + s_dr G / 2 <> 0 -> sin (s_dth G / 2) <> 0 ->
  div_value g false (sph_sd G) F (loc g [i; 0%Z]) = 0.
Proof.
  intros Hr Ht H0 H1 H2 N1 N2. rewrite (radial g G F i 0 Hr Ht H1 H2); auto.
  - rewrite H0. replace (IZR 0 * s_dth G + 0) with 0 by (cbn; ring). rewrite sin_0. unfold Rdiv. rewrite !Rmult_0_l. ring.
  - rewrite H0. replace (IZR 0 * s_dth G + 0 + s_dth G / 2) with (s_dth G / 2) by (cbn; ring). exact N2.
Qed.
Lemma second_row d : 0 < d -> d < PI / 2 -> 19 / 20 <= cos (d / 2) -> 0 < sin (d + d / 2) /\ sin d / sin (d + d / 2) <= 3 / 4.
Proof.
  intros H0 H1 Hc. set (u := d / 2) in *. assert (Hu : 0 < u < PI) by (unfold u; pose proof PI_RGT_0; lra).
  pose proof (sin_gt_0 u (proj1 Hu) (proj2 Hu)) as Hs. pose proof (sin2_cos2 u) as Q. unfold Rsqr in Q.
  replace (d + u) with (2 * u + u) by (unfold u; lra). replace d with (2 * u) by (unfold u; lra).
  rewrite sin_plus, sin_2a, cos_2a. set (s := sin u) in *. set (c := cos u) in *.
  pose proof (COS_bound u) as [_ C1]. fold c in C1.
  assert (E : 2 * s * c * c + (c * c - s * s) * s = s * (4 * (c * c) - 1)).
  { replace (s * s) with (1 - c * c) by lra. ring. }
  rewrite E. assert (P : 0 < 4 * (c * c) - 1) by nra. split; [apply Rmult_lt_0_compat; lra|].
  replace (2 * s * c / (s * (4 * (c * c) - 1))) with (2 * c / (4 * (c * c) - 1)) by (field; split; lra).
  apply Rmult_le_reg_r with (4 * (c * c) - 1); [exact P|]. replace (2 * c / (4 * (c * c) - 1) * (4 * (c * c) - 1)) with (2 * c) by (field; lra). nra.
Qed.
Lemma radial_row g G F i : 0 < s_dr G -> 0 < s_dth G < PI / 2 -> 19 / 20 <= cos (s_dth G / 2) -> x2_min G = 0 ->
  (forall a b, F Ex1 (loc g [a; b]) = ((IZR a + / 2) * s_dr G + x1_min G) / s_dr G) -> (forall a b, F Ex2 (loc g [a; b]) = 0) ->
  0 < IZR i * s_dr G + x1_min G ->
  div_value g false (sph_sd G) F (loc g [i; 1%Z]) <= 9 / 4.
Proof.
  intros Hr Ht Hc H0 H1 H2 Hp. destruct (second_row (s_dth G) (proj1 Ht) (proj2 Ht) Hc) as [S1 S2].
  rewrite (radial g G F i 1); auto; try lra; rewrite H0; replace (1 * s_dth G + 0) with (s_dth G) by ring; [|lra].
  set (r := IZR i * s_dr G + x1_min G) in *. set (h := s_dr G) in *. set (q := sin (s_dth G) / sin (s_dth G + s_dth G / 2)) in *.
  assert (P : 0 < (r + h / 2) ^ 2) by (apply pow_lt; lra).
  assert (A : (3 * r ^ 2 + h ^ 2 / 4) / (r + h / 2) ^ 2 <= 3).
  { apply Rmult_le_reg_r with ((r + h / 2) ^ 2); [exact P|]. replace ((3 * r ^ 2 + h ^ 2 / 4) / (r + h / 2) ^ 2 * (r + h / 2) ^ 2) with (3 * r ^ 2 + h ^ 2 / 4) by (field; lra). nra. }
  assert (B : 0 <= (3 * r ^ 2 + h ^ 2 / 4) / (r + h / 2) ^ 2).
  { apply Rmult_le_reg_r with ((r + h / 2) ^ 2); [exact P|]. replace ((3 * r ^ 2 + h ^ 2 / 4) / (r + h / 2) ^ 2 * (r + h / 2) ^ 2) with (3 * r ^ 2 + h ^ 2 / 4) by (field; lra). nra. }
  assert (Q0 : 0 <= q). { unfold q. apply Rlt_le, Rdiv_lt_0_compat; [|exact S1]. apply sin_gt_0; [tauto|]. pose proof PI_RGT_0. lra. }
  nra.
Qed.
Lemma out_sphere g G n1 n2 gbc order k em : (1 <= g)%Z -> length gbc = 2%nat -> paired_flds gbc -> (forall o l, Permutation (order o l) l) -> (k < 6)%nat ->
  nx1 G = n1 -> nx2 G = n2 -> (0 < n1)%Z -> (1 < n2)%Z ->
  0 < s_dr G -> 0 < x1_min G -> x2_min G = 0 -> 0 < s_dth G < PI / 2 -> 19 / 20 <= cos (s_dth G / 2) ->
  (forall a b, em [0; 0]%Z Ex1 (loc g [a; b]) = ((IZR a + / 2) * s_dr G + x1_min G) / s_dr G) -> (forall a b, em [0; 0]%Z Ex2 (loc g [a; b]) = 0) ->
  exists out, divergence_output g [[n1]; [n2]] gbc false (fun _ => sph_sd G) order k em = Ok out /\
  forall i, (0 <= i < n1)%Z -> out [0; 0]%Z (loc g [i; 0%Z]) = 0 /\ out [0; 0]%Z (loc g [i; 1%Z]) <= 9 / 4.
Proof.
  intros Hg L P HO Hk G1 G2 N1 N2 Hr Hx H0 Ht Hc A B.
  destruct (out_value g [[n1]; [n2]] gbc false (fun _ => sph_sd G) order k em ltac:(lia) L P ltac:(unfold dimension; cbn; lia) HO Hk) as [out [E H]].
  exists out. split; [exact E|]. intros i Hi.
  assert (Ha : in_box [0; 0]%Z (counts [[n1]; [n2]])) by (repeat constructor; cbn; lia).
  destruct (pos_dom [[n1]; [n2]] [0; 0]%Z Ha) as [d [Hd Ed]]. destruct (dom_pos [[n1]; [n2]] d Hd) as [_ [E1 _]]. rewrite Ed in E1. cbn in E1.
  assert (I0 : in_box [i; 0]%Z (sub_ncells d)) by (rewrite E1; repeat constructor; cbn; lia).
  assert (I1 : in_box [i; 1]%Z (sub_ncells d)) by (rewrite E1; repeat constructor; cbn; lia).
  pose proof (H d _ Hd I0) as Q0. pose proof (H d _ Hd I1) as Q1. rewrite Ed in Q0, Q1. rewrite Q0, Q1.
  assert (Hi0 : 0 <= IZR i) by (apply IZR_le; lia).
  assert (R0 : 0 < IZR i * s_dr G + x1_min G) by nra.
  split.
  - apply radial_axis; auto; try lra. apply Rgt_not_eq, sin_gt_0; pose proof PI_RGT_0; lra.
  - apply radial_row; auto.
Qed.
