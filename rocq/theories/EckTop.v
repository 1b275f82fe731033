From Coq Require Import Reals ZArith List Bool Lra Lia Psatz.
From Verif Require Import Base MetModel MetSpec MetProofs KsModel KsSpec KsProofs KsTop SpctTop EckModel EckSpec EckProofs.
Import ListNotations.
Open Scope R_scope.

Lemma raise_inner M x : engine_metric M x -> forall w u1 u2 u3,
  let v := gr_cov_to_cntrv4 M x (w, u1, u2, u3) in
  quad4 (fun i j => m_g M i j x) w (u1, u2, u3) = inner M x v v /\
  sum4 (fun j => m_g M 0 j x * comp4 w (u1, u2, u3) j) = at4 v 0 /\
  (forall i, (i < 4)%nat -> sum4 (fun j => m_g_ M i j x * at4 v j) = comp4 w (u1, u2, u3) i).
Proof.
  intros EM w u1 u2 u3 v. destruct (engine_form M x EM) as (Rg & mu & a & e1 & e2 & F). destruct (engine_tetrad M x EM) as (tal & tbe & tA & tb & tc & tq & T).
  assert (Lo : forall i, (i < 4)%nat -> sum4 (fun j => m_g_ M i j x * at4 v j) = comp4 w (u1, u2, u3) i).
  { intros i Hi. rewrite <- (te_lower _ _ _ _ _ _ _ _ T) by exact Hi. unfold v. rewrite (proj2 (lower_upper M x EM _)).
    destruct i as [|[|[|[|i]]]]; [| | | |lia]; reflexivity. }
  destruct (form_g _ _ _ _ _ _ F Rg) as (al & be & A0 & b & c & q & ha & hA & hb & hc & _ & G00 & G01 & G10 & G11 & G22 & G13 & G31 & G33 & Z1 & Z2 & Z3 & Z4 & Z5 & Z6 & Z7 & Z8).
  assert (U0 : at4 v 0 = w * m_g M 0 0 x + u1 * m_g M 0 1 x) by reflexivity.
  assert (U1 : at4 v 1 = w * m_g M 1 0 x + u1 * m_g M 1 1 x + u3 * m_g M 1 3 x) by reflexivity.
  assert (U2 : at4 v 2 = u2 * m_g M 2 2 x) by reflexivity.
  assert (U3 : at4 v 3 = u1 * m_g M 3 1 x + u3 * m_g M 3 3 x) by reflexivity.
  split; [|split; [|exact Lo]].
  - transitivity (w * at4 v 0 + u1 * at4 v 1 + u2 * at4 v 2 + u3 * at4 v 3).
    + rewrite U0, U1, U2, U3. unfold quad4, sum4, comp4, c1, c2, c3. cbn [fst snd]. rewrite Z1, Z2, Z3, Z4, Z5, Z6, Z7, Z8. ring.
    + pose proof (Lo 0%nat ltac:(lia)) as L0. pose proof (Lo 1%nat ltac:(lia)) as L1. pose proof (Lo 2%nat ltac:(lia)) as L2. pose proof (Lo 3%nat ltac:(lia)) as L3.
      unfold comp4, c1, c2, c3 in L0, L1, L2, L3. cbn [fst snd] in L0, L1, L2, L3.
      rewrite <- L0, <- L1, <- L2, <- L3. unfold inner, sum4. ring.
  - rewrite U0. unfold sum4, comp4, c1, c2, c3. cbn [fst snd]. rewrite Z1, Z3. ring.
Qed.

Lemma up4_unfold M p u1 u2 u3 : q_u p = (u1, u2, u3) -> up4 M p = gr_cov_to_cntrv4 M (q_x p) (gr_u_0 M (q_x p) (u1, u2, u3) (pnorm p), u1, u2, u3).
Proof. intros E. unfold up4, pnorm. rewrite E. reflexivity. Qed.
Lemma pnorm_nonneg p : 0 <= pnorm p.
Proof. unfold pnorm. destruct (Req_EM_T _ _); lra. Qed.
Lemma pnorm_opp p : (if Req_EM_T (q_mass p) 0 then 0 else -1) = - pnorm p.
Proof. unfold pnorm. destruct (Req_EM_T _ _); lra. Qed.

Lemma up4_is M p : engine_metric M (q_x p) -> moves p -> four_velocity M p (up4 M p).
Proof.
  intros EM Mv. pose proof (gamma_pos M p EM Mv) as P. destruct (engine_form _ _ EM) as (Rg & mu & a & e1 & e2 & F).
  destruct (q_u p) as [[u1 u2] u3] eqn:EU. unfold four_velocity. rewrite pnorm_opp. rewrite (up4_unfold _ _ _ _ _ EU) in *.
  destruct (raise_inner M _ EM (gr_u_0 M (q_x p) (u1, u2, u3) (pnorm p)) u1 u2 u3) as (Q & _ & Lo). cbv zeta in Q, Lo.
  destruct (form_u0 _ _ _ _ _ _ F Rg (u1, u2, u3) (pnorm p) (pnorm_nonneg p)) as (Q' & _). cbv zeta in Q'.
  split; [|split; [rewrite <- Q; exact Q'|exact P]].
  intros i Hi. rewrite Lo by lia. rewrite EU. destruct i as [|[|[|i]]]; [lia| | |]; reflexivity.
Qed.
Lemma up4_unique M p v : engine_metric M (q_x p) -> four_velocity M p v -> v = up4 M p.
Proof.
  intros EM (Lo & I & P). destruct (engine_form _ _ EM) as (Rg & mu & a & e1 & e2 & F).
  destruct (q_u p) as [[u1 u2] u3] eqn:EU. rewrite pnorm_opp in I. rewrite (up4_unfold _ _ _ _ _ EU).
  destruct (engine_tetrad M _ EM) as (tal & tbe & tA & tb & tc & tq & T).
  pose proof (fun i => te_lower _ _ _ _ _ _ _ _ T v i) as Lw.
  assert (E : gr_cntrv_to_cov4 M (q_x p) v = (at4 (gr_cntrv_to_cov4 M (q_x p) v) 0, u1, u2, u3)).
  { pose proof (Lw 1%nat ltac:(lia)) as L1. pose proof (Lw 2%nat ltac:(lia)) as L2. pose proof (Lw 3%nat ltac:(lia)) as L3.
    rewrite (Lo 1%nat) in L1 by lia. rewrite (Lo 2%nat) in L2 by lia. rewrite (Lo 3%nat) in L3 by lia.
    unfold comp4, c1, c2, c3 in L1, L2, L3. cbn [fst snd] in L1, L2, L3.
    destruct (gr_cntrv_to_cov4 M (q_x p) v) as [[[d0 d1] d2] d3]. cbn [at4] in *. subst. reflexivity. }
  set (w := at4 (gr_cntrv_to_cov4 M (q_x p) v) 0) in *.
  assert (V : v = gr_cov_to_cntrv4 M (q_x p) (w, u1, u2, u3)) by (rewrite <- E; symmetry; apply (lower_upper M _ EM)).
  destruct (raise_inner M _ EM w u1 u2 u3) as (Q & U & _). cbv zeta in Q, U. rewrite <- V in Q, U.
  destruct (form_u0 _ _ _ _ _ _ F Rg (u1, u2, u3) (pnorm p) (pnorm_nonneg p)) as (_ & _ & _ & Un). cbv zeta in Un.
  rewrite <- (Un w); [exact V|rewrite Q; exact I|rewrite U; lra].
Qed.

Lemma flux_at M p c : engine_metric M (q_x p) -> moves p -> flux_component M p c = massfac p * (at4 (up4 M p) c / at4 (up4 M p) 0).
Proof.
  intros EM Mv. pose proof (gamma_pos M p EM Mv) as P. unfold flux_component.
  destruct c as [|c]; cbv zeta; field; lra.
Qed.
Lemma deposit_sum M ps c : deposit M ps c = sum_list (map (fun p => q_share p * flux_component M p c) ps).
Proof.
  unfold deposit. assert (H : forall l acc, fold_left (fun acc p => acc + q_share p * flux_component M p c) l acc = acc + sum_list (map (fun p => q_share p * flux_component M p c) l)).
  { induction l as [|p l IH]; intros acc; cbn; [ring|]. rewrite IH. unfold sum_list. ring. }
  rewrite H. ring.
Qed.
Lemma cell_flux_at M ps c : (c < 4)%nat -> at4 (cell_flux M ps) c = deposit M ps c.
Proof. intros. unfold cell_flux. destruct c as [|[|[|[|c]]]]; [| | | |lia]; reflexivity. Qed.

Lemma flux_total M ps : (forall p, In p ps -> engine_metric M (q_x p) /\ moves p) ->
  (forall p, In p ps -> exists v, four_velocity M p v) /\
  forall up, (forall p, In p ps -> four_velocity M p (up p)) -> is_total up ps (cell_flux M ps).
Proof.
  intros H. split.
  - intros p Hp. destruct (H p Hp). exists (up4 M p). apply up4_is; assumption.
  - intros up Hu c Hc. rewrite cell_flux_at, deposit_sum by exact Hc. f_equal. apply map_ext_in. intros p Hp.
    destruct (H p Hp) as [EM Mv]. rewrite flux_at by assumption. rewrite (up4_unique M p (up p) EM (Hu p Hp)). unfold massfac. ring.
Qed.

(** ** The sum of causal fluxes *)
Definition single M p : vec4 := (flux_component M p 0, flux_component M p 1, flux_component M p 2, flux_component M p 3).
Fixpoint total4 M ps : vec4 := match ps with [] => (0, 0, 0, 0) | p :: r => add4 (scale4 (q_share p) (single M p)) (total4 M r) end.
Lemma cell_total M ps : cell_flux M ps = total4 M ps.
Proof.
  unfold cell_flux. rewrite !deposit_sum. induction ps as [|p ps IH]; [reflexivity|]. cbn [total4]. rewrite <- IH. cbn [single scale4 add4 map]. reflexivity.
Qed.
Lemma massfac_pos p : 0 <= q_mass p -> 0 < massfac p.
Proof. unfold massfac. destruct (Req_EM_T _ _); lra. Qed.
Lemma zero_causal M x : engine_metric M x -> causal M x (0, 0, 0, 0).
Proof.
  intros EM. destruct (engine_tetrad M x EM) as (al & be & A & b & c & q & T). split; [|cbn [at4]; lra].
  rewrite (te_inner _ _ _ _ _ _ _ _ T). cbn [at4]. apply Req_le. ring.
Qed.

Section Cone.
  Variables (M : grmet) (x : coord2).
  Hypothesis EM : engine_metric M x.
  Lemma share_causal p : counted p -> inner M x (single M p) (single M p) <= 0 -> causal M x (scale4 (q_share p) (single M p)).
  Proof.
    intros [S Ms] I. destruct (engine_tetrad M x EM) as (al & be & A & b & c & q & T). split.
    - rewrite (inner_scale _ _ _ _ _ _ _ _ T). assert (0 <= q_share p * q_share p * - inner M x (single M p) (single M p)); [|lra].
      apply Rmult_le_pos; [apply Rmult_le_pos; exact S|lra].
    - rewrite at4_scale. apply Rmult_le_pos; [exact S|]. cbn [single at4 flux_component]. pose proof (massfac_pos p Ms). lra.
  Qed.
  Lemma total_causal ps : (forall p, In p ps -> counted p /\ inner M x (single M p) (single M p) <= 0) -> causal M x (total4 M ps).
  Proof.
    destruct (engine_tetrad M x EM) as (al & be & A & b & c & q & T).
    induction ps as [|p ps IH]; intros H; [apply zero_causal; exact EM|]. cbn [total4].
    apply (causal_add _ _ _ _ _ _ _ _ T); [apply share_causal; apply H; left; reflexivity|apply IH; intros p' Hp; apply H; right; exact Hp].
  Qed.
  Lemma total_timelike ps : (forall p, In p ps -> counted p /\ inner M x (single M p) (single M p) <= 0) ->
    (exists p, In p ps /\ 0 < q_share p /\ inner M x (single M p) (single M p) < 0) ->
    inner M x (total4 M ps) (total4 M ps) < 0 /\ 0 < at4 (total4 M ps) 0.
  Proof.
    destruct (engine_tetrad M x EM) as (al & be & A & b & c & q & T).
    intros H E. assert (L : inner M x (total4 M ps) (total4 M ps) < 0).
    { induction ps as [|p ps IH]; [destruct E as (p & [] & _)|]. cbn [total4].
      assert (C1 : causal M x (scale4 (q_share p) (single M p))) by (apply share_causal; apply H; left; reflexivity).
      assert (C2 : causal M x (total4 M ps)) by (apply total_causal; intros p' Hp; apply H; right; exact Hp).
      destruct E as (p' & [->|Hp] & S & I).
      - apply (timelike_add _ _ _ _ _ _ _ _ T); [exact C1|exact C2|]. rewrite (inner_scale _ _ _ _ _ _ _ _ T).
        assert (0 < q_share p' * q_share p' * - inner M x (single M p') (single M p')); [|lra]. apply Rmult_lt_0_compat; [apply Rmult_lt_0_compat; exact S|lra].
      - apply (timelike_add_r _ _ _ _ _ _ _ _ T); [exact C1|exact C2|]. apply IH; [intros p'' Hp'; apply H; right; exact Hp'|exists p'; auto]. }
    split; [exact L|]. destruct (total_causal ps H) as [I P]. destruct (timelike_fast _ _ _ _ _ _ _ _ T _ I P) as [Z|Z]; [lra|exact Z].
  Qed.
End Cone.

Lemma single_scale M p : engine_metric M (q_x p) -> moves p -> single M p = scale4 (massfac p / at4 (up4 M p) 0) (up4 M p).
Proof.
  intros EM Mv. unfold single. rewrite !flux_at by assumption. pose proof (gamma_pos M p EM Mv) as P.
  destruct (up4 M p) as [[[v0 v1] v2] v3]. cbn [scale4 at4] in *. apply quad_eq; field; lra.
Qed.
Lemma single_here M p : engine_metric M (q_x p) -> moves p -> 0 <= q_mass p ->
  inner M (q_x p) (single M p) (single M p) <= 0 /\ (q_mass p <> 0 -> inner M (q_x p) (single M p) (single M p) < 0).
Proof.
  intros EM Mv Ms. destruct (engine_tetrad _ _ EM) as (al & be & A & b & c & q & T).
  rewrite (single_scale M p EM Mv), (inner_scale _ _ _ _ _ _ _ _ T).
  destruct (up4_is M p EM Mv) as (_ & -> & P). pose proof (massfac_pos p Ms) as mp.
  assert (K : 0 < massfac p / at4 (up4 M p) 0) by (apply Rdiv_lt_0_compat; assumption).
  assert (KK : 0 < massfac p / at4 (up4 M p) 0 * (massfac p / at4 (up4 M p) 0)) by (apply Rmult_lt_0_compat; exact K).
  destruct (Req_EM_T (q_mass p) 0) as [Z|Z]; (split; [lra|intros; try contradiction; lra]).
Qed.

(** Statements in terms of the four-velocities. *)
Lemma cone M x ps up : engine_metric M x ->
  (forall p, In p ps -> engine_metric M (q_x p) /\ moves p /\ counted p /\ four_velocity M p (up p) /\ inner M x (up p) (up p) <= 0) ->
  (exists p, In p ps /\ 0 < q_share p /\ inner M x (up p) (up p) < 0) ->
  inner M x (cell_flux M ps) (cell_flux M ps) < 0 /\ 0 < at4 (cell_flux M ps) 0.
Proof.
  intros EM H E. rewrite cell_total. destruct (engine_tetrad M x EM) as (al & be & A & b & c & q & T).
  assert (S : forall p, In p ps -> exists k, 0 < k /\ inner M x (single M p) (single M p) = k * inner M x (up p) (up p)).
  { intros p Hp. destruct (H p Hp) as (EP & Mv & [_ Ms] & FV & _). rewrite (up4_unique M p (up p) EP FV).
    pose proof (gamma_pos M p EP Mv) as P. pose proof (massfac_pos p Ms) as mp.
    assert (K : 0 < massfac p / at4 (up4 M p) 0) by (apply Rdiv_lt_0_compat; assumption).
    exists (massfac p / at4 (up4 M p) 0 * (massfac p / at4 (up4 M p) 0)). split; [apply Rmult_lt_0_compat; exact K|].
    rewrite (single_scale M p EP Mv), (inner_scale _ _ _ _ _ _ _ _ T). reflexivity. }
  apply (total_timelike M x EM).
  - intros p Hp. destruct (H p Hp) as (_ & _ & C & _ & I). split; [exact C|]. destruct (S p Hp) as (k & K & ->).
    assert (0 <= k * - inner M x (up p) (up p)) by (apply Rmult_le_pos; lra). lra.
  - destruct E as (p & Hp & Sh & I). exists p. split; [exact Hp|]. split; [exact Sh|]. destruct (S p Hp) as (k & K & ->).
    assert (0 < k * - inner M x (up p) (up p)) by (apply Rmult_lt_0_compat; lra). lra.
Qed.

(** One common four-velocity. *)
Lemma cold eps M x ps V : engine_metric M x -> 0 <= eps -> future_unit M x V ->
  (forall p, In p ps -> engine_metric M (q_x p) /\ moves p /\ counted p /\ four_velocity M p V) ->
  let n := sum_list (map (fun p => q_share p * (if Req_EM_T (q_mass p) 0 then 1 else q_mass p)) ps) in
  eps < n -> eps < n / at4 V 0 -> normalize eps M x (cell_flux M ps) = V.
Proof.
  intros EM He FU H n Hn Hn'. pose proof FU as [VI VP].
  destruct (engine_tetrad M x EM) as (al & be & A & b & c & q & T).
  assert (N : cell_flux M ps = scale4 (n / at4 V 0) V).
  { assert (P : forall c, (c < 4)%nat -> at4 (cell_flux M ps) c = n * (at4 V c / at4 V 0)).
    { intros c' Hc. destruct (flux_total M ps) as [_ Tt]; [intros p Hp; destruct (H p Hp) as (? & ? & _); auto|].
      rewrite (Tt (fun _ => V)); [|intros p Hp; apply H; exact Hp|exact Hc]. unfold n. cbv beta. clear. induction ps as [|p ps IH]; cbn [map sum_list fold_right]; [ring|].
      unfold sum_list in IH. rewrite IH. ring. }
    pose proof (P 0%nat ltac:(lia)) as P0. pose proof (P 1%nat ltac:(lia)) as P1. pose proof (P 2%nat ltac:(lia)) as P2. pose proof (P 3%nat ltac:(lia)) as P3.
    destruct (cell_flux M ps) as [[[n0 n1] n2] n3]. destruct V as [[[v0 v1] v2] v3]. cbn [at4 scale4] in *. subst. apply quad_eq; field; lra. }
  assert (I : inner M x (cell_flux M ps) (cell_flux M ps) = - (n / at4 V 0 * (n / at4 V 0))) by (rewrite N, (inner_scale _ _ _ _ _ _ _ _ T), VI; ring).
  destruct (normalize_direction eps M x (cell_flux M ps) EM He) as [_ U].
  - rewrite N, at4_scale. replace (n / at4 V 0 * at4 V 0) with n by (field; lra). exact Hn.
  - rewrite I. assert (eps * eps < n / at4 V 0 * (n / at4 V 0)) by (apply Rmult_le_0_lt_compat; assumption). lra.
  - symmetry. exact (proj1 (U _ V FU N)).
Qed.

Lemma physical M x V d1 d2 : engine_metric M x -> derivable_pt_lim (m_r M) (fst x) d1 -> derivable_pt_lim (m_th M) (snd x) d2 ->
  to_physical M x V = Some (at4 V 0, d1 * at4 V 1, d2 * at4 V 2, at4 V 3).
Proof.
  intros EM D1 D2. destruct (engine_form M x EM) as (Rg & mu & a & e1 & e2 & F).
  pose proof (uniqueness_limite _ _ _ _ D1 (fo_r _ _ _ _ _ _ F)) as ->. pose proof (uniqueness_limite _ _ _ _ D2 (fo_th _ _ _ _ _ _ F)) as ->.
  destruct V as [[[v0 v1] v2] v3]. unfold to_physical. cbn [gr_transform option_map at4].
  destruct (fo_phys _ _ _ _ _ _ F v1) as (-> & _). destruct (fo_phys _ _ _ _ _ _ F v2) as (_ & -> & _). destruct (fo_phys _ _ _ _ _ _ F v3) as (_ & _ & ->).
  f_equal. apply quad_eq; ring.
Qed.

Lemma flux_nonneg M ps : (forall p, In p ps -> counted p) -> 0 <= at4 (cell_flux M ps) 0.
Proof.
  intros H. rewrite cell_flux_at, deposit_sum by lia. induction ps as [|p ps IH]; cbn [map sum_list fold_right]; [lra|].
  destruct (H p (or_introl eq_refl)) as [S Ms]. pose proof (massfac_pos p Ms).
  assert (0 <= q_share p * flux_component M p 0) by (apply Rmult_le_pos; [exact S|cbn [flux_component]; lra]).
  unfold sum_list in IH. specialize (IH (fun p' Hp => H p' (or_intror Hp))). lra.
Qed.

(** Particle on a circle inside the one through the centre of the cell, no black hole. *)
Lemma displaced eps g i1 i2 y1 u3 : sensible g -> 0 <= eps -> eps < 1 ->
  let M := ks0 g in let x := centre i1 i2 in
  gr_regular M x -> gr_regular M (y1, snd x) -> 0 < u3 ->
  let r := m_r M (fst x) in let r' := m_r M y1 in let w := u3 / (r' * sin (m_th M (snd x))) in
  1 <= w ^ 2 * (r ^ 2 / r' ^ 2 - 1) ->
  let p := Con (y1, snd x) (0, 0, u3) 1 1 in
  0 < at4 (up4 M p) 3 /\ at4 (up4 M p) 0 = sqrt (1 + w ^ 2) /\ normalize eps M x (cell_flux M [p]) = (1, 0, 0, 0).
Proof.
  intros S He He1 M x Rx Ry Hu r r' w HW p.
  assert (EX : engine_metric M x) by (apply em_ks0; assumption). assert (EY : engine_metric M (q_x p)) by (apply em_ks0; assumption).
  assert (Mv : moves p) by (left; cbn; lra).
  assert (rp : 0 < r') by (exact (proj1 Ry)). assert (r0 : 0 < r) by (exact (proj1 Rx)).
  assert (sp : 0 < sin (m_th M (snd x))) by (destruct Rx as [_ [h1 h2]]; apply sin_gt_0; assumption). set (s := sin (m_th M (snd x))) in *.
  assert (wp : 0 < w) by (apply Rdiv_lt_0_compat; [exact Hu|apply Rmult_lt_0_compat; assumption]).
  assert (E : up4 M p = (sqrt (1 + w ^ 2), 0, 0, u3 / (r' * s * (r' * s)))).
  { unfold up4. cbn [q_u q_x q_mass p]. destruct (Req_EM_T 1 0) as [B|_]; [lra|].
    unfold gr_cov_to_cntrv4, gr_u_0. subst M. cbn [ks0 m_g]. unfold k0_g. cbn [k0_h fst snd]. change (k_r g y1) with r'. change (sin (k_th g (snd x))) with s. unfold sqr.
    apply quad_eq.
    - match goal with |- context [sqrt ?D] => replace D with (2 * 2 * (1 + w ^ 2)) end.
      + rewrite sqrt_mult_alt, sqrt_square by lra. field.
      + unfold w. fold s. pose proof (s_dr_pos g S). pose proof (s_dth_pos g S). unfold s_dr_inv, s_dth_inv. field. repeat split; lra.
    - ring.
    - ring.
    - field. repeat split; lra. }
  rewrite E. cbn [at4]. split; [apply Rdiv_lt_0_compat; [exact Hu|repeat apply Rmult_lt_0_compat; assumption]|]. split; [reflexivity|].
  assert (qp : 0 < sqrt (1 + w ^ 2)) by (apply sqrt_lt_R0; pose proof (pow2_ge_0 w); lra).
  assert (qq : sqrt (1 + w ^ 2) * sqrt (1 + w ^ 2) = 1 + w ^ 2) by (apply sqrt_sqrt; pose proof (pow2_ge_0 w); lra).
  set (k := sqrt (1 + w ^ 2)) in *.
  assert (N : cell_flux M [p] = (1, 0, 0, u3 / (r' * s * (r' * s)) / k)).
  { unfold cell_flux, deposit. cbn [fold_left]. rewrite !flux_at by assumption. rewrite E. cbn [at4 q_share p]. unfold massfac. cbn [q_mass p]. destruct (Req_EM_T 1 0) as [B|_]; [lra|].
    apply quad_eq; field; repeat split; lra. }
  assert (I : inner M x (cell_flux M [p]) (cell_flux M [p]) = -1 + w ^ 2 * (r ^ 2 / r' ^ 2) / (k * k)).
  { rewrite N. unfold inner, sum4. cbn [at4]. subst M. cbn [ks0 m_g_]. unfold k0_g_. cbn [k0_h_ fst snd]. change (k_r g (fst x)) with r. change (sin (k_th g (snd x))) with s. unfold sqr, w. fold s. field. repeat split; lra. }
  assert (Nn : - (eps * eps) <= inner M x (cell_flux M [p]) (cell_flux M [p])).
  { rewrite I, qq. assert (0 <= eps * eps) by (apply Rmult_le_pos; exact He). pose proof (pow2_ge_0 w).
    assert (1 <= w ^ 2 * (r ^ 2 / r' ^ 2) / (1 + w ^ 2)); [|lra]. apply Rmult_le_reg_r with (1 + w ^ 2); [lra|].
    replace (w ^ 2 * (r ^ 2 / r' ^ 2) / (1 + w ^ 2) * (1 + w ^ 2)) with (w ^ 2 * (r ^ 2 / r' ^ 2)) by (field; split; lra). lra. }
  destruct (normalize_cases eps M x (cell_flux M [p]) EX He) as [(_ & L & _)|(_ & ->)].
  - rewrite N. cbn [at4]. lra.
  - lra.
  - unfold zamo_fallback. subst M. cbn [ks0 m_alpha m_beta1]. apply quad_eq; field.
Qed.
