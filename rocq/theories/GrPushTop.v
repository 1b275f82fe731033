From Coq Require Import Reals ZArith List Bool Lra Lia.
From Verif Require Import Base DirsModel TopoModel VelModel VelProofs PushModel PushSpec PushProofs MetModel MetSpec KsModel KsSpec StretchProofs DerivLemmas MetProofs KsProofs KsDeriv KsDeriv2 KsTop GrPushModel GrPushSpec GrPushProofs.
Import ListNotations.
Open Scope R_scope.

(** ** Position *)
Lemma small_ok : 0 < small_angle_gr /\ small_angle_gr < PI - small_angle_gr /\ PI - small_angle_gr < PI.
Proof. pose proof PI2_3_2. unfold small_angle_gr. repeat split; lra. Qed.

Lemma off_axis_spec : forall M to_cd x, (forall t, small_angle_gr <= t <= PI - small_angle_gr -> m_th M (to_cd t) = t) ->
  fst (off_axis M to_cd x) = fst x /\ m_th M (snd (off_axis M to_cd x)) = kept_off (m_th M (snd x)) /\
  (small_angle_gr <= m_th M (snd x) < PI - small_angle_gr -> off_axis M to_cd x = x).
Proof.
  intros M to_cd x I. destruct small_ok as (s0 & s1 & s2). unfold off_axis, kept_off. cbn [fst snd].
  split; [reflexivity|]. destruct (Rlt_dec (m_th M (snd x)) small_angle_gr); [|destruct (Rle_dec (PI - small_angle_gr) (m_th M (snd x)))].
  - split; [|intros; lra]. rewrite I by lra. rewrite Rmin_left by lra. rewrite Rmax_left by lra. reflexivity.
  - split; [|intros; lra]. rewrite I by lra. rewrite Rmin_right by lra. rewrite Rmax_right by lra. reflexivity.
  - split; [|intros; destruct x; reflexivity]. rewrite Rmin_left by lra. rewrite Rmax_right by lra. reflexivity.
Qed.
Lemma kept_off_range : forall t, 0 < kept_off t < PI.
Proof.
  intros t. destruct small_ok as (s0 & s1 & s2). unfold kept_off. pose proof (Rmax_l small_angle_gr (Rmin t (PI - small_angle_gr))) as a.
  split; [lra|]. apply Rmax_lub_lt; [lra|]. pose proof (Rmin_r t (PI - small_angle_gr)). lra.
Qed.

Lemma coordinate_succ : forall M to_cd nrm dt n x u, sparse M ->
  let m := off_axis M to_cd (between x (coordinate_push M to_cd nrm dt n x u)) in
  0 < m_alpha M m -> 0 < gr_gamma M m nrm u ->
  coordinate_push M to_cd nrm dt (S n) x u = (fst x + dt * gr_velocity M m nrm u 1, snd x + dt * gr_velocity M m nrm u 2).
Proof.
  intros M to_cd nrm dt n x u S m A G.
  assert (E : coordinate_push M to_cd nrm dt (Datatypes.S n) x u = coordinate_iter M to_cd nrm dt x u (coordinate_push M to_cd nrm dt n x u)) by reflexivity.
  rewrite E. unfold coordinate_iter.
  change (1 / 2 * (fst x + fst (coordinate_push M to_cd nrm dt n x u)), 1 / 2 * (snd x + snd (coordinate_push M to_cd nrm dt n x u)))
    with (between x (coordinate_push M to_cd nrm dt n x u)). fold m.
  rewrite (gamma_eq M S), (raise_eq M S). unfold v1, v2. cbn [fst snd]. unfold gr_velocity. cbn [shift].
  set (q := gr_gamma M m nrm u) in *. set (p := m_alpha M m) in *. clearbody q p.
  apply (f_equal2 (@pair R R)); field; split; lra.
Qed.

Lemma position_step : forall M to_cd nrm dt n x u, kerr_metric M ->
  (forall t, small_angle_gr <= t <= PI - small_angle_gr -> m_th M (to_cd t) = t) ->
  let y := between x (coordinate_push M to_cd nrm dt n x u) in
  0 < m_r M (fst y) ->
  exists m, fst m = fst y /\ m_th M (snd m) = kept_off (m_th M (snd y)) /\
    (small_angle_gr <= m_th M (snd y) < PI - small_angle_gr -> m = y) /\
    (moving M nrm m u ->
     let x' := coordinate_push M to_cd nrm dt (S n) x u in
     position_law M nrm dt m u x x' /\
     Rabs (fst x' - fst x) <= Rabs dt / gr_cell_size M m /\ Rabs (snd x' - snd x) <= Rabs dt / gr_cell_size M m).
Proof.
  intros M to_cd nrm dt n x u K I y rp. exists (off_axis M to_cd y).
  destruct (off_axis_spec M to_cd y I) as (o1 & o2 & o3). split; [exact o1|]. split; [exact o2|]. split; [exact o3|].
  intros mv x'. pose proof (moving_gamma _ _ _ _ mv) as G. set (m := off_axis M to_cd y) in *.
  assert (Rg : gr_regular M m). { split; [rewrite o1; exact rp|]. rewrite o2. apply kept_off_range. }
  destruct (kerr_form M m K Rg) as (mu & a & e1 & e2 & F). destruct (form_adm _ _ _ _ _ _ F Rg) as (al & _).
  assert (E : x' = (fst x + dt * gr_velocity M m nrm u 1, snd x + dt * gr_velocity M m nrm u 2)).
  { apply coordinate_succ; [apply kerr_sparse; exact K|exact al|exact G]. }
  destruct (velocity_is_dH M nrm m u K mv) as (h1 & h2 & h3).
  split; [exists (gr_velocity M m nrm u 1), (gr_velocity M m nrm u 2); rewrite E; cbn [fst snd]; auto|].
  rewrite E. cbn [fst snd]. destruct mv as [nn P].
  pose proof (form_speed _ _ _ _ _ _ F Rg nrm u 1 nn P (or_introl eq_refl)) as s1.
  pose proof (form_speed _ _ _ _ _ _ F Rg nrm u 2 nn P (or_intror eq_refl)) as s2.
  assert (gen : forall p v, Rabs v <= 1 / gr_cell_size M m -> Rabs (p + dt * v - p) <= Rabs dt / gr_cell_size M m).
  { intros p v hv. replace (p + dt * v - p) with (dt * v) by ring. rewrite Rabs_mult.
    apply Rle_trans with (Rabs dt * (1 / gr_cell_size M m)); [apply Rmult_le_compat_l; [apply Rabs_pos|exact hv]|]. right. unfold Rdiv. ring. }
  split; apply gen; assumption.
Qed.

(** ** Electromagnetic half push *)
Lemma em_boris : forall M h x u D B, em_half M h x u D B = tr M IT ID x (boris (h * (1 / 2) * m_alpha M x) (tr M ID IT x u) D B).
Proof.
  intros M h x u D B. unfold em_half, boris. f_equal. set (t := tr M ID IT x u). set (c := h * (1 / 2) * m_alpha M x).
  set (u0 := vadd t (vscale c D)). unfold norm_sqr. rewrite <- !Rplus_assoc.
  set (k := c * (1 / sqrt (1 + v1 u0 * v1 u0 + v2 u0 * v2 u0 + v3 u0 * v3 u0))). set (b0 := vscale k B).
  set (k2 := 2 / (1 + v1 b0 * v1 b0 + v2 b0 * v2 b0 + v3 b0 * v3 b0)).
  clearbody u0 b0 k2. destruct u0 as [[p1 p2] p3], b0 as [[q1 q2] q3]. cbv [vadd vscale cross v1 v2 v3 fst snd].
  apply triple_eq; ring.
Qed.

Section Tetrad.
  Variables (mu a : R) (M : grmet) (x : coord2) (e1 e2 : R).
  Hypothesis F : form mu a M x e1 e2.
  Hypothesis Rg : gr_regular M x.
  Lemma tetrad_back : forall u, tr M IT ID x (tr M ID IT x u) = u /\ tr M ID IT x (tr M IT ID x u) = u.
  Proof.
    intros u. pose proof (form_undo _ _ _ _ _ _ F Rg) as U. unfold undoes_itself in U. unfold tr.
    split.
    - destruct (gr_transform M ID IT x u) as [w|] eqn:E; [rewrite (U ID IT u w E); reflexivity|].
      destruct u as [[u1 u2] u3]. discriminate E.
    - destruct (gr_transform M IT ID x u) as [w|] eqn:E; [rewrite (U IT ID u w E); reflexivity|].
      destruct u as [[u1 u2] u3]. discriminate E.
  Qed.
  Lemma tetrad_norm : forall u, norm_sqr (tr M ID IT x u) = quad3 (fun i j => m_h M i j x) u.
  Proof.
    intros [[u1 u2] u3].
    destruct (form_triangular _ _ _ _ _ _ F Rg) as (A0 & b & c & q & hA & hb & hc & S1 & S2 & S3 & H1 & H2 & H3 & H4 & H5 & H6 & H7 & H8 & H9 & H10).
    assert (z1 : m_h M 1 2 x = 0) by (rewrite (fo_h _ _ _ _ _ _ F); reflexivity).
    assert (z2 : m_h M 2 1 x = 0) by (rewrite (fo_h _ _ _ _ _ _ F); reflexivity).
    assert (z3 : m_h M 2 3 x = 0) by (rewrite (fo_h _ _ _ _ _ _ F); reflexivity).
    assert (z4 : m_h M 3 2 x = 0) by (rewrite (fo_h _ _ _ _ _ _ F); reflexivity).
    unfold tr. cbn [gr_transform]. unfold quad3, sum3, comp4, c1, c2, c3, norm_sqr, v1, v2, v3. cbn [fst snd].
    rewrite z1, z2, z3, z4, S1, S2, S3, H1, H2, H3, H4, H5, H7, H10. field. repeat split; lra.
  Qed.
  Lemma em_magnetic : forall h u B, quad3 (fun i j => m_h M i j x) (em_half M h x u (0, 0, 0) B) = quad3 (fun i j => m_h M i j x) u.
  Proof. intros h u B. rewrite <- !tetrad_norm, em_boris, (proj2 (tetrad_back _)). apply boris_norm. Qed.
  Lemma em_electric : forall h u D, tr M ID IT x (em_half M h x u D (0, 0, 0)) = vadd (tr M ID IT x u) (vscale (h * m_alpha M x) D).
  Proof.
    intros h u D. rewrite em_boris, (proj2 (tetrad_back _)). unfold boris.
    set (t := tr M ID IT x u). set (c := h * (1 / 2) * m_alpha M x). set (u0 := vadd t (vscale c D)). 
    match goal with |- context [vscale ?k (0, 0, 0)] => replace (vscale k (0, 0, 0)) with ((0, 0, 0) : vec) by (unfold vscale, v1, v2, v3; cbn [fst snd]; apply triple_eq; ring) end.
    match goal with |- context [vscale ?k (vadd u0 _)] => set (kk := k) end.
    unfold u0, c. clearbody t kk. destruct t as [[p1 p2] p3], D as [[q1 q2] q3]. cbv [vadd vscale cross v1 v2 v3 fst snd].
    apply triple_eq; lra.
  Qed.
  Lemma em_nothing : forall h u, em_half M h x u (0, 0, 0) (0, 0, 0) = u.
  Proof.
    intros h u. rewrite <- (proj1 (tetrad_back u)) at 2. rewrite <- (proj1 (tetrad_back (em_half M h x u (0, 0, 0) (0, 0, 0)))).
    rewrite em_electric. f_equal. set (t := tr M ID IT x u). destruct t as [[p1 p2] p3]. cbv [vadd vscale v1 v2 v3 fst snd]. apply triple_eq; ring.
  Qed.
  Lemma tr_zero : forall i o, tr M i o x (0, 0, 0) = (0, 0, 0).
  Proof.
    intros i o. unfold tr. destruct i, o; cbn [gr_transform]; try reflexivity; unfold Rdiv; apply triple_eq;
      rewrite ?(phys1 _ _ _ _ _ _ F), ?(phys2 _ _ _ _ _ _ F), ?(phys3 _ _ _ _ _ _ F), ?(iphys1 _ _ _ _ _ _ F), ?(iphys2 _ _ _ _ _ _ F), ?(iphys3 _ _ _ _ _ _ F); unfold Rdiv; ring.
  Qed.
End Tetrad.

Lemma kick_no_field : forall M to_cd k x u, kerr_metric M -> gr_regular M x ->
  kick_massive M to_cd k x (0, 0, 0) (0, 0, 0) u = momentum_push M 1 (k_dt k) (k_niter k) (off_axis M to_cd x) u.
Proof.
  intros M to_cd k x u K Rg. destruct (kerr_form M x K Rg) as (mu & a & e1 & e2 & F). unfold kick_massive.
  rewrite !(tr_zero _ _ _ _ _ _ F), !(em_nothing _ _ _ _ _ _ F Rg). reflexivity.
Qed.

(** ** Boundaries *)
Lemma boundary_u3 : forall mpi k b p, v3 (g_u (gr_boundary mpi k b p)) = v3 (g_u p).
Proof.
  intros. unfold gr_boundary. destruct (ci (g2 p) <? 0)%Z; [destruct (axis_i2min b)|destruct (k_ni2 k <=? ci (g2 p))%Z; [destruct (axis_i2max b)|]]; reflexivity.
Qed.
Lemma boundary_phi : forall mpi k b p, g_phi (gr_boundary mpi k b p) = g_phi p.
Proof.
  intros. unfold gr_boundary. destruct (ci (g2 p) <? 0)%Z; [destruct (axis_i2min b)|destruct (k_ni2 k <=? ci (g2 p))%Z; [destruct (axis_i2max b)|]]; reflexivity.
Qed.
Lemma boundary_1 : forall mpi k b p, g1 (gr_boundary mpi k b p) = g1 p.
Proof.
  intros. unfold gr_boundary. destruct (ci (g2 p) <? 0)%Z; [destruct (axis_i2min b)|destruct (k_ni2 k <=? ci (g2 p))%Z; [destruct (axis_i2max b)|]]; reflexivity.
Qed.
Lemma boundary_2 : forall mpi k b p, let q := gr_boundary mpi k b p in (0 < k_ni2 k)%Z ->
  ((0 <= ci (g2 p) < k_ni2 k)%Z -> g2 q = g2 p /\ g_u q = g_u p) /\
  ((ci (g2 p) < 0)%Z -> axis_i2min b = true ->
     ci (g2 q) = 0%Z /\ cx (g2 q) = 1 - cx (g2 p) /\ came_from {| ci := ci_prev (g2 p); cx := cx_prev (g2 p); ci_prev := 0; cx_prev := 0 |} (g2 q) /\
     velocity_mirrored (g_u p) (g_u q)) /\
  ((k_ni2 k <= ci (g2 p))%Z -> axis_i2max b = true ->
     ci (g2 q) = (k_ni2 k - 1)%Z /\ cx (g2 q) = 1 - cx (g2 p) /\ came_from {| ci := ci_prev (g2 p); cx := cx_prev (g2 p); ci_prev := 0; cx_prev := 0 |} (g2 q) /\
     velocity_mirrored (g_u p) (g_u q)) /\
  (((ci (g2 p) < 0)%Z /\ axis_i2min b = false) \/ ((k_ni2 k <= ci (g2 p))%Z /\ axis_i2max b = false) -> g2 q = g2 p /\ g_u q = g_u p).
Proof.
  intros mpi k b p q n0. unfold q, gr_boundary.
  destruct (Z.ltb_spec (ci (g2 p)) 0), (Z.leb_spec (k_ni2 k) (ci (g2 p))); try lia;
    destruct (axis_i2min b) eqn:A1, (axis_i2max b) eqn:A2; cbn [g2 g_u ci cx]; unfold came_from, velocity_mirrored; cbn [ci cx ci_prev cx_prev];
    repeat split; intros; try lia; try congruence; try reflexivity; try (destruct H1 as [[? ?]|[? ?]]; try lia; congruence).
Qed.
Lemma boundary_tag : forall mpi k b p, g_tag p = 1%Z -> (0 < k_ni1 k)%Z -> (0 < k_ni2 k)%Z -> let q := gr_boundary mpi k b p in
  let swallowed := ((ci (g1 q) < 0)%Z /\ absorb_i1min b = true) \/ ((k_ni1 k <= ci (g1 q))%Z /\ absorb_i1max b = true) in
  (swallowed -> g_tag q = 0%Z) /\
  (~ swallowed -> (mpi = false -> g_tag q = 1%Z) /\
     (mpi = true -> g_tag q = send_tag2 1 (ci (g1 q) <? 0)%Z (k_ni1 k <=? ci (g1 q))%Z (ci (g2 q) <? 0)%Z (k_ni2 k <=? ci (g2 q))%Z)).
Proof.
  intros mpi k b p T n1 n2. cbv zeta. rewrite boundary_1.
  assert (E : g_tag (gr_boundary mpi k b p) =
    let tag := if ((ci (g1 p) <? 0)%Z && absorb_i1min b) || ((k_ni1 k <=? ci (g1 p))%Z && absorb_i1max b) then 0%Z else g_tag p in
    if mpi then send_tag2 tag (ci (g1 p) <? 0)%Z (k_ni1 k <=? ci (g1 p))%Z (ci (g2 (gr_boundary mpi k b p)) <? 0)%Z (k_ni2 k <=? ci (g2 (gr_boundary mpi k b p)))%Z else tag).
  { unfold gr_boundary. destruct (ci (g2 p) <? 0)%Z; [destruct (axis_i2min b)|destruct (k_ni2 k <=? ci (g2 p))%Z; [destruct (axis_i2max b)|]]; reflexivity. }
  rewrite E. cbv zeta. rewrite T.
  set (c := ((ci (g1 p) <? 0)%Z && absorb_i1min b) || ((k_ni1 k <=? ci (g1 p))%Z && absorb_i1max b)).
  assert (C : c = true <-> ((ci (g1 p) < 0)%Z /\ absorb_i1min b = true) \/ ((k_ni1 k <= ci (g1 p))%Z /\ absorb_i1max b = true)).
  { unfold c. rewrite orb_true_iff, !andb_true_iff, Z.ltb_lt, Z.leb_le. tauto. }
  destruct c; (split; [intros w|intros w]).
  - destruct mpi; [unfold send_tag2; apply Z.mul_0_r|reflexivity].
  - exfalso. apply w, C. reflexivity.
  - apply C in w. discriminate.
  - split; intros ->; reflexivity.
Qed.

(** ** A whole step *)
Lemma massless_ok : forall M to_cd mpi k b p q, push_massless M to_cd mpi k b p = Ok q ->
  (g_tag p = 0%Z /\ q = p) \/
  (g_tag p = 1%Z /\ q = move M to_cd mpi 0 k b p (momentum_push M 0 (k_dt k) (k_niter k) (place p) (g_u p))).
Proof.
  intros M to_cd mpi k b p q E. unfold push_massless in E. destruct (Z.eqb_spec (g_tag p) 1); cbn [negb] in E.
  - right. split; [exact e|]. injection E as <-. reflexivity.
  - destruct (Z.eqb_spec (g_tag p) 0); cbn [negb] in E; [left; split; [exact e|]; injection E as <-; reflexivity|discriminate].
Qed.
Lemma massive_ok : forall M to_cd mpi o ng k b DB DB0 p q, push_massive M to_cd mpi o ng k b DB DB0 p = Ok q ->
  (g_tag p = 0%Z /\ q = p) \/
  (g_tag p = 1%Z /\ exists Dc Bc, interpolate o ng DB DB0 p = Some (Dc, Bc) /\
    q = move M to_cd mpi 1 k b p (kick_massive M to_cd k (place p) Dc Bc (g_u p))).
Proof.
  intros M to_cd mpi o ng k b DB DB0 p q E. unfold push_massive in E. destruct (Z.eqb_spec (g_tag p) 1); cbn [negb] in E.
  - right. split; [exact e|]. destruct (interpolate o ng DB DB0 p) as [[Dc Bc]|]; [|discriminate]. exists Dc, Bc. split; [reflexivity|]. injection E as <-. reflexivity.
  - destruct (Z.eqb_spec (g_tag p) 0); cbn [negb] in E; [left; split; [exact e|]; injection E as <-; reflexivity|discriminate].
Qed.
Lemma move_u3 : forall M to_cd mpi nrm k b p u, v3 (g_u (move M to_cd mpi nrm k b p u)) = v3 u.
Proof. intros. unfold move. rewrite boundary_u3. reflexivity. Qed.
Lemma move_phi : forall M to_cd mpi nrm k b p u, g_phi (move M to_cd mpi nrm k b p u) = g_phi p.
Proof. intros. unfold move. rewrite boundary_phi. reflexivity. Qed.

(** ** No fields *)
Lemma interp_zero : forall o c ps d v, InterpModel.interp_from o c d ps (fun _ => 0) = Some v -> v = 0.
Proof.
  intros o c ps. induction ps as [|p ps IH]; intros d v E; cbn [InterpModel.interp_from] in E; [congruence|].
  destruct (InterpModel.weights (InterpModel.dual c d) o p) as [w|]; [|discriminate].
  revert v E. induction w as [|[i s] w IHw]; intros v E; [congruence|].
  destruct (InterpModel.interp_from o c (S d) ps (fun _ => 0)) as [a|] eqn:Ea; [|discriminate].
  match type of E with match ?g with _ => _ end = _ => destruct g as [b|] eqn:Eb end; [|discriminate].
  injection E as <-. rewrite (IH _ _ Ea), (IHw _ eq_refl). ring.
Qed.
Lemma interpolate_zero : forall o ng p Dc Bc, interpolate o ng (fun _ _ => 0) (fun _ _ => 0) p = Some (Dc, Bc) -> Dc = (0, 0, 0) /\ Bc = (0, 0, 0).
Proof.
  intros o ng p Dc Bc E. unfold interpolate, InterpModel.interp in E.
  repeat match type of E with match ?g with _ => _ end = _ => let H := fresh "I" in destruct g eqn:H; [apply interp_zero in H|discriminate] end.
  subst. injection E as <- <-. split; reflexivity.
Qed.
Lemma vacuum_u3 : forall M to_cd p q, kerr_metric M -> vacuum_run M to_cd p q -> v3 (g_u q) = v3 (g_u p).
Proof.
  intros M to_cd p q K V. induction V as [|mpi o ng k b p q r Rg E V IH]; [reflexivity|]. rewrite IH.
  destruct (massive_ok _ _ _ _ _ _ _ _ _ _ _ E) as [[_ ->]|(_ & Dc & Bc & I & ->)]; [reflexivity|].
  destruct (interpolate_zero _ _ _ _ _ I) as [-> ->]. rewrite move_u3, (kick_no_field M to_cd k _ _ K Rg). apply momentum_v3.
Qed.
Lemma photon_u3 : forall M to_cd p q, photon_run M to_cd p q -> v3 (g_u q) = v3 (g_u p).
Proof.
  intros M to_cd p q V. induction V as [|mpi k b p q r E V IH]; [reflexivity|]. rewrite IH.
  destruct (massless_ok _ _ _ _ _ _ _ E) as [[_ ->]|(_ & ->)]; [reflexivity|]. rewrite move_u3. apply momentum_v3.
Qed.
Lemma phi_kept : forall M to_cd,
  (forall p q, photon_run M to_cd p q -> g_phi q = g_phi p) /\
  (forall mpi o ng k b DB DB0 p q, push_massive M to_cd mpi o ng k b DB DB0 p = Ok q -> g_phi q = g_phi p).
Proof.
  intros M to_cd. split.
  - intros p q V. induction V as [|mpi k b p q r E V IH]; [reflexivity|]. rewrite IH.
    destruct (massless_ok _ _ _ _ _ _ _ E) as [[_ ->]|(_ & ->)]; [reflexivity|]. apply move_phi.
  - intros mpi o ng k b DB DB0 p q E. destruct (massive_ok _ _ _ _ _ _ _ _ _ _ _ E) as [[_ ->]|(_ & Dc & Bc & I & ->)]; [reflexivity|]. apply move_phi.
Qed.
Lemma phi_local : forall M nrm dt x u phi, kerr_metric M -> gr_regular M x -> moving M nrm x u ->
  - (2 * PI) <= phi + dt * gr_velocity M x nrm u 3 < 4 * PI ->
  let phi' := update_phi M nrm dt x u phi in
  0 <= phi' < 2 * PI /\ exists n, phi' = phi + dt * gr_velocity M x nrm u 3 + 2 * PI * IZR n.
Proof.
  intros M nrm dt x u phi K Rg mv B phi'. pose proof (kerr_sparse M K) as S. pose proof (moving_gamma _ _ _ _ mv) as G.
  destruct (kerr_form M x K Rg) as (mu & a & e1 & e2 & F). destruct (form_adm _ _ _ _ _ _ F Rg) as (al & _).
  pose proof PI_RGT_0 as pp. unfold phi', update_phi. rewrite (gamma_eq M S), (raise_eq M S).
  assert (E : phi + dt * v3 (gr_raise M x u 1, gr_raise M x u 2, gr_raise M x u 3) / (gr_gamma M x nrm u / m_alpha M x) = phi + dt * gr_velocity M x nrm u 3).
  { unfold gr_velocity, v3. cbn [snd shift]. field. split; lra. }
  rewrite E. set (w := phi + dt * gr_velocity M x nrm u 3) in *.
  destruct (Rle_dec (2 * PI) w); [|destruct (Rlt_dec w 0)].
  - split; [lra|]. exists (-1)%Z. lra.
  - split; [lra|]. exists 1%Z. lra.
  - split; [lra|]. exists 0%Z. lra.
Qed.

(** ** Where a step ends *)
Lemma pushed_move : forall M to_cd mpi k b p x' u' q, pushed M to_cd mpi k b p x' u' q ->
  g_tag p = 1%Z /\ q = gr_boundary mpi k b {| g1 := move_to (fst x') (g1 p); g2 := move_to (snd x') (g2 p); g_u := u'; g_phi := g_phi p; g_tag := 1 |}.
Proof.
  intros M to_cd mpi k b p x' u' q [T [(E & U & X)|(o & ng & DB & DB0 & Dc & Bc & E & I & U & X)]]; split; try exact T.
  - destruct (massless_ok _ _ _ _ _ _ _ E) as [[Z _]|(_ & ->)]; [congruence|]. unfold move. rewrite <- U, <- X, T. reflexivity.
  - destruct (massive_ok _ _ _ _ _ _ _ _ _ _ _ E) as [[Z _]|(_ & Dc' & Bc' & I' & ->)]; [congruence|].
    rewrite I in I'. injection I' as <- <-. unfold move. rewrite <- U, <- X, T. reflexivity.
Qed.
Lemma move_to_cell : forall X c n, -1 <= X -> let c' := move_to X c in
  ((0 <= X < IZR n -> (0 <= ci c' < n)%Z) /\ (X < 0 -> ci c' = (-1)%Z) /\ (IZR n <= X -> (n <= ci c')%Z) /\ (X < IZR n + 1 -> (ci c' <= n)%Z)).
Proof.
  intros X c n H. cbv zeta. destruct (move_to_ok X c H) as (e & ob & _). unfold PushSpec.coord in e. set (i := ci (move_to X c)) in *. set (d := cx (move_to X c)) in *.
  split; [intros Q|split; [intros Q|split; intros Q]].
  - assert (-1 < i)%Z by (apply lt_IZR; lra). assert (i < n)%Z by (apply lt_IZR; lra). lia.
  - assert (i < 0)%Z by (apply lt_IZR; lra). assert (-2 < i)%Z by (apply lt_IZR; lra). lia.
  - assert (n - 1 < i)%Z by (apply lt_IZR; rewrite minus_IZR; lra). lia.
  - assert (i < n + 1)%Z by (apply lt_IZR; rewrite plus_IZR; lra). lia.
Qed.
Lemma lands : forall M to_cd mpi k b p x' u' q, pushed M to_cd mpi k b p x' u' q -> (0 < k_ni1 k)%Z -> (0 < k_ni2 k)%Z ->
  (-1 <= fst x' -> stands_at (fst x') (g1 q)) /\ came_from (g1 p) (g1 q) /\ came_from (g2 p) (g2 q) /\
  (0 <= snd x' < IZR (k_ni2 k) -> stands_at (snd x') (g2 q) /\ velocity_kept u' (g_u q)) /\
  (-1 <= snd x' < 0 -> axis_i2min b = true -> stands_at (- snd x') (g2 q) /\ inside (k_ni2 k) (g2 q) /\ velocity_mirrored u' (g_u q)) /\
  (IZR (k_ni2 k) <= snd x' < IZR (k_ni2 k) + 1 -> axis_i2max b = true ->
     stands_at (2 * IZR (k_ni2 k) - snd x') (g2 q) /\ inside (k_ni2 k) (g2 q) /\ velocity_mirrored u' (g_u q)) /\
  (-1 <= snd x' < 0 -> axis_i2min b = false -> stands_at (snd x') (g2 q) /\ velocity_kept u' (g_u q)) /\
  (IZR (k_ni2 k) <= snd x' -> axis_i2max b = false -> stands_at (snd x') (g2 q) /\ velocity_kept u' (g_u q)).
Proof.
  intros M to_cd mpi k b p x' u' q P n1 n2. destruct (pushed_move _ _ _ _ _ _ _ _ _ P) as [T ->].
  set (p' := {| g1 := move_to (fst x') (g1 p); g2 := move_to (snd x') (g2 p); g_u := u'; g_phi := g_phi p; g_tag := 1 |}).
  destruct (boundary_2 mpi k b p' n2) as (b1 & b2 & b3 & b4). set (q := gr_boundary mpi k b p') in *.
  assert (q1 : g1 q = move_to (fst x') (g1 p)) by (unfold q; rewrite boundary_1; reflexivity).
  assert (pv : forall X c, came_from c (move_to X c)) by (intros X c; unfold move_to; destruct (from_Xi_to_i_di X); split; reflexivity).
  assert (st : forall X c, -1 <= X -> stands_at X (move_to X c)).
  { intros X c H. destruct (move_to_ok X c H) as (e & ob & _). split; [exact e|lra]. }
  cbn [g2 g_u p'] in b1, b2, b3, b4.
  split; [intros H; rewrite q1; apply st; exact H|]. split; [rewrite q1; apply pv|].
  assert (nn : 0 < IZR (k_ni2 k)) by (apply (IZR_lt 0); exact n2).
  split.
  { destruct (Z_lt_le_dec (ci (move_to (snd x') (g2 p))) 0) as [lt|ge].
    - destruct (axis_i2min b) eqn:A.
      + destruct (b2 lt eq_refl) as (_ & _ & (c1 & c2) & _). cbn [ci cx] in c1, c2. destruct (pv (snd x') (g2 p)) as [d1 d2]. split; congruence.
      + destruct (b4 (or_introl (conj lt eq_refl))) as [-> _]. apply pv.
    - destruct (Z_lt_le_dec (ci (move_to (snd x') (g2 p))) (k_ni2 k)) as [lt|ge2].
      + destruct (b1 (conj ge lt)) as [-> _]. apply pv.
      + destruct (axis_i2max b) eqn:A.
        * destruct (b3 ge2 eq_refl) as (_ & _ & (c1 & c2) & _). cbn [ci cx] in c1, c2. destruct (pv (snd x') (g2 p)) as [d1 d2]. split; congruence.
        * destruct (b4 (or_intror (conj ge2 eq_refl))) as [-> _]. apply pv. }
  split; [|split; [|split; [|split]]].
  - intros H. destruct (move_to_cell (snd x') (g2 p) (k_ni2 k)) as (m1 & _); [lra|]. destruct (b1 (m1 H)) as [-> ->]. split; [apply st; lra|reflexivity].
  - intros H A. destruct (move_to_cell (snd x') (g2 p) (k_ni2 k)) as (_ & m1 & _); [lra|].
    assert (lt : (ci (move_to (snd x') (g2 p)) < 0)%Z) by (rewrite m1; lia || lra).
    destruct (b2 lt A) as (c1 & c2 & _ & c3). destruct (move_to_ok (snd x') (g2 p) (proj1 H)) as (e & ob & _).
    unfold PushSpec.coord in e. rewrite m1 in e by lra.
    split; [|split; [unfold inside; rewrite c1; lia|exact c3]]. split; [unfold PushSpec.coord; rewrite c1, c2|rewrite c2]; lra.
  - intros H A. destruct (move_to_cell (snd x') (g2 p) (k_ni2 k)) as (_ & _ & m1 & m2); [lra|].
    assert (ge : (k_ni2 k <= ci (move_to (snd x') (g2 p)))%Z) by (apply m1; lra).
    destruct (b3 ge A) as (c1 & c2 & _ & c3). destruct (move_to_ok (snd x') (g2 p) ltac:(lra)) as (e & ob & _).
    assert (ee : ci (move_to (snd x') (g2 p)) = k_ni2 k) by (specialize (m2 (proj2 H)); lia).
    unfold PushSpec.coord in e. rewrite ee in e.
    split; [|split; [unfold inside; rewrite c1; lia|exact c3]]. split; [unfold PushSpec.coord; rewrite c1, c2, minus_IZR|rewrite c2]; lra.
  - intros H A. destruct (move_to_cell (snd x') (g2 p) (k_ni2 k)) as (_ & m1 & _); [lra|].
    destruct b4 as [-> ->]; [left; split; [rewrite m1; lia || lra|exact A]|]. split; [apply st; lra|reflexivity].
  - intros H A. destruct (move_to_cell (snd x') (g2 p) (k_ni2 k)) as (_ & _ & m1 & _); [lra|].
    destruct b4 as [-> ->]; [right; split; [apply m1; lra|exact A]|]. split; [apply st; lra|reflexivity].
Qed.

Lemma tags : forall M to_cd mpi k b p x' u' q, pushed M to_cd mpi k b p x' u' q -> (0 < k_ni1 k)%Z -> (0 < k_ni2 k)%Z ->
  let swallowed := (below (g1 q) /\ absorb_i1min b = true) \/ (above (k_ni1 k) (g1 q) /\ absorb_i1max b = true) in
  (g_tag q = 0%Z <-> swallowed) /\
  (~ swallowed ->
     (mpi = false -> g_tag q = 1%Z) /\
     (mpi = true -> inside (k_ni1 k) (g1 q) -> inside (k_ni2 k) (g2 q) -> g_tag q = 1%Z) /\
     (mpi = true -> ~ (inside (k_ni1 k) (g1 q) /\ inside (k_ni2 k) (g2 q)) ->
        dir2tag [DirsSpec.side (ci (g1 q)) (k_ni1 k); DirsSpec.side (ci (g2 q)) (k_ni2 k)] = Ok (g_tag q))).
Proof.
  intros M to_cd mpi k b p x' u' q P n1 n2. destruct (pushed_move _ _ _ _ _ _ _ _ _ P) as [T ->].
  set (p' := {| g1 := move_to (fst x') (g1 p); g2 := move_to (snd x') (g2 p); g_u := u'; g_phi := g_phi p; g_tag := 1 |}).
  destruct (boundary_tag mpi k b p' eq_refl n1 n2) as (t1 & t2). set (q := gr_boundary mpi k b p') in *. unfold below, above. cbv zeta.
  destruct (DirsProofs.retag_alive 2 [ci (g1 q); ci (g2 q)] [k_ni1 k; k_ni2 k]) as (t & r1 & r2 & r3); [unfold DirsSpec.dimension; lia|reflexivity|reflexivity|repeat constructor; lia|].
  cbn [retag] in r1. injection r1 as r1.
  assert (ib : in_box [ci (g1 q); ci (g2 q)] [k_ni1 k; k_ni2 k] <-> inside (k_ni1 k) (g1 q) /\ inside (k_ni2 k) (g2 q)).
  { unfold in_box, inside. split.
    - intros F. inversion F as [|? ? ? ? A1 F']. inversion F' as [|? ? ? ? A2 _]. split; assumption.
    - intros [A B]. repeat constructor; lia. }
  assert (nz : t <> 0%Z).
  { rewrite <- r1. clear. unfold send_tag2. destruct (ci (g1 q) <? 0)%Z, (k_ni1 k <=? ci (g1 q))%Z, (ci (g2 q) <? 0)%Z, (k_ni2 k <=? ci (g2 q))%Z; vm_compute; discriminate. }
  split; [split; [|exact t1]|].
  - intros z. destruct (Z_lt_le_dec (ci (g1 q)) 0) as [l|l]; [destruct (absorb_i1min b) eqn:A; [left; auto|]|].
    + exfalso. destruct t2 as [u1 u2]; [intros [[_ X]|[X _]]; [congruence|lia]|]. destruct mpi; [specialize (u2 eq_refl); rewrite r1 in u2; congruence|specialize (u1 eq_refl); congruence].
    + destruct (Z_lt_le_dec (ci (g1 q)) (k_ni1 k)) as [l2|l2]; [|destruct (absorb_i1max b) eqn:A; [right; auto|]];
      exfalso; (destruct t2 as [u1 u2]; [intros [[X Y]|[X Y]]; [lia|congruence || lia]|]); (destruct mpi; [specialize (u2 eq_refl); rewrite r1 in u2; congruence|specialize (u1 eq_refl); congruence]).
  - intros ns. destruct (t2 ns) as [u1 u2]. split; [exact u1|]. split.
    + intros m i1 i2. rewrite (u2 m), r1. apply r2, ib. split; assumption.
    + intros m no. rewrite (u2 m), r1. apply r3. rewrite ib. exact no.
Qed.

(** ** The stretched quasi-spherical metric *)
Lemma qks_wrong : forall eps a g r0 h m x1 x2 nrm dt n u, q_ok eps g r0 h -> q_make eps g r0 h = Some m -> gr_regular (qks a m) (x1, x2) ->
  let M := qks a m in let x := (x1, x2) in let w := half_way u (momentum_push M nrm dt n x u) in
  moving M nrm x w -> dt <> 0 -> v2 w <> 0 ->
  dtheta_deta (q_eps m) (q_h0 m) (q_eta m x2) <> 1 ->
  exists D1, by_x1 (fun y => hamiltonian M nrm y w) x D1 /\ v1 (momentum_push M nrm dt (S n) x u) <> v1 u - dt * D1.
Proof.
  intros eps a g r0 h m x1 x2 nrm dt n u OK MK Rg M x w mv hdt hw ht.
  assert (K : kerr_metric M) by (eapply km_qks; eassumption). pose proof (kerr_sparse M K) as S.
  destruct (kerr_form M x K Rg) as (mu & aa & e1 & e2 & F). destruct (form_adm _ _ _ _ _ _ F Rg) as (al & _).
  destruct (qks_radial eps a g r0 h m x1 x2 OK MK Rg) as (R1 & R2 & R3 & R4 & R5).
  pose proof (qx_r a m x1 x2 Rg) as hr. pose proof (qx_S a m x1 x2 Rg) as Sp. pose proof (qx_deta eps g r0 h m OK MK) as de.
  pose proof (qx_t eps g r0 h m x2 OK MK) as tp. pose proof (qx_e1 eps g r0 h m x1 OK MK) as ep. pose proof (qx_Dr m x1) as Dr.
  set (t' := dtheta_deta (q_eps m) (q_h0 m) (q_eta m x2)) in *.
  set (D22 := - (/ (sqr t' * sqr (q_deta m))) * (2 * qk_r m x1 * (q_dchi m * exp (q_chi m x1))) / sqr (k_Sigma a (qk_r m x1) (qk_th m x2))).
  assert (R6 : derivable_pt_lim (fun s => m_h M 2 2 (s, x2)) x1 D22).
  { unfold M. cbn [qks m_h]. eapply dl_ext; [|exact (r_invS a (qk_th m x2) (qk_r m) x1 (qk_r m x1) _ Dr eq_refl hr (/ (sqr t' * sqr (q_deta m))))].
    intros t. cbv beta. unfold qk_h. cbn [fst snd]. fold t'. unfold sqr, Rdiv. rewrite !Rinv_mult. ring. }
  pose proof (qks_radial_h22 eps a g r0 h m x1 x2 OK MK Rg D22 R6) as E22. fold t' in E22.
  assert (Dn : D22 <> 0).
  { unfold D22. assert (0 < sqr t') by (unfold sqr; apply Rmult_lt_0_compat; exact tp). assert (0 < sqr (q_deta m)) by (unfold sqr; apply Rmult_lt_0_compat; exact de).
    assert (0 < sqr (k_Sigma a (qk_r m x1) (qk_th m x2))) by (unfold sqr; apply Rmult_lt_0_compat; exact Sp).
    assert (0 < / (sqr t' * sqr (q_deta m)) * (2 * qk_r m x1 * (q_dchi m * exp (q_chi m x1))) / sqr (k_Sigma a (qk_r m x1) (qk_th m x2))).
    { apply Rmult_lt_0_compat; [apply Rmult_lt_0_compat|apply Rinv_0_lt_compat; assumption]; [apply Rinv_0_lt_compat, Rmult_lt_0_compat; assumption|].
      apply Rmult_lt_0_compat; [lra|exact ep]. }
    unfold Rdiv in *. rewrite Ropp_mult_distr_l_reverse, Ropp_mult_distr_l_reverse. lra. }
  pose proof (moving_gamma _ _ _ _ mv) as G. destruct mv as [nn P].
  eexists. split.
  - unfold by_x1. exact (H_along M nrm w (fun s => (s, x2)) x1 _ _ _ _ _ _ S P R1 R2 R3 R6 R4 R5).
  - rewrite momentum_succ. fold w. unfold v1 at 1. cbn [fst]. rewrite (rate_eq M nrm x w _ _ _ _ _ _ S al G).
    change (m_dr_h22 M x) with (m_dr_h22 (qks a m) (x1, x2)). rewrite E22. fold x. fold M.
    set (q := gr_gamma M x nrm w) in *. set (p := m_alpha M x) in *. set (k := p / (2 * q)).
    assert (kp : 0 < k) by (unfold k; apply Rmult_lt_0_compat; [exact al|apply Rinv_0_lt_compat; lra]).
    intros E.
    assert (Z : dt * (k * (D22 * ((t' * t' - 1) * (v2 w * v2 w)))) = 0).
    { match type of E with v1 u + dt * - (?A + ?B - ?C) = v1 u - dt * (?A' + ?B' - ?C') =>
        assert (Q : dt * (B - B') = 0); [replace A' with A in E by reflexivity; replace C' with C in E by reflexivity; nra || (ring_simplify in E; nra)|] end.
      rewrite <- Q. unfold sqr. ring. }
    apply Rmult_integral in Z. destruct Z as [Z|Z]; [contradiction|]. apply Rmult_integral in Z. destruct Z as [Z|Z]; [lra|].
    apply Rmult_integral in Z. destruct Z as [Z|Z]; [contradiction|]. apply Rmult_integral in Z. destruct Z as [Z|Z].
    + assert ((t' - 1) * (t' + 1) = 0) by lra. apply Rmult_integral in H. destruct H; lra.
    + apply Rmult_integral in Z. destruct Z; contradiction.
Qed.

Lemma conversions :
  (forall eps a g, sensible g -> converts (ks eps a g) (s_to_cd g 2)) /\
  (forall g, sensible g -> converts (ks0 g) (s_to_cd g 2)) /\
  (forall eps a g r0 h m, q_ok eps g r0 h -> q_make eps g r0 h = Some m ->
     exists to_cd, (forall t, q_to_cd m 2 t = Some (to_cd t)) /\ converts (qks a m) to_cd).
Proof.
  split; [|split].
  - intros eps a g S t _. exact (proj2 (s_inverse g 2 S) t).
  - intros g S t _. exact (proj2 (s_inverse g 2 S) t).
  - intros eps a g r0 h m OK MK. exists (fun t => match q_to_cd m 2 t with Some y => y | None => 0 end).
    assert (E : forall t, q_to_cd m 2 t = Some (match q_to_cd m 2 t with Some y => y | None => 0 end)).
    { intros t. pose proof (q_cd_total eps g r0 h m OK MK) as [_ D]. specialize (D t). destruct (q_to_cd m 2 t); [reflexivity|congruence]. }
    split; [exact E|]. intros t _. exact (q_ph_cd_ph eps g r0 h m 2 t _ OK MK (E t)).
Qed.

Lemma unhandled : forall M to_cd mpi k b p x' u' q, pushed M to_cd mpi k b p x' u' q -> (0 < k_ni1 k)%Z -> (0 < k_ni2 k)%Z ->
  IZR (k_ni1 k) <= fst x' -> absorb_i1max b = false ->
  stands_at (fst x') (g1 q) /\ above (k_ni1 k) (g1 q) /\ g_tag q <> 0%Z /\
  (mpi = false -> g_tag q = 1%Z) /\
  (mpi = true -> forall mpi' k' b', push_massless M to_cd mpi' k' b' q = Err /\ forall o ng DB DB0, push_massive M to_cd mpi' o ng k' b' DB DB0 q = Err).
Proof.
  intros M to_cd mpi k b p x' u' q P n1 n2 out nb.
  assert (np : 0 < IZR (k_ni1 k)) by (apply (IZR_lt 0); exact n1).
  destruct (lands _ _ _ _ _ _ _ _ _ P n1 n2) as (l1 & _). assert (st : stands_at (fst x') (g1 q)) by (apply l1; lra).
  assert (ab : above (k_ni1 k) (g1 q)).
  { destruct (pushed_move _ _ _ _ _ _ _ _ _ P) as [_ ->]. rewrite boundary_1. cbn [g1].
    destruct (move_to_cell (fst x') (g1 p) (k_ni1 k)) as (_ & _ & m1 & _); [lra|]. apply m1. exact out. }
  destruct (tags _ _ _ _ _ _ _ _ _ P n1 n2) as (t1 & t2).
  assert (ns : ~ ((below (g1 q) /\ absorb_i1min b = true) \/ (above (k_ni1 k) (g1 q) /\ absorb_i1max b = true))).
  { unfold below, above in *. intros [[X _]|[_ X]]; [lia|congruence]. }
  assert (nz : g_tag q <> 0%Z) by (intros z; apply ns, t1, z).
  split; [exact st|]. split; [exact ab|]. split; [exact nz|]. destruct (t2 ns) as (s1 & _ & s3). split; [exact s1|].
  intros m. specialize (s3 m).
  assert (no1 : g_tag q <> 1%Z).
  { intros o. assert (N : ~ (inside (k_ni1 k) (g1 q) /\ inside (k_ni2 k) (g2 q))) by (unfold inside, above in *; lia).
    specialize (s3 N). rewrite o in s3.
    assert (sd : DirsSpec.side (ci (g1 q)) (k_ni1 k) = 1%Z).
    { unfold DirsSpec.side, above in *. destruct (Z.ltb_spec (ci (g1 q)) 0); [lia|]. destruct (Z.leb_spec (k_ni1 k) (ci (g1 q))); [reflexivity|lia]. }
    rewrite sd in s3. revert s3. remember (DirsSpec.side (ci (g2 q)) (k_ni2 k)) as z eqn:e.
    assert (z = 0 \/ z = 1 \/ z = -1)%Z by (rewrite e; unfold DirsSpec.side; destruct (ci (g2 q) <? 0)%Z, (k_ni2 k <=? ci (g2 q))%Z; auto).
    destruct H as [->|[->| ->]]; vm_compute; discriminate. }
  assert (e1 : (g_tag q =? 1)%Z = false) by (apply Z.eqb_neq; exact no1). assert (e0 : (g_tag q =? 0)%Z = false) by (apply Z.eqb_neq; exact nz).
  intros mpi' k' b'. split; [|intros o ng DB DB0]; [unfold push_massless|unfold push_massive]; rewrite e1, e0; reflexivity.
Qed.
