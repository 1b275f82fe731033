From Coq Require Import Reals Lra Psatz ZArith Lia List Bool.
From Flocq Require Import Core.
From Verif Require Import Base ListLemmas DecompModel DecompSpec DirsModel DirsSpec DirsProofs TopoModel TopoSpec TopoProofs VelModel VelSpec VelProofs VelTop Fp32 PushModel PushSpec.
Import ListNotations.
Open Scope R_scope.



Lemma carry_sum i dx : let '(i', dx') := carry exactly i dx in IZR i' + dx' = IZR i + dx.
Proof.
  unfold carry, exactly. destruct (Rle_dec 1 dx), (Rlt_dec dx 0); try lra.
  - destruct (Rlt_dec (dx - 1) 0); try lra. rewrite minus_IZR, plus_IZR. lra.
  - destruct (Rlt_dec dx 0); try lra. rewrite minus_IZR, plus_IZR. lra.
  - destruct (Rlt_dec dx 0); try lra. rewrite minus_IZR, plus_IZR. lra.
Qed.
Lemma carry_range i dx : -1 <= dx < 2 -> let '(i', dx') := carry exactly i dx in 0 <= dx' < 1 /\ (Z.abs (i' - i) <= 1)%Z.
Proof.
  intros H. unfold carry, exactly. destruct (Rle_dec 1 dx), (Rlt_dec dx 0); try lra.
  - destruct (Rlt_dec (dx - 1) 0); try lra. split; [lra|lia].
  - destruct (Rlt_dec dx 0); try lra. split; [lra|lia].
  - destruct (Rlt_dec dx 0); try lra. split; [lra|lia].
Qed.

Lemma push1_exact del c : 0 <= cx c < 1 -> -1 < del < 1 ->
  let c' := push1 exactly del c in
  coord c' = coord c + del /\ 0 <= cx c' < 1 /\ (Z.abs (ci c' - ci c) <= 1)%Z /\
  ci_prev c' = ci c /\ cx_prev c' = cx c.
Proof.
  intros H1 H2. cbv zeta. unfold push1. change (exactly (cx c + del)) with (cx c + del).
  pose proof (carry_sum (ci c) (cx c + del)) as S. pose proof (carry_range (ci c) (cx c + del) ltac:(lra)) as Q.
  destruct (carry exactly (ci c) (cx c + del)) as [i dx]. unfold coord. cbn [ci cx ci_prev cx_prev]. repeat split; try tauto; lra.
Qed.

Lemma comp_bound massive u k : 0 < energy massive u -> Rabs (comp k u) <= energy massive u.
Proof.
  intros H. destruct (energy_sqr massive u) as [E P].
  assert (Q : comp k u * comp k u <= energy massive u * energy massive u).
  { rewrite E. destruct u as [[a b] c]. unfold norm_sqr. cbn [v1 v2 v3 fst snd]. unfold comp.
    destruct k as [|[|k]]; cbn [v1 v2 v3 fst snd]; destruct massive; nra. }
  apply Rabs_le. nra.
Qed.

Lemma cfl massive dt d u k : 0 < energy massive u -> 0 <= dt < d ->
  -1 < comp k u / d * dt_inv_energy massive dt u < 1.
Proof.
  intros He Hd. pose proof (comp_bound massive u k He) as B. unfold dt_inv_energy.
  set (g := energy massive u) in *. set (x := comp k u) in *.
  assert (X : - g <= x <= g) by (apply Rabs_le_inv; exact B).
  assert (E : x / d * (dt / g) = (x * dt) / (d * g)) by (field; lra). rewrite E.
  assert (P : 0 < d * g) by nra.
  assert (L : - (d * g) < x * dt < d * g).
  { split.
    - destruct (Req_dec dt 0) as [->|]; [lra|]. assert (- (d * g) < - (dt * g)) by nra. nra.
    - destruct (Req_dec dt 0) as [->|]; [lra|]. assert (dt * g < d * g) by nra. nra. }
  split.
  - apply (Rmult_lt_reg_r (d * g)); auto. unfold Rdiv. rewrite Rmult_assoc, Rinv_l by lra. lra.
  - apply (Rmult_lt_reg_r (d * g)); auto. unfold Rdiv. rewrite Rmult_assoc, Rinv_l by lra. lra.
Qed.

Lemma push_from_nth rnd massive dt u k dxs cs j : length dxs = length cs -> (j < length cs)%nat ->
  forall d c, nth_error (push_from rnd massive dt u k dxs cs) j =
   Some (push1 rnd (comp (k + j) u / nth j dxs d * dt_inv_energy massive dt u) (nth j cs c)).
Proof.
  revert k cs j. induction dxs as [|x dxs IH]; intros k [|c cs] j L H d c0; cbn in *; try lia.
  destruct j as [|j]; cbn.
  - rewrite Nat.add_0_r. auto.
  - rewrite (IH (S k) cs j ltac:(lia) ltac:(lia) d c0). rewrite Nat.add_succ_r. auto.
Qed.
Lemma push_from_length rnd massive dt u k dxs cs : length dxs = length cs ->
  length (push_from rnd massive dt u k dxs cs) = length cs.
Proof. revert k cs. induction dxs; intros k [|c cs] L; cbn in *; try lia. f_equal. apply IHdxs. lia. Qed.

Lemma push_exact massive dt dxs p :
  length dxs = length (p_pos p) -> Forall (fun d => 0 <= dt < d) dxs -> 0 < energy massive (p_u p) ->
  Forall (fun c => 0 <= cx c < 1) (p_pos p) ->
  let q := push_cart exactly massive dt dxs p in
  p_u q = p_u p /\ p_tag q = p_tag p /\ length (p_pos q) = length (p_pos p) /\
  forall k d c c', nth_error dxs k = Some d -> nth_error (p_pos p) k = Some c -> nth_error (p_pos q) k = Some c' ->
    d * coord c' = d * coord c + comp k (p_u p) / energy massive (p_u p) * dt /\
    0 <= cx c' < 1 /\ (Z.abs (ci c' - ci c) <= 1)%Z /\ ci_prev c' = ci c /\ cx_prev c' = cx c.
Proof.
  intros L F He Hc. cbv zeta. unfold push_cart. cbn [p_u p_tag p_pos]. split; [auto|split; [auto|split; [apply push_from_length; auto|]]].
  intros k d c c' E1 E2 E3. assert (Hk : (k < length (p_pos p))%nat) by (apply nth_error_Some; congruence).
  rewrite (push_from_nth exactly massive dt (p_u p) 0 dxs (p_pos p) k L Hk 0 c) in E3. injection E3 as E3.
  rewrite (nth_error_nth dxs k 0 E1), (nth_error_nth (p_pos p) k c E2) in E3. cbn [Nat.add] in E3.
  rewrite Forall_forall in F, Hc. apply nth_error_In in E1, E2.
  specialize (F _ E1). specialize (Hc _ E2). pose proof (cfl massive dt d (p_u p) k He F) as C.
  destruct (push1_exact _ c Hc C) as (A1 & A2 & A3 & A4 & A5). rewrite E3 in *.
  split; [|auto]. rewrite A1. unfold dt_inv_energy. field. lra.
Qed.

(** Any rounding. *)
Lemma push1_rounded rnd del c : rounding rnd -> 0 <= cx c <= 1 -> -1 < del < 1 ->
  let c' := push1 rnd del c in
  0 <= cx c' <= 1 /\ (Z.abs (ci c' - ci c) <= 1)%Z.
Proof.
  intros (M & Rm1 & R0 & R1 & R2) H1 H2. cbv zeta. unfold push1.
  set (y := rnd (cx c + del)).
  assert (Y : -1 <= y <= 2).
  { unfold y. split; [rewrite <- Rm1|rewrite <- R2]; apply M; lra. }
  unfold carry. destruct (Rle_dec 1 y), (Rlt_dec y 0); try lra.
  - assert (0 <= rnd (y - 1) <= 1) by (split; [rewrite <- R0|rewrite <- R1]; apply M; lra).
    destruct (Rlt_dec (rnd (y - 1)) 0); try lra. cbn [cx ci]. split; [lra|lia].
  - assert (0 <= rnd (y + 1) <= 1) by (split; [rewrite <- R0|rewrite <- R1]; apply M; lra).
    destruct (Rlt_dec y 0); try lra. cbn [cx ci]. split; [lra|lia].
  - destruct (Rlt_dec y 0); try lra. cbn [cx ci]. split; [lra|lia].
Qed.

Lemma rnd32_rounding : rounding rnd32.
Proof.
  split; [apply rnd32_le|]. repeat split; [apply (rnd32_Z (-1))|apply (rnd32_Z 0)|apply (rnd32_Z 1)|apply (rnd32_Z 2)]; lia.
Qed.

Lemma push1_error del c : 0 <= cx c <= 1 -> -1 < del < 1 ->
  Rabs (coord (push1 rnd32 del c) - (coord c + del)) <= bpow radix2 (-24).
Proof.
  intros H1 H2. destruct rnd32_rounding as (M & Rm1 & R0 & R1 & R2). unfold push1.
  set (x := cx c + del). set (y := rnd32 x).
  assert (Y : -1 <= y <= 2).
  { unfold y. split; [rewrite <- Rm1|rewrite <- R2]; apply M; unfold x; lra. }
  assert (E1 : Rabs (y - x) <= bpow radix2 (-24)).
  { apply (rnd32_err x 1); [lia|]. change (bpow radix2 1) with 2. apply Rabs_le. unfold x; lra. }
  assert (Fy : generic_format radix2 fexp32 y) by (apply generic_format_round; [apply fexp32_valid|apply valid_rnd_N]).
  unfold coord. unfold carry. destruct (Rle_dec 1 y), (Rlt_dec y 0); try lra.
  - rewrite (rnd32_minus1 y Fy ltac:(lra)). destruct (Rlt_dec (y - 1) 0); try lra. cbn [cx ci].
    rewrite minus_IZR, plus_IZR. replace (_ - _) with (y - x); [exact E1|unfold x; ring].
  - destruct (Rlt_dec y 0); try lra. cbn [cx ci]. rewrite minus_IZR, plus_IZR.
    assert (X : x < 0). { destruct (Rlt_le_dec x 0) as [X|X]; auto. apply M in X. fold y in X. lra. }
    assert (E2 : Rabs (y - x) <= bpow radix2 (-25)).
    { apply (rnd32_err x 0); [lia|]. change (bpow radix2 0) with 1. apply Rabs_le. unfold x in *; lra. }
    assert (E3 : Rabs (rnd32 (y + 1) - (y + 1)) <= bpow radix2 (-25)).
    { apply (rnd32_err (y + 1) 0); [lia|]. change (bpow radix2 0) with 1. apply Rabs_le. lra. }
    replace (_ - _) with ((rnd32 (y + 1) - (y + 1)) + (y - x)) by (unfold x; ring).
    eapply Rle_trans; [apply Rabs_triang|].
    assert (bpow radix2 (-24) = bpow radix2 (-25) + bpow radix2 (-25)) by (cbn; lra). lra.
  - destruct (Rlt_dec y 0); try lra. cbn [cx ci]. rewrite minus_IZR, plus_IZR.
    replace (_ - _) with (y - x); [exact E1|unfold x; ring].
Qed.

Lemma push1_offset_one : exists c del, 0 <= cx c < 1 /\ -1 < del < 1 /\ cx (push1 rnd32 del c) = 1.
Proof.
  exists {| ci := 5; cx := 0; ci_prev := 5; cx_prev := 0 |}, (IZR (-1) * bpow radix2 (-30)).
  cbn [cx]. split; [lra|]. split. { cbn. lra. }
  unfold push1. cbn [cx ci]. rewrite Rplus_0_l. rewrite rnd32_format by lia.
  set (y := IZR (-1) * bpow radix2 (-30)). assert (-(1/4) < y < 0) by (unfold y; cbn; lra).
  unfold carry. destruct (Rle_dec 1 y), (Rlt_dec y 0); try lra. destruct (Rlt_dec y 0); try lra. cbn [cx].
  apply rnd32_near_below. unfold y. cbn. lra.
Qed.

(** ** Curvilinear coordinates *)
Lemma Int_part_spec x : IZR (Int_part x) <= x < IZR (Int_part x) + 1.
Proof. destruct (base_Int_part x). lra. Qed.
Lemma from_Xi_ok X : -1 <= X -> let '(i, dx) := from_Xi_to_i_di X in IZR i + dx = X /\ 0 <= dx < 1.
Proof.
  intros H. unfold from_Xi_to_i_di, from_Xi_to_i, trunc. destruct (Rle_dec 0 (X + 1)); [|lra].
  pose proof (Int_part_spec (X + 1)). rewrite minus_IZR. split; lra.
Qed.
Lemma from_Xi_sum X : let '(i, dx) := from_Xi_to_i_di X in IZR i + dx = X.
Proof. unfold from_Xi_to_i_di. ring. Qed.
Lemma Int_unique x z : IZR z <= x < IZR z + 1 -> Int_part x = z.
Proof.
  intros H. pose proof (Int_part_spec x) as Q. assert (IZR z < IZR (Int_part x) + 1) by lra. assert (IZR (Int_part x) < IZR z + 1) by lra.
  rewrite <- plus_IZR in *. apply lt_IZR in H0, H1. lia.
Qed.
Lemma from_Xi_bad : exists X, X < -1 /\ snd (from_Xi_to_i_di X) < 0.
Proof.
  exists (- (3 / 2)). split; [lra|]. unfold from_Xi_to_i_di, from_Xi_to_i, trunc. cbn [snd].
  destruct (Rle_dec 0 (- (3 / 2) + 1)); [lra|]. rewrite (Int_unique (- (- (3 / 2) + 1)) 0) by lra.
  replace (- 0 - 1)%Z with (-1)%Z by lia. lra.
Qed.
Lemma move_to_ok X c : -1 <= X -> let c' := move_to X c in
  coord c' = X /\ 0 <= cx c' < 1 /\ ci_prev c' = ci c /\ cx_prev c' = cx c.
Proof.
  intros H. cbv zeta. unfold move_to. pose proof (from_Xi_ok X H) as Q. destruct (from_Xi_to_i_di X) as [i dx].
  unfold coord. cbn [ci cx ci_prev cx_prev]. tauto.
Qed.
Lemma aligned_mid c : velocity_aligned true c = 1 / 2 * (coord c + coord_prev c) /\
  velocity_aligned false c = 3 / 4 * coord_prev c + 1 / 4 * coord c.
Proof. unfold velocity_aligned, i_di_to_Xi, coord, coord_prev. split; field. Qed.

(** ** Piston *)
Lemma energy_piston_pos m V u : -1 < V < 1 -> 0 < energy m u -> 0 < energy m (piston_velocity m V u).
Proof.
  intros H E. rewrite piston_energy by auto. apply Rdiv_lt_0_compat; [|nra].
  pose proof (comp_bound m u 0 E) as B. cbn [comp] in B. apply Rabs_le_inv in B.
  set (g := energy m u) in *. destruct (Rle_lt_dec 0 V) as [HV|HV].
  - assert (0 <= V * (g - v1 u)) by (apply Rmult_le_pos; lra). assert (0 < g * ((1 - V) * (1 - V))) by (apply Rmult_lt_0_compat; nra). lra.
  - assert (0 <= (- V) * (g + v1 u)) by (apply Rmult_le_pos; lra). assert (0 < g * ((1 + V) * (1 + V))) by (apply Rmult_lt_0_compat; nra). lra.
Qed.

Lemma piston_outcome massive h x0 dt xw V c u :
  0 < h -> 0 < dt -> -1 < V < 1 -> 0 < energy massive u ->
  xw <= phys_prev h x0 c ->
  phys h x0 c = phys_prev h x0 c + v1 u / energy massive u * dt ->
  let c' := fst (piston massive h x0 dt xw V c u) in
  let u' := snd (piston massive h x0 dt xw V c u) in
  (xw + V * dt <= phys h x0 c /\ c' = c /\ u' = u) \/
  (phys h x0 c < xw + V * dt /\ xw + V * dt <= phys h x0 c' /\
   u' = piston_velocity massive V u /\ ci_prev c' = ci_prev c /\ cx_prev c' = cx_prev c /\
   exists t, 0 <= t < dt /\ phys_prev h x0 c + v1 u / energy massive u * t = xw + V * t /\
     phys h x0 c' = xw + V * t + v1 u' / energy massive u' * (dt - t)).
Proof.
  intros Hh Hdt HV He Hx Hp. cbv zeta. unfold piston.
  assert (Cr : crosses_piston h x0 dt xw V c = true <-> phys h x0 c < xw + V * dt).
  { unfold crosses_piston, phys, i_di_to_Xi. fold (coord c).
    replace ((coord c - V / h * dt) * h + x0) with (x0 + h * coord c - V * dt) by (field; lra).
    destruct (Rlt_dec _ _); split; try discriminate; intros; auto; lra. }
  destruct (crosses_piston h x0 dt xw V c) eqn:E; cbn [negb].
  2: { left. split; [|auto]. destruct (Rlt_le_dec (phys h x0 c) (xw + V * dt)) as [L|L]; auto. apply Cr in L. discriminate. }
  right. assert (L : phys h x0 c < xw + V * dt) by (apply Cr; auto). clear Cr E. split; auto.
  pose proof (from_Xi_sum ((xw - x0) / h)) as S1. destruct (from_Xi_to_i_di ((xw - x0) / h)) as [iw dxw].
  set (g := energy massive u) in *. set (beta := v1 u / g) in *.
  set (D := i_di_to_Xi (iw - ci_prev c) (dxw - cx_prev c)).
  assert (HD : D = (xw - phys_prev h x0 c) / h).
  { unfold D, i_di_to_Xi, phys_prev, coord_prev. rewrite minus_IZR. replace (IZR iw - IZR (ci_prev c) + (dxw - cx_prev c)) with ((IZR iw + dxw) - (IZR (ci_prev c) + cx_prev c)) by ring.
    rewrite S1. field. lra. }
  rewrite Hp in L. set (xp := phys_prev h x0 c) in *.
  assert (Hb : beta < V). { destruct (Rlt_le_dec beta V); auto. exfalso. assert (V * dt <= beta * dt) by (apply Rmult_le_compat_r; lra). lra. }
  set (t := D / ((beta - V) / h)).
  assert (Ht : t * (V - beta) = xp - xw). { unfold t. rewrite HD. field. repeat split; lra. }
  assert (T0 : 0 <= t < dt).
  { split.
    - destruct (Rle_lt_dec 0 t); auto. exfalso. assert (t * (V - beta) < 0) by nra. lra.
    - destruct (Rlt_le_dec t dt); auto. exfalso. assert (dt * (V - beta) <= t * (V - beta)) by (apply Rmult_le_compat_r; lra). lra. }
  clearbody t. set (u' := piston_velocity massive V u).
  pose proof (energy_piston_pos massive V u HV He) as He'. fold u' in He'. set (g' := energy massive u') in *.
  pose proof (carry_sum iw (dxw + V / h * t)) as S2. unfold exactly in S2. destruct (carry _ iw (dxw + V / h * t)) as [ic dxc].
  pose proof (carry_sum ic (v1 u' / h * ((dt - t) / g') + dxc)) as S3. unfold exactly in S3. destruct (carry _ ic _) as [i dx].
  cbn [fst snd].
  assert (P : phys h x0 {| ci := i; cx := dx; ci_prev := ci_prev c; cx_prev := cx_prev c |} = xw + V * t + v1 u' / g' * (dt - t)).
  { unfold phys, coord. cbn [ci cx]. rewrite S3.
    replace (IZR ic + (v1 u' / h * ((dt - t) / g') + dxc)) with ((IZR ic + dxc) + v1 u' / h * ((dt - t) / g')) by ring.
    rewrite S2. replace (IZR iw + (dxw + V / h * t)) with ((IZR iw + dxw) + V / h * t) by ring. rewrite S1. field. split; lra. }
  rewrite P. 
  assert (F : v1 u' - V * g' = - (v1 u - V * g)).
  { destruct (piston_frame massive V u HV) as (_ & F & _). fold u' g' in F. fold g in F. unfold boosted_u1 in F.
    assert (S : 0 < sqrt (1 - V * V)) by (apply sqrt_lt_R0; nra). set (s := sqrt (1 - V * V)) in *.
    apply (f_equal (fun y => y * s)) in F. unfold Rdiv in F. rewrite Ropp_mult_distr_l_reverse in F. rewrite !Rmult_assoc, Rinv_l in F by lra. lra. }
  assert (G : V < v1 u' / g').
  { apply (Rmult_lt_reg_r g'); auto. unfold Rdiv. rewrite Rmult_assoc, Rinv_l by lra.
    assert (v1 u < V * g). { apply (Rmult_lt_compat_r g) in Hb; [|auto]. unfold beta, Rdiv in Hb. rewrite Rmult_assoc, Rinv_l in Hb by lra. lra. }
    lra. }
  split. { assert (0 <= (v1 u' / g' - V) * (dt - t)) by (apply Rmult_le_pos; lra). lra. }
  repeat split; auto. exists t. repeat split; try tauto. lra.
Qed.
