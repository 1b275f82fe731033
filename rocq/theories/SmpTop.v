(** Proofs for sampled velocities: rejection loop, distributions, flip. *)
From Coq Require Import Reals List Bool Lia Lra.
From Coquelicot Require Import Rcomplements Hierarchy Derive RInt RInt_analysis AutoDerive Continuity.
From Verif Require Import VelModel SmpModel SmpSpec SmpProofs.
Import ListNotations.
Open Scope R_scope.

Lemma ln_neg x : 0 < x < 1 -> ln x < 0.
Proof. intros H. rewrite <- ln_1. apply ln_increasing; lra. Qed.

Lemma proposes_is temp t : 0 < prod3 (factors t) -> proposes temp t = - temp * ln (prod3 (factors t)).
Proof. intros H. unfold proposes. rewrite ln_Rinv by exact H. ring. Qed.

(** The test of the loop. *)
Lemma test_iff temp x1 x2 : 0 < temp -> 0 < x1 < 1 -> 0 < x2 < 1 ->
  let u := - temp * ln x1 in let eta := - temp * ln (x1 * x2) in
  (eta * eta <= u * u + 1 <-> ~ (x2 < exp (- (sqrt (1 + u * u) - u) / temp))).
Proof.
  intros HT H1 H2 u eta. pose proof (ln_neg x1 H1) as L1. pose proof (ln_neg x2 H2) as L2.
  assert (Hu : 0 < u) by (unfold u; nra).
  assert (He : eta = u - temp * ln x2) by (unfold eta, u; rewrite ln_mult by lra; ring).
  assert (Hep : 0 < eta) by nra.
  set (g := sqrt (1 + u * u)). assert (Hg : g * g = 1 + u * u) by (apply sqrt_sqrt; nra).
  assert (Hgp : 0 <= g) by apply sqrt_pos.
  assert (E1 : eta * eta <= u * u + 1 <-> eta <= g).
  { replace (u * u + 1) with (g * g) by lra. split; intros H; nra. }
  rewrite E1, He.
  assert (E2 : u - temp * ln x2 <= g <-> - (g - u) / temp <= ln x2).
  { split; intros H.
    - apply (Rmult_le_reg_l temp); [exact HT|]. replace (temp * (- (g - u) / temp)) with (- (g - u)) by (field; lra). lra.
    - apply (Rmult_le_compat_l temp) in H; [|lra]. replace (temp * (- (g - u) / temp)) with (- (g - u)) in H by (field; lra). lra. }
  rewrite E2. split; intros H.
  - apply Rle_not_lt. rewrite <- (exp_ln x2) by lra. destruct H as [H|H]; [left; now apply exp_increasing|right; now rewrite H].
  - apply Rnot_lt_le in H. destruct (Rle_or_lt (- (g - u) / temp) (ln x2)) as [L|L]; [exact L|].
    apply exp_increasing in L. rewrite exp_ln in L by lra. lra.
Qed.

Lemma turn_facts eps temp t : 0 <= eps -> 0 < temp -> turn_ok eps t ->
  let x1 := prod3 (factors t) in let u := - temp * ln x1 in let eta := - temp * ln (x1 * last1 t) in
  u = proposes temp t /\ (eta * eta <= u * u + 1 <-> ~ counts temp t).
Proof.
  intros H0 HT (_ & Hf & _ & Hl) x1 u eta. assert (E : u = proposes temp t) by (symmetry; apply proposes_is; lra).
  split; [exact E|]. unfold counts. cbv zeta. rewrite <- E. apply test_iff; [exact HT|fold x1 in Hf; lra|lra].
Qed.

Lemma draw_turn eps t rest : 0 <= eps -> turn_ok eps t ->
  draw3 eps (numbers t ++ rest) = Some (prod3 (factors t), (again1 t ++ last1 t :: rest)%list)
  /\ draw eps (again1 t ++ last1 t :: rest) = Some (last1 t, rest).
Proof.
  intros H0 (A & B & C & D). split.
  - unfold numbers. rewrite <- !app_assoc. cbn [app]. rewrite draw3_spec; [reflexivity|exact H0|exact A|apply B].
  - apply draw_spec; [exact H0|exact C|apply D].
Qed.

Lemma sobol_spec eps temp : 0 <= eps -> 0 < temp -> forall pre t rest fuel u eta,
  List.Forall (turn_ok eps) pre -> List.Forall (fun q => ~ counts temp q) pre -> turn_ok eps t -> counts temp t ->
  (length pre < fuel)%nat -> eta * eta <= u * u + 1 ->
  sobol fuel eps temp u eta (flat_map numbers (pre ++ [t]) ++ rest) = Some (proposes temp t, rest).
Proof.
  intros H0 HT. induction pre as [|q pre IH]; intros t rest fuel u eta Hok Hno Ht Hc Hf Htest.
  - destruct fuel as [|f]; [lia|]. cbn [sobol]. destruct (Rle_dec _ _) as [_|N]; [|tauto].
    cbn [app flat_map]. rewrite app_nil_r.
    destruct (draw_turn eps t rest H0 Ht) as [-> D]. cbn [bind]. rewrite D. cbn [bind].
    destruct (turn_facts eps temp t H0 HT Ht) as [E1 E2]. cbv zeta in E1, E2.
    assert (N : ~ (- temp * ln (prod3 (factors t) * last1 t) * (- temp * ln (prod3 (factors t) * last1 t))
                   <= - temp * ln (prod3 (factors t)) * (- temp * ln (prod3 (factors t))) + 1)) by tauto.
    destruct f; cbn [sobol]; destruct (Rle_dec _ _); try tauto; now rewrite E1.
  - destruct fuel as [|f]; [lia|]. cbn [sobol]. destruct (Rle_dec _ _) as [_|N]; [|tauto].
    apply Forall_cons_iff in Hok. destruct Hok as [Hq Hok]. apply Forall_cons_iff in Hno. destruct Hno as [Hqn Hno].
    change (flat_map numbers ((q :: pre) ++ [t])) with (numbers q ++ flat_map numbers (pre ++ [t]))%list.
    rewrite <- app_assoc. destruct (draw_turn eps q (flat_map numbers (pre ++ [t]) ++ rest) H0 Hq) as [-> D]. cbn [bind].
    rewrite D. cbn [bind]. destruct (turn_facts eps temp q H0 HT Hq) as [E1 E2]. cbv zeta in E1, E2.
    apply IH; try assumption; [cbn in Hf; lia|]. tauto.
Qed.

Lemma sobol_inv eps temp : 0 <= eps -> 0 < temp -> forall fuel u eta l v rest,
  List.Forall (fun y => 0 <= y < 1) l -> eta * eta <= u * u + 1 -> sobol fuel eps temp u eta l = Some (v, rest) ->
  exists pre t, l = (flat_map numbers (pre ++ [t]) ++ rest)%list /\ List.Forall (turn_ok eps) pre
    /\ List.Forall (fun q => ~ counts temp q) pre /\ turn_ok eps t /\ counts temp t /\ v = proposes temp t.
Proof.
  intros H0 HT. induction fuel as [|f IH]; intros u eta l v rest Hl Htest E; cbn [sobol] in E;
    (destruct (Rle_dec _ _) as [_|N]; [|tauto]); [discriminate E|].
  destruct (draw3 eps l) as [(x1, l1)|] eqn:E3; [|discriminate E]. cbn [bind] in E.
  destruct (draw eps l1) as [(x2, l2)|] eqn:E1; [|discriminate E]. cbn [bind] in E.
  destruct (draw3_inv eps H0 (length l) l x1 l1 (le_n _) Hl E3) as (ag3 & q & El & Ex & A3 & B3).
  assert (Hl1 : List.Forall (fun y => 0 <= y < 1) l1)
    by (rewrite El in Hl; rewrite !Forall_app in Hl; apply Hl).
  destruct (draw_inv eps l1 x2 l2 H0 Hl1 E1) as (ag1 & El1 & A1 & B1).
  assert (Hl2 : List.Forall (fun y => 0 <= y < 1) l2).
  { rewrite El1 in Hl1. apply Forall_app in Hl1. destruct Hl1 as [_ Hl1]. now apply Forall_cons_iff in Hl1. }
  set (t := Turn ag3 q ag1 x2). assert (Ht : turn_ok eps t) by (repeat split; assumption || apply B3 || apply B1).
  destruct (turn_facts eps temp t H0 HT Ht) as [F1 F2]. cbv zeta in F1, F2. cbn [factors last1 t] in F1, F2.
  assert (Enum : l = (numbers t ++ l2)%list).
  { unfold numbers. cbn [again3 factors again1 last1 t]. rewrite <- !app_assoc. cbn [app]. now rewrite El, El1. }
  subst x1.
  destruct (Rle_dec (- temp * ln (prod3 q * x2) * (- temp * ln (prod3 q * x2)))
              (- temp * ln (prod3 q) * (- temp * ln (prod3 q)) + 1)) as [L|L].
  - destruct (IH _ _ l2 v rest Hl2 L E) as (pre & t' & G1 & G2 & G3 & G4 & G5 & G6).
    exists (t :: pre), t'. split; [|split; [|split; [|auto]]].
    + change (flat_map numbers ((t :: pre) ++ [t'])) with (numbers t ++ flat_map numbers (pre ++ [t']))%list.
      rewrite <- app_assoc, <- G1. exact Enum.
    + constructor; assumption.
    + constructor; [tauto|assumption].
  - assert (v = - temp * ln (prod3 q) /\ rest = l2) as [-> ->].
    { destruct f; cbn [sobol] in E; destruct (Rle_dec _ _); try tauto; injection E as <- <-; auto. }
    exists [], t. repeat split; try assumption || apply B3 || apply B1; try constructor.
    + cbn [app flat_map]. rewrite app_nil_r. exact Enum.
    + destruct (Rlt_dec (last1 t) (exp (- (sqrt (1 + proposes temp t * proposes temp t) - proposes temp t) / temp))) as [C|C];
        [exact C|]. exfalso. apply L, F2. exact C.
Qed.

Lemma numbers_long t : (1 <= length (numbers t))%nat.
Proof. unfold numbers. destruct (factors t) as ((a, b), c). rewrite !app_length. cbn. lia. Qed.
Lemma turns_long pre rest : (length pre <= length (flat_map numbers pre ++ rest)%list)%nat.
Proof.
  induction pre as [|t pre IH]; [cbn; lia|]. cbn [flat_map length]. rewrite <- app_assoc, app_length.
  pose proof (numbers_long t). lia.
Qed.

Theorem juttner_iff eps temp l v rest : 0 <= eps -> 1 / 2 <= temp -> List.Forall (fun y => 0 <= y < 1) l ->
  juttner eps temp l = Some (v, rest) <->
  exists eta pre t x1 x2, l = (eta :: flat_map numbers (pre ++ [t]) ++ x1 :: x2 :: rest)%list
    /\ List.Forall (turn_ok eps) pre /\ List.Forall (fun q => ~ counts temp q) pre /\ turn_ok eps t /\ counts temp t
    /\ v = direction (proposes temp t) x1 x2.
Proof.
  intros H0 HT Hl. unfold juttner. destruct (Rlt_dec temp (1 / 2)) as [N|_]; [lra|]. split.
  - destruct l as [|eta l]; [discriminate|]. apply Forall_cons_iff in Hl. destruct Hl as [He Hl].
    destruct (sobol _ _ _ _ _ l) as [(u, l1)|] eqn:E; [|discriminate]. cbn [bind].
    destruct l1 as [|x1 [|x2 l1]]; try discriminate. intros H. injection H as <- <-.
    assert (HTp : 0 < temp) by lra. assert (Het : eta * eta <= 1 * 1 + 1) by nra.
    destruct (sobol_inv eps temp H0 HTp _ _ _ _ _ _ Hl Het E) as (pre & t & G1 & G2 & G3 & G4 & G5 & ->).
    exists eta, pre, t, x1, x2. rewrite G1. auto 10.
  - intros (eta & pre & t & x1 & x2 & -> & G2 & G3 & G4 & G5 & ->).
    apply Forall_cons_iff in Hl. destruct Hl as [He Hl].
    rewrite (sobol_spec eps temp H0 ltac:(lra) pre t); try assumption; [reflexivity| |nra].
    pose proof (turns_long (pre ++ [t]) (x1 :: x2 :: rest)) as L. rewrite app_length in L. cbn in L. lia.
Qed.

(** Every turn counts with a probability bounded from below. *)
Lemma counts_often temp t : 1 / 2 <= temp -> 0 < prod3 (factors t) < 1 -> last1 t < 1 / 9 -> counts temp t.
Proof.
  intros HT Hp Hl. unfold counts. cbv zeta. set (u := proposes temp t).
  assert (Hu : 0 < u) by (unfold u; rewrite proposes_is by lra; pose proof (ln_neg _ Hp); nra).
  set (g := sqrt (1 + u * u)). assert (Hg : g * g = 1 + u * u) by (apply sqrt_sqrt; nra).
  assert (Hgp : 0 <= g) by apply sqrt_pos. assert (D : g - u <= 1) by nra.
  assert (D0 : 0 <= g - u) by nra.
  assert (B : -2 <= - (g - u) / temp).
  { apply (Rmult_le_reg_l temp); [lra|]. replace (temp * (- (g - u) / temp)) with (- (g - u)) by (field; lra). lra. }
  apply (Rlt_le_trans _ (exp (-2))).
  - apply (Rlt_le_trans _ (1 / 9)); [exact Hl|]. replace (-2) with (- (1 + 1)) by ring. rewrite exp_Ropp, exp_plus.
    pose proof exp_le_3 as E3. pose proof (exp_pos 1) as EP.
    unfold Rdiv. rewrite Rmult_1_l. apply Rinv_le_contravar; nra.
  - destruct B as [B|B]; [left; now apply exp_increasing|right; now rewrite B].
Qed.

(** The tail. *)
Lemma tail eps temp t : 0 < eps -> 0 < temp -> turn_ok eps t -> 0 < proposes temp t < temp * ln (/ eps).
Proof.
  intros H0 HT (_ & Hf & _). unfold proposes. rewrite !ln_Rinv by lra. pose proof (ln_neg _ (conj (Rlt_trans _ _ _ H0 (proj1 Hf)) (proj2 Hf))).
  assert (ln eps < ln (prod3 (factors t))) by (apply ln_increasing; lra). split; nra.
Qed.

(** Probability of a product of uniform numbers. *)
Definition H2 (p : R) : R := p * (1 - ln p).
Definition H3 (p : R) : R := p * (1 - ln p + ln p * ln p / 2).

Lemma split_int (f G : R -> R) p : 0 < p <= 1 -> f 1 = 1 ->
  (forall x, p <= x <= 1 -> is_derive G x (f (p / x))) -> (forall x, p <= x <= 1 -> continuous (fun y => f (p / y)) x) ->
  is_RInt (fun x => f (Rmin 1 (p / x))) 0 1 (p + (G 1 - G p)).
Proof.
  intros Hp H1 HD HC. apply (is_RInt_Chasles (V := R_NormedModule) _ 0 p 1 p (G 1 - G p)).
  - apply (is_RInt_ext (fun _ => 1)).
    + intros x. rewrite Rmin_left, Rmax_right by lra. intros Hx. rewrite Rmin_left; [now rewrite H1|].
      apply Rlt_le. apply (Rmult_lt_reg_r x); [lra|]. unfold Rdiv. rewrite Rmult_assoc, Rinv_l by lra. lra.
    + pose proof (is_RInt_const (V := R_NormedModule) 0 p 1) as K.
      replace (scal (p - 0) (1 : R_NormedModule)) with p in K by (unfold scal; cbn; unfold mult; cbn; ring). exact K.
  - destruct (Rle_lt_or_eq_dec p 1 (proj2 Hp)) as [L|E].
    + apply (is_RInt_ext (fun x => f (p / x))).
      * intros x. rewrite Rmin_left, Rmax_right by lra. intros Hx. f_equal. symmetry. apply Rmin_right.
        apply Rlt_le. apply (Rmult_lt_reg_r x); [lra|]. unfold Rdiv. rewrite Rmult_assoc, Rinv_l by lra. lra.
      * apply (is_RInt_derive G (fun x => f (p / x))); intros x; rewrite Rmin_left, Rmax_right by lra; auto.
    + rewrite E. replace (G 1 - G 1) with (@zero R_NormedModule) by (cbn; ring). apply is_RInt_point.
Qed.

Lemma chance2 p : 0 < p <= 1 -> chance 2 p (H2 p).
Proof.
  intros Hp. exists (fun q => q). split; [reflexivity|].
  replace (H2 p) with (p + (p * ln 1 - p * ln p)) by (rewrite ln_1; unfold H2; ring).
  apply (split_int (fun q => q) (fun x => p * ln x)); [exact Hp|reflexivity| |].
  - intros x Hx. auto_derive; [lra|]. field. lra.
  - intros x Hx. apply (ex_derive_continuous (V := R_NormedModule) (fun y => p / y)). auto_derive. lra.
Qed.

Lemma chance3 p : 0 < p <= 1 -> chance 3 p (H3 p).
Proof.
  intros Hp. exists H2. split; [intros q Hq; apply chance2, Hq|].
  replace (H3 p) with (p + ((fun x => p * ((1 - ln p) * ln x + ln x * ln x / 2)) 1 - (fun x => p * ((1 - ln p) * ln x + ln x * ln x / 2)) p))
    by (cbv beta; rewrite ln_1; unfold H3; field).
  apply (split_int H2 (fun x => p * ((1 - ln p) * ln x + ln x * ln x / 2))); [exact Hp|unfold H2; rewrite ln_1; ring| |].
  - intros x Hx. unfold H2. auto_derive; [lra|]. unfold Rdiv. rewrite (ln_mult p (/ x)), ln_Rinv by (try lra; apply Rinv_0_lt_compat; lra).
    field. lra.
  - intros x Hx. apply (ex_derive_continuous (V := R_NormedModule) (fun y => H2 (p / y))). unfold H2. auto_derive.
    repeat split; try lra; try (apply Rdiv_lt_0_compat; lra); try (apply Rmult_lt_0_compat; [lra|apply Rinv_0_lt_compat; lra]).
Qed.

Theorem juttner_law temp s : 0 < temp -> 0 <= s ->
  exists H d, (forall p, 0 < p <= 1 -> chance 3 p (H p))
    /\ is_derive (fun x => 1 - H (exp (- x / temp))) s d
    /\ d * exp (- (sqrt (1 + s * s) - s) / temp) = exp (- 1 / temp) / (2 * (temp * temp * temp)) * juttner_density temp s.
Proof.
  intros HT Hs. exists H3, (s * s * exp (- s / temp) / (2 * (temp * temp * temp))). split; [exact chance3|]. split.
  - apply (is_derive_ext (fun x => 1 - exp (- x / temp) * (1 + x / temp + x * x / (2 * temp * temp)))).
    + intros x. unfold H3. rewrite ln_exp. change ((1 - exp (- x / temp) * (1 + x / temp + x * x / (2 * temp * temp)))
        = (1 - exp (- x / temp) * (1 - - x / temp + - x / temp * (- x / temp) / 2))). field. lra.
    + auto_derive; [exact I|]. unfold Rdiv. set (e := exp (- s * / temp)). field. lra.
  - unfold juttner_density.
    replace (s * s * exp (- s / temp) / (2 * (temp * temp * temp)) * exp (- (sqrt (1 + s * s) - s) / temp))
      with (s * s / (2 * (temp * temp * temp)) * (exp (- s / temp) * exp (- (sqrt (1 + s * s) - s) / temp))) by (field; lra).
    replace (exp (- 1 / temp) / (2 * (temp * temp * temp)) * (s * s * exp (- (sqrt (1 + s * s) - 1) / temp)))
      with (s * s / (2 * (temp * temp * temp)) * (exp (- 1 / temp) * exp (- (sqrt (1 + s * s) - 1) / temp))) by (field; lra).
    rewrite <- !exp_plus. f_equal. f_equal. field. lra.
Qed.

Lemma proposes_le temp t s : 0 < temp -> 0 < prod3 (factors t) -> (s < proposes temp t <-> prod3 (factors t) < exp (- s / temp)).
Proof.
  intros HT Hp. rewrite proposes_is by exact Hp. split; intros H.
  - rewrite <- (exp_ln (prod3 (factors t))) by exact Hp. apply exp_increasing. apply (Rmult_lt_reg_l temp); [exact HT|].
    replace (temp * (- s / temp)) with (- s) by (field; lra). lra.
  - apply ln_increasing in H; [|exact Hp]. rewrite ln_exp in H. apply (Rmult_lt_compat_l temp) in H; [|exact HT].
    replace (temp * (- s / temp)) with (- s) in H by (field; lra). lra.
Qed.

(** Cool plasmas. *)
Theorem gauss_iff eps temp l v rest : 0 <= eps -> List.Forall (fun y => 0 <= y < 1) l ->
  gauss eps temp l = Some (v, rest) <->
  exists again x1 x2, l = (again ++ x1 :: x2 :: rest)%list /\ List.Forall (fun y => 0 <= y <= eps) again /\ eps < x1 < 1
    /\ v = sqrt (-2 * ln x1) * cos (2 * PI * x2) * sqrt temp.
Proof.
  intros H0 Hl. unfold gauss. split.
  - destruct (draw eps l) as [(x1, l1)|] eqn:E; [|discriminate]. cbn [bind]. destruct l1 as [|x2 l1]; [discriminate|].
    intros H. injection H as <- <-. destruct (draw_inv eps l x1 (x2 :: l1) H0 Hl E) as (again & -> & A & B).
    exists again, x1, x2. auto.
  - intros (again & x1 & x2 & -> & A & B & ->). rewrite draw_spec by (assumption || apply B). reflexivity.
Qed.

Lemma rayleigh x r : 0 < x < 1 -> 0 <= r -> (sqrt (-2 * ln x) <= r <-> exp (- (r * r) / 2) <= x).
Proof.
  intros Hx Hr. pose proof (ln_neg x Hx) as L. assert (E : sqrt (-2 * ln x) <= r <-> -2 * ln x <= r * r).
  { split; intros H.
    - assert (Hq : sqrt (-2 * ln x) * sqrt (-2 * ln x) = -2 * ln x) by (apply sqrt_sqrt; lra).
      pose proof (sqrt_pos (-2 * ln x)). nra.
    - rewrite <- (sqrt_square r) by exact Hr. apply sqrt_le_1; nra. }
  rewrite E. split; intros H.
  - rewrite <- (exp_ln x) by lra. assert (K : - (r * r) / 2 <= ln x) by lra.
    destruct K as [K|K]; [left; now apply exp_increasing|right; now rewrite K].
  - apply (ln_le_iff _ x) in H; [|apply exp_pos|lra]. rewrite ln_exp in H. lra.
Qed.

Lemma ratio temp u : 0 < temp ->
  maxwell_density temp u = juttner_density temp u * exp (- ((sqrt (1 + u * u) - 1) * (sqrt (1 + u * u) - 1)) / (2 * temp)).
Proof.
  intros HT. unfold maxwell_density, juttner_density. rewrite (Rmult_assoc (u * u)), <- exp_plus. f_equal. f_equal.
  set (g := sqrt (1 + u * u)). assert (Hg : g * g = 1 + u * u) by (apply sqrt_sqrt; nra).
  replace (u * u) with (g * g - 1) by lra. field. lra.
Qed.

(** Flip. *)
Theorem flip u4 r v : 0 <= u4 -> 0 <= r ->
  let beta := u4 / sqrt (1 + u4 * u4) in
  boost_x1 u4 r v = boost_x1 u4 1 (if Rlt_dec (r * u2gamma v) (- beta * v1 v) then (- v1 v, v2 v, v3 v) else v).
Proof.
  intros H4 Hr beta.
  assert (Hs : 0 < sqrt (1 + u4 * u4)) by (apply sqrt_lt_R0; nra).
  assert (Hss : sqrt (1 + u4 * u4) * sqrt (1 + u4 * u4) = 1 + u4 * u4) by (apply sqrt_sqrt; nra).
  assert (Hb : 0 <= beta < 1).
  { unfold beta. split; [apply Rdiv_le_0_compat; lra|]. apply (Rmult_lt_reg_r (sqrt (1 + u4 * u4))); [exact Hs|].
    unfold Rdiv. rewrite Rmult_assoc, Rinv_l by lra. nra. }
  assert (HG : forall w, Rabs (v1 w) < u2gamma w /\ 0 < u2gamma w).
  { intros w. unfold u2gamma, norm_sqr. assert (0 < sqrt (1 + (v1 w * v1 w + v2 w * v2 w + v3 w * v3 w))) by (apply sqrt_lt_R0; nra).
    split; [|assumption]. rewrite <- sqrt_Rsqr_abs. apply sqrt_lt_1; unfold Rsqr; nra. }
  assert (HN : forall w, ~ (u2gamma w * 1 < - beta * v1 w)).
  { intros w N. destruct (HG w) as [A B]. apply Rabs_def2 in A. nra. }
  unfold boost_x1. cbv zeta. fold beta.
  destruct (Rlt_dec (u2gamma v * r) (- beta * v1 v)) as [L|L]; destruct (Rlt_dec (r * u2gamma v) (- beta * v1 v)) as [L'|L']; try lra.
  - destruct (Rlt_dec _ _) as [N|_]; [exfalso; now apply HN in N|].
    unfold u2gamma, norm_sqr, v1, v2, v3. cbn [fst snd]. f_equal. f_equal. f_equal. f_equal. f_equal. f_equal. ring.
  - destruct (Rlt_dec _ _) as [N|_]; [exfalso; now apply HN in N|]. reflexivity.
Qed.

(** The share of the numbers for which one of two mirrored velocities ends up as [v], and the energy after
    the boost. *)
Theorem flip_weight u4 v : 0 <= u4 ->
  let beta := u4 / sqrt (1 + u4 * u4) in let G := sqrt (1 + u4 * u4) in
  u2gamma (boost_x1 u4 1 v) = G * u2gamma v * (1 + beta * v1 v / u2gamma v).
Proof.
  intros H4 beta G.
  assert (Hs : 0 < G) by (apply sqrt_lt_R0; nra).
  assert (Hss : G * G = 1 + u4 * u4) by (apply sqrt_sqrt; nra).
  set (g := u2gamma v). assert (Hg : g * g = 1 + norm_sqr v) by (apply sqrt_sqrt; unfold norm_sqr; nra).
  assert (Hgp : 0 < g) by (apply sqrt_lt_R0; unfold norm_sqr; nra).
  assert (Hgv : - g < v1 v < g) by (unfold norm_sqr in Hg; split; nra).
  assert (Hb : 0 <= beta < 1).
  { unfold beta. fold G. split; [apply Rdiv_le_0_compat; lra|]. apply (Rmult_lt_reg_r G); [exact Hs|].
    unfold Rdiv. rewrite Rmult_assoc, Rinv_l by lra. nra. }
  assert (HbG : beta * G = u4) by (unfold beta; fold G; field; lra).
  replace (G * g * (1 + beta * v1 v / g)) with (G * (g + beta * v1 v)) by (field; lra).
  unfold u2gamma at 1. unfold boost_x1. cbv zeta. fold beta. fold g. fold G.
  destruct (Rlt_dec (g * 1) (- beta * v1 v)) as [N|_]; [exfalso; nra|].
  assert (E : 1 + norm_sqr (G * (v1 v + beta * g), v2 v, v3 v) = (G * (g + beta * v1 v)) * (G * (g + beta * v1 v))).
  { unfold norm_sqr in *. change (1 + (G * (v1 v + beta * g) * (G * (v1 v + beta * g)) + v2 v * v2 v + v3 v * v3 v)
      = G * (g + beta * v1 v) * (G * (g + beta * v1 v))).
    replace (G * (v1 v + beta * g)) with (G * v1 v + u4 * g) by (rewrite <- HbG; ring).
    replace (G * (g + beta * v1 v)) with (G * g + u4 * v1 v) by (rewrite <- HbG; ring).
    assert (X : (G * g + u4 * v1 v) * (G * g + u4 * v1 v) - (G * v1 v + u4 * g) * (G * v1 v + u4 * g)
                = (G * G - u4 * u4) * (g * g - v1 v * v1 v)) by ring.
    rewrite Hss, Hg in X. lra. }
  rewrite E. apply sqrt_square. apply Rmult_le_pos; [lra|]. destruct (Rle_dec 0 (v1 v)); nra.
Qed.

Lemma gauss_draw eps temp l v rest : 0 <= eps -> List.Forall (fun y => 0 <= y < 1) l ->
  gauss eps temp l = Some (v, rest) <-> exists la, l = (la ++ rest)%list /\ normal_draw eps temp la v.
Proof.
  intros H0 Hl. rewrite gauss_iff by assumption. split.
  - intros (again & x1 & x2 & -> & A & B & ->). exists (again ++ [x1; x2])%list. rewrite <- app_assoc. split; [reflexivity|].
    exists again, x1, x2. repeat split; try assumption; try apply B. ring.
  - intros (la & -> & again & x1 & x2 & -> & A & B & ->). exists again, x1, x2. rewrite <- app_assoc. repeat split; try assumption; try apply B. ring.
Qed.

Theorem cool_iff eps temp l a b c rest : 0 <= eps -> temp < 1 / 2 -> List.Forall (fun y => 0 <= y < 1) l ->
  juttner eps temp l = Some ((a, b, c), rest) <->
  exists la lb lc, l = (la ++ lb ++ lc ++ rest)%list /\ normal_draw eps temp la a /\ normal_draw eps temp lb b
    /\ normal_draw eps temp lc c.
Proof.
  intros H0 HT Hl. unfold juttner. destruct (Rlt_dec temp (1 / 2)) as [_|N]; [|lra]. split.
  - destruct (gauss eps temp l) as [(a', l1)|] eqn:E1; [|discriminate]. cbn [bind].
    apply gauss_draw in E1; try assumption. destruct E1 as (la & -> & Na). apply Forall_app in Hl. destruct Hl as [_ Hl].
    destruct (gauss eps temp l1) as [(b', l2)|] eqn:E2; [|discriminate]. cbn [bind].
    apply gauss_draw in E2; try assumption. destruct E2 as (lb & -> & Nb). apply Forall_app in Hl. destruct Hl as [_ Hl].
    destruct (gauss eps temp l2) as [(c', l3)|] eqn:E3; [|discriminate]. cbn [bind].
    apply gauss_draw in E3; try assumption. destruct E3 as (lc & -> & Nc). intros H. injection H as <- <- <- <-.
    exists la, lb, lc. auto.
  - intros (la & lb & lc & -> & Na & Nb & Nc). rewrite !Forall_app in Hl. destruct Hl as (Hla & Hlb & Hlc & Hr).
    assert (E1 : gauss eps temp (la ++ lb ++ lc ++ rest) = Some (a, (lb ++ lc ++ rest)%list))
      by (apply gauss_draw; [assumption|rewrite !Forall_app; auto|exists la; auto]).
    assert (E2 : gauss eps temp (lb ++ lc ++ rest) = Some (b, (lc ++ rest)%list))
      by (apply gauss_draw; [assumption|rewrite !Forall_app; auto|exists lb; auto]).
    assert (E3 : gauss eps temp (lc ++ rest) = Some (c, rest))
      by (apply gauss_draw; [assumption|rewrite !Forall_app; auto|exists lc; auto]).
    rewrite E1. cbn [bind]. rewrite E2. cbn [bind]. rewrite E3. reflexivity.
Qed.

Lemma boost_plain u4 v : 0 <= u4 -> boost_x1 u4 1 v = boosted u4 v.
Proof.
  intros H4. set (G := sqrt (1 + u4 * u4)).
  assert (Hs : 0 < G) by (apply sqrt_lt_R0; nra).
  assert (Hss : G * G = 1 + u4 * u4) by (apply sqrt_sqrt; nra).
  set (g := u2gamma v). assert (Hg : g * g = 1 + norm_sqr v) by (apply sqrt_sqrt; unfold norm_sqr; nra).
  assert (Hgp : 0 < g) by (apply sqrt_lt_R0; unfold norm_sqr; nra).
  assert (Hgv : - g < v1 v < g) by (unfold norm_sqr in Hg; split; nra).
  set (beta := u4 / G). assert (HbG : beta * G = u4) by (unfold beta; field; lra).
  assert (Hb : 0 <= beta < 1).
  { split; [apply Rdiv_le_0_compat; lra|]. apply (Rmult_lt_reg_r G); [exact Hs|]. rewrite HbG. nra. }
  unfold boost_x1, boosted. cbv zeta. fold G. fold g. fold beta.
  destruct (Rlt_dec (g * 1) (- beta * v1 v)) as [N|_]; [exfalso; nra|]. rewrite <- HbG at 1. f_equal. f_equal. ring.
Qed.

Theorem flip_iff u4 r v : 0 <= u4 -> 0 <= r < 1 ->
  let share := u4 / sqrt (1 + u4 * u4) * Rabs (v1 v) / u2gamma v in
  0 <= share < 1
  /\ (v1 v < 0 -> r < share -> boost_x1 u4 r v = boosted u4 (mirrored v))
  /\ (0 <= v1 v \/ share <= r -> boost_x1 u4 r v = boosted u4 v).
Proof.
  intros H4 Hr share. rewrite (flip u4 r v H4 (proj1 Hr)), boost_plain by exact H4.
  set (G := sqrt (1 + u4 * u4)) in *.
  assert (Hs : 0 < G) by (apply sqrt_lt_R0; nra).
  assert (Hss : G * G = 1 + u4 * u4) by (apply sqrt_sqrt; nra).
  set (g := u2gamma v) in *. assert (Hg : g * g = 1 + norm_sqr v) by (apply sqrt_sqrt; unfold norm_sqr; nra).
  assert (Hgp : 0 < g) by (apply sqrt_lt_R0; unfold norm_sqr; nra).
  assert (Hgv : Rabs (v1 v) < g) by (apply Rabs_def1; unfold norm_sqr in Hg; nra).
  pose proof (Rabs_pos (v1 v)) as Hap.
  set (beta := u4 / G) in *. assert (HbG : beta * G = u4) by (unfold beta; field; lra).
  assert (Hb : 0 <= beta < 1).
  { split; [apply Rdiv_le_0_compat; lra|]. apply (Rmult_lt_reg_r G); [exact Hs|]. rewrite HbG. nra. }
  assert (Es : share * g = beta * Rabs (v1 v)) by (unfold share; field; lra).
  split; [split|split].
  - apply Rdiv_le_0_compat; [nra|exact Hgp].
  - apply (Rmult_lt_reg_r g); [exact Hgp|]. rewrite Es. nra.
  - intros Hv Hl. destruct (Rlt_dec _ _) as [_|N]; [reflexivity|]. exfalso. apply N. rewrite (Rabs_left _ Hv) in Es.
    apply (Rmult_lt_compat_r g) in Hl; [|exact Hgp]. lra.
  - intros Hc. destruct (Rlt_dec _ _) as [L|_]; [|reflexivity]. exfalso.
    assert (Hrg : 0 <= r * g) by nra. assert (HP : 0 <= v1 v -> False) by (intros P; assert (0 <= beta * v1 v) by nra; lra).
    destruct Hc as [Hc|Hc]; [tauto|]. destruct (Rle_or_lt 0 (v1 v)) as [P|P]; [tauto|]. rewrite (Rabs_left _ P) in Es.
    apply (Rmult_le_compat_r g) in Hc; [|lra]. lra.
Qed.

Theorem weight u4 v : 0 <= u4 ->
  u2gamma (boosted u4 v) = sqrt (1 + u4 * u4) * u2gamma v * (1 + u4 / sqrt (1 + u4 * u4) * v1 v / u2gamma v).
Proof. intros H4. rewrite <- boost_plain by exact H4. now apply flip_weight. Qed.

Theorem cut_tail eps temp : 0 < eps < 1 -> 1 / 2 <= temp ->
  exists u0, 0 < u0 /\ (forall u, u0 <= u -> 0 < juttner_density temp u)
    /\ forall l v rest, List.Forall (fun y => 0 <= y < 1) l ->
         juttner eps temp l = Some (v, rest) -> norm_sqr v < u0 * u0.
Proof.
  intros He HT. exists (temp * ln (/ eps)).
  assert (HL : 0 < ln (/ eps)) by (rewrite ln_Rinv by lra; pose proof (ln_neg eps He); lra).
  split; [nra|]. split.
  - intros u Hu. unfold juttner_density. assert (0 < u) by nra. apply Rmult_lt_0_compat; [nra|apply exp_pos].
  - intros l v rest Hl E.
    apply juttner_iff in E; [|lra|exact HT|exact Hl]. destruct E as (eta & pre & t & x1 & x2 & -> & _ & _ & Ht & _ & ->).
    assert (Hx1 : 0 <= x1 <= 1). { rewrite Forall_forall in Hl. specialize (Hl x1). cbv beta in Hl.
      assert (0 <= x1 < 1) by (apply Hl; right; apply in_or_app; right; now left). lra. }
    rewrite direction_norm by exact Hx1. destruct (tail eps temp t ltac:(lra) ltac:(lra) Ht). nra.
Qed.

Theorem cool_ratio : exists temp u u', 0 < temp < 1 / 2 /\ 0 < u /\ 0 < u' /\
  maxwell_density temp u * juttner_density temp u' < 1 / 2 * (juttner_density temp u * maxwell_density temp u').
Proof.
  exists (1 / 4), (12 / 5), (3 / 4). split; [lra|]. split; [lra|]. split; [lra|].
  rewrite !ratio by lra.
  replace (1 + 12 / 5 * (12 / 5)) with (13 / 5 * (13 / 5)) by field. replace (1 + 3 / 4 * (3 / 4)) with (5 / 4 * (5 / 4)) by field.
  rewrite !sqrt_square by lra. set (A := juttner_density (1 / 4) (12 / 5)). set (B := juttner_density (1 / 4) (3 / 4)).
  assert (HA : 0 < A) by (apply Rmult_lt_0_compat; [lra|apply exp_pos]).
  assert (HB : 0 < B) by (apply Rmult_lt_0_compat; [lra|apply exp_pos]).
  set (x := exp (- ((13 / 5 - 1) * (13 / 5 - 1)) / (2 * (1 / 4)))).
  set (y := exp (- ((5 / 4 - 1) * (5 / 4 - 1)) / (2 * (1 / 4)))).
  assert (K : x < 1 / 2 * y).
  { assert (K1 : x < exp (-1) * y) by (unfold x, y; rewrite <- exp_plus; apply exp_increasing; lra).
    assert (K2 : exp (-1) < 1 / 2).
    { replace (-1) with (- (1)) by ring. rewrite exp_Ropp. pose proof (exp_ineq1 1 ltac:(lra)) as E.
      unfold Rdiv. rewrite Rmult_1_l. apply Rinv_lt_contravar; nra. }
    assert (0 < y) by apply exp_pos. nra. }
  replace (A * x * B) with (A * B * x) by ring. replace (1 / 2 * (A * (B * y))) with (A * B * (1 / 2 * y)) by ring.
  apply Rmult_lt_compat_l; [nra|exact K].
Qed.

Lemma pl_vector gmin gmax p X2 X3 : 0 < gmin < gmax -> 0 <= X2 <= 1 ->
  exists F, distribution_of (fun g => Rpower (g - 1) p) (1 + gmin) (1 + gmax) F
    /\ samples (fun X1 => u2gamma (powerlaw gmin gmax p X1 X2 X3)) (1 + gmin) (1 + gmax) F.
Proof.
  intros H H2. exists (pl_cdf gmin gmax p). split; [now apply pl_distribution|].
  intros X HX. rewrite powerlaw_lorentz by assumption. now apply pl_samples.
Qed.
Lemma pl_shape gmin gmax p X1 X2 X3 : 0 < gmin < gmax -> 0 <= X1 <= 1 -> 0 <= X2 <= 1 ->
  powerlaw gmin gmax p X1 X2 X3 = direction (sqrt (norm_sqr (powerlaw gmin gmax p X1 X2 X3))) X2 X3.
Proof.
  intros H H1 H2. unfold powerlaw. cbv zeta. rewrite direction_norm by exact H2. now rewrite sqrt_square by apply sqrt_pos.
Qed.
Lemma pl_above : exists gmin gmax p X1 X2 X3, 0 < gmin < gmax /\ 0 <= X1 < 1 /\ 0 <= X2 < 1 /\ 0 <= X3 < 1
  /\ gmax < u2gamma (powerlaw gmin gmax p X1 X2 X3).
Proof.
  exists 1, 2, (-1), (1 / 2), 0, 0. repeat (split; [lra|]). rewrite powerlaw_lorentz by lra. unfold powerlaw_gamma.
  destruct (Req_EM_T (-1) (-1)) as [_|N]; [|tauto]. assert (E1 : Rpower 1 (1 - 1 / 2) = 1)
    by (unfold Rpower; rewrite ln_1, Rmult_0_r; apply exp_0).
  rewrite E1. assert (1 < Rpower 2 (1 / 2)). { unfold Rpower. rewrite <- exp_0 at 1. apply exp_increasing.
    assert (H2 : ln 1 < ln 2) by (apply ln_increasing; lra). rewrite ln_1 in H2. lra. }
  lra.
Qed.
Lemma isotropic u X2 X3 : 0 <= X2 <= 1 ->
  direction u X2 X3 = (u * (2 * X2 - 1), u * sqrt (1 - (2 * X2 - 1) * (2 * X2 - 1)) * cos (2 * PI * X3),
                       u * sqrt (1 - (2 * X2 - 1) * (2 * X2 - 1)) * sin (2 * PI * X3))
  /\ norm_sqr (direction u X2 X3) = u * u.
Proof. intros H. split; [now apply direction_polar|now apply direction_norm]. Qed.
Lemma cold_zero eps temp l : Rabs temp <= eps -> maxwellian_rest eps temp l = Some ((0, 0, 0), l).
Proof. intros H. unfold maxwellian_rest, almost0. destruct (Rle_dec _ _); [reflexivity|tauto]. Qed.
Lemma warm eps temp l : 0 <= eps < temp -> maxwellian_rest eps temp l = juttner eps temp l.
Proof. intros H. unfold maxwellian_rest. now rewrite almost0_false by lra. Qed.
