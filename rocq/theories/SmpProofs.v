(** Proofs for sampled velocities: power law, direction, loops. *)
From Coq Require Import Reals List Bool Lia Lra.
From Coquelicot Require Import Hierarchy Derive RInt.
From Verif Require Import VelModel SmpModel SmpSpec.
Import ListNotations.
Open Scope R_scope.

(** Powers. *)
Lemma ln_le_iff x y : 0 < x -> 0 < y -> (ln x <= ln y <-> x <= y).
Proof.
  intros Hx Hy. split; intros H.
  - destruct (Rle_or_lt x y) as [L|L]; [exact L|]. apply ln_increasing in L; lra.
  - destruct H as [H|H]; [left; now apply ln_increasing|right; now rewrite H].
Qed.
Lemma ln_Rpower x y : ln (Rpower x y) = y * ln x.
Proof. unfold Rpower. apply ln_exp. Qed.
Lemma Rpower_pos x y : 0 < Rpower x y.
Proof. apply exp_pos. Qed.

Lemma root_le_pos q Z y : 0 < q -> 0 < Z -> 0 < y -> (Rpower Z (1 / q) <= y <-> Z <= Rpower y q).
Proof.
  intros Hq HZ Hy. rewrite <- (ln_le_iff _ y), <- (ln_le_iff Z) by (assumption || apply Rpower_pos).
  rewrite !ln_Rpower. split; intros H.
  - apply (Rmult_le_compat_l q) in H; [|lra]. replace (q * (1 / q * ln Z)) with (ln Z) in H by (field; lra). lra.
  - apply (Rmult_le_reg_l q); [lra|]. replace (q * (1 / q * ln Z)) with (ln Z) by (field; lra). lra.
Qed.
Lemma root_le_neg q Z y : q < 0 -> 0 < Z -> 0 < y -> (Rpower Z (1 / q) <= y <-> Rpower y q <= Z).
Proof.
  intros Hq HZ Hy. rewrite <- (ln_le_iff _ y), <- (ln_le_iff _ Z) by (assumption || apply Rpower_pos).
  rewrite !ln_Rpower. split; intros H.
  - apply (Rmult_le_compat_l (- q)) in H; [|lra]. replace (- q * (1 / q * ln Z)) with (- ln Z) in H by (field; lra). lra.
  - apply (Rmult_le_reg_l (- q)); [lra|]. replace (- q * (1 / q * ln Z)) with (- ln Z) by (field; lra). lra.
Qed.
Lemma root_back q y : q <> 0 -> 0 < y -> Rpower (Rpower y q) (1 / q) = y.
Proof. intros Hq Hy. rewrite Rpower_mult. replace (q * (1 / q)) with 1 by (field; exact Hq). now apply Rpower_1. Qed.

Lemma power_mono q a b : 0 < q -> 0 < a < b -> Rpower a q < Rpower b q.
Proof. intros Hq [Ha Hb]. unfold Rpower. apply exp_increasing. apply Rmult_lt_compat_l; [exact Hq|]. apply ln_increasing; lra. Qed.
Lemma power_anti q a b : q < 0 -> 0 < a < b -> Rpower b q < Rpower a q.
Proof.
  intros Hq [Ha Hb]. unfold Rpower. apply exp_increasing. assert (ln a < ln b) by (apply ln_increasing; lra).
  nra.
Qed.

Definition pl_cdf (gmin gmax p x : R) : R :=
  if Req_EM_T p (-1) then (ln (x - 1) - ln gmin) / (ln gmax - ln gmin)
  else (Rpower (x - 1) (1 + p) - Rpower gmin (1 + p)) / (Rpower gmax (1 + p) - Rpower gmin (1 + p)).

Lemma derive_shift (f : R -> R) x d : is_derive f (x - 1) d -> is_derive (fun y => f (y - 1)) x d.
Proof.
  intros H. apply is_derive_Reals in H. apply is_derive_Reals. replace d with (d * (1 - 0)) by ring.
  apply (derivable_pt_lim_comp (fun y => y - 1) f); [|exact H].
  apply (derivable_pt_lim_minus id (fct_cte 1)); [apply derivable_pt_lim_id|apply derivable_pt_lim_const].
Qed.

Lemma derive_affine (f : R -> R) x d k m : is_derive f x d -> is_derive (fun y => (f y - k) / m) x (/ m * d).
Proof.
  intros H. apply is_derive_Reals in H. apply is_derive_Reals.
  assert (D : derivable_pt_lim (mult_real_fct (/ m) (f - fct_cte k)%F) x (/ m * (d - 0))).
  { apply derivable_pt_lim_scal, (derivable_pt_lim_minus f (fct_cte k)); [exact H|apply derivable_pt_lim_const]. }
  rewrite Rminus_0_r in D. intros eps He. destruct (D eps He) as (del & Hd). exists del. intros h Hh Hh'.
  specialize (Hd h Hh Hh'). unfold mult_real_fct, minus_fct, fct_cte in Hd.
  replace ((f (x + h) - k) / m - (f x - k) / m) with (/ m * (f (x + h) - k) - / m * (f x - k)) by (unfold Rdiv; ring).
  exact Hd.
Qed.

Lemma pl_distribution gmin gmax p : 0 < gmin < gmax ->
  distribution_of (fun g => Rpower (g - 1) p) (1 + gmin) (1 + gmax) (pl_cdf gmin gmax p).
Proof.
  intros H. unfold distribution_of, pl_cdf. destruct (Req_EM_T p (-1)) as [->|Hp].
  - assert (HL : ln gmin < ln gmax) by (apply ln_increasing; lra).
    replace (1 + gmin - 1) with gmin by ring. replace (1 + gmax - 1) with gmax by ring.
    split; [field; lra|]. split; [field; lra|]. exists (/ (ln gmax - ln gmin)). split; [apply Rinv_0_lt_compat; lra|].
    intros x Hx. apply (derive_affine (fun y => ln (y - 1))), (derive_shift ln), is_derive_Reals.
    replace (Rpower (x - 1) (-1)) with (/ (x - 1)); [apply derivable_pt_lim_ln; lra|].
    change (-1) with (- (1)). rewrite Rpower_Ropp, Rpower_1 by lra. reflexivity.
  - set (q := 1 + p). assert (Hq : q <> 0) by (unfold q; lra).
    assert (HAB : 0 < q / (Rpower gmax q - Rpower gmin q)).
    { destruct (Rlt_or_le 0 q) as [Q|Q].
      - pose proof (power_mono q gmin gmax Q H). apply Rdiv_lt_0_compat; lra.
      - pose proof (power_anti q gmin gmax ltac:(lra) H).
        replace (q / (Rpower gmax q - Rpower gmin q)) with ((- q) / (Rpower gmin q - Rpower gmax q)) by (field; lra).
        apply Rdiv_lt_0_compat; lra. }
    assert (HD : Rpower gmax q - Rpower gmin q <> 0).
    { intros E. rewrite E in HAB. unfold Rdiv in HAB. rewrite Rinv_0, Rmult_0_r in HAB. lra. }
    replace (1 + gmin - 1) with gmin by ring. replace (1 + gmax - 1) with gmax by ring.
    split; [field; exact HD|]. split; [field; exact HD|]. exists (q / (Rpower gmax q - Rpower gmin q)).
    split; [exact HAB|]. intros x Hx.
    replace (q / (Rpower gmax q - Rpower gmin q) * Rpower (x - 1) p)
      with (/ (Rpower gmax q - Rpower gmin q) * (q * Rpower (x - 1) (q - 1)))
      by (replace (q - 1) with p by (unfold q; ring); field; exact HD).
    apply (derive_affine (fun y => Rpower (y - 1) q)), (derive_shift (fun y => Rpower y q)), is_derive_Reals.
    apply derivable_pt_lim_power. lra.
Qed.

Lemma frac_le a b c X : 0 < c -> (X <= (a - b) / c <-> b + c * X <= a).
Proof.
  intros Hc. split; intros H.
  - apply (Rmult_le_compat_l c) in H; [|lra]. replace (c * ((a - b) / c)) with (a - b) in H by (field; lra). lra.
  - apply (Rmult_le_reg_l c); [exact Hc|]. replace (c * ((a - b) / c)) with (a - b) by (field; lra). lra.
Qed.

Lemma pl_samples gmin gmax p : 0 < gmin < gmax ->
  samples (powerlaw_gamma gmin gmax p) (1 + gmin) (1 + gmax) (pl_cdf gmin gmax p).
Proof.
  intros H X HX. unfold powerlaw_gamma, pl_cdf. destruct (Req_EM_T p (-1)) as [->|Hp].
  - assert (HL : ln gmin < ln gmax) by (apply ln_increasing; lra).
    set (g := Rpower gmin (1 - X) * Rpower gmax X).
    assert (Hg : 0 < g) by (apply Rmult_lt_0_compat; apply Rpower_pos).
    assert (Lg : ln g = (1 - X) * ln gmin + X * ln gmax)
      by (unfold g; rewrite ln_mult by apply Rpower_pos; rewrite !ln_Rpower; reflexivity).
    split.
    + split; [|]; apply Rplus_le_compat_l; apply ln_le_iff; try lra; rewrite Lg; nra.
    + intros x Hx. rewrite frac_le by lra. replace (1 + g <= x) with (1 + g <= x) by reflexivity.
      assert (E : 1 + g <= x <-> g <= x - 1) by lra. rewrite E.
      rewrite <- (ln_le_iff g (x - 1)) by lra. rewrite Lg. split; intros; lra.
  - set (q := 1 + p). assert (Hq : q <> 0) by (unfold q; lra).
    set (A := Rpower gmin q). set (B := Rpower gmax q). set (Z := A + (- A + B) * X).
    assert (HA : 0 < A) by apply Rpower_pos. assert (HB : 0 < B) by apply Rpower_pos.
    assert (HZ : 0 < Z) by (unfold Z; nra).
    assert (K : forall y, 0 < y -> (1 + Rpower Z (1 / q) <= 1 + y <-> X <= (Rpower y q - A) / (B - A))).
    { intros y Hy. assert (E : 1 + Rpower Z (1 / q) <= 1 + y <-> Rpower Z (1 / q) <= y) by lra. rewrite E.
      destruct (Rlt_or_le 0 q) as [Q|Q].
      - pose proof (power_mono q gmin gmax Q H) as HM. fold A B in HM.
        rewrite root_le_pos by assumption. rewrite frac_le by lra. unfold Z. split; intros; lra.
      - pose proof (power_anti q gmin gmax ltac:(lra) H) as HM. fold A B in HM.
        rewrite root_le_neg by (lra || assumption).
        replace ((Rpower y q - A) / (B - A)) with ((A - Rpower y q) / (A - B)) by (field; lra).
        rewrite frac_le by lra. unfold Z. split; intros; lra. }
    assert (HAB : B - A <> 0).
    { destruct (Rlt_or_le 0 q) as [Q|Q]; [pose proof (power_mono q gmin gmax Q H) as HM|pose proof (power_anti q gmin gmax ltac:(lra) H) as HM];
        fold A B in HM; lra. }
    assert (H1 : 1 + Rpower Z (1 / q) <= 1 + gmax).
    { apply K; [lra|]. fold B. replace ((B - A) / (B - A)) with 1 by (field; exact HAB). lra. }
    split; [split; [|exact H1]|].
    + apply Rplus_le_compat_l. destruct (Rle_or_lt gmin (Rpower Z (1 / q))) as [L|L]; [exact L|exfalso].
      assert (L' : gmin = Rpower A (1 / q)) by (unfold A; now rewrite root_back by (assumption || lra)).
      assert (HK : X <= (Rpower (Rpower Z (1 / q)) q - A) / (B - A)) by (apply K; [apply Rpower_pos|lra]).
      assert (LE : Rpower (Rpower Z (1 / q)) q = Z).
      { rewrite Rpower_mult. replace (1 / q * q) with 1 by (field; exact Hq). now apply Rpower_1. }
      destruct (Rlt_or_le 0 q) as [Q|Q].
      * pose proof (power_mono q gmin gmax Q H) as HM. fold A B in HM.
        pose proof (power_mono q _ _ Q (conj (Rpower_pos Z (1 / q)) L)) as HP. rewrite LE in HP. fold A in HP. unfold Z in HP. nra.
      * pose proof (power_anti q gmin gmax ltac:(lra) H) as HM. fold A B in HM.
        pose proof (power_anti q _ _ ltac:(lra) (conj (Rpower_pos Z (1 / q)) L)) as HP. rewrite LE in HP. fold A in HP. unfold Z in HP. nra.
    + intros x Hx. specialize (K (x - 1) ltac:(lra)). replace (1 + (x - 1)) with x in K by ring. exact K.
Qed.

(** Direction. *)
Lemma sq_sqrt x : 0 <= x -> sqrt x * sqrt x = x.
Proof. apply sqrt_sqrt. Qed.

Lemma direction_polar u X2 X3 : 0 <= X2 <= 1 ->
  direction u X2 X3 = (u * (2 * X2 - 1), u * sqrt (1 - (2 * X2 - 1) * (2 * X2 - 1)) * cos (2 * PI * X3),
                       u * sqrt (1 - (2 * X2 - 1) * (2 * X2 - 1)) * sin (2 * PI * X3)).
Proof.
  intros H. unfold direction. cbv zeta.
  replace (1 - (2 * X2 - 1) * (2 * X2 - 1)) with ((2 * 2) * (X2 * (1 - X2))) by ring.
  rewrite (sqrt_mult (2 * 2)) by nra. rewrite (sqrt_square 2) by lra. f_equal; [f_equal|]; ring.
Qed.

Lemma direction_norm u X2 X3 : 0 <= X2 <= 1 -> norm_sqr (direction u X2 X3) = u * u.
Proof.
  intros H. unfold norm_sqr, direction, v1, v2, v3. cbn [fst snd].
  set (s := sqrt (X2 * (1 - X2))). assert (Hs : s * s = X2 * (1 - X2)) by (apply sq_sqrt; nra).
  pose proof (sin2_cos2 (2 * PI * X3)) as T. unfold Rsqr in T.
  set (c := cos (2 * PI * X3)) in *. set (d := sin (2 * PI * X3)) in *.
  replace (u * (2 * X2 - 1) * (u * (2 * X2 - 1)) + 2 * u * s * c * (2 * u * s * c) + 2 * u * s * d * (2 * u * s * d))
    with (u * u * ((2 * X2 - 1) * (2 * X2 - 1) + 4 * (s * s) * (d * d + c * c))) by ring.
  rewrite Hs, T. ring.
Qed.

Lemma direction_uniform X3 :
  samples (fun X => v1 (direction 1 X X3)) (-1) 1 (fun c => (1 + c) / 2)
  /\ distribution_of (fun _ => 1) (-1) 1 (fun c => (1 + c) / 2).
Proof.
  split.
  - intros X HX. unfold direction, v1. cbn [fst]. split; [lra|]. intros x Hx. split; intros; lra.
  - split; [lra|]. split; [lra|]. exists (/ 2). split; [lra|]. intros x _.
    apply is_derive_Reals.
    intros eps He. exists (mkposreal 1 Rlt_0_1). intros h Hh _.
    replace (((1 + (x + h)) / 2 - (1 + x) / 2) / h - / 2 * 1) with 0 by (field; exact Hh). rewrite Rabs_R0. exact He.
Qed.

Lemma powerlaw_lorentz gmin gmax p X1 X2 X3 : 0 < gmin < gmax -> 0 <= X1 <= 1 -> 0 <= X2 <= 1 ->
  u2gamma (powerlaw gmin gmax p X1 X2 X3) = powerlaw_gamma gmin gmax p X1.
Proof.
  intros H H1 H2. unfold u2gamma, powerlaw. cbv zeta. rewrite direction_norm by exact H2.
  destruct (pl_samples gmin gmax p H X1 H1) as [[G _] _]. set (g := powerlaw_gamma gmin gmax p X1) in *.
  rewrite sq_sqrt by nra. replace (1 + (g * g - 1)) with (g * g) by ring. apply sqrt_square. lra.
Qed.

(** Loops. *)
Lemma almost0_true eps x : 0 <= x <= eps -> almost0 eps x = true.
Proof. intros H. unfold almost0. rewrite Rabs_pos_eq by lra. destruct (Rle_dec x eps); [reflexivity|lra]. Qed.
Lemma almost0_false eps x : eps < x -> 0 <= eps -> almost0 eps x = false.
Proof. intros H H0. unfold almost0. rewrite Rabs_pos_eq by lra. destruct (Rle_dec x eps); [lra|reflexivity]. Qed.

Lemma draw_spec eps again x rest : 0 <= eps -> List.Forall (fun y => 0 <= y <= eps) again -> eps < x ->
  draw eps (again ++ x :: rest) = Some (x, rest).
Proof.
  intros H0 Ha Hx. induction Ha as [|y again Hy Ha IH]; cbn [app draw].
  - now rewrite almost0_false.
  - now rewrite almost0_true.
Qed.
Lemma draw_inv eps l x rest : 0 <= eps -> List.Forall (fun y => 0 <= y < 1) l -> draw eps l = Some (x, rest) ->
  exists again, l = (again ++ x :: rest)%list /\ List.Forall (fun y => 0 <= y <= eps) again /\ eps < x < 1.
Proof.
  intros H0 Hl. induction Hl as [|y l Hy Hl IH]; cbn [draw]; [discriminate|].
  unfold almost0 at 1. rewrite Rabs_pos_eq by lra. destruct (Rle_dec y eps) as [L|L].
  - intros E. destruct (IH E) as (again & -> & A & B). exists (y :: again). repeat split; try apply B.
    constructor; [lra|exact A].
  - intros E. injection E as <- <-. exists []. repeat split; [constructor|lra|lra].
Qed.

Lemma draw3_spec eps again q rest : 0 <= eps -> List.Forall (fun y => 0 <= prod3 y <= eps) again -> eps < prod3 q ->
  draw3 eps (flat_map list3 again ++ list3 q ++ rest) = Some (prod3 q, rest).
Proof.
  intros H0 Ha Hx. induction Ha as [|((a, b), c) again Hy Ha IH].
  - destruct q as ((a, b), c). cbn [flat_map app list3 prod3 draw3] in *. now rewrite almost0_false.
  - cbn [flat_map list3]. cbn [app draw3 prod3] in *. now rewrite almost0_true.
Qed.
Lemma draw3_inv eps : 0 <= eps -> forall n l x rest, (length l <= n)%nat ->
  List.Forall (fun y => 0 <= y < 1) l -> draw3 eps l = Some (x, rest) ->
  exists again q, l = (flat_map list3 again ++ list3 q ++ rest)%list /\ x = prod3 q
    /\ List.Forall (fun y => 0 <= prod3 y <= eps) again /\ eps < prod3 q < 1.
Proof.
  intros H0. induction n as [|n IH]; intros l x rest Hn Hl E.
  - destruct l; [discriminate E|cbn in Hn; lia].
  - destruct l as [|a [|b [|c l]]]; try discriminate E. cbn [draw3] in E.
    apply Forall_cons_iff in Hl. destruct Hl as [Ha Hl]. apply Forall_cons_iff in Hl. destruct Hl as [Hb Hl].
    apply Forall_cons_iff in Hl. destruct Hl as [Hc Hl].
    assert (Hab : 0 <= a * b < 1) by nra. assert (Habc : 0 <= a * b * c < 1) by nra.
    unfold almost0 in E. rewrite Rabs_pos_eq in E by lra. destruct (Rle_dec (a * b * c) eps) as [L|L].
    + destruct (IH l x rest) as (again & q & -> & -> & A & B); [cbn in Hn; lia|exact Hl|exact E|].
      exists ((a, b, c) :: again), q. repeat split; try apply B. constructor; [cbn; lra|exact A].
    + injection E as <- <-. exists [], (a, b, c). cbn. repeat split; try lra. constructor.
Qed.
