From Coq Require Import Reals Lra Psatz ZArith Lia Bool.
From Verif Require Import VelModel.
Open Scope R_scope.

Lemma norm_sqr_nonneg a : 0 <= norm_sqr a.
Proof. unfold norm_sqr. nra. Qed.
Lemma one_plus_pos a : 0 < 1 + norm_sqr a.
Proof. pose proof (norm_sqr_nonneg a). lra. Qed.
Lemma sqrt_pos1 x : 0 < x -> 0 < sqrt x.
Proof. apply sqrt_lt_R0. Qed.
Lemma sqr_sqrt x : 0 <= x -> sqrt x * sqrt x = x.
Proof. apply sqrt_sqrt. Qed.

Lemma vec_eq (a b : vec) : v1 a = v1 b -> v2 a = v2 b -> v3 a = v3 b -> a = b.
Proof. destruct a as [[a1 a2] a3], b as [[b1 b2] b3]; cbn. intros; subst; auto. Qed.

Ltac vcalc := cbv [vadd vscale cross dot norm_sqr v1 v2 v3 fst snd].

(** ** Boris: the rotation around [b] *)
Definition rot (b x : vec) : vec := vadd x (cross (vscale (2 / (1 + norm_sqr b)) (vadd x (cross x b))) b).

Lemma rot_norm b x : norm_sqr (rot b x) = norm_sqr x.
Proof.
  destruct b as [[b1 b2] b3], x as [[x1 x2] x3]. unfold rot. pose proof (one_plus_pos (b1, b2, b3)) as P.
  revert P. vcalc. intros P. field. lra.
Qed.

Lemma rot_equation b x : let y := rot b x in vadd y (vscale (-1) x) = cross (vadd y x) b.
Proof.
  destruct b as [[b1 b2] b3], x as [[x1 x2] x3]. cbv zeta. unfold rot. pose proof (one_plus_pos (b1, b2, b3)) as P.
  revert P. vcalc. intros P. f_equal; [f_equal|]; field; lra.
Qed.

Lemma rot_back b x : rot (vscale (-1) b) (rot b x) = x.
Proof.
  destruct b as [[b1 b2] b3], x as [[x1 x2] x3]. unfold rot. pose proof (one_plus_pos (b1, b2, b3)) as P.
  revert P. vcalc. intros P. f_equal; [f_equal|]; field; lra.
Qed.

Lemma rot_neg b x : rot b (vscale (-1) x) = vscale (-1) (rot b x).
Proof.
  destruct b as [[b1 b2] b3], x as [[x1 x2] x3]. unfold rot. pose proof (one_plus_pos (b1, b2, b3)) as P.
  revert P. vcalc. intros P. f_equal; [f_equal|]; field; lra.
Qed.

Definition bfac (h : R) (u0 b : vec) : vec := vscale (h * (1 / sqrt (1 + norm_sqr u0))) b.

Lemma boris_rot h u e b : boris h u e b =
  vadd (rot (bfac h (vadd u (vscale h e)) b) (vadd u (vscale h e))) (vscale h e).
Proof.
  unfold boris, rot, bfac. set (u0 := vadd u (vscale h e)). set (b0 := vscale _ b).
  set (c := 2 / _). generalize (cross (vscale c (vadd u0 (cross u0 b0))) b0). intros x.
  clearbody u0 b0 c. destruct u0 as [[? ?] ?], x as [[? ?] ?], e as [[? ?] ?]. vcalc.
  f_equal; [f_equal|]; ring.
Qed.

Lemma bfac_neg h u0 b : bfac h u0 (vscale (-1) b) = vscale (-1) (bfac h u0 b).
Proof. destruct b as [[? ?] ?]. unfold bfac. vcalc. f_equal; [f_equal|]; ring. Qed.
Lemma bfac_same h u0 u1 b : norm_sqr u0 = norm_sqr u1 -> bfac h u0 b = bfac h u1 b.
Proof. unfold bfac. intros ->. auto. Qed.
Lemma norm_neg x : norm_sqr (vscale (-1) x) = norm_sqr x.
Proof. destruct x as [[? ?] ?]. vcalc. ring. Qed.

Lemma boris_kicks h u e b : norm_sqr (vadd (boris h u e b) (vscale (- h) e)) = norm_sqr (vadd u (vscale h e)).
Proof.
  rewrite boris_rot. set (r := rot _ _).
  replace (vadd (vadd r (vscale h e)) (vscale (- h) e)) with r; [apply rot_norm|].
  clearbody r. destruct r as [[? ?] ?], e as [[? ?] ?]. vcalc. f_equal; [f_equal|]; ring.
Qed.

Lemma boris_norm h u b : norm_sqr (boris h u (0, 0, 0) b) = norm_sqr u.
Proof.
  pose proof (boris_kicks h u (0, 0, 0) b) as H.
  replace (vadd u (vscale h (0, 0, 0))) with u in H
    by (destruct u as [[? ?] ?]; vcalc; f_equal; [f_equal|]; ring).
  rewrite <- H. f_equal. set (r := boris _ _ _ _). clearbody r. destruct r as [[? ?] ?]. vcalc. f_equal; [f_equal|]; ring.
Qed.

Lemma boris_reverse h u e b :
  boris h (vscale (-1) (boris h u e b)) e (vscale (-1) b) = vscale (-1) u.
Proof.
  rewrite (boris_rot h u e b). set (u0 := vadd u (vscale h e)). set (w := rot _ u0).
  rewrite boris_rot.
  assert (E : vadd (vscale (-1) (vadd w (vscale h e))) (vscale h e) = vscale (-1) w).
  { clearbody w. destruct w as [[? ?] ?], e as [[? ?] ?]. vcalc. f_equal; [f_equal|]; ring. }
  rewrite E. rewrite bfac_neg, (bfac_same h _ u0).
  - rewrite rot_neg. unfold w. rewrite rot_back. unfold u0.
    destruct u as [[? ?] ?], e as [[? ?] ?]. vcalc. f_equal; [f_equal|]; ring.
  - rewrite norm_neg. apply rot_norm.
Qed.

(** Discrete equation of motion solved by the update. *)
Lemma boris_equation h u e b :
  let u' := boris h u e b in
  let um := vadd u (vscale h e) in let up := vadd u' (vscale (- h) e) in
  vadd up (vscale (-1) um) = vscale (h / u2gamma um) (cross (vadd up um) b).
Proof.
  cbv zeta. rewrite boris_rot. set (u0 := vadd u (vscale h e)). set (bb := bfac h u0 b).
  pose proof (rot_equation bb u0) as H. cbv zeta in H.
  set (r := rot bb u0) in *.
  replace (vadd (vadd r (vscale h e)) (vscale (- h) e)) with r
    by (clearbody r; destruct r as [[? ?] ?], e as [[? ?] ?]; vcalc; f_equal; [f_equal|]; ring).
  rewrite H. unfold bb, bfac, u2gamma. pose proof (sqrt_pos1 _ (one_plus_pos u0)) as P. revert P.
  generalize (sqrt (1 + norm_sqr u0)). generalize (vadd r u0). intros x s P.
  destruct x as [[? ?] ?], b as [[? ?] ?]. vcalc. f_equal; [f_equal|]; field; lra.
Qed.

(** ** Vay *)
Lemma vay_root u1 b0 : let x := vay_gamma_sqr u1 b0 in
  0 < x /\ x * x = (1 + norm_sqr u1 - norm_sqr b0) * x + (norm_sqr b0 + dot u1 b0 * dot u1 b0).
Proof.
  cbv zeta. unfold vay_gamma_sqr. set (s := 1 + norm_sqr u1 - norm_sqr b0). set (p := norm_sqr b0 + dot u1 b0 * dot u1 b0).
  assert (Hp : 0 <= p) by (unfold p; pose proof (norm_sqr_nonneg b0); nra).
  pose proof (norm_sqr_nonneg u1) as Hu. pose proof (norm_sqr_nonneg b0) as Hb.
  assert (Hs : 0 < s \/ 0 < p).
  { destruct (Rlt_le_dec 0 s); [left; auto|right]. unfold s in *. unfold p. nra. }
  pose proof (sqr_sqrt (s * s + 4 * p) ltac:(nra)) as Q. pose proof (sqrt_pos (s * s + 4 * p)) as Q0.
  fold p. set (r := sqrt (s * s + 4 * p)) in *. clearbody r s p.
  split; [|nra].
  destruct Hs as [Hs|Hs]; [lra|]. assert (0 < r) by nra.
  destruct (Rlt_le_dec 0 s); [lra|]. assert (- s < r) by nra. lra.
Qed.

Lemma root_unique s p x y : 0 <= p -> 0 < x -> 0 < y -> x * x = s * x + p -> y * y = s * y + p -> x = y.
Proof.
  intros Hp Hx Hy Ex Ey. assert (H : (x - y) * (x + y - s) = 0) by nra.
  destruct (Rmult_integral _ _ H) as [H1|H1]; [lra|]. exfalso. assert (x * y = - p) by nra. nra.
Qed.

Lemma vay_solves u1 b0 : let w := vay_solve u1 b0 in
  w = vadd u1 (vscale (1 / u2gamma w) (cross w b0)) /\ 1 + norm_sqr w = vay_gamma_sqr u1 b0.
Proof.
  cbv zeta. destruct (vay_root u1 b0) as [P E]. cbv zeta in *. unfold vay_solve.
  set (x := vay_gamma_sqr u1 b0) in *. pose proof (sqrt_pos1 x P) as Hg. pose proof (sqr_sqrt x ltac:(lra)) as Eg.
  set (g := sqrt x) in *. set (k := 1 / g). set (w := vscale _ _).
  assert (N : 1 + norm_sqr w = x).
  { unfold w, k. rewrite <- Eg in *. clearbody g. clear w k x Eg P. revert E.
    destruct u1 as [[a1 a2] a3], b0 as [[t1 t2] t3]. vcalc. intros E.
    assert (Hd : 0 < g * g + (t1 * t1 + t2 * t2 + t3 * t3)) by nra.
    assert (Hd' : g * g + (t1 * t1 + t2 * t2 + t3 * t3) <> 0) by lra.
    assert (D : 1 + (1 / g * t1 * (1 / g * t1) + 1 / g * t2 * (1 / g * t2) + 1 / g * t3 * (1 / g * t3)) = (g * g + (t1 * t1 + t2 * t2 + t3 * t3)) / (g * g)) by (field; lra).
    rewrite D.
    (* |w|^2 (1 + t^2) = |u1|^2 + (u1.t)^2 *)
    set (U := a1 * a1 + a2 * a2 + a3 * a3) in *. set (T := t1 * t1 + t2 * t2 + t3 * t3) in *.
    set (S := a1 * t1 + a2 * t2 + a3 * t3) in *.
    transitivity (1 + (g * g * U + S * S) / (g * g + T)).
    { f_equal. unfold U, T, S in *. field. split; lra. }
    apply (Rmult_eq_reg_r (g * g + T)); [|lra]. field_simplify; [|lra]. nra. }
  split; [|exact N].
  replace (u2gamma w) with g by (unfold u2gamma; rewrite N; auto).
  unfold w, k. clear N w k. clearbody g. clear -Hg.
  destruct u1 as [[a1 a2] a3], b0 as [[t1 t2] t3]. vcalc.
  assert (Hd : 0 < g * g + (t1 * t1 + t2 * t2 + t3 * t3)) by nra.
  assert (D : 1 + (1 / g * t1 * (1 / g * t1) + 1 / g * t2 * (1 / g * t2) + 1 / g * t3 * (1 / g * t3)) = (g * g + (t1 * t1 + t2 * t2 + t3 * t3)) / (g * g)) by (field; lra).
  rewrite D. f_equal; [f_equal|]; field; lra.
Qed.

(** The implicit equation has one solution. *)
Lemma vay_unique u1 b0 w : w = vadd u1 (vscale (1 / u2gamma w) (cross w b0)) -> vay_solve u1 b0 = w.
Proof.
  intros H. destruct (vay_solves u1 b0) as [E N]. cbv zeta in *. set (y := vay_solve u1 b0) in *.
  assert (N' : 1 + norm_sqr w = vay_gamma_sqr u1 b0).
  { destruct (vay_root u1 b0) as [P Q]. cbv zeta in *.
    apply (root_unique (1 + norm_sqr u1 - norm_sqr b0) (norm_sqr b0 + dot u1 b0 * dot u1 b0)); auto.
    - pose proof (norm_sqr_nonneg b0). nra.
    - apply one_plus_pos.
    - clear -H. pose proof (sqrt_pos1 _ (one_plus_pos w)) as Hg. pose proof (sqr_sqrt _ (Rlt_le _ _ (one_plus_pos w))) as Eg.
      unfold u2gamma in H. set (g := sqrt (1 + norm_sqr w)) in *. clearbody g.
      assert (U : u1 = vadd w (vscale (-(1 / g)) (cross w b0))).
      { clear Eg. destruct u1 as [[a1 a2] a3], b0 as [[t1 t2] t3], w as [[w1 w2] w3]. revert H. vcalc. intros H.
        injection H as H1 H2 H3. f_equal; [f_equal|]; lra. }
      rewrite U. clear U H. revert Eg. destruct b0 as [[t1 t2] t3], w as [[w1 w2] w3]. vcalc. intros Eg.
      apply (Rmult_eq_reg_r (g * g)); [|nra].
      transitivity ((g * g) * (g * g) * (g * g)); [rewrite Eg; ring|].
      symmetry.
      transitivity (((g * g + (w1 * w1 + w2 * w2 + w3 * w3) * (g * g) + ((w2 * t3 - w3 * t2) * (w2 * t3 - w3 * t2) + (w3 * t1 - w1 * t3) * (w3 * t1 - w1 * t3) + (w1 * t2 - w2 * t1) * (w1 * t2 - w2 * t1)) - (t1 * t1 + t2 * t2 + t3 * t3) * (g * g)) * (1 + (w1 * w1 + w2 * w2 + w3 * w3)) +
        (t1 * t1 + t2 * t2 + t3 * t3 + (w1 * t1 + w2 * t2 + w3 * t3) * (w1 * t1 + w2 * t2 + w3 * t3)) * (g * g))).
      { field. lra. }
      rewrite Eg. ring. }
  assert (G : u2gamma y = u2gamma w) by (unfold u2gamma; rewrite N, N'; auto).
  rewrite G in E. pose proof (sqrt_pos1 _ (one_plus_pos w)) as Hg. fold (u2gamma w) in Hg.
  set (g := u2gamma w) in *. clearbody g y. clear N N' G.
  (* both solve the same linear system *)
  assert (L : forall z, z = vadd u1 (vscale (1 / g) (cross z b0)) ->
    z = vscale (1 / (1 + norm_sqr (vscale (1 / g) b0))) (vadd u1 (vadd (vscale (1 / g * dot u1 b0) (vscale (1 / g) b0)) (vscale (1 / g) (cross u1 b0))))).
  { intros z Z. assert (U : u1 = vadd z (vscale (-(1 / g)) (cross z b0))).
    { destruct u1 as [[a1 a2] a3], b0 as [[t1 t2] t3], z as [[w1 w2] w3]. revert Z. vcalc. intros Z.
      injection Z as H1 H2 H3. f_equal; [f_equal|]; lra. }
    rewrite U. clear -Hg. destruct b0 as [[t1 t2] t3], z as [[w1 w2] w3]. vcalc.
    assert (Hd : 0 < g * g + (t1 * t1 + t2 * t2 + t3 * t3)) by nra.
    assert (D : 1 + (1 / g * t1 * (1 / g * t1) + 1 / g * t2 * (1 / g * t2) + 1 / g * t3 * (1 / g * t3)) = (g * g + (t1 * t1 + t2 * t2 + t3 * t3)) / (g * g)) by (field; lra).
    rewrite D. f_equal; [f_equal|]; field; lra. }
  rewrite (L y E), (L w H). auto.
Qed.

Definition drift_free (u e b : vec) : Prop := vadd e (vscale (1 / u2gamma u) (cross u b)) = (0, 0, 0).

Lemma u2gamma_pos u : 0 < u2gamma u.
Proof. apply sqrt_pos1, one_plus_pos. Qed.

Lemma vay_equation h u e b : let u' := vay h u e b in
  vadd u' (vscale (-1) u) = vscale h (vadd (vscale 2 e) (cross (vadd (vscale (1 / u2gamma u) u) (vscale (1 / u2gamma u') u')) b)).
Proof.
  cbv zeta. unfold vay. destruct (vay_solves (vadd u (vadd (vscale 2 (vscale h e)) (vscale (1 / sqrt (1 + norm_sqr u)) (cross u (vscale h b))))) (vscale h b)) as [E _].
  cbv zeta in E. set (w := vay_solve _ _) in *. rewrite E at 1. fold (u2gamma u).
  generalize (1 / u2gamma w), (1 / u2gamma u). clearbody w. clear E. intros p q.
  destruct u as [[? ?] ?], e as [[? ?] ?], b as [[? ?] ?], w as [[? ?] ?]. vcalc. f_equal; [f_equal|]; ring.
Qed.

Lemma vay_eq_unique h u e b w :
  vadd w (vscale (-1) u) = vscale h (vadd (vscale 2 e) (cross (vadd (vscale (1 / u2gamma u) u) (vscale (1 / u2gamma w) w)) b)) ->
  vay h u e b = w.
Proof.
  intros H. unfold vay. apply vay_unique. fold (u2gamma u). revert H. generalize (1 / u2gamma w), (1 / u2gamma u). intros p q.
  destruct u as [[? ?] ?], e as [[? ?] ?], b as [[? ?] ?], w as [[? ?] ?]. vcalc. intros H. injection H as H1 H2 H3.
  f_equal; [f_equal|]; lra.
Qed.

Lemma vay_force_free h u e b : drift_free u e b -> vay h u e b = u.
Proof.
  intros H. apply vay_eq_unique. unfold drift_free in H. revert H. generalize (1 / u2gamma u). intros p.
  destruct u as [[? ?] ?], e as [[? ?] ?], b as [[? ?] ?]. vcalc. intros H. injection H as H1 H2 H3.
  f_equal; [f_equal|]; [apply (f_equal (fun x => 2 * h * x)) in H1|apply (f_equal (fun x => 2 * h * x)) in H2|apply (f_equal (fun x => 2 * h * x)) in H3]; lra.
Qed.

Lemma u2gamma_neg u : u2gamma (vscale (-1) u) = u2gamma u.
Proof. unfold u2gamma. rewrite norm_neg. auto. Qed.

Lemma vay_reverse h u e b : vay h (vscale (-1) (vay h u e b)) e (vscale (-1) b) = vscale (-1) u.
Proof.
  apply vay_eq_unique. rewrite !u2gamma_neg. pose proof (vay_equation h u e b) as H. cbv zeta in H.
  set (w := vay h u e b) in *. clearbody w. revert H. generalize (1 / u2gamma w), (1 / u2gamma u). intros p q.
  destruct u as [[? ?] ?], e as [[? ?] ?], b as [[? ?] ?], w as [[? ?] ?]. vcalc. intros H. injection H as H1 H2 H3.
  f_equal; [f_equal|]; lra.
Qed.

Lemma vay_norm h u b : norm_sqr (vay h u (0, 0, 0) b) = norm_sqr u.
Proof.
  set (w := vay h u (0, 0, 0) b). unfold vay in w.
  assert (N : 1 + norm_sqr w = vay_gamma_sqr (vadd u (vadd (vscale 2 (vscale h (0, 0, 0))) (vscale (1 / sqrt (1 + norm_sqr u)) (cross u (vscale h b))))) (vscale h b))
    by apply vay_solves.
  set (b0 := vscale h b) in *. set (u1 := vadd u _) in *.
  destruct (vay_root u1 b0) as [P Q]. cbv zeta in *.
  enough (vay_gamma_sqr u1 b0 = 1 + norm_sqr u) by lra.
  apply (root_unique (1 + norm_sqr u1 - norm_sqr b0) (norm_sqr b0 + dot u1 b0 * dot u1 b0)); auto.
  - pose proof (norm_sqr_nonneg b0). nra.
  - apply one_plus_pos.
  - unfold u1. pose proof (sqrt_pos1 _ (one_plus_pos u)) as Hg. pose proof (sqr_sqrt _ (Rlt_le _ _ (one_plus_pos u))) as Eg.
    clear N Q P u1 w. set (g := sqrt (1 + norm_sqr u)) in *. clearbody g b0. revert Eg.
    destruct u as [[w1 w2] w3], b0 as [[t1 t2] t3]. vcalc. intros Eg.
    apply (Rmult_eq_reg_r (g * g)); [|nra].
    transitivity ((g * g) * (g * g) * (g * g)); [rewrite Eg; ring|].
    symmetry.
    transitivity (((g * g + (w1 * w1 + w2 * w2 + w3 * w3) * (g * g) + ((w2 * t3 - w3 * t2) * (w2 * t3 - w3 * t2) + (w3 * t1 - w1 * t3) * (w3 * t1 - w1 * t3) + (w1 * t2 - w2 * t1) * (w1 * t2 - w2 * t1)) - (t1 * t1 + t2 * t2 + t3 * t3) * (g * g)) * (1 + (w1 * w1 + w2 * w2 + w3 * w3)) +
      (t1 * t1 + t2 * t2 + t3 * t3 + (w1 * t1 + w2 * t2 + w3 * t3) * (w1 * t1 + w2 * t2 + w3 * t3)) * (g * g))).
    { field. lra. }
    rewrite Eg. ring.
Qed.
