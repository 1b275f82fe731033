(** Proofs about matching layers: the kernel. *)
From Coq Require Import ZArith List Bool Reals Lra Lia Permutation.
From Verif Require Import Base DecompModel DecompSpec FieldModel FieldProofs HaloSpec SyncProofs ShapeSpec InterpSpec MeshModel MatchModel MatchSpec.
Import ListNotations.
Open Scope R_scope.

(** ** Weight *)
Lemma shape_weight ds d : ds <> 0 -> shape ds d = weight ds d.
Proof.
  intro H. unfold shape, weight, tanh, sinh, cosh.
  replace (8 * d / ds) with (d * 4 / ds + d * 4 / ds) by (field; exact H). rewrite exp_plus.
  set (t := d * 4 / ds). pose proof (exp_pos t). pose proof (exp_pos (- t)).
  assert (E : exp (- t) = / exp t) by apply exp_Ropp. rewrite E. field. split; nra.
Qed.
Lemma weight_range ds d : 0 < ds -> 0 <= d -> 0 <= weight ds d < 1.
Proof.
  intros Hs Hd. unfold weight. assert (1 <= exp (8 * d / ds)).
  { rewrite <- exp_0. assert (H : 0 <= 8 * d / ds) by (apply Rmult_le_pos; [lra|left; apply Rinv_0_lt_compat; lra]).
    destruct H as [H|H]; [left; apply exp_increasing; exact H|rewrite <- H; lra]. }
  set (e := exp (8 * d / ds)) in *. assert (0 < / (e + 1)) by (apply Rinv_0_lt_compat; lra).
  split; [|lra]. assert (2 / (e + 1) <= 1); [|lra]. apply (Rmult_le_reg_r (e + 1)); [lra|]. unfold Rdiv. rewrite Rmult_assoc, Rinv_l by lra. lra.
Qed.
Lemma weight_edge ds : weight ds 0 = 0.
Proof. unfold weight. replace (8 * 0 / ds) with 0 by (unfold Rdiv; ring). rewrite exp_0. field. Qed.
Lemma weight_grows ds d d' : 0 < ds -> d < d' -> weight ds d < weight ds d'.
Proof.
  intros Hs Hd. unfold weight. assert (H : exp (8 * d / ds) < exp (8 * d' / ds)).
  { apply exp_increasing. unfold Rdiv. apply Rmult_lt_compat_r; [apply Rinv_0_lt_compat; lra|lra]. }
  pose proof (exp_pos (8 * d / ds)). assert (/ (exp (8 * d' / ds) + 1) < / (exp (8 * d / ds) + 1)) by (apply Rinv_lt_contravar; nra).
  lra.
Qed.
(** At the inner side of the layer the old value keeps more than 0.99 of its weight. *)
Lemma weight_inner ds : 0 < ds -> 99 / 100 < weight ds ds.
Proof.
  intro H. unfold weight. replace (8 * ds / ds) with (1+1+1+1+(1+1+1+1)) by (field; lra). rewrite !exp_plus.
  assert (E : 1 + 1 < exp 1) by (apply exp_ineq1; lra). set (e := exp 1) in *.
  assert (4 < e * e) by nra. assert (A : 16 < e * e * e * e) by nra. set (f := e * e * e * e) in *. assert (256 < f * f) by nra.
  assert (/ (f * f + 1) < / 257) by (apply Rinv_lt_contravar; nra). lra.
Qed.

(** ** Tags *)
Lemma land_zero a b : (Z.land a b =? 0)%Z = false <-> exists i, (0 <= i)%Z /\ Z.testbit a i = true /\ Z.testbit b i = true.
Proof.
  rewrite Z.eqb_neq. split.
  - intro H. destruct (Z.eq_dec (Z.land a b) 0) as [E|E]; [contradiction|].
    destruct (Z_lt_le_dec (Z.land a b) 0) as [N|P].
    + exists (Z.log2 (Z.lnot (Z.land a b)) + 1)%Z. pose proof (Z.log2_nonneg (Z.lnot (Z.land a b))). split; [lia|].
      assert (T : Z.testbit (Z.land a b) (Z.log2 (Z.lnot (Z.land a b)) + 1) = true).
      { set (w := Z.land a b) in *. set (k := (Z.log2 (Z.lnot w) + 1)%Z) in *.
        assert (T : Z.testbit (Z.lnot w) k = false) by (apply Z.bits_above_log2; [unfold Z.lnot; lia|unfold k; lia]).
        rewrite Z.lnot_spec in T by lia. destruct (Z.testbit w k); [reflexivity|discriminate T]. }
      rewrite Z.land_spec in T. apply andb_true_iff in T. exact T.
    + exists (Z.log2 (Z.land a b)). split; [apply Z.log2_nonneg|]. assert (T := Z.bit_log2 (Z.land a b) ltac:(lia)).
      rewrite Z.land_spec in T. apply andb_true_iff in T. exact T.
  - intros (i & _ & A & B) E. assert (T : Z.testbit (Z.land a b) i = true) by (rewrite Z.land_spec, A, B; reflexivity).
    rewrite E, Z.bits_0 in T. discriminate.
Qed.
Lemma bits7 i : (0 <= i)%Z -> (Z.testbit 7 i = true <-> 0 <= i <= 2)%Z.
Proof.
  intro H. destruct (Z_lt_le_dec i 3) as [L|L].
  - assert (C : (i = 0 \/ i = 1 \/ i = 2)%Z) by lia. destruct C as [-> |[-> | ->]]; cbn; split; auto; lia.
  - split; [|lia]. intro T. rewrite Z.bits_above_log2 in T; [discriminate|lia|]. change (Z.log2 7) with 2%Z. lia.
Qed.
Lemma bits56 i : (0 <= i)%Z -> (Z.testbit 56 i = true <-> 3 <= i <= 5)%Z.
Proof.
  intro H. destruct (Z_lt_le_dec i 6) as [L|L].
  - assert (C : (i = 0 \/ i = 1 \/ i = 2 \/ i = 3 \/ i = 4 \/ i = 5)%Z) by lia.
    destruct C as [-> |[-> |[-> |[-> |[-> | ->]]]]]; cbn; split; intros; try lia; try discriminate; reflexivity.
  - split; [|lia]. intro T. rewrite Z.bits_above_log2 in T; [discriminate|lia|]. change (Z.log2 56) with 5%Z. lia.
Qed.
Lemma tagged_asked tags c : tagged tags c = true <-> asked tags c.
Proof.
  unfold asked.
  assert (E : tagged tags c = negb (Z.land tags (if electric c then 7 else 56) =? 0)%Z) by (destruct c; reflexivity).
  rewrite E, negb_true_iff, land_zero. split.
  - intros (i & Hi & A & B). exists i. split; [|exact A]. destruct (electric c); [apply bits7 in B|apply bits56 in B]; lia.
  - intros (i & Hi & A). exists i. assert (0 <= i)%Z by (destruct (electric c); lia). split; [assumption|]. split; [exact A|].
    destruct (electric c); [apply bits7|apply bits56]; assumption.
Qed.

(** ** Body *)
Lemma where_place g c y : (1 <= length y <= 3)%nat -> where_ g c (loc g y) = place c y.
Proof.
  intro L. assert (C0 : forall a, co g (a + g)%Z = IZR a + 0) by (intro a; unfold co; rewrite Z.add_simpl_r; ring).
  assert (H0 : forall a, ch g (a + g)%Z = IZR a + 1 / 2) by (intro a; unfold ch, co; rewrite Z.add_simpl_r; reflexivity).
  destruct y as [|a [|b [|e [|? y]]]]; cbn in L; try lia; destruct c; cbn [loc map where_]; rewrite ?C0, ?H0; reflexivity.
Qed.

Section Body.
  Variables (g : Z) (o : nat) (gr : bool) (ph : list R -> list R) (phi : R -> R) (tu : nat -> list R -> R -> R).
  Variables (setter : comp -> option (list R -> R)) (xg_edge dx_abs : R) (tags : Z).
  Variables (is_axis_i2min is_axis_i2max : bool) (extent_2 : Z).
  Notation m1 := (match1 g o gr ph phi tu setter xg_edge dx_abs tags is_axis_i2min is_axis_i2max extent_2).
  Notation body := (match_body g o gr ph phi tu setter xg_edge dx_abs tags is_axis_i2min is_axis_i2max extent_2).
  Notation skip := (at_axis g is_axis_i2min is_axis_i2max extent_2).

  Definition value (old : R) (x : list Z) (c : comp) : R :=
    match setter c with
    | None => old
    | Some f => if tagged tags c then
        let p := where_ g c x in let s := shape dx_abs (Rabs (phi (nth o p 0) - xg_edge)) in
        s * old + (if skip c x then 0 else (1 - s) * (if gr then f (ph p) else tu (number c) p (f (ph p))))
      else old
    end.
  Lemma m1_at m x c : m1 m x c c x = value (m c x) x c.
  Proof.
    unfold match1, value. destruct (setter c); [|reflexivity]. destruct (tagged tags c); [|reflexivity]. cbv zeta.
    destruct (skip c x); rewrite ?set_eq; ring.
  Qed.
  Lemma m1_other m x c c' y : c' <> c \/ y <> x -> m1 m x c c' y = m c' y.
  Proof.
    intro H. unfold match1. destruct (setter c); [|reflexivity]. destruct (tagged tags c); [|reflexivity]. cbv zeta.
    destruct (skip c x); (destruct H; [rewrite ?set_neq_c by assumption|rewrite ?set_neq_x by assumption]; reflexivity).
  Qed.
  Lemma fold_notin l : forall m x c y, ~ In c l \/ y <> x -> fold_left (fun m c => m1 m x c) l m c y = m c y.
  Proof.
    induction l as [|a l IH]; intros m x c y H; [reflexivity|]. cbn [fold_left]. rewrite IH by (cbn in H; tauto).
    apply m1_other. cbn in H. destruct H as [H|H]; [left; intro E; apply H; left; congruence|tauto].
  Qed.
  Lemma fold_in l : forall m x c, NoDup l -> In c l -> fold_left (fun m c => m1 m x c) l m c x = value (m c x) x c.
  Proof.
    induction l as [|a l IH]; intros m x c N H; [destruct H|]. inversion N as [|? ? Na N']; subst. cbn [fold_left].
    destruct H as [<-|H].
    - rewrite fold_notin by (left; exact Na). apply m1_at.
    - rewrite IH by assumption. rewrite m1_other; [reflexivity|]. left. intros ->. contradiction.
  Qed.
  Lemma body_at m x c : body m x c x = value (m c x) x c.
  Proof.
    unfold match_body. apply fold_in.
    - destruct x as [|? [|? [|? x]]]; repeat (constructor; [cbn; intuition discriminate|]); constructor.
    - destruct x as [|? [|? [|? x]]]; destruct c; cbn; tauto.
  Qed.
  Lemma body_other m x c y : y <> x -> body m x c y = m c y.
  Proof. intro H. unfold match_body. apply fold_notin. right. exact H. Qed.

  Lemma match_loop cells order m c x : NoDup cells -> Permutation order cells ->
    par_for body order m c x = if in_dec cell_dec x cells then value (m c x) x c else m c x.
  Proof.
    intros N P. assert (N' : NoDup order) by (eapply Permutation_NoDup; [symmetry; exact P|exact N]).
    rewrite (par_for_spec (fun _ => true) body).
    - destruct (in_dec cell_dec x order) as [A|A], (in_dec cell_dec x cells) as [B|B].
      + apply body_at.
      + exfalso. apply B. eapply Permutation_in; [exact P|exact A].
      + exfalso. apply A. eapply Permutation_in; [symmetry; exact P|exact B].
      + reflexivity.
    - intros m' x' c' y [H|H]; [discriminate H|]. apply body_other. exact H.
    - intros m' m'' c' x' _ _ H. rewrite !body_at, H by exact I. reflexivity.
    - exact N'.
  Qed.
End Body.
