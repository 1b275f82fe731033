(** The flips give the boosted distribution. *)
From Coq Require Import Reals Lra.
From Coquelicot Require Import Hierarchy Derive RInt RInt_analysis AutoDerive Continuity ElemFct.
From Verif Require Import VelModel SmpModel SmpSpec SmpProofs SmpTop.
Open Scope R_scope.

Theorem turned_iff u4 v r : 0 <= u4 -> 0 <= r < 1 ->
  0 <= turned u4 v < 1 /\ boost_x1 u4 r v = (if Rlt_dec r (turned u4 v) then boosted u4 (mirrored v) else boosted u4 v).
Proof.
  intros U R0. destruct (flip_iff u4 r v U R0) as (S & A & B). cbv zeta in *. set (share := _ * Rabs (v1 v) / u2gamma v) in *.
  destruct (Rlt_dec (v1 v) 0) as [N|N].
  - assert (E : turned u4 v = share).
    { unfold turned. replace (- (u4 / sqrt (1 + u4 * u4) * v1 v / u2gamma v)) with share; [apply Rmax_right; lra|].
      unfold share. rewrite Rabs_left by exact N. unfold Rdiv. ring. }
    rewrite E. split; [exact S|]. destruct (Rlt_dec r share); [now apply A|]. apply B. right. lra.
  - assert (E : turned u4 v = 0).
    { unfold turned. apply Rmax_left. replace (u4 / sqrt (1 + u4 * u4) * v1 v / u2gamma v) with share; [lra|]. unfold share. rewrite Rabs_right by lra. reflexivity. }
    rewrite E. split; [lra|]. destruct (Rlt_dec r 0); [lra|]. apply B. left. lra.
Qed.

Section Line.
Context (u4 y z : R) (U : 0 <= u4).
Let G := sqrt (1 + u4 * u4).
Let g (x : R) := u2gamma (x, y, z).
Let Bo (x : R) := v1 (boosted u4 (x, y, z)).
Let Un (x : R) := v1 (boosted (- u4) (x, y, z)).

Lemma G_pos : 1 <= G /\ G * G = 1 + u4 * u4.
Proof.
  assert (0 <= u4 * u4) by (apply Rmult_le_pos; lra). assert (S : G * G = 1 + u4 * u4) by (apply sqrt_sqrt; lra). split; [|exact S].
  unfold G. rewrite <- sqrt_1 at 1. apply sqrt_le_1; lra.
Qed.
Lemma g_is x : g x = sqrt (1 + (x * x + y * y + z * z)).
Proof. reflexivity. Qed.
Lemma arg_pos x : 0 < 1 + (x * x + y * y + z * z).
Proof. pose proof (Rle_0_sqr x). pose proof (Rle_0_sqr y). pose proof (Rle_0_sqr z). unfold Rsqr in *. lra. Qed.
Lemma g_pos x : 0 < g x /\ g x * g x = 1 + (x * x + y * y + z * z).
Proof. rewrite g_is. pose proof (arg_pos x). split; [now apply sqrt_lt_R0|apply sqrt_sqrt; lra]. Qed.
Lemma Bo_is x : Bo x = G * x + u4 * g x.
Proof. reflexivity. Qed.
Lemma Un_is x : Un x = G * x - u4 * g x.
Proof. unfold Un, boosted, G, g. cbn [v1 fst]. replace (- u4 * - u4) with (u4 * u4) by ring. unfold v1. cbn [fst]. ring. Qed.
Lemma un_bo x : Un (Bo x) = x.
Proof.
  rewrite Un_is. destruct G_pos as [GP GG]. destruct (g_pos x) as [gp gg].
  assert (E : g (Bo x) = G * g x + u4 * x).
  { rewrite g_is. rewrite <- (sqrt_square (G * g x + u4 * x)).
    - f_equal. rewrite Bo_is. replace ((G * x + u4 * g x) * (G * x + u4 * g x)) with (G * G * (x * x) + 2 * G * u4 * x * g x + u4 * u4 * (g x * g x)) by ring.
      replace ((G * g x + u4 * x) * (G * g x + u4 * x)) with (G * G * (g x * g x) + 2 * G * u4 * x * g x + u4 * u4 * (x * x)) by ring. rewrite GG, gg. ring.
    - assert (A : Rabs x <= g x). { rewrite g_is, <- sqrt_Rsqr_abs. apply sqrt_le_1; [apply Rle_0_sqr|pose proof (arg_pos x); lra|]. unfold Rsqr. pose proof (Rle_0_sqr y). pose proof (Rle_0_sqr z). unfold Rsqr in *. lra. }
      assert (A4 : u4 <= G). { unfold G. rewrite <- (sqrt_square u4) at 1 by exact U. apply sqrt_le_1; [apply Rmult_le_pos; lra| |]; pose proof (Rmult_le_pos u4 u4 U U); lra. }
      assert (X : - x <= g x). { apply (Rle_trans _ (Rabs x)); [|exact A]. rewrite <- Rabs_Ropp. apply Rle_abs. }
      assert (P1 : u4 * - x <= u4 * g x) by (apply Rmult_le_compat_l; lra). assert (P2 : u4 * g x <= G * g x) by (apply Rmult_le_compat_r; lra). lra. }
  rewrite E, Bo_is. replace (G * (G * x + u4 * g x) - u4 * (G * g x + u4 * x)) with ((G * G - u4 * u4) * x) by ring. rewrite GG. ring.
Qed.
Lemma dg x : is_derive g x (x / g x).
Proof.
  apply (is_derive_ext (fun x => sqrt (1 + (x * x + y * y + z * z)))); [intros t; now rewrite g_is|]. pose proof (arg_pos x) as P. rewrite g_is.
  assert (S : 0 < sqrt (1 + (x * x + y * y + z * z))) by now apply sqrt_lt_R0. auto_derive; [exact P|]. field. lra.
Qed.
Lemma dBo x : is_derive Bo x (G + u4 * (x / g x)).
Proof.
  apply (is_derive_ext (fun x => G * x + u4 * g x)); [intros t; now rewrite Bo_is|].
  apply (is_derive_plus (fun x => G * x) (fun x => u4 * g x)).
  - clearbody G. auto_derive; [exact I|ring].
  - apply (is_derive_scal g). apply dg.
Qed.
Lemma cg x : continuous g x.
Proof. apply (ex_derive_continuous g x). exists (x / g x). apply dg. Qed.
Lemma ct x : continuous (fun x => x / g x) x.
Proof.
  apply (continuous_mult (fun x => x) (fun x => / g x)); [apply continuous_id|]. apply (continuous_Rinv_comp g); [apply cg|]. destruct (g_pos x). lra.
Qed.
Lemma cUn x : continuous Un x.
Proof.
  apply (continuous_ext (fun x => G * x - u4 * g x)); [intros t; now rewrite Un_is|].
  apply (continuous_minus (fun x => G * x) (fun x => u4 * g x)).
  - apply (continuous_mult (fun _ => G) (fun x => x)); [apply continuous_const|apply continuous_id].
  - apply (continuous_mult (fun _ => u4) g); [apply continuous_const|apply cg].
Qed.
Lemma turned_abs x : turned u4 (x, y, z) = (Rabs (u4 / G * (x / g x)) - u4 / G * (x / g x)) / 2.
Proof.
  unfold turned. change (v1 (x, y, z)) with x. fold G. change (u2gamma (x, y, z)) with (g x). replace (u4 / G * x / g x) with (u4 / G * (x / g x)) by (unfold Rdiv; ring).
  set (t := u4 / G * (x / g x)). destruct (Rle_dec 0 t) as [P|P].
  - rewrite Rmax_left, Rabs_right by lra. lra.
  - rewrite Rmax_right, Rabs_left by lra. lra.
Qed.
Lemma g_even x : g (- x) = g x.
Proof. rewrite !g_is. f_equal. ring. Qed.
Lemma cturned x : continuous (fun x => turned u4 (x, y, z)) x.
Proof.
  apply (continuous_ext (fun x => (Rabs (u4 / G * (x / g x)) - u4 / G * (x / g x)) * / 2)); [intros t; rewrite turned_abs; reflexivity|].
  assert (C : continuous (fun x => u4 / G * (x / g x)) x) by (apply (continuous_mult (fun _ => u4 / G) (fun x => x / g x)); [apply continuous_const|apply ct]).
  apply (continuous_mult (fun x => Rabs (u4 / G * (x / g x)) - u4 / G * (x / g x)) (fun _ => / 2)); [|apply continuous_const].
  apply (continuous_minus (fun x => Rabs (u4 / G * (x / g x))) (fun x => u4 / G * (x / g x))); [|exact C].
  now apply continuous_Rabs_comp.
Qed.
Theorem boosted_law (f : R -> R) a b : (forall x, continuous f x) -> (forall x, f (- x) = f x) ->
  exists stay come, is_RInt (fun x => f x * (1 - turned u4 (x, y, z))) a b stay
    /\ is_RInt (fun x => f x * turned u4 (x, y, z)) (- b) (- a) come
    /\ is_RInt (fun p => f (Un p) / G) (Bo a) (Bo b) (stay + come).
Proof.
  intros C E. destruct G_pos as [GP GG].
  assert (I1 : ex_RInt (fun x => f x * (1 - turned u4 (x, y, z))) a b).
  { apply (ex_RInt_continuous (V := R_CompleteNormedModule)). intros x _. apply (continuous_mult f (fun x => 1 - turned u4 (x, y, z))); [apply C|].
    apply (continuous_minus (fun _ => 1) (fun x => turned u4 (x, y, z))); [apply continuous_const|apply cturned]. }
  assert (I2 : ex_RInt (fun x => f x * turned u4 (x, y, z)) (- b) (- a)).
  { apply (ex_RInt_continuous (V := R_CompleteNormedModule)). intros x _. apply (continuous_mult f (fun x => turned u4 (x, y, z))); [apply C|apply cturned]. }
  destruct I1 as [stay S], I2 as [come T]. exists stay, come. split; [exact S|]. split; [exact T|].
  assert (T' : is_RInt (fun x => f x * turned u4 (- x, y, z)) a b come).
  { pose proof (is_RInt_comp_opp (V := R_NormedModule) _ b a come T) as H. apply is_RInt_swap in H. apply is_RInt_opp in H. rewrite opp_opp in H.
    apply (is_RInt_ext (V := R_NormedModule)) with (2 := H). intros x _. rewrite opp_opp. now rewrite E. }
  assert (CF : forall p, continuous (fun p => f (Un p) / G) p).
  { intros p. apply (continuous_mult (fun p => f (Un p)) (fun _ => / G)); [|apply continuous_const]. apply (continuous_comp Un f); [apply cUn|apply C]. }
  assert (W : is_RInt (fun x => f x * (1 + u4 / G * (x / g x))) a b (RInt (fun p => f (Un p) / G) (Bo a) (Bo b))).
  { apply (is_RInt_ext (V := R_NormedModule)) with (f := fun x => scal (G + u4 * (x / g x)) (f (Un (Bo x)) / G)).
    - intros x _. rewrite un_bo. unfold scal. cbn. unfold mult. cbn. field. destruct (g_pos x). split; lra.
    - apply (is_RInt_comp (V := R_CompleteNormedModule) (fun p => f (Un p) / G) Bo (fun x => G + u4 * (x / g x))); [intros x _; apply CF|]. intros x _. split; [apply dBo|].
      apply (continuous_plus (fun _ => G) (fun x => u4 * (x / g x))); [apply continuous_const|]. apply (continuous_mult (fun _ => u4) (fun x => x / g x)); [apply continuous_const|apply ct]. }
  assert (V : is_RInt (fun x => f x * (1 + u4 / G * (x / g x))) a b (stay + come)).
  { apply (is_RInt_ext (V := R_NormedModule)) with (f := fun x => plus (f x * (1 - turned u4 (x, y, z))) (f x * turned u4 (- x, y, z))).
    - intros x _. unfold plus. cbn. rewrite !turned_abs, g_even. replace (u4 / G * (- x / g x)) with (- (u4 / G * (x / g x))) by (unfold Rdiv; ring). rewrite Rabs_Ropp. field. destruct (g_pos x). split; lra.
    - exact (is_RInt_plus (V := R_NormedModule) _ _ a b stay come S T'). }
  assert (Q : stay + come = RInt (fun p => f (Un p) / G) (Bo a) (Bo b)).
  { rewrite <- (is_RInt_unique (V := R_CompleteNormedModule) _ a b _ V). exact (is_RInt_unique (V := R_CompleteNormedModule) _ a b _ W). }
  rewrite Q. apply (RInt_correct (V := R_CompleteNormedModule)).
  apply (ex_RInt_continuous (V := R_CompleteNormedModule)). intros p _. apply CF.
Qed.
End Line.
