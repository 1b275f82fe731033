(** Differentiation of explicit expressions. *)
From Coq Require Import Reals Lra.
From Verif Require Import MetModel.
Open Scope R_scope.

Lemma dl_eq : forall f x l l', derivable_pt_lim f x l -> l = l' -> derivable_pt_lim f x l'.
Proof. intros; subst; assumption. Qed.

Lemma dl_ext : forall f g x l, (forall t, f t = g t) ->
  derivable_pt_lim f x l -> derivable_pt_lim g x l.
Proof.
  intros f g x l E H eps he. destruct (H eps he) as [d Hd]. exists d.
  intros k nk kd. rewrite <- !E. apply Hd; assumption.
Qed.

Lemma dl_const : forall c x, derivable_pt_lim (fun _ => c) x 0.
Proof. intros. apply derivable_pt_lim_const. Qed.
Lemma dl_id : forall x, derivable_pt_lim (fun t => t) x 1.
Proof. intros. apply derivable_pt_lim_id. Qed.
Lemma dl_plus : forall f g x a b, derivable_pt_lim f x a -> derivable_pt_lim g x b ->
  derivable_pt_lim (fun t => f t + g t) x (a + b).
Proof. intros. apply (derivable_pt_lim_plus f g); assumption. Qed.
Lemma dl_minus : forall f g x a b, derivable_pt_lim f x a -> derivable_pt_lim g x b ->
  derivable_pt_lim (fun t => f t - g t) x (a - b).
Proof. intros. apply (derivable_pt_lim_minus f g); assumption. Qed.
Lemma dl_opp : forall f x a, derivable_pt_lim f x a ->
  derivable_pt_lim (fun t => - f t) x (- a).
Proof. intros. apply (derivable_pt_lim_opp f); assumption. Qed.
Lemma dl_mult : forall f g x a b, derivable_pt_lim f x a -> derivable_pt_lim g x b ->
  derivable_pt_lim (fun t => f t * g t) x (a * g x + f x * b).
Proof. intros. apply (derivable_pt_lim_mult f g); assumption. Qed.
Lemma dl_div : forall f g x a b, derivable_pt_lim f x a -> derivable_pt_lim g x b ->
  g x <> 0 ->
  derivable_pt_lim (fun t => f t / g t) x ((a * g x - b * f x) / (g x * g x)).
Proof. intros. apply (derivable_pt_lim_div f g); assumption. Qed.
Lemma dl_comp : forall f g x a b, derivable_pt_lim f x a -> derivable_pt_lim g (f x) b ->
  derivable_pt_lim (fun t => g (f t)) x (b * a).
Proof. intros. apply (derivable_pt_lim_comp f g); assumption. Qed.
Lemma dl_exp : forall f x a, derivable_pt_lim f x a ->
  derivable_pt_lim (fun t => exp (f t)) x (exp (f x) * a).
Proof. intros. apply (dl_comp f exp); auto. apply derivable_pt_lim_exp. Qed.
Lemma dl_sin : forall f x a, derivable_pt_lim f x a ->
  derivable_pt_lim (fun t => sin (f t)) x (cos (f x) * a).
Proof. intros. apply (dl_comp f sin); auto. apply derivable_pt_lim_sin. Qed.
Lemma dl_cos : forall f x a, derivable_pt_lim f x a ->
  derivable_pt_lim (fun t => cos (f t)) x (- sin (f x) * a).
Proof. intros. apply (dl_comp f cos); auto. apply derivable_pt_lim_cos. Qed.
Lemma dl_sqrt : forall f x a, derivable_pt_lim f x a -> 0 < f x ->
  derivable_pt_lim (fun t => sqrt (f t)) x (/ (2 * sqrt (f x)) * a).
Proof. intros. apply (dl_comp f sqrt); auto. apply derivable_pt_lim_sqrt; assumption. Qed.
Lemma dl_sqr : forall f x a, derivable_pt_lim f x a ->
  derivable_pt_lim (fun t => sqr (f t)) x (2 * f x * a).
Proof.
  intros. unfold sqr. eapply dl_eq. apply dl_mult; eassumption. ring.
Qed.

Lemma dl_unique : forall f x a b, derivable_pt_lim f x a -> derivable_pt_lim f x b -> a = b.
Proof. intros. eapply uniqueness_limite; eassumption. Qed.

Ltac dl_step :=
  lazymatch goal with
  | |- derivable_pt_lim (fun _ => ?c) _ _ => apply dl_const
  | |- derivable_pt_lim (fun t => t) _ _ => apply dl_id
  | |- derivable_pt_lim (fun t => @?f t + @?g t) _ _ => eapply (dl_plus f g)
  | |- derivable_pt_lim (fun t => @?f t - @?g t) _ _ => eapply (dl_minus f g)
  | |- derivable_pt_lim (fun t => - @?f t) _ _ => eapply (dl_opp f)
  | |- derivable_pt_lim (fun t => @?f t * @?g t) _ _ => eapply (dl_mult f g)
  | |- derivable_pt_lim (fun t => @?f t / @?g t) _ _ => eapply (dl_div f g)
  | |- derivable_pt_lim (fun t => exp (@?f t)) _ _ => eapply (dl_exp f)
  | |- derivable_pt_lim (fun t => sin (@?f t)) _ _ => eapply (dl_sin f)
  | |- derivable_pt_lim (fun t => cos (@?f t)) _ _ => eapply (dl_cos f)
  | |- derivable_pt_lim (fun t => sqrt (@?f t)) _ _ => eapply (dl_sqrt f)
  | |- derivable_pt_lim (fun t => sqr (@?f t)) _ _ => eapply (dl_sqr f)
  end.
Ltac dl := repeat dl_step.

Lemma dl_e2t : forall eps h x, derivable_pt_lim (eta2theta eps h) x (dtheta_deta eps h x).
Proof.
  intros. pose proof PI_RGT_0 as pp. unfold eta2theta, dtheta_deta.
  destruct (almost_zero eps h).
  - apply dl_id.
  - eapply dl_eq. dl. assert (PI * PI <> 0) by nra. assumption.
    cbn beta. field. lra.
Qed.
