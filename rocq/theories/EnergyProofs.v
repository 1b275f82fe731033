From Coq Require Import ZArith List Reals Lra Lia Permutation Bool.
From Verif Require Import Base ListLemmas DecompSpec FieldModel InterpSpec HaloSpec SyncProofs StepModel StepSpec StepProofs EnergySpec.
Import ListNotations.
Open Scope R_scope.

(** ** Totals *)
Lemma total_cons n N f : total (n :: N) f = rsum (zrange 0 n) (fun i => total N (fun x => f (i :: x))).
Proof.
  unfold total. cbn [map box]. rewrite rsum_flat_map. apply rsum_ext. intros i _. apply rsum_map.
Qed.
Lemma in_total N x : In x (box (map (fun n => (0%Z, n)) N)) <-> in_box x N.
Proof.
  rewrite in_boxl. unfold in_box. revert N. induction x as [|i x IH]; intros [|n N]; cbn; split; intro H; inversion H; subst; constructor; auto.
  - apply IH. assumption.
  - apply IH. assumption.
Qed.
Lemma total_ext N f h : (forall x, in_box x N -> f x = h x) -> total N f = total N h.
Proof. intro H. apply rsum_ext. intros x Hx. apply H. apply in_total. assumption. Qed.
Lemma total_plus N f h : total N (fun x => f x + h x) = total N f + total N h.
Proof. apply rsum_plus. Qed.
Lemma total_scal N c f : total N (fun x => c * f x) = c * total N f.
Proof. apply rsum_scal. Qed.
Lemma total_minus N f h : total N (fun x => f x - h x) = total N f - total N h.
Proof.
  rewrite (total_ext N _ (fun x => f x + (-1) * h x)) by (intros; ring).
  rewrite total_plus, total_scal. ring.
Qed.
Lemma rsum_nonneg {A} (l : list A) f : (forall a, In a l -> 0 <= f a) -> 0 <= rsum l f.
Proof.
  induction l as [|a l IH]; intro H; [cbn; lra|].
  change (0 <= f a + rsum l f). pose proof (H a (or_introl eq_refl)). specialize (IH (fun b Hb => H b (or_intror Hb))). lra.
Qed.
Lemma total_nonneg N f : (forall x, in_box x N -> 0 <= f x) -> 0 <= total N f.
Proof. intro H. apply rsum_nonneg. intros x Hx. apply H, in_total, Hx. Qed.
Lemma total_zero N : total N (fun _ => 0) = 0.
Proof. apply rsum_zero. Qed.

Lemma rotate_range n k : (0 < n)%Z -> Permutation (map (fun i => (i + k) mod n)%Z (zrange 0 n)) (zrange 0 n).
Proof.
  intro Hn. apply NoDup_Permutation_bis.
  - apply nodup_map_in; [apply nodup_zrange|]. intros a b Ha Hb E. apply in_zrange in Ha, Hb.
    assert (H : ((a - b) mod n = 0)%Z).
    { replace (a - b)%Z with ((a + k) - (b + k))%Z by ring. rewrite Zminus_mod, E, Z.sub_diag. reflexivity. }
    apply Z.mod_divide in H; [|lia]. destruct H as [q H]. assert (q = 0)%Z by nia. lia.
  - rewrite map_length. lia.
  - intros x Hx. apply in_map_iff in Hx as [i [<- _]]. apply in_zrange. apply Z.mod_pos_bound. lia.
Qed.
Lemma range_shift n k (G : Z -> R) : (0 < n)%Z -> (forall i, G (i mod n)%Z = G i) ->
  rsum (zrange 0 n) (fun i => G (i + k)%Z) = rsum (zrange 0 n) G.
Proof.
  intros Hn HG. rewrite <- (rsum_perm _ _ G (rotate_range n k Hn)), rsum_map.
  apply rsum_ext. intros i _. symmetry. apply HG.
Qed.

Lemma total_shift N : Forall (fun n => 0 < n)%Z N -> forall a k f, per1 N f ->
  total N (fun x => f (shift a k x)) = total N f.
Proof.
  induction 1 as [|n N Hn HN IH]; intros a k f Hf.
  - unfold total. cbn. destruct a; reflexivity.
  - rewrite !total_cons. destruct a as [|a]; cbn [shift].
    + rewrite (range_shift n k (fun i => total N (fun x => f (i :: x))) Hn); auto.
      intro i. apply total_ext. intros x Hx. apply Hf; cbn; rewrite ?(in_box_length _ _ Hx); auto.
      f_equal. apply Zmod_mod.
    + apply rsum_ext. intros i _. apply (IH a k (fun x => f (i :: x))).
      intros x y Hx Hy Hm. apply Hf; cbn; congruence.
Qed.

(** ** Shifts *)
Lemma shift_comm a k b j x : shift a k (shift b j x) = shift b j (shift a k x).
Proof.
  revert a b. induction x as [|i x IH]; intros [|a] [|b]; cbn; auto.
  - f_equal. ring.
  - f_equal. apply IH.
Qed.
Lemma shift_shift a k j x : shift a k (shift a j x) = shift a (k + j) x.
Proof. revert a. induction x as [|i x IH]; intros [|a]; cbn; auto; f_equal; auto. ring. Qed.
Lemma shift_0 a x : shift a 0 x = x.
Proof. revert a. induction x as [|i x IH]; intros [|a]; cbn; auto; f_equal; auto. ring. Qed.
Lemma shift_out a k x : (length x <= a)%nat -> shift a k x = x.
Proof.
  revert a. induction x as [|i x IH]; intros [|a] H; cbn in *; auto; [lia|]. f_equal. apply IH. lia.
Qed.
Lemma fwd_shift a b k f x : fwd a f (shift b k x) = fwd a (fun y => f (shift b k y)) x.
Proof. unfold fwd. rewrite (shift_comm a 1). reflexivity. Qed.

Section Box.
  Variable N : list Z.
  Hypothesis HN : Forall (fun n => 0 < n)%Z N.

  Lemma per_mult f h : per1 N f -> per1 N h -> per1 N (fun x => f x * h x).
  Proof. intros H1 H2 x y Hx Hy Hm. rewrite (H1 x y), (H2 x y); auto. Qed.
  Lemma per_plus f h : per1 N f -> per1 N h -> per1 N (fun x => f x + h x).
  Proof. intros H1 H2 x y Hx Hy Hm. rewrite (H1 x y), (H2 x y); auto. Qed.

  (** Summation by parts. *)
  Lemma by_parts a f h : per1 N f -> per1 N h ->
    total N (fun x => fwd a f x * h x) = - total N (fun x => f x * bwd a h x).
  Proof.
    intros Hf Hh.
    assert (E1 : total N (fun x => f (shift a 1 x) * h x) = total N (fun x => f x * h (shift a (-1) x))).
    { rewrite <- (total_shift N HN a 1 (fun x => f x * h (shift a (-1) x))).
      - apply total_ext. intros x _. rewrite shift_shift. cbn [Z.add]. change (-1 + 1)%Z with 0%Z. rewrite shift_0. reflexivity.
      - apply per_mult; auto. apply per_shift. assumption. }
    unfold fwd, bwd.
    rewrite (total_ext N _ (fun x => f (shift a 1 x) * h x - f x * h x)) by (intros; ring).
    rewrite (total_ext N (fun x => f x * (h x - h (shift a (-1) x))) (fun x => f x * h x - f x * h (shift a (-1) x))) by (intros; ring).
    rewrite !total_minus, E1. ring.
  Qed.

  Definition pervec (V : nat -> list Z -> R) : Prop := forall a, per1 N (V a).

  Lemma curl_adjoint V W : pervec V -> pervec W -> inner N (curl fwd V) W = inner N V (curl bwd W).
  Proof.
    intros HV HW. unfold inner, curl. cbn [next].
    rewrite (total_ext N _ (fun x => (((fwd 1 (V 2%nat) x * W 0%nat x - fwd 2 (V 1%nat) x * W 0%nat x) +
       (fwd 2 (V 0%nat) x * W 1%nat x - fwd 0 (V 2%nat) x * W 1%nat x)) +
       (fwd 0 (V 1%nat) x * W 2%nat x - fwd 1 (V 0%nat) x * W 2%nat x)))) by (intros; ring).
    rewrite (total_ext N (fun x => V 0%nat x * _ + _ + _) (fun x => (((V 0%nat x * bwd 1 (W 2%nat) x - V 0%nat x * bwd 2 (W 1%nat) x) +
       (V 1%nat x * bwd 2 (W 0%nat) x - V 1%nat x * bwd 0 (W 2%nat) x)) +
       (V 2%nat x * bwd 0 (W 1%nat) x - V 2%nat x * bwd 1 (W 0%nat) x)))) by (intros; ring).
    repeat (rewrite total_plus || rewrite total_minus).
    rewrite !by_parts by auto. ring.
  Qed.

  (** Inner products are bilinear and symmetric. *)
  Lemma inner_sym V W : inner N V W = inner N W V.
  Proof. unfold inner. apply total_ext. intros. ring. Qed.
  Lemma inner_lin V W1 W2 c : inner N V (fun a x => W1 a x + c * W2 a x) = inner N V W1 + c * inner N V W2.
  Proof. unfold inner. rewrite <- total_scal, <- total_plus. apply total_ext. intros. ring. Qed.
  Lemma inner_ext V V' W W' : (forall a x, in_box x N -> V a x = V' a x) -> (forall a x, in_box x N -> W a x = W' a x) ->
    inner N V W = inner N V' W'.
  Proof. intros H1 H2. unfold inner. apply total_ext. intros x Hx. rewrite !H1, !H2 by auto. reflexivity. Qed.
  Lemma inner_pos V : 0 <= inner N V V.
  Proof. unfold inner. apply total_nonneg. intros x _. nra. Qed.

  Lemma per_curl_f V : pervec V -> pervec (curl fwd V).
  Proof. intros H a x y Hx Hy Hm. unfold curl. rewrite !(per_fwd N _ _ (H _) x y) by auto. reflexivity. Qed.
  Lemma per_curl_b V : pervec V -> pervec (curl bwd V).
  Proof. intros H a x y Hx Hy Hm. unfold curl. rewrite !(per_bwd N _ _ (H _) x y) by auto. reflexivity. Qed.

  (** Size of the curl. *)
  Lemma fwd_bound a f : per1 N f ->
    total N (fun x => fwd a f x * fwd a f x) <= (if Nat.ltb a (length N) then 4 else 0) * total N (fun x => f x * f x).
  Proof.
    intro Hf. destruct (Nat.ltb_spec a (length N)) as [Ha|Ha].
    - set (q := fun x => f x * f x).
      assert (E : total N (fun x => q (shift a 1 x)) = total N q) by (apply total_shift; auto; apply per_mult; auto).
      assert (P : 0 <= total N (fun x => (2 * q (shift a 1 x) + 2 * q x) - fwd a f x * fwd a f x)).
      { apply total_nonneg. intros x _. unfold fwd, q. pose proof (Rle_0_sqr (f (shift a 1 x) + f x)) as S. unfold Rsqr in S. nra. }
      rewrite total_minus, total_plus, !total_scal, E in P. lra.
    - rewrite (total_ext N _ (fun _ => 0)).
      + rewrite total_zero. lra.
      + intros x Hx. unfold fwd. rewrite shift_out; [ring|]. rewrite (in_box_length _ _ Hx). assumption.
  Qed.
  Lemma bwd_is a f x : bwd a f x = fwd a f (shift a (-1) x).
  Proof. unfold bwd, fwd. rewrite shift_shift. change (1 + -1)%Z with 0%Z. rewrite shift_0. reflexivity. Qed.
  Lemma cross_term a b f h : per1 N f -> per1 N h ->
    total N (fun x => fwd a f x * fwd b h x) = total N (fun x => bwd b f x * bwd a h x).
  Proof.
    intros Hf Hh.
    rewrite (by_parts a f (fwd b h)) by (auto; apply per_fwd; auto).
    assert (C : forall x, bwd a (fwd b h) x = fwd b (bwd a h) x).
    { intro x. unfold bwd, fwd. rewrite (shift_comm b 1). ring. }
    rewrite (total_ext N _ (fun x => fwd b (bwd a h) x * f x)) by (intros; rewrite C; ring).
    rewrite by_parts by (auto; apply per_bwd; auto).
    rewrite (total_ext N (fun x => bwd b f x * bwd a h x) (fun x => bwd a h x * bwd b f x)) by (intros; ring). ring.
  Qed.
  Lemma curl_square V : pervec V ->
    inner N (curl fwd V) (curl fwd V) =
    (total N (fun x => fwd 0 (V 0%nat) x * fwd 0 (V 0%nat) x) + total N (fun x => fwd 0 (V 1%nat) x * fwd 0 (V 1%nat) x) + total N (fun x => fwd 0 (V 2%nat) x * fwd 0 (V 2%nat) x)) +
    (total N (fun x => fwd 1 (V 0%nat) x * fwd 1 (V 0%nat) x) + total N (fun x => fwd 1 (V 1%nat) x * fwd 1 (V 1%nat) x) + total N (fun x => fwd 1 (V 2%nat) x * fwd 1 (V 2%nat) x)) +
    (total N (fun x => fwd 2 (V 0%nat) x * fwd 2 (V 0%nat) x) + total N (fun x => fwd 2 (V 1%nat) x * fwd 2 (V 1%nat) x) + total N (fun x => fwd 2 (V 2%nat) x * fwd 2 (V 2%nat) x))
    - total N (fun x => (bwd 0 (V 0%nat) x + bwd 1 (V 1%nat) x + bwd 2 (V 2%nat) x) * (bwd 0 (V 0%nat) x + bwd 1 (V 1%nat) x + bwd 2 (V 2%nat) x)).
  Proof.
    intro HV.
    assert (S : forall a f, per1 N f -> total N (fun x => bwd a f x * bwd a f x) = total N (fun x => fwd a f x * fwd a f x)).
    { intros a f Hf. symmetry. apply cross_term; auto. }
    rewrite (total_ext N (fun x => (bwd 0 _ x + _ + _) * _) (fun x =>
      (bwd 0 (V 0%nat) x * bwd 0 (V 0%nat) x + bwd 1 (V 1%nat) x * bwd 1 (V 1%nat) x + bwd 2 (V 2%nat) x * bwd 2 (V 2%nat) x) +
      2 * (bwd 1 (V 1%nat) x * bwd 0 (V 0%nat) x + bwd 2 (V 2%nat) x * bwd 0 (V 0%nat) x + bwd 2 (V 2%nat) x * bwd 1 (V 1%nat) x))) by (intros; ring).
    rewrite !total_plus, total_scal, !total_plus, !S by auto.
    rewrite <- !(cross_term _ _ _ _ (HV _) (HV _)).
    unfold inner, curl. cbn [next].
    rewrite (total_ext N _ (fun x =>
      (fwd 1 (V 2%nat) x * fwd 1 (V 2%nat) x + fwd 2 (V 1%nat) x * fwd 2 (V 1%nat) x +
       (fwd 2 (V 0%nat) x * fwd 2 (V 0%nat) x + fwd 0 (V 2%nat) x * fwd 0 (V 2%nat) x) +
       (fwd 0 (V 1%nat) x * fwd 0 (V 1%nat) x + fwd 1 (V 0%nat) x * fwd 1 (V 0%nat) x)) -
       2 * (fwd 0 (V 1%nat) x * fwd 1 (V 0%nat) x + fwd 0 (V 2%nat) x * fwd 2 (V 0%nat) x + fwd 1 (V 2%nat) x * fwd 2 (V 1%nat) x))) by (intros; ring).
    rewrite total_minus, total_scal, !total_plus. ring.
  Qed.
  Lemma curl_bound V : pervec V -> (length N <= 3)%nat ->
    inner N (curl fwd V) (curl fwd V) <= 4 * INR (length N) * inner N V V.
  Proof.
    intros HV HD. rewrite curl_square by auto.
    pose proof (total_nonneg N (fun x => (bwd 0 (V 0%nat) x + bwd 1 (V 1%nat) x + bwd 2 (V 2%nat) x) * (bwd 0 (V 0%nat) x + bwd 1 (V 1%nat) x + bwd 2 (V 2%nat) x))) as P.
    assert (P' := P (fun x _ => Rle_0_sqr _)). clear P.
    assert (EI : inner N V V = total N (fun x => V 0%nat x * V 0%nat x) + total N (fun x => V 1%nat x * V 1%nat x) + total N (fun x => V 2%nat x * V 2%nat x)).
    { unfold inner. rewrite !total_plus. reflexivity. }
    rewrite EI.
    pose proof (fwd_bound 0 _ (HV 0%nat)). pose proof (fwd_bound 0 _ (HV 1%nat)). pose proof (fwd_bound 0 _ (HV 2%nat)).
    pose proof (fwd_bound 1 _ (HV 0%nat)). pose proof (fwd_bound 1 _ (HV 1%nat)). pose proof (fwd_bound 1 _ (HV 2%nat)).
    pose proof (fwd_bound 2 _ (HV 0%nat)). pose proof (fwd_bound 2 _ (HV 1%nat)). pose proof (fwd_bound 2 _ (HV 2%nat)).
    destruct (length N) as [|[|[|[|n]]]]; cbn [Nat.ltb Nat.leb INR] in *; try lia; lra.
  Qed.
End Box.
