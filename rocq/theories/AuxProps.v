(** C69: the auxiliary fields E and H of the GR field solver. *)
From Coq Require Import ZArith List Bool Lia Reals Lra.
From Verif Require Import Base FieldModel FieldProofs MetModel KsModel GrStepModel AuxSpec AuxTop.
Import ListNotations.
Open Scope R_scope.

(** C69.  After the kernel for E, every active cell holds at the place of each component
    alpha D_i + (beta x B)_i, up to the error of averaging along x1 the products that have to be
    brought to that place. *)
Theorem C69_E : forall g M md cells m D B i1 i2 i, ks_like M ->
  NoDup cells -> In [i1; i2] cells -> (1 <= i <= 3)%nat ->
  sampled g m (fst (getE_args md)) (snd (getE_args md)) D B ->
  let x := E_place i (IZR (i1 - g)) (IZR (i2 - g)) in
  m_sqrt_det_h_tilde M x <> 0 ->
  Rabs (par_for (auxE_body g M md) cells m (Aux, Ec i) [i1; i2] - E_of M D B i x) <= aux_tol M D B i x.
Proof. exact aux_E_ok. Qed.
Print Assumptions C69_E.

(** C69.  The same for H = alpha B - beta x D. *)
Theorem C69_H : forall g M md cells m D B i1 i2 i, ks_like M ->
  NoDup cells -> In [i1; i2] cells -> (1 <= i <= 3)%nat ->
  sampled g m (fst (getH_args md)) (snd (getH_args md)) D B ->
  let x := B_place i (IZR (i1 - g)) (IZR (i2 - g)) in
  m_sqrt_det_h_tilde M x <> 0 ->
  Rabs (par_for (auxH_body g M md) cells m (Aux, Bc i) [i1; i2] - H_of M D B i x) <= aux_tol M B D i x.
Proof. exact aux_H_ok. Qed.
Print Assumptions C69_H.

(** C69.  That error is of second order in the cell size: the second derivative along x1 is
    taken with respect to the cell number. *)
Theorem C69_second_order : forall (f f' f'' : R -> R -> R) x K,
  (forall t, fst x - 1/2 <= t <= fst x + 1/2 ->
     derivable_pt_lim (fun u => f u (snd x)) t (f' t (snd x)) /\
     derivable_pt_lim (fun u => f' u (snd x)) t (f'' t (snd x)) /\ Rabs (f'' t (snd x)) <= K) ->
  bend (fun y => f (fst y) (snd y)) x <= K / 8.
Proof. exact bend_second_order. Qed.
Print Assumptions C69_second_order.

(** C69.  Without a black hole there is no error: E and H are the covariant D and B. *)
Theorem C69_no_hole : forall g gr mdE mdH cells m D B i1 i2 i,
  NoDup cells -> In [i1; i2] cells -> (1 <= i <= 3)%nat ->
  0 < s_dr gr -> 0 < s_dth gr -> 0 < k_r gr (IZR (i1 - g)) ->
  (sampled g m (fst (getE_args mdE)) (snd (getE_args mdE)) D B ->
   par_for (auxE_body g (ks0 gr) mdE) cells m (Aux, Ec i) [i1; i2]
     = lower (ks0 gr) D i (E_place i (IZR (i1 - g)) (IZR (i2 - g)))) /\
  (sampled g m (fst (getH_args mdH)) (snd (getH_args mdH)) D B ->
   par_for (auxH_body g (ks0 gr) mdH) cells m (Aux, Bc i) [i1; i2]
     = lower (ks0 gr) B i (B_place i (IZR (i1 - g)) (IZR (i2 - g)))).
Proof. exact aux_flat. Qed.
Print Assumptions C69_no_hole.

(** The metrics of the code are covered, outside the origin. *)
Theorem C69_metrics : (forall eps a gr, ks_like (ks eps a gr)) /\ (forall gr, ks_like (ks0 gr)) /\
  (forall a q, ks_like (qks a q)) /\
  (forall eps a gr x, 0 < s_dr gr -> 0 < s_dth gr -> 0 < k_r gr (fst x) ->
     m_sqrt_det_h_tilde (ks eps a gr) x <> 0 /\ m_sqrt_det_h_tilde (ks0 gr) x <> 0).
Proof. exact (conj ks_is_ks_like (conj ks0_is_ks_like (conj qks_is_ks_like ks_density))). Qed.
Print Assumptions C69_metrics.

(** A uniform magnetic field along x2 in the contravariant components, D = 0: the hypotheses of
    the theorems around a rotating hole (spin 9/10, 8 x 8 cells in [2,10] x [0,pi]). *)
Definition ex_grid : grid := Grid 8 8 1 2 10 0 PI 0 1.
Definition ex_fields : gr_fields := fun k _ => match k with (Em0, Bx2) => 3 | _ => 0 end.
Definition ex_B : vfield := fun i _ => if Nat.eqb i 2 then 3 else 0.
Lemma ex_sampled : sampled 2 ex_fields Em Em0 (fun _ _ => 0) ex_B.
Proof. intros i j1 j2 Hi. assert (i = 1 \/ i = 2 \/ i = 3)%nat as [-> | [-> | ->]] by lia; split; reflexivity. Qed.
Lemma ex_regular : forall i, m_sqrt_det_h_tilde (ks 0 (9/10) ex_grid) (E_place i (IZR (5 - 2)) (IZR (4 - 2))) <> 0.
Proof.
  intros i. pose proof PI_RGT_0. refine (proj1 (proj2 (proj2 (proj2 C69_metrics)) 0 (9/10) ex_grid _ _ _ _)).
  - unfold s_dr, ex_grid; cbn. lra.
  - unfold s_dth, ex_grid; cbn. lra.
  - unfold k_r, s_dr, ex_grid. destruct i as [|[|[|?]]]; cbn; lra.
Qed.
Example C69_E_ex : Rabs (par_for (auxE_body 2 (ks 0 (9/10) ex_grid) E_D_B0) [[5; 4]]%Z ex_fields (Aux, Ex2) [5; 4]%Z
    - E_of (ks 0 (9/10) ex_grid) (fun _ _ => 0) ex_B 2 (E_place 2 (IZR (5 - 2)) (IZR (4 - 2)))) <= 0.
Proof.
  eapply Rle_trans.
  - apply (C69_E 2 (ks 0 (9/10) ex_grid) E_D_B0 [[5; 4]]%Z ex_fields (fun _ _ => 0) ex_B 5 4 2).
    + apply C69_metrics.
    + repeat constructor; cbn; intuition.
    + left; reflexivity.
    + lia.
    + exact ex_sampled.
    + apply ex_regular.
  - unfold aux_tol. rewrite bend_zero; [unfold Rdiv; lra|]. intros y. unfold shift_term, ex_B. cbn. ring.
Qed.
Example C69_second_order_ex : bend (fun y => fst y * fst y) (3, 1) <= 2 / 8.
Proof.
  apply (C69_second_order (fun u _ => u * u) (fun u _ => 2 * u) (fun _ _ => 2)).
  intros t _. split; [|split].
  - replace (2 * t) with (1 * t + t * 1) by ring. apply (derivable_pt_lim_mult id id); apply derivable_pt_lim_id.
  - pose proof (derivable_pt_lim_scal id 2 t 1 (derivable_pt_lim_id t)) as H. rewrite Rmult_1_r in H. exact H.
  - rewrite Rabs_right; lra.
Qed.
Example C69_no_hole_ex : par_for (auxH_body 2 (ks0 ex_grid) H_D_B0) [[5; 4]]%Z ex_fields (Aux, Bx2) [5; 4]%Z
  = lower (ks0 ex_grid) ex_B 2 (7/2, 2).
Proof.
  pose proof PI_RGT_0.
  destruct (C69_no_hole 2 ex_grid E_D_B0 H_D_B0 [[5; 4]]%Z ex_fields (fun _ _ => 0) ex_B 5 4 2) as [_ H'].
  - repeat constructor; cbn; intuition.
  - left; reflexivity.
  - lia.
  - unfold s_dr, ex_grid; cbn. lra.
  - unfold s_dth, ex_grid; cbn. lra.
  - unfold k_r, s_dr, ex_grid. cbn. lra.
  - change (Aux, Bx2) with (Aux, Bc 2). rewrite (H' ex_sampled). cbn [B_place]. do 2 f_equal; cbn; lra.
Qed.
