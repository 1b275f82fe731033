From Coq Require Import ZArith List Reals Lra Lia Permutation Bool FunctionalExtensionality.
From Verif Require Import Base ListLemmas DecompModel DecompSpec DecompProofs DecompTop DirsSpec TopoModel TopoSpec FieldModel InterpSpec HaloModel HaloSpec
  HaloProofs HaloTop SyncProofs StepModel StepSpec StepProofs StepTop EnergySpec EnergyProofs.
Import ListNotations.
Open Scope R_scope.

Lemma tuned_plain k a f x : plain k -> tuned k a f x = fwd a f x.
Proof.
  intro P. unfold tuned. rewrite (proj1 (P a 0%nat)), (proj2 (P a (next a))), (proj2 (P a (next (next a)))). ring.
Qed.

(** The energy, with both fields at the same time. *)
Lemma energy_is N l F : energy N l F = inner N (elec F) (elec F) + inner N (magn_at l F) (magn_at l F)
   - l * l / 4 * inner N (curl fwd (elec F)) (curl fwd (elec F)).
Proof.
  unfold energy, inner. rewrite <- !total_scal, <- !total_plus, <- total_minus. apply total_ext. intros x _.
  unfold magn_after, magn_at, curl. field.
Qed.

Section Vacuum.
  Variables (p : solver) (N : list Z).
  Hypothesis HN : Forall (fun n => 0 < n)%Z N.
  Hypothesis HP : plain (tune p).
  Hypothesis Hh : sdx p <> 0.
  Let l := sdt p / sdx p.
  Let step := ref_step p (fun _ _ => 0).

  Lemma step_magn F a x : magn (step F) a x = magn_after l F a x.
  Proof.
    unfold magn, step, ref_step, magn_after, magn.
    unfold ref_currents, ref_ampere, ref_faraday, curl.
    destruct a as [|[|[|a]]]; cbn [B E next electric axis_of];
      rewrite ?tuned_plain by assumption; unfold elec, fwd; cbn [next E electric]; unfold l; field; assumption.
  Qed.
  Lemma step_elec F a x : elec (step F) a x = elec F a x + l * curl bwd (magn_after l F) a x.
  Proof.
    assert (M : forall a x, ref_faraday (tune p) (/ 2 * sdt p) (sdx p) (ref_faraday (tune p) (/ 2 * sdt p) (sdx p) F) (B a) x = magn_after l F a x).
    { intros a' x'. rewrite <- step_magn. unfold magn, step, ref_step.
      destruct a' as [|[|[|a']]]; reflexivity. }
    assert (M' : forall a, ref_faraday (tune p) (/ 2 * sdt p) (sdx p) (ref_faraday (tune p) (/ 2 * sdt p) (sdx p) F) (B a) = magn_after l F a).
    { intro a'. apply functional_extensionality. apply M. }
    unfold elec, step, ref_step.
    assert (C : forall F a x, ref_currents (scur p) (fun _ _ => 0) (ref_ampere (sdt p) (sdx p) F) (E a) x = F (E a) x + l * curl bwd (fun a => F (B a)) a x).
    { intros F0 a0 x0. unfold ref_currents, ref_ampere. fold l. destruct a0 as [|[|[|a0]]]; cbn [E electric axis_of]; ring_simplify; reflexivity. }
    rewrite C. f_equal.
    - destruct a as [|[|[|a]]]; reflexivity.
    - f_equal. unfold curl. rewrite !M'. reflexivity.
  Qed.

  Lemma per_elec F : periodic N F -> pervec N (elec F).
  Proof. rewrite per_of. intros H a. apply H. Qed.
  Lemma per_magn F : periodic N F -> pervec N (magn F).
  Proof. rewrite per_of. intros H a. apply H. Qed.
  Lemma per_after k F : periodic N F -> pervec N (magn_after k F).
  Proof.
    intros H a x y Hx Hy Hm. unfold magn_after.
    rewrite (per_magn F H a x y), (per_curl_f N _ (per_elec F H) a x y); auto.
  Qed.
  Lemma per_vac F : periodic N F -> periodic N (step F).
  Proof. apply per_step. intros c x y _ _ _. reflexivity. Qed.

  Lemma energy_step F : periodic N F -> energy N l (step F) = energy N l F.
  Proof.
    intro HF. unfold energy. set (F' := step F).
    set (e := elec F). set (b := magn F). set (b' := magn_after l F).
    set (c := curl bwd b'). set (e' := fun a x => e a x + l * c a x).
    assert (Pe : pervec N e) by (apply per_elec; assumption).
    assert (Pb' : pervec N b') by (apply per_after; assumption).
    assert (Pe' : pervec N (elec F')) by (apply per_elec, per_vac; assumption).
    assert (E1 : forall a x, elec F' a x = e' a x) by (intros; apply step_elec).
    assert (E2 : forall a x, magn F' a x = b' a x) by (intros; apply step_magn).
    assert (X1 : inner N (elec F') (elec F') = inner N (elec F') e + l * inner N (elec F') c).
    { rewrite <- inner_lin. apply inner_ext; [reflexivity|intros; apply E1]. }
    assert (X2 : inner N (magn F') (magn_after l F') = inner N b' b' - l * inner N b' (curl fwd (elec F'))).
    { rewrite (inner_ext N (magn F') b' _ (fun a x => b' a x + (- l) * curl fwd (elec F') a x)).
      - rewrite inner_lin. ring.
      - intros; apply E2.
      - intros a x _. unfold magn_after. rewrite E2. ring. }
    assert (X3 : inner N b' b' = inner N b' b - l * inner N b' (curl fwd e)).
    { rewrite (inner_ext N b' b' b' (fun a x => b a x + (- l) * curl fwd e a x)).
      - rewrite inner_lin. ring.
      - reflexivity.
      - intros a x _. unfold b', magn_after, b, e. ring. }
    assert (X4 : inner N b' (curl fwd (elec F')) = inner N (elec F') c).
    { rewrite inner_sym. apply curl_adjoint; auto. }
    assert (X5 : inner N b' (curl fwd e) = inner N e c).
    { rewrite inner_sym. apply curl_adjoint; auto. }
    assert (X6 : inner N (elec F') e = inner N e e + l * inner N e c).
    { rewrite inner_sym, <- inner_lin. apply inner_ext; [reflexivity|intros; apply E1]. }
    rewrite X1, X2, X3, X4, X5, X6, (inner_sym N b' b). ring.
  Qed.

  Lemma energy_run n F : periodic N F ->
    energy N l (ref_run p (vacuum n) F) = energy N l F /\ periodic N (ref_run p (vacuum n) F).
  Proof.
    revert F. induction n as [|n IH]; intros F HF; cbn; [auto|].
    destruct (IH (step F) (per_vac F HF)) as [H1 H2]. split; [|assumption].
    unfold step in H1, H2. unfold vacuum in H1, H2. rewrite H1. apply energy_step. assumption.
  Qed.

  Lemma energy_bounds F : periodic N F -> (length N <= 3)%nat ->
    (1 - INR (length N) * (l * l)) * inner N (elec F) (elec F) + inner N (magn_at l F) (magn_at l F) <= energy N l F.
  Proof.
    intros HF HD. rewrite energy_is. pose proof (curl_bound N HN (elec F) (per_elec F HF) HD) as H.
    pose proof (inner_pos N (elec F)). assert (0 <= l * l) by nra. nra.
  Qed.
  Lemma stable n F : periodic N F -> (length N <= 3)%nat -> INR (length N) * (l * l) < 1 ->
    let F' := ref_run p (vacuum n) F in
    inner N (elec F') (elec F') <= energy N l F / (1 - INR (length N) * (l * l)) /\
    inner N (magn_at l F') (magn_at l F') <= energy N l F.
  Proof.
    intros HF HD HC F'. destruct (energy_run n F HF) as [H1 H2]. fold F' in H1, H2.
    pose proof (energy_bounds F' H2 HD) as H. rewrite H1 in H.
    pose proof (inner_pos N (elec F')). pose proof (inner_pos N (magn_at l F')).
    split; [|nra]. apply (Rmult_le_reg_r (1 - INR (length N) * (l * l))); [lra|].
    unfold Rdiv. rewrite Rmult_assoc, Rinv_l by lra. nra.
  Qed.
End Vacuum.

(** ** The sum over all subdomains of a decomposition is the sum over the box *)
Definition glob (c : subdomain * list Z) : list Z := map2 Z.add (sub_offset_ncells (fst c)) (snd c).
Lemma wide_nonneg g ls : wide g ls -> Forall (Forall (fun a => 0 <= a)%Z) ls.
Proof.
  intros [_ H]. eapply Forall_impl; [|exact H]. intros l Hl. eapply Forall_impl; [|exact Hl]. cbn. lia.
Qed.
Lemma cells_box g ls : wide g ls ->
  Permutation (map glob (cells 0 ls)) (box (map (fun n => (0%Z, n)) (map sumZ ls))).
Proof.
  intro W. pose proof (wide_nonneg g ls W) as NN.
  assert (U : forall c c', In c (cells 0 ls) -> In c' (cells 0 ls) -> glob c = glob c' -> c = c').
  { intros [d y] [d' y'] H H' E. apply in_cells in H, H'. cbn [fst snd] in *.
    destruct H as [Hd Hy], H' as [Hd' Hy']. apply ext0_box in Hy, Hy'. unfold glob in E. cbn [fst snd] in E.
    apply In_nth_error in Hd as [i Hi]. apply In_nth_error in Hd' as [i' Hi'].
    assert (B : in_box (map2 Z.add (sub_offset_ncells d) y) (map sumZ ls)).
    { eapply (tiles_inside ls _ eq_refl NN i d y); [exact Hi|]. split; [assumption|reflexivity]. }
    destruct (tiles_cover ls _ eq_refl NN _ B) as [q [_ Q]].
    assert (Q1 : q = (i, y)) by (apply Q; exists d; split; [exact Hi|split; [assumption|reflexivity]]).
    assert (Q2 : q = (i', y')) by (apply Q; exists d'; split; [exact Hi'|split; assumption]).
    rewrite Q1 in Q2. injection Q2 as -> ->. unfold domains in *. congruence. }
  apply NoDup_Permutation.
  - apply nodup_map_in; [apply nodup_cells|exact U].
  - apply nodup_box.
  - intro x. rewrite in_total, in_map_iff. split.
    + intros [[d y] [<- H]]. apply in_cells in H. destruct H as [Hd Hy]. cbn [fst snd] in *. apply ext0_box in Hy.
      apply In_nth_error in Hd as [i Hi]. eapply (tiles_inside ls _ eq_refl NN i d y); [exact Hi|]. split; [assumption|reflexivity].
    + intro B. destruct (tiles_cover ls _ eq_refl NN _ B) as [[i y] [[d [Hi [H1 H2]]] _]]. cbn [fst snd] in *.
      exists (d, y). split; [symmetry; exact H2|]. apply in_cells. cbn [fst snd]. split; [eapply nth_error_In; exact Hi|].
      apply ext0_box. assumption.
Qed.
Lemma cells_total g ls G : wide g ls -> rsum (cells 0 ls) (fun c => G (glob c)) = total (map sumZ ls) G.
Proof. intro W. unfold total. rewrite <- (rsum_perm _ _ G (cells_box g ls W)), rsum_map. reflexivity. Qed.

Lemma wide_positive g ls : wide g ls -> Forall (fun l => l <> []) ls -> Forall (fun n => 0 < n)%Z (map sumZ ls).
Proof.
  intros [_ H] NE. apply Forall_map. rewrite Forall_forall in *. intros l Hl. specialize (H l Hl). specialize (NE l Hl).
  destruct l as [|a l]; [congruence|]. inversion H as [|? ? H1 H2]; subst.
  cbn [sumZ fold_right]. assert (0 <= sumZ l)%Z; [|unfold sumZ in *; lia].
  apply sumZ_nonneg. eapply Forall_impl; [|exact H2]. cbn. lia.
Qed.

(** The code, on any decomposition. *)
Lemma code_stable g ls gbc p curs l eE eB em em1 em' F :
  wide g ls -> length gbc = length ls -> all_periodic gbc -> dimension (length ls) -> (2 <= g)%Z -> sdx p <> 0 ->
  Forall (fun l => l <> []) ls -> plain (tune p) ->
  let r := sdt p / sdx p in INR (length ls) * (r * r) < 1 ->
  periodic (map sumZ ls) F -> agree_active g ls (fun o => phys (length ls) (sdx p) (em o)) F ->
  complete ls eE -> complete ls eB -> first_exchange g ls gbc eE eB em = Some em1 ->
  Forall (fun sc => good_sched ls (fst sc)) l -> map snd l = curs -> Forall (fun c => forall o k x, c o k x = 0) curs ->
  field_run g ls gbc p l em1 = Some em' ->
  rsum (cells 0 ls) (fun c => let f a := phys (length ls) (sdx p) (em' (sub_offset_ndomains (fst c))) (E a) (loc g (snd c)) in
     f 0%nat * f 0%nat + f 1%nat * f 1%nat + f 2%nat * f 2%nat)
  <= energy (map sumZ ls) r F / (1 - INR (length ls) * (r * r)).
Proof.
  intros W L AP HD Hg Hh NE HP r HC PF HA CE CB X1 GS EC HZ X2.
  assert (R : agree g ls (fun o => phys (length ls) (sdx p) (em' o)) (ref_run p (vacuum (length l)) F)).
  { refine (run_is_reference g ls gbc p l (vacuum (length l)) eE eB em em1 em' F W L AP HD Hg Hh PF HA CE CB X1 _ X2).
    subst curs. clear X2. unfold vacuum. induction l as [|[s c] l IH]; cbn; constructor.
    - inversion GS; inversion HZ as [|? ? Z1 Z2]; subst. cbn in *. split; [assumption|]. split; [intros ? ? ? ? ? ?; reflexivity|].
      intros d k y _ _. unfold phys_j. rewrite Z1. ring.
    - inversion GS; inversion HZ; subst. apply IH; assumption. }
  set (F' := ref_run p (vacuum (length l)) F) in *.
  apply Rle_trans with (inner (map sumZ ls) (elec F') (elec F')).
  - apply Req_le. unfold inner. rewrite <- (cells_total g ls) by assumption.
    apply rsum_ext. intros [d y] Hc. apply in_cells in Hc. cbn [fst snd] in *. destruct Hc as [Hd Hy].
    assert (Hy' : in_extended g y (sub_ncells d)) by (eapply Forall2_impl; [|exact Hy]; cbn; lia).
    pose proof (fun c => R d c y Hd Hy') as Q. cbv beta in Q. rewrite !Q. reflexivity.
  - pose proof (stable p (map sumZ ls) (wide_positive g ls W NE) HP Hh (length l) F PF) as S.
    rewrite map_length in S. destruct S as [S _]; auto. unfold dimension in HD. lia.
Qed.
