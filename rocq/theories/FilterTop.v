From Coq Require Import ZArith List Reals Lra Lia Permutation Bool FunctionalExtensionality.
From Verif Require Import Base ListLemmas DecompModel DecompSpec DirsModel DirsSpec TopoModel TopoSpec FieldModel
  InterpSpec HaloSpec HaloModel HaloTop SyncProofs DepositModel FilterModel StepModel StepSpec StepProofs StepTop
  EnergySpec EnergyProofs EnergyTop FilterSpec FilterProofs.
Import ListNotations.
Open Scope R_scope.

(** ** The filter is linear and translation invariant *)
Lemma coded_low f x : length x <> 3%nat -> coded_filter f x = product_filter f x.
Proof. intro H. unfold coded_filter. destruct (Nat.eqb_spec (length x) 3); [contradiction|]. ring. Qed.

Lemma smooth_plus a f h x : smooth a (fun y => f y + h y) x = smooth a f x + smooth a h x.
Proof. unfold smooth. ring. Qed.
Lemma smooth_shift a b k f x : smooth a (fun y => f (shift b k y)) x = smooth a f (shift b k x).
Proof. unfold smooth. rewrite !(shift_comm a _ b). reflexivity. Qed.

Lemma product_lin f h k x : product_filter (fun y => f y + k * h y) x = product_filter f x + k * product_filter h x.
Proof. unfold product_filter, smooth. ring. Qed.
Lemma misplaced_lin f h k x : misplaced (fun y => f y + k * h y) x = misplaced f x + k * misplaced h x.
Proof. unfold misplaced. ring. Qed.
Lemma coded_lin f h k x : coded_filter (fun y => f y + k * h y) x = coded_filter f x + k * coded_filter h x.
Proof. unfold coded_filter. rewrite product_lin, misplaced_lin. destruct (Nat.eqb _ _); ring. Qed.
Lemma product_shift b k f x : product_filter (fun y => f (shift b k y)) x = product_filter f (shift b k x).
Proof. unfold product_filter, smooth. rewrite !(shift_comm _ _ b). reflexivity. Qed.
Lemma misplaced_shift b k f x : misplaced (fun y => f (shift b k y)) x = misplaced f (shift b k x).
Proof. unfold misplaced. rewrite !(shift_comm _ _ b). reflexivity. Qed.
Lemma coded_shift b k f x : coded_filter (fun y => f (shift b k y)) x = coded_filter f (shift b k x).
Proof.
  unfold coded_filter. rewrite product_shift, misplaced_shift, shift_length. reflexivity.
Qed.
Lemma coded_bwd a f x : coded_filter (bwd a f) x = bwd a (coded_filter f) x.
Proof.
  unfold bwd. rewrite <- coded_shift.
  transitivity (coded_filter (fun y => f y + (-1) * f (shift a (-1) y)) x).
  - f_equal. apply functional_extensionality. intro. ring.
  - rewrite (coded_lin f (fun y => f (shift a (-1) y)) (-1)). ring.
Qed.
Lemma passes_lin n f h k x : passes n (fun y => f y + k * h y) x = passes n f x + k * passes n h x.
Proof.
  revert f h. induction n as [|n IH]; intros f h; cbn [passes]; [reflexivity|].
  rewrite <- IH. f_equal. apply functional_extensionality. intro. apply coded_lin.
Qed.
Lemma passes_bwd n a f x : passes n (bwd a f) x = bwd a (passes n f) x.
Proof.
  revert f. induction n as [|n IH]; intros f; cbn [passes]; [reflexivity|].
  rewrite <- IH. f_equal. apply functional_extensionality. intro. apply coded_bwd.
Qed.
Lemma passes_divergence n V x : passes n (divergence V) x = divergence (fun a => passes n (V a)) x.
Proof.
  unfold divergence.
  transitivity (passes n (fun y => (bwd 0 (V 0%nat) y + 1 * bwd 1 (V 1%nat) y) + 1 * bwd 2 (V 2%nat) y) x).
  - f_equal. apply functional_extensionality. intro. ring.
  - rewrite !passes_lin, !passes_bwd. ring.
Qed.
Lemma passes_zero n x : passes n (fun _ => 0) x = 0.
Proof.
  assert (C : coded_filter (fun _ => 0) = fun _ => 0).
  { apply functional_extensionality. intro y. unfold coded_filter, product_filter, smooth, misplaced. destruct (Nat.eqb _ _); ring. }
  induction n as [|n IH]; cbn [passes]; [reflexivity|]. rewrite C. exact IH.
Qed.
(** Continuity: [d rho + k div J = 0] is inherited by the filtered quantities. *)
Lemma passes_continuity n V (rho : list Z -> R) k :
  (forall x, rho x + k * divergence V x = 0) ->
  forall x, passes n rho x + k * divergence (fun a => passes n (V a)) x = 0.
Proof.
  intros H x. rewrite <- passes_divergence, <- passes_lin.
  assert (Z : (fun y => rho y + k * divergence V y) = fun _ => 0) by (apply functional_extensionality; exact H).
  rewrite Z. apply passes_zero.
Qed.

(** ** Totals *)
Lemma total_smooth N a f : Forall (fun n => 0 < n)%Z N -> per1 N f -> total N (smooth a f) = total N f.
Proof.
  intros HN Hf. unfold smooth. rewrite !total_plus, !total_scal, !(total_shift N HN a _ f Hf). field.
Qed.
Lemma total_coded N f : Forall (fun n => 0 < n)%Z N -> (length N <= 3)%nat -> per1 N f ->
  (forall a f, per1 N f -> per1 N (smooth a f)) -> total N (coded_filter f) = total N f.
Proof.
  intros HN HD Hf PS. unfold coded_filter. rewrite total_plus. unfold product_filter.
  rewrite !total_smooth by auto.
  assert (Q : total N (fun x => if Nat.eqb (length x) 3 then misplaced f x else 0) = 0).
  { rewrite (total_ext N _ (fun x => if Nat.eqb (length N) 3 then misplaced f x else 0))
      by (intros x Hx; rewrite (in_box_length _ _ Hx); reflexivity).
    destruct (Nat.eqb _ _); [|apply total_zero]. unfold misplaced.
    rewrite total_scal, !total_minus, total_plus.
    pose proof (total_shift N HN 2 (-1) f Hf) as T1. pose proof (total_shift N HN 2 1 f Hf) as T2.
    pose proof (total_shift N HN 1 (-1) (fun x => f (shift 2 1 x)) (per_shift N f 2 1 Hf)) as T3.
    pose proof (total_shift N HN 1 1 (fun x => f (shift 2 (-1) x)) (per_shift N f 2 (-1) Hf)) as T4.
    cbv beta in T3, T4.
    rewrite (total_ext N (fun x => f (shift 1 (-1) (shift 2 1 x))) (fun x => f (shift 2 1 (shift 1 (-1) x)))) by (intros; rewrite (shift_comm 1); reflexivity).
    rewrite (total_ext N (fun x => f (shift 1 1 (shift 2 (-1) x))) (fun x => f (shift 2 (-1) (shift 1 1 x)))) by (intros; rewrite (shift_comm 1); reflexivity).
    rewrite T3, T4, T1, T2. ring. }
  rewrite Q. ring.
Qed.

(** Bounds. *)
Lemma coded_bounds lo hi f : (forall x, lo <= f x <= hi) -> forall x, lo <= coded_filter f x <= hi.
Proof.
  intros H x. unfold coded_filter, product_filter, smooth, misplaced.
  destruct (Nat.eqb_spec (length x) 3) as [L|L].
  - destruct x as [|i [|j [|k [|? ?]]]]; try discriminate. cbn [shift].
    split.
    + repeat match goal with |- context [f ?y] => let v := fresh "v" in let Hv := fresh "Hv" in
        pose proof (proj1 (H y)) as Hv; set (v := f y) in *; clearbody v end. lra.
    + repeat match goal with |- context [f ?y] => let v := fresh "v" in let Hv := fresh "Hv" in
        pose proof (proj2 (H y)) as Hv; set (v := f y) in *; clearbody v end. lra.
  - split.
    + repeat match goal with |- context [f ?y] => let v := fresh "v" in let Hv := fresh "Hv" in
        pose proof (proj1 (H y)) as Hv; set (v := f y) in *; clearbody v end. lra.
    + repeat match goal with |- context [f ?y] => let v := fresh "v" in let Hv := fresh "Hv" in
        pose proof (proj2 (H y)) as Hv; set (v := f y) in *; clearbody v end. lra.
Qed.
Lemma passes_bounds n lo hi : forall f, (forall x, lo <= f x <= hi) -> forall x, lo <= passes n f x <= hi.
Proof. induction n as [|n IH]; intros f H; cbn [passes]; [exact H|]. apply IH. apply coded_bounds. exact H. Qed.

(** ** The code *)
Section Code.
  Variables (g : Z) (ls : list (list Z)) (gbc : list (flds_bc * flds_bc)).
  Hypothesis W : wide g ls.
  Hypothesis L : length gbc = length ls.
  Hypothesis AP : all_periodic gbc.
  Hypothesis HD : dimension (length ls).
  Hypothesis Hg : (1 <= g)%Z.
  Hypothesis NE : Forall (fun l => l <> []) ls.
  Let N := map sumZ ls.

  Lemma per_passes n : forall f, per1 N f -> per1 N (passes n f).
  Proof. induction n as [|n IH]; intros f H; cbn [passes]; [exact H|]. apply IH. apply per_coded. exact H. Qed.
  Lemma total_passes n : forall f, per1 N f -> total N (passes n f) = total N f.
  Proof.
    induction n as [|n IH]; intros f H; cbn [passes]; [reflexivity|].
    rewrite IH by (apply per_coded; exact H).
    apply total_coded; auto.
    - exact (wide_positive g ls W NE).
    - unfold N. rewrite map_length. apply HD.
    - intros a f0 H0. apply per_smooth. exact H0.
  Qed.
  Lemma code_total l cur cur' Jr c : Forall (fun te => any_order (fst te) /\ complete ls (snd te)) l -> periodic N Jr ->
    agree g ls cur Jr -> filter_passes g ls gbc l cur = Some cur' ->
    rsum (cells 0 ls) (fun q => cur' (sub_offset_ndomains (fst q)) c (loc g (snd q))) =
    rsum (cells 0 ls) (fun q => cur (sub_offset_ndomains (fst q)) c (loc g (snd q))).
  Proof.
    intros HF HP HA HX. pose proof (filter_passes_agree g ls gbc W L AP HD Hg l cur cur' Jr HF HP HA HX) as HA'.
    assert (T : forall st F, agree g ls st F ->
      rsum (cells 0 ls) (fun q => st (sub_offset_ndomains (fst q)) c (loc g (snd q))) = total N (F c)).
    { intros st F H. unfold N. rewrite <- (cells_total g ls (F c) W). apply rsum_ext. intros [d y] Hq. apply in_cells in Hq.
      cbn [fst snd] in *. apply H; [tauto|]. destruct Hq as [_ Hy]. eapply Forall2_impl; [|exact Hy]. cbn; lia. }
    rewrite (T cur' _ HA'), (T cur _ HA). apply total_passes. rewrite per_of in HP. apply HP.
  Qed.
End Code.
