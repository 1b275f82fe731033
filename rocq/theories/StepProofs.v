From Coq Require Import ZArith List Reals Lra Lia Permutation Bool.
From Verif Require Import Base ListLemmas DecompModel DecompSpec DirsSpec TopoModel TopoSpec FieldModel FieldProofs
  InterpSpec HaloSpec HaloModel HaloProofs HaloTop SyncProofs DepositModel FilterModel StepModel StepSpec.
Import ListNotations.
Open Scope R_scope.

(** ** Kernels compute curls *)
Ltac unpack_ref :=
  cbv [ref_faraday ref_ampere ref_currents phys phys_j unit_of electric axis_of axis_of_j curl tuned across fwd bwd next E B J
       delta beta shift length Nat.ltb Nat.leb].

Lemma faraday_is_curl k dT h (m : fields) x c : h <> 0 -> (1 <= length x <= 3)%nat ->
  coeff1 k = solver_c1 (length x) dT h -> coeff2 k = solver_c2 (length x) dT ->
  phys (length x) h (faraday_mink k m x) c x = ref_faraday k dT h (phys (length x) h m) c x.
Proof.
  intros Hh Hx H1 H2.
  destruct x as [|i1 [|i2 [|i3 [|? ?]]]]; cbn [length] in *; try lia; destruct c; unfold phys at 1; dd; field_cases;
    rewrite ?H1, ?H2; unpack_ref; cbv [solver_c1 solver_c2]; unfold Z.sub; cbn [Z.opp]; field; auto.
Qed.

Lemma ampere_is_curl dT h (m : fields) x c : h <> 0 -> (1 <= length x <= 3)%nat ->
  phys (length x) h (ampere_mink (solver_c1 (length x) dT h) (solver_c2 (length x) dT) m x) c x =
  ref_ampere dT h (phys (length x) h m) c x.
Proof.
  intros Hh Hx.
  destruct x as [|i1 [|i2 [|i3 [|? ?]]]]; cbn [length] in *; try lia; destruct c; unfold phys at 1; dd; field_cases;
    unpack_ref; cbv [solver_c1 solver_c2]; unfold Z.sub; cbn [Z.opp]; field; auto.
Qed.

Lemma currents_is_ref k (cur : jcomp -> list Z -> R) D h (m : fields) x c :
  phys D h (currents_mink k cur m x) c x = ref_currents k (phys_j D h cur) (phys D h m) c x.
Proof.
  destruct c; unfold phys at 1; dd; field_cases; cbv [ref_currents phys phys_j electric axis_of axis_of_j J]; try ring.
Qed.

(** ** Ranges and launches *)
Lemma range_active_box g n : range_active g n = box (map (fun a => (g, a + g)%Z) n).
Proof.
  induction n as [|a n IH]; [reflexivity|].
  cbn [range_active map box]. rewrite <- IH. unfold zrange, i_min, i_max.
  rewrite flat_map_concat_map, flat_map_concat_map, map_map. reflexivity.
Qed.
Lemma range_active_nodup g n : NoDup (range_active g n).
Proof. rewrite range_active_box. apply nodup_box. Qed.
Lemma range_active_in g n y : In (loc g y) (range_active g n) <-> in_box y n.
Proof.
  rewrite range_active_box, in_boxl. unfold loc, in_box.
  revert y. induction n as [|a n IH]; intros [|b y]; cbn [map].
  - split; constructor.
  - split; intro H; inversion H.
  - split; intro H; inversion H.
  - split; intro H; inversion H; subst; constructor; cbn in *; try lia; apply IH; assumption.
Qed.

Section Launch.
  Variables (g : Z) (ls : list (list Z)).
  Lemma launch_active {K} (W : K -> bool) body thr (st : list Z -> mem K) o y c :
    frames W (body o) -> local_body W (body o) -> any_order thr -> in_box y (size ls o) ->
    launch g ls body thr st o c (loc g y) = body o (st o) (loc g y) c (loc g y).
  Proof.
    intros HF HL HT Hy. unfold launch. apply (par_for_in W); auto.
    - eapply Permutation_NoDup; [apply Permutation_sym, HT|apply range_active_nodup].
    - eapply Permutation_in; [apply Permutation_sym, HT|]. apply range_active_in; assumption.
  Qed.
  (** Components that are not written keep all their values. *)
  Lemma launch_frame {K} (W : K -> bool) body thr (st : list Z -> mem K) o x c :
    frames W (body o) -> W c = false -> launch g ls body thr st o c x = st o c x.
  Proof.
    intros HF Hc. unfold launch, par_for. generalize (thr o (range_active g (size ls o))). intro l.
    generalize (st o). induction l as [|a l IH]; intro m; [reflexivity|]. cbn [fold_left].
    rewrite IH. apply HF. auto.
  Qed.
End Launch.

(** ** Shifts *)
Lemma shift_length a k x : length (shift a k x) = length x.
Proof. revert a. induction x as [|i x IH]; intros [|a]; cbn; auto. Qed.
Lemma shift_loc a k g x : shift a k (loc g x) = loc g (shift a k x).
Proof.
  revert a. unfold loc. induction x as [|i x IH]; intros [|a]; cbn; auto; f_equal; try lia. apply IH.
Qed.
Lemma shift_add a k o x : length o = length x -> map2 Z.add o (shift a k x) = shift a k (map2 Z.add o x).
Proof.
  revert a o. induction x as [|i x IH]; intros [|a] [|b o] H; cbn in *; try discriminate; auto; f_equal; try lia.
  apply IH. lia.
Qed.
Lemma shift_mod a k x y N : length x = length N -> length y = length N ->
  map2 Z.modulo x N = map2 Z.modulo y N -> map2 Z.modulo (shift a k x) N = map2 Z.modulo (shift a k y) N.
Proof.
  revert a x y. induction N as [|n N IH]; intros [|a] [|i x] [|j y] Hx Hy H; cbn in *; try discriminate; auto;
    injection H as H1 H2.
  - f_equal; [|assumption]. rewrite (Zplus_mod i), (Zplus_mod j), H1. reflexivity.
  - f_equal; [assumption|]. apply IH; auto.
Qed.
Lemma mod_mod x N : length x = length N -> map2 Z.modulo (map2 Z.modulo x N) N = map2 Z.modulo x N.
Proof.
  revert x. induction N as [|n N IH]; intros [|i x] H; cbn in *; try discriminate; auto.
  f_equal; [apply Zmod_mod|]. apply IH. lia.
Qed.
Lemma shift_ext r g a k y n : in_extended r y n -> (r + Z.abs k <= g)%Z -> in_extended g (shift a k y) n.
Proof.
  unfold in_extended. intros H Hg. revert a. induction H as [|i b y n H1 H2 IH]; intros [|a]; cbn; constructor;
    try lia; auto. eapply Forall2_impl; [|exact H2]. cbn. intros. lia.
Qed.
Lemma box_ext y n : in_box y n -> in_extended 0 y n.
Proof. intro H. unfold in_extended. eapply Forall2_impl; [|exact H]. cbn. lia. Qed.

(** ** Periodicity of the reference *)
Section Periodic.
  Variable N : list Z.
  Definition per1 (f : list Z -> R) : Prop := forall x y, length x = length N -> length y = length N ->
    map2 Z.modulo x N = map2 Z.modulo y N -> f x = f y.
  Lemma per_shift f a k : per1 f -> per1 (fun x => f (shift a k x)).
  Proof. intros H x y Hx Hy Hm. apply H; rewrite ?shift_length; auto. apply shift_mod; auto. Qed.
  Lemma per_fwd f a : per1 f -> per1 (fwd a f).
  Proof. intros H x y Hx Hy Hm. unfold fwd. rewrite (H x y), (per_shift f a 1 H x y); auto. Qed.
  Lemma per_bwd f a : per1 f -> per1 (bwd a f).
  Proof. intros H x y Hx Hy Hm. unfold bwd. rewrite (H x y), (per_shift f a (-1) H x y); auto. Qed.
  Lemma per_across f a b : per1 f -> per1 (across a b f).
  Proof.
    intros H x y Hx Hy Hm. unfold across. pose proof (per_fwd f a H) as H'.
    rewrite (H' x y), (per_shift _ b 1 H' x y), (per_shift _ b (-1) H' x y); auto.
  Qed.
  Lemma per_tuned k f a : per1 f -> per1 (tuned k a f).
  Proof.
    intros H x y Hx Hy Hm. unfold tuned.
    rewrite (per_fwd f a H x y), (per_across f a _ H x y), (per_across f a (next (next a)) H x y),
      (per_shift f a 2 H x y), (per_shift f a (-1) H x y); auto.
  Qed.
  Lemma per_of {K} (F : K -> list Z -> R) : periodic N F <-> forall c, per1 (F c).
  Proof. unfold periodic, per1. split; intros H; intros; eapply H; eauto. Qed.
  Lemma per_faraday k dt h F : periodic N F -> periodic N (ref_faraday k dt h F).
  Proof.
    rewrite !per_of. intros H c x y Hx Hy Hm. unfold ref_faraday, curl.
    rewrite (H c x y) by auto. destruct (electric c); [reflexivity|].
    rewrite !(per_tuned k _ _ (H _) x y) by auto. reflexivity.
  Qed.
  Lemma per_ampere dt h F : periodic N F -> periodic N (ref_ampere dt h F).
  Proof.
    rewrite !per_of. intros H c x y Hx Hy Hm. unfold ref_ampere, curl.
    rewrite (H c x y) by auto. destruct (electric c); [|reflexivity].
    rewrite !(per_bwd _ _ (H _) x y) by auto. reflexivity.
  Qed.
  Lemma per_currents k cur F : periodic N cur -> periodic N F -> periodic N (ref_currents k cur F).
  Proof.
    rewrite !per_of. intros H' H c x y Hx Hy Hm. unfold ref_currents.
    rewrite (H c x y), (H' _ x y) by auto. reflexivity.
  Qed.
  Lemma per_step p cur F : periodic N cur -> periodic N F -> periodic N (ref_step p cur F).
  Proof. intros. apply per_currents; auto. apply per_ampere. do 2 apply per_faraday. assumption. Qed.
End Periodic.

(** ** One subdomain *)
Section Stencil.
  Variables (g : Z) (n off : list Z) (m F : fields).
  Hypothesis Hg : (2 <= g)%Z.
  Hypothesis Hlen : length off = length n.
  Hypothesis HA : forall c z, in_extended g z n -> m c (loc g z) = F c (map2 Z.add off z).

  Lemma at_shift c r a k z : in_extended r z n -> (r + Z.abs k <= g)%Z ->
    m c (shift a k (loc g z)) = F c (shift a k (map2 Z.add off z)).
  Proof.
    intros Hz Hk. rewrite shift_loc, HA by (eapply shift_ext; eauto).
    f_equal. apply shift_add. rewrite (Forall2_length _ _ _ Hz). assumption.
  Qed.
  Lemma at_fwd c r a z : in_extended r z n -> (r + 1 <= g)%Z ->
    fwd a (m c) (loc g z) = fwd a (F c) (map2 Z.add off z).
  Proof.
    intros Hz Hr. unfold fwd. rewrite (at_shift c r) by (auto; lia). f_equal. apply HA.
    eapply Forall2_impl; [|exact Hz]. cbn; lia.
  Qed.
  Lemma at_bwd c r a z : in_extended r z n -> (r + 1 <= g)%Z ->
    bwd a (m c) (loc g z) = bwd a (F c) (map2 Z.add off z).
  Proof.
    intros Hz Hr. unfold bwd. rewrite (at_shift c r) by (auto; lia). f_equal. apply HA.
    eapply Forall2_impl; [|exact Hz]. cbn; lia.
  Qed.
  Lemma at_across c a b y : in_box y n -> across a b (m c) (loc g y) = across a b (F c) (map2 Z.add off y).
  Proof.
    intros Hy. pose proof (box_ext _ _ Hy) as Hz. unfold across.
    rewrite !shift_loc, !(at_fwd c 1) by (try lia; eapply shift_ext; eauto; cbn; lia).
    rewrite (at_fwd c 0) by (auto; lia).
    rewrite !shift_add by (rewrite (Forall2_length _ _ _ Hz); assumption). reflexivity.
  Qed.
  Lemma at_tuned k c a y : in_box y n -> tuned k a (m c) (loc g y) = tuned k a (F c) (map2 Z.add off y).
  Proof.
    intros Hy. pose proof (box_ext _ _ Hy) as Hz. unfold tuned.
    rewrite !at_across by auto. rewrite !(at_fwd c 0) by (auto; lia).
    rewrite !(at_shift c 0) by (auto; cbn; lia). reflexivity.
  Qed.
  Lemma at_active c y : in_box y n -> m c (loc g y) = F c (map2 Z.add off y).
  Proof. intro Hy. apply HA. eapply Forall2_impl; [|apply (box_ext _ _ Hy)]. cbn; lia. Qed.
  Lemma at_faraday k dt h c y : in_box y n ->
    ref_faraday k dt h m c (loc g y) = ref_faraday k dt h F c (map2 Z.add off y).
  Proof. intro Hy. unfold ref_faraday, curl. rewrite at_active, !at_tuned by auto. reflexivity. Qed.
  Lemma at_ampere dt h c y : in_box y n ->
    ref_ampere dt h m c (loc g y) = ref_ampere dt h F c (map2 Z.add off y).
  Proof.
    intro Hy. pose proof (box_ext _ _ Hy) as Hz.
    unfold ref_ampere, curl. rewrite at_active by auto. rewrite !(at_bwd _ 0) by (auto; lia). reflexivity.
  Qed.
End Stencil.
