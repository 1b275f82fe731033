(** Proofs for [FwallProps]. *)
From Coq Require Import ZArith List Bool Reals Lra Lia.
From Verif Require Import Base HaloSpec FieldModel FieldProofs WallModel DepositModel FilterModel StepSpec EnergyProofs
  FilterSpec FwallSpec.
Import ListNotations.
Open Scope R_scope.

(** ** The filter along one axis and across the others *)
Lemma smooth_comm a b F x : smooth a (smooth b F) x = smooth b (smooth a F) x.
Proof. unfold smooth. rewrite !(shift_comm a _ b). lra. Qed.
Lemma smooth_ext a F G x : (forall y, F y = G y) -> smooth a F x = smooth a G x.
Proof. intro H. unfold smooth. rewrite !H. reflexivity. Qed.
Definition slab (d : nat) (F : list Z -> R) : list Z -> R :=
  match d with 0%nat => smooth 1 (smooth 2 F) | 1%nat => smooth 0 (smooth 2 F) | _ => smooth 0 (smooth 1 F) end.
Lemma product_slab d F x : (d < 3)%nat -> product_filter F x = smooth d (slab d F) x.
Proof.
  intro Hd. unfold product_filter, slab.
  destruct d as [|[|[|d]]]; [reflexivity| | |lia].
  - apply smooth_comm.
  - etransitivity; [|apply smooth_comm]. apply smooth_ext. intro y. apply smooth_comm.
Qed.

Lemma at_shift d a v k x : a <> d -> at_o d v (shift a k x) = shift a k (at_o d v x).
Proof.
  revert d a. induction x as [|i x IH]; intros [|d] [|a] H; cbn; try reflexivity; [congruence|].
  rewrite IH by congruence. reflexivity.
Qed.
Lemma nth_shift_other d a k x : a <> d -> nth d (shift a k x) 0%Z = nth d x 0%Z.
Proof.
  revert d a. induction x as [|i x IH]; intros [|d] [|a] H; cbn; try reflexivity; [congruence|]. apply IH. congruence.
Qed.
Lemma at_self d x : at_o d (nth d x 0%Z) x = x.
Proof. revert d. induction x as [|i x IH]; intros [|d]; cbn; try reflexivity. rewrite IH. reflexivity. Qed.
Lemma at_shift_same d k x : shift d k x = at_o d (nth d x 0 + k)%Z x.
Proof. revert d. induction x as [|i x IH]; intros [|d]; cbn; try reflexivity. rewrite IH. reflexivity. Qed.
Lemma nth_at d v x : (d < length x)%nat -> nth d (at_o d v x) 0%Z = v.
Proof. revert d. induction x as [|i x IH]; intros [|d] H; cbn in *; try lia; auto. apply IH. lia. Qed.
Lemma at_at d v u x : at_o d v (at_o d u x) = at_o d v x.
Proof. revert d. induction x as [|i x IH]; intros [|d]; cbn; try reflexivity. rewrite IH. reflexivity. Qed.
Lemma at_len d v x : length (at_o d v x) = length x.
Proof. revert d. induction x as [|i x IH]; intros [|d]; cbn; auto. Qed.

(** A continuation across a plane: a factor and a source index, both from the index along [d]. *)
Definition contd (d : nat) (w : Z -> R) (r : Z -> Z) (F : list Z -> R) (x : list Z) : R :=
  w (nth d x 0%Z) * F (at_o d (r (nth d x 0%Z)) x).
Lemma smooth_contd d a w r F x : a <> d -> smooth a (contd d w r F) x = contd d w r (smooth a F) x.
Proof. intro H. unfold smooth, contd. rewrite !nth_shift_other, !at_shift by assumption. ring. Qed.
Lemma slab_contd d w r F x : (d < 3)%nat -> slab d (contd d w r F) x = contd d w r (slab d F) x.
Proof.
  intro H. unfold slab. destruct d as [|[|[|d]]]; try lia;
    (etransitivity; [apply smooth_ext; intro y; apply smooth_contd; discriminate|]; apply smooth_contd; discriminate).
Qed.
(** One pass over a continued array, read along [d]. *)
Lemma product_contd d w r F x : (d < 3)%nat -> (d < length x)%nat -> let i := nth d x 0%Z in
  product_filter (contd d w r F) x =
  / 4 * (w (i - 1)%Z * slab d F (at_o d (r (i - 1)%Z) x)) + / 2 * (w i * slab d F (at_o d (r i) x))
  + / 4 * (w (i + 1)%Z * slab d F (at_o d (r (i + 1)%Z) x)).
Proof.
  intros Hd HL i. rewrite (product_slab d) by assumption.
  rewrite (smooth_ext d _ (contd d w r (slab d F))) by (intro y; apply slab_contd; assumption).
  unfold smooth, contd. rewrite !at_shift_same, !nth_at, !at_at by assumption. reflexivity.
Qed.
Lemma product_ext F G x : (forall y, F y = G y) -> product_filter F x = product_filter G x.
Proof. intro H. unfold product_filter, smooth. rewrite !H. reflexivity. Qed.

(** ** The stencils of the kernel *)
Lemma slab_1 F i : slab 0 F [i] = F [i].
Proof. unfold slab, smooth. cbn [shift]. lra. Qed.
Lemma slab_2a F i j : in2 F i j = slab 0 F [i; j].
Proof. unfold in2, slab, smooth, Z.sub. cbn [shift Z.opp]. lra. Qed.
Lemma slab_2b F i j : in1 F i j = slab 1 F [i; j].
Proof. unfold in1, slab, smooth, Z.sub. cbn [shift Z.opp]. lra. Qed.
Lemma slab_3a F i j k : in23 F i j k = slab 0 F [i; j; k].
Proof. unfold in23, slab, smooth, Z.sub. cbn [shift Z.opp]. lra. Qed.
Lemma slab_3b F i j k : in13 F i j k = slab 1 F [i; j; k].
Proof. unfold in13, slab, smooth, Z.sub. cbn [shift Z.opp]. lra. Qed.
Lemma slab_3c F i j k : in12 F i j k = slab 2 F [i; j; k].
Proof. unfold in12, slab, smooth, Z.sub. cbn [shift Z.opp]. lra. Qed.
Lemma sten1 F i : stencil1 F i = coded_filter F [i].
Proof. unfold coded_filter, product_filter, smooth, stencil1, Z.sub. cbn [length Nat.eqb shift Z.opp]. lra. Qed.
Lemma sten2 F i j : stencil2 F i j = coded_filter F [i; j].
Proof. unfold coded_filter, product_filter, smooth, stencil2, Z.sub. cbn [length Nat.eqb shift Z.opp]. lra. Qed.
Lemma sten3 F i j k : stencil3 F i j k = coded_filter F [i; j; k].
Proof. unfold coded_filter, product_filter, smooth, misplaced, stencil3, Z.sub. cbn [length Nat.eqb shift Z.opp]. lra. Qed.

(** ** What the kernel does next to a single wall *)
Definition near (up : bool) (cfg : filter_cfg) (d : nat) (i : Z) : bool := wall cfg d i || next_wall cfg d i.
Definition kernel_value (up : bool) (cfg : filter_cfg) (d : nat) (b arr : currents) (x : list Z) (c : jcomp) : R :=
  let i := nth d x 0%Z in
  let s := if up then (i - 1)%Z else (i + 1)%Z in
  if wall cfg d i then
    if Nat.eqb (along c) d then 3 * / 4 * slab d (b c) x + / 4 * slab d (b c) (at_o d s x) else arr c x
  else if next_wall cfg d i then
    if Nat.eqb (along c) d then product_filter (b c) x else / 2 * slab d (b c) x + / 4 * slab d (b c) (at_o d s x)
  else coded_filter (b c) x.

Lemma one_cond up D d cfg k : one_wall up D d cfg -> nth k (fcond cfg) (false, false) = if Nat.eqb k d then (negb up, up) else (false, false).
Proof.
  intros (_ & HD & Hd & ->).
  destruct D as [|[|[|[|D]]]]; try lia; destruct d as [|[|[|d]]]; try lia; destruct k as [|[|[|k]]]; try reflexivity; cbn; destruct k; reflexivity.
Qed.
Lemma other_wall up D d cfg k i : one_wall up D d cfg -> k <> d -> wall cfg k i = false /\ next_wall cfg k i = false.
Proof.
  intros H N. unfold wall, next_wall. rewrite (one_cond up D d cfg k H).
  destruct (Nat.eqb_spec k d); [contradiction|]. split; reflexivity.
Qed.
Lemma this_inward up D d cfg i : one_wall up D d cfg -> inward cfg d i = if up then (i - 1)%Z else (i + 1)%Z.
Proof. intros H. unfold inward. rewrite (one_cond up D d cfg d H), Nat.eqb_refl. destruct up; reflexivity. Qed.

Lemma jset_here a c x v : jset a c x v c x = v.
Proof. apply set_eq. Qed.
Lemma jset_c a c x v c' y : c' <> c -> jset a c x v c' y = a c' y.
Proof. apply set_neq_c. Qed.
Ltac reads := repeat first [rewrite jset_here | rewrite jset_c by discriminate].
Lemma prod_read d F x : (d < 3)%nat -> (d < length x)%nat -> product_filter F x =
  / 2 * slab d F x + / 4 * (slab d F (at_o d (nth d x 0 - 1)%Z x) + slab d F (at_o d (nth d x 0 + 1)%Z x)).
Proof.
  intros Hd HL. rewrite (product_slab d) by assumption. unfold smooth. rewrite !at_shift_same.
  change (nth d x 0 + -1)%Z with (nth d x 0 - 1)%Z. lra.
Qed.

Lemma kernel_is up D d cfg b arr x c : one_wall up D d cfg -> length x = D ->
  filter_body cfg b arr x c x = kernel_value up cfg d b arr x c.
Proof.
  intros H HL. pose proof H as (HC & HD & Hd & _).
  assert (O : forall k i, k <> d -> wall cfg k i = false /\ next_wall cfg k i = false) by (intros; eapply other_wall; eassumption).
  assert (I : forall i, inward cfg d i = if up then (i - 1)%Z else (i + 1)%Z) by (intros; eapply this_inward; eassumption).
  unfold kernel_value.
  destruct x as [|i [|j [|k [|l x]]]]; cbn [length] in HL; subst D; try lia;
    destruct d as [|[|[|d]]]; try lia; cbn [filter_body nth at_o along].
  - unfold filter_1d. rewrite I. rewrite !slab_1, (prod_read 0) by (cbn [length]; lia). cbn [nth at_o]. rewrite !slab_1.
    unfold all3. rewrite !sten1. destruct (wall cfg 0 i); [|destruct (next_wall cfg 0 i)]; destruct c; reads; reflexivity.
  - rewrite HC. unfold filter_2d_cart. rewrite I. destruct (O 1%nat j) as [-> ->]; [discriminate|].
    rewrite !slab_2a. rewrite (prod_read 0) by (cbn [length]; lia). cbn [nth at_o].
    unfold all3. rewrite !sten2. destruct (wall cfg 0 i); [|destruct (next_wall cfg 0 i)]; destruct c; reads; reflexivity.
  - rewrite HC. unfold filter_2d_cart. rewrite I. destruct (O 0%nat i) as [-> ->]; [discriminate|].
    rewrite !slab_2b. rewrite (prod_read 1) by (cbn [length]; lia). cbn [nth at_o].
    unfold all3. rewrite !sten2. destruct (wall cfg 1 j); [|destruct (next_wall cfg 1 j)]; destruct c; reads; reflexivity.
  - unfold filter_3d. rewrite I. destruct (O 1%nat j) as [-> ->]; [discriminate|]. destruct (O 2%nat k) as [-> ->]; [discriminate|].
    rewrite !slab_3a. rewrite (prod_read 0) by (cbn [length]; lia). cbn [nth at_o].
    unfold all3. rewrite !sten3. destruct (wall cfg 0 i); [|destruct (next_wall cfg 0 i)]; destruct c; reads; reflexivity.
  - unfold filter_3d. rewrite I. destruct (O 0%nat i) as [-> ->]; [discriminate|]. destruct (O 2%nat k) as [-> ->]; [discriminate|].
    rewrite !slab_3b. rewrite (prod_read 1) by (cbn [length]; lia). cbn [nth at_o].
    unfold all3. rewrite !sten3. destruct (wall cfg 1 j); [|destruct (next_wall cfg 1 j)]; destruct c; reads; reflexivity.
  - unfold filter_3d. rewrite I. destruct (O 0%nat i) as [-> ->]; [discriminate|]. destruct (O 1%nat j) as [-> ->]; [discriminate|].
    rewrite !slab_3c. rewrite (prod_read 2) by (cbn [length]; lia). cbn [nth at_o].
    unfold all3. rewrite !sten3. destruct (wall cfg 2 k); [|destruct (next_wall cfg 2 k)]; destruct c; reads; reflexivity.
Qed.

(** ** Images *)
Definition even_w (up : bool) (e i : Z) : R := 1.
Definition even_r (up : bool) (e i : Z) : Z := if (if up then (e <=? i)%Z else (i <? e)%Z) then (2 * e - 1 - i)%Z else i.
Definition odd_w (up : bool) (e i : Z) : R := if beyond up i e then - 1 else if (i =? e)%Z then 0 else 1.
Definition odd_r (up : bool) (e i : Z) : Z := if beyond up i e then (2 * e - i)%Z else i.
Lemma images_contd up e d c F x : images up e d c F x =
  if Nat.eqb (along c) d then contd d (even_w up e) (even_r up e) F x else contd d (odd_w up e) (odd_r up e) F x.
Proof.
  unfold images, contd, even_w, even_r, odd_w, odd_r. destruct (Nat.eqb (along c) d).
  - destruct (if up then (e <=? nth d x 0)%Z else (nth d x 0 <? e)%Z); [ring|]. rewrite at_self. ring.
  - destruct (beyond up (nth d x 0%Z) e); [ring|]. rewrite at_self. destruct (nth d x 0 =? e)%Z; ring.
Qed.

(** Reads of the interior stencil stay on this side of the wall. *)
Lemma nth_shift_within d a k x : (-1 <= k <= 1)%Z -> (nth d x 0 - 1 <= nth d (shift a k x) 0 <= nth d x 0 + 1)%Z.
Proof.
  intro Hk. revert d a. induction x as [|i x IH]; intros [|d] [|a]; cbn [shift nth]; try lia. apply IH.
Qed.
Lemma coded_images (up : bool) e d c F x : (d < 3)%nat -> (d < length x)%nat ->
  (if up then (nth d x 0 + 1 < e)%Z else (e < nth d x 0 - 1)%Z) ->
  coded_filter (images up e d c F) x = coded_filter F x.
Proof.
  intros Hd HL Hx.
  assert (A : forall y, (nth d x 0 - 1 <= nth d y 0 <= nth d x 0 + 1)%Z -> images up e d c F y = F y).
  { intros y Hy. unfold images, beyond. destruct up.
    - destruct (Z.leb_spec e (nth d y 0%Z)), (Z.ltb_spec e (nth d y 0%Z)), (Z.eqb_spec (nth d y 0%Z) e); try lia; destruct (Nat.eqb _ _); reflexivity.
    - destruct (Z.ltb_spec (nth d y 0%Z) e), (Z.eqb_spec (nth d y 0%Z) e); try lia; destruct (Nat.eqb _ _); reflexivity. }
  assert (S2 : forall k l, (-1 <= k <= 1)%Z -> (-1 <= l <= 1)%Z -> forall a a', a <> a' ->
    (nth d x 0 - 1 <= nth d (shift a k (shift a' l x)) 0 <= nth d x 0 + 1)%Z).
  { intros k l Hk Hl a a' N. destruct (Nat.eq_dec a d) as [->|Na].
    - pose proof (nth_shift_within d d k (shift a' l x) Hk). rewrite (nth_shift_other d a') in H by congruence. exact H.
    - rewrite nth_shift_other by congruence. apply nth_shift_within. assumption. }
  assert (S1 : forall a k, (-1 <= k <= 1)%Z -> images up e d c F (shift a k x) = F (shift a k x)).
  { intros a k Hk. apply A. apply nth_shift_within. assumption. }
  unfold coded_filter. f_equal.
  - rewrite !(product_slab d) by assumption. unfold smooth.
    assert (B : forall y, (nth d x 0 - 1 <= nth d y 0 <= nth d x 0 + 1)%Z -> slab d (images up e d c F) y = slab d F y).
    { intros y Hy. assert (forall a k a' k', a <> d -> a' <> d -> images up e d c F (shift a k (shift a' k' y)) = F (shift a k (shift a' k' y))).
      { intros. apply A. rewrite !nth_shift_other by assumption. assumption. }
      assert (forall a k, a <> d -> images up e d c F (shift a k y) = F (shift a k y)).
      { intros. apply A. rewrite !nth_shift_other by assumption. assumption. }
      unfold slab, smooth. destruct d as [|[|[|]]]; [..|lia]; rewrite !H, !H0, !A by (discriminate || assumption); reflexivity. }
    rewrite !B; [reflexivity|..]; try lia; apply nth_shift_within; lia.
  - destruct (Nat.eqb (length x) 3); [|reflexivity]. unfold misplaced.
    rewrite !S1, !A by (lia || (apply S2; [lia|lia|discriminate])). reflexivity.
Qed.

Ltac Ztests :=
  repeat match goal with
  | |- context [Z.eqb ?a ?b] => destruct (Z.eqb_spec a b); try lia
  | |- context [Z.ltb ?a ?b] => destruct (Z.ltb_spec a b); try lia
  | |- context [Z.leb ?a ?b] => destruct (Z.leb_spec a b); try lia
  end.

(** ** Lower wall *)
Lemma lower_wall D d cfg b arr x c : one_wall false D d cfg -> length x = D -> (fmin cfg <= nth d x 0)%Z ->
  filter_body cfg b arr x c x =
  if (nth d x 0 =? fmin cfg)%Z && negb (Nat.eqb (along c) d) then arr c x
  else (if (fmin cfg + 1 <? nth d x 0)%Z then coded_filter else product_filter) (images false (fmin cfg) d c (b c)) x.
Proof.
  intros H HL Hx. pose proof H as (HC & HD & Hd & _).
  rewrite (kernel_is false D d cfg b arr x c H HL). unfold kernel_value, wall, next_wall.
  rewrite (one_cond false D d cfg d H), Nat.eqb_refl. cbn [fst snd negb andb]. rewrite !orb_false_r.
  set (e := fmin cfg) in *. set (i := nth d x 0%Z) in *.
  destruct (Z.ltb_spec (e + 1) i) as [L|L].
  { rewrite coded_images by (try lia; fold i; lia). Ztests. reflexivity. }
  rewrite (product_ext _ _ x (fun y => images_contd false e d c (b c) y)).
  destruct (Z.eqb_spec i e) as [E|E].
  - destruct (Nat.eqb (along c) d); cbn [negb andb]; [|reflexivity].
    rewrite (product_contd d) by lia. fold i. unfold even_w, even_r. Ztests. rewrite E.
    replace (2 * e - 1 - (e - 1))%Z with e by lia. replace (at_o d e x) with x by (rewrite <- E; symmetry; apply at_self).
    lra.
  - cbn [andb]. replace (i =? e + 1)%Z with true by (symmetry; apply Z.eqb_eq; lia).
    destruct (Nat.eqb (along c) d).
    + rewrite (product_contd d), (prod_read d) by lia. fold i. unfold even_w, even_r. Ztests.
      replace (at_o d i x) with x by (symmetry; apply at_self). lra.
    + rewrite (product_contd d) by lia. fold i. unfold odd_w, odd_r, beyond. Ztests.
      replace (at_o d i x) with x by (symmetry; apply at_self). lra.
Qed.

(** ** Upper wall *)
Lemma upper_wall_normal D d cfg b arr x c : one_wall true D d cfg -> length x = D -> along c = d ->
  let e := nth d (fmax cfg) 0%Z in (nth d x 0 < e)%Z ->
  filter_body cfg b arr x c x =
  (if (nth d x 0 <? e - 2)%Z then coded_filter else product_filter) (images true e d c (b c)) x.
Proof.
  intros H HL Hc e Hx. pose proof H as (HC & HD & Hd & _).
  rewrite (kernel_is true D d cfg b arr x c H HL). unfold kernel_value, wall, next_wall.
  rewrite (one_cond true D d cfg d H), Nat.eqb_refl. cbn [fst snd negb andb orb]. fold e.
  assert (Ec : Nat.eqb (along c) d = true) by (apply Nat.eqb_eq; assumption). rewrite Ec.
  set (i := nth d x 0%Z) in *.
  destruct (Z.ltb_spec i (e - 2)) as [L|L].
  { rewrite coded_images by (try lia; fold i; lia). Ztests. reflexivity. }
  rewrite (product_ext _ _ x (fun y => images_contd true e d c (b c) y)). rewrite Ec.
  rewrite (product_contd d) by lia. fold i. unfold even_w, even_r.
  destruct (Z.eqb_spec i (e - 1)) as [E|E].
  - Ztests. replace (2 * e - 1 - (i + 1))%Z with i by lia. replace (at_o d i x) with x by (symmetry; apply at_self). lra.
  - Ztests. rewrite (prod_read d) by lia. fold i. replace (at_o d i x) with x by (symmetry; apply at_self). lra.
Qed.
(** The tangential components are treated as if the wall were one cell lower. *)
Lemma upper_wall_tangential D d cfg b arr x c : one_wall true D d cfg -> length x = D -> along c <> d ->
  let e := (nth d (fmax cfg) 0 - 1)%Z in (nth d x 0 <= e)%Z ->
  filter_body cfg b arr x c x =
  if (nth d x 0 =? e)%Z then arr c x
  else (if (nth d x 0 <? e - 1)%Z then coded_filter else product_filter) (images true e d c (b c)) x.
Proof.
  intros H HL Hc e Hx. pose proof H as (HC & HD & Hd & _).
  rewrite (kernel_is true D d cfg b arr x c H HL). unfold kernel_value, wall, next_wall.
  rewrite (one_cond true D d cfg d H), Nat.eqb_refl. cbn [fst snd negb andb orb].
  assert (Ec : Nat.eqb (along c) d = false) by (apply Nat.eqb_neq; assumption). rewrite Ec.
  set (i := nth d x 0%Z) in *. set (m := nth d (fmax cfg) 0%Z) in *.
  destruct (Z.eqb_spec i (m - 1)) as [E|E]; [subst e; Ztests; reflexivity|].
  replace (i =? e)%Z with false by (symmetry; apply Z.eqb_neq; subst e; lia).
  destruct (Z.ltb_spec i (e - 1)) as [L|L].
  { rewrite coded_images by (try lia; fold i; lia). subst e. Ztests. reflexivity. }
  rewrite (product_ext _ _ x (fun y => images_contd true e d c (b c) y)). rewrite Ec.
  rewrite (product_contd d) by lia. fold i. unfold odd_w, odd_r, beyond. subst e. Ztests.
  replace (at_o d i x) with x by (symmetry; apply at_self). lra.
Qed.

(** ** Axes *)
Definition ax_w (up : bool) (e : Z) (c : jcomp) (j : Z) : R :=
  match c with
  | Jx1 => 1
  | Jx2 => if (if up then (e <=? j)%Z else (j <? e)%Z) then - 1 else 1
  | Jx3 => odd_w up e j
  end.
Definition ax_r (up : bool) (e : Z) (c : jcomp) (j : Z) : Z :=
  match c with Jx2 => even_r up e j | _ => odd_r up e j end.
Lemma axis_contd up e c F x : across_axis up e c F x = contd 1 (ax_w up e c) (ax_r up e c) F x.
Proof.
  unfold across_axis, contd, ax_w, ax_r, even_r, odd_r, odd_w. destruct c.
  - destruct (beyond up (nth 1 x 0%Z) e); [ring|]. rewrite at_self. ring.
  - destruct (if up then (e <=? nth 1 x 0)%Z else (nth 1 x 0 <? e)%Z); [ring|]. rewrite at_self. ring.
  - destruct (beyond up (nth 1 x 0%Z) e); [ring|]. rewrite at_self. destruct (nth 1 x 0 =? e)%Z; ring.
Qed.
Lemma contd_contd d w r w' r' F x : (d < length x)%nat ->
  contd d w r (contd d w' r' F) x = contd d (fun i => w i * w' (r i)) (fun i => r' (r i)) F x.
Proof. intro H. unfold contd. rewrite nth_at, at_at by assumption. ring. Qed.
Definition axes_w (lo hi : Z) (a : bool * bool) (c : jcomp) (j : Z) : R :=
  (if fst a then ax_w false lo c j else 1) * (if snd a then ax_w true hi c (if fst a then ax_r false lo c j else j) else 1).
Definition axes_r (lo hi : Z) (a : bool * bool) (c : jcomp) (j : Z) : Z :=
  let j' := if fst a then ax_r false lo c j else j in if snd a then ax_r true hi c j' else j'.
Lemma axes_contd lo hi a c F x : (1 < length x)%nat -> axes_of lo hi a c F x = contd 1 (axes_w lo hi a c) (axes_r lo hi a c) F x.
Proof.
  intro HL. unfold axes_of, axes_w, axes_r. destruct a as [[|] [|]]; cbn [fst snd].
  - rewrite axis_contd. unfold contd at 1. rewrite axis_contd. change (contd 1 (ax_w false lo c) (ax_r false lo c)
      (contd 1 (ax_w true hi c) (ax_r true hi c) F) x = contd 1 (fun j => ax_w false lo c j * ax_w true hi c (ax_r false lo c j))
      (fun j => ax_r true hi c (ax_r false lo c j)) F x). apply contd_contd. assumption.
  - rewrite axis_contd. unfold contd. ring.
  - rewrite axis_contd. unfold contd. ring.
  - unfold contd. rewrite at_self. ring.
Qed.
Lemma product_axes lo hi a c F i j :
  let w := axes_w lo hi a c in let r := axes_r lo hi a c in
  product_filter (axes_of lo hi a c F) [i; j] =
  / 4 * (w (j - 1)%Z * slab 1 F [i; r (j - 1)%Z]) + / 2 * (w j * slab 1 F [i; r j])
  + / 4 * (w (j + 1)%Z * slab 1 F [i; r (j + 1)%Z]).
Proof.
  intros w r. etransitivity; [|refine (product_contd 1 w r F [i; j] _ _); cbn; lia].
  unfold product_filter, smooth. cbn [shift]. rewrite !axes_contd by (cbn; lia). reflexivity.
Qed.

Ltac canon1 u v := first [constr_eq u v | constr_eq u (v + 1)%Z | constr_eq u (v - 1)%Z | constr_eq u (v - 2)%Z].
Ltac put u v :=
  first [replace u with v by lia | replace u with (v + 1)%Z by lia | replace u with (v - 1)%Z by lia | replace u with (v - 2)%Z by lia].
Ltac canon2 :=
  match goal with lo := _, hi := _ |- _ =>
  repeat match goal with
  | |- context [[_; ?u]] => tryif first [canon1 u lo | canon1 u hi] then fail else first [put u lo | put u hi]
  end end.
Lemma axes cfg b arr x c : fcart cfg = false -> length x = 2%nat ->
  let lo := fmin cfg in let hi := nth 1 (fmax cfg) 0%Z in let j := nth 1 x 0%Z in
  (lo + 3 <= hi)%Z -> (lo <= j)%Z -> (j < hi \/ (snd (faxis cfg) = true /\ j = hi /\ c <> Jx2))%Z ->
  filter_body cfg b arr x c x = product_filter (axes_of lo hi (faxis cfg) c (b c)) x.
Proof.
  intros HC HL lo hi j Hn Hlo Hhi.
  destruct x as [|i [|j' [|]]]; try discriminate. cbn [nth] in j. subst j.
  cbn [filter_body]. rewrite HC. unfold filter_2d_sph, all3. fold lo. fold hi. rewrite !sten2.
  rewrite !slab_2b, product_axes.
  replace (coded_filter (b Jx1) [i; j']) with (product_filter (b Jx1) [i; j']) by (unfold coded_filter; cbn; lra).
  replace (coded_filter (b Jx2) [i; j']) with (product_filter (b Jx2) [i; j']) by (unfold coded_filter; cbn; lra).
  replace (coded_filter (b Jx3) [i; j']) with (product_filter (b Jx3) [i; j']) by (unfold coded_filter; cbn; lra).
  rewrite !(prod_read 1) by (cbn; lia). cbn [nth at_o].
  unfold axes_w, axes_r, ax_w, ax_r, odd_w, odd_r, even_r, beyond.
  destruct (faxis cfg) as [[|] [|]]; cbn [fst snd andb] in *;
  destruct (Z.eqb_spec j' lo) as [E1|E1]; try (rewrite E1 in *; clear E1 j');
  try (destruct (Z.eqb_spec j' (lo + 1)) as [E2|E2]; try (rewrite E2 in *; clear E2 j'));
  try (destruct (Z.eqb_spec j' (hi - 1)) as [E3|E3]; try (rewrite E3 in *; clear E3 j'));
  try (destruct (Z.eqb_spec j' hi) as [E4|E4]; try (rewrite E4 in *; clear E4 j')).
  all: try lia.
  all: destruct c; reads.
  all: try (exfalso; intuition (congruence || lia)).
  all: Ztests; reads.
  all: try canon2.
  all: lra.
Qed.

(** ** One pass in any thread order *)
Ltac ifs := repeat match goal with |- context [if ?t then _ else _] => destruct t end.
Lemma jset_x a c x v c' y : y <> x -> jset a c x v c' y = a c' y.
Proof. apply set_neq_x. Qed.
Lemma any_frames cfg b : frames (fun _ => true) (filter_body cfg b).
Proof.
  intros m x c y [H|H]; [discriminate|].
  destruct x as [|i [|j [|k [|l x]]]]; cbn [filter_body]; unfold filter_1d, filter_2d_cart, filter_2d_sph, filter_3d, all3; ifs;
    repeat rewrite jset_x by assumption; reflexivity.
Qed.
Lemma any_local cfg b : local_body (fun _ => true) (filter_body cfg b).
Proof.
  intros m m' c x _ _ H. specialize (H c I).
  destruct x as [|i [|j [|k [|l x]]]]; cbn [filter_body]; unfold filter_1d, filter_2d_cart, filter_2d_sph, filter_3d, all3; ifs;
    destruct c; reads; try reflexivity; assumption.
Qed.
Lemma pass_at cfg b order x c : NoDup order -> In x order ->
  par_for (filter_body cfg b) order b c x = filter_body cfg b b x c x.
Proof. intros H1 H2. exact (par_for_in (fun _ => true) _ order b c x (any_frames cfg b) (any_local cfg b) H1 H2). Qed.
