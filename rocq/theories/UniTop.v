(** Uniform injection: number and places; injection by many subdomains. *)
From Coq Require Import ZArith List Bool Reals Lra Lia.
From Flocq Require Import Core.Raux.
From Verif Require Import Base MeshModel MeshSpec MeshProofs UniModel UniSpec UniProofs.
Import ListNotations.
Open Scope R_scope.

Lemma run_value eps convs cart sq ppc0 V0 ext ns nd box full us V :
  0 <= eps -> mesh_ok convs ext ns -> continues (length ext) box full -> code_volume convs ext full V ->
  0 <= ppc0 * nd -> ppc0 * nd / 2 * V < IZR (2 ^ 32) ->
  (inject_uniform eps convs cart sq (negb cart) ppc0 V0 ext nd (negb cart) box us =
     Ok (map (fun p => place cart sq (1 / V0) (sides convs ext full) (us p)) (seq 0 (Z.to_nat (Zfloor (ppc0 * nd / 2 * V))))) /\
   V = prod (sides convs ext full) /\ Forall (fun s => fst s <= snd s) (sides convs ext full)) \/
  (inject_uniform eps convs cart sq (negb cart) ppc0 V0 ext nd (negb cart) box us = Ok [] /\ (V = 0 \/ thin eps ext full)).
Proof.
  intros He M C CV K U. unfold inject_uniform.
  rewrite (continues_unique _ _ _ _ (nonempty_continues (length ext) box) C).
  replace (negb cart && negb (negb cart)) with false by (destruct cart; auto).
  replace (cart && negb cart) with false by (destruct cart; auto). rewrite eqb_reflx. cbn [negb].
  destruct (compute_value eps convs ppc0 nd ext ns full V He M CV K U) as [(-> & H)|(-> & H)]; cbn [rbind]; auto.
Qed.

Lemma floor_nonneg x : 0 <= x -> (0 <= Zfloor x)%Z.
Proof. intros H. apply Zfloor_lub. auto. Qed.

Theorem count_ok eps convs cart sq ppc0 V0 ext ns nd box full us V :
  0 <= eps -> mesh_ok convs ext ns -> continues (length ext) box full -> code_volume convs ext full V ->
  0 <= ppc0 * nd -> ppc0 * nd / 2 * V < IZR (2 ^ 32) ->
  exists l, inject_uniform eps convs cart sq (negb cart) ppc0 V0 ext nd (negb cart) box us = Ok l /\
    (Z.of_nat (length l) = Zfloor (ppc0 * nd / 2 * V) \/ l = [] /\ thin eps ext full).
Proof.
  intros He M C CV K U.
  assert (0 <= V) by (eapply (volume_sides eps convs He ext ns full V); eauto).
  destruct (run_value eps convs cart sq ppc0 V0 ext ns nd box full us V He M C CV K U) as [(E & _)|(E & H0)]; rewrite E; eexists; (split; [reflexivity|]).
  - left. rewrite map_length, seq_length, Z2Nat.id; auto. apply floor_nonneg, Rmult_le_pos; lra.
  - destruct H0 as [->|T]; auto. left. rewrite Rmult_0_r. cbn [length]. change (Z.of_nat 0) with 0%Z. symmetry.
    apply (Zfloor_imp 0). simpl. lra.
Qed.

Lemma prod_pos l : Forall (fun s : R * R => fst s <= snd s) l -> 0 < prod l -> Forall (fun s => fst s < snd s) l.
Proof.
  induction 1 as [|s l A F IH]; intros P; [constructor|]. rewrite prod_cons in P.
  destruct (Req_dec (fst s) (snd s)) as [E|E]; [rewrite E in P; replace ((snd s - snd s) * prod l) with 0 in P by ring; lra|].
  constructor; [lra|]. apply IH. apply Rmult_lt_reg_l with (snd s - fst s); [lra|]. lra.
Qed.

(** One dimension: where a number drawn ends up. *)
Lemma draw_inside c e n b u : proper e -> grid_map c e n -> fst (side c e b) < snd (side c e b) -> 0 <= u < 1 ->
  let (i, dx) := cell_of (draw (side c e b) u) in
  (0 <= i < n)%Z /\ 0 <= dx < 1 /\ exists x, within_ext e x /\ within b x /\ c x = IZR i + dx.
Proof.
  intros P G. rewrite side_ends by auto. cbn [fst snd]. intros L U. unfold cell_of, draw. cbn [fst snd].
  pose proof (lo_range e (fst b) P) as RL. pose proof (hi_range e (snd b) P) as RH.
  assert (O : lo e (fst b) < hi e (snd b)).
  { destruct (Rlt_dec (lo e (fst b)) (hi e (snd b))) as [|N]; auto. pose proof (grid_le c e n _ _ G RH RL ltac:(lra)). lra. }
  pose proof (conv_range c e n _ G RL) as CL. pose proof (conv_range c e n _ G RH) as CH.
  set (x := c (lo e (fst b)) + u * (c (hi e (snd b)) - c (lo e (fst b)))).
  assert (X : c (lo e (fst b)) <= x < c (hi e (snd b))).
  { unfold x. assert (0 <= u * (c (hi e (snd b)) - c (lo e (fst b)))) by (apply Rmult_le_pos; lra).
    assert (u * (c (hi e (snd b)) - c (lo e (fst b))) < 1 * (c (hi e (snd b)) - c (lo e (fst b)))) by (apply Rmult_lt_compat_r; lra). lra. }
  rewrite Ztrunc_floor by lra. pose proof (Zfloor_lb x). pose proof (Zfloor_ub x).
  split; [|split; [lra|]].
  - split; [apply Zfloor_lub; simpl; lra|]. apply lt_IZR. lra.
  - replace (IZR (Zfloor x) + (x - IZR (Zfloor x))) with x by ring.
    destruct G as (G1 & G2 & G3 & G4). destruct (G4 x ltac:(lra)) as (t & T & TX).
    exists t. assert (lo e (fst b) <= t <= hi e (snd b)).
    { split.
      - destruct (Rle_dec (lo e (fst b)) t); auto. pose proof (G1 t _ T RL ltac:(lra)). lra.
      - destruct (Rle_dec t (hi e (snd b))); auto. pose proof (G1 _ t RH T ltac:(lra)). lra. }
    destruct (lo_hi_within e b t P O) as [W1 W2]; [auto|]. auto.
Qed.

Lemma draws_inside convs : forall ext ns full us, mesh_ok convs ext ns -> length full = length ext -> length us = length ext ->
  Forall (fun s => fst s < snd s) (sides convs ext full) -> Forall (fun u => 0 <= u < 1) us ->
  let l := map cell_of (map2 draw (sides convs ext full) us) in
  length l = length ext /\
  forall d c e n b, nth_error convs d = Some c -> nth_error ext d = Some e -> nth_error ns d = Some n -> nth_error full d = Some b ->
  exists i dx, nth_error l d = Some (i, dx) /\
    (0 <= i < n)%Z /\ 0 <= dx < 1 /\ exists x, within_ext e x /\ within b x /\ c x = IZR i + dx.
Proof.
  induction convs as [|c cs IH]; intros [|e es] [|n ns] full us M Lf Lu F U; cbn in M; try contradiction.
  - cbn. split; auto. intros [|d]; discriminate.
  - destruct full as [|b bs], us as [|u us]; try discriminate. destruct M as (P & G & M).
    cbn [sides] in F. inversion F as [|? ? F1 F2]; subst. inversion U as [|? ? U1 U2]; subst.
    cbn in Lf, Lu. destruct (IH es ns bs us M ltac:(lia) ltac:(lia) F2 U2) as [IL I]. cbv zeta in *. cbn [sides map2 map length].
    split; [f_equal; auto|]. intros [|d] c' e' n' b' Ec Ee En Eb; cbn in Ec, Ee, En, Eb.
    + injection Ec as <-. injection Ee as <-. injection En as <-. injection Eb as <-.
      pose proof (draw_inside c e n b u P G F1 U1) as D. destruct (cell_of (draw (side c e b) u)) as [i dx]. exists i, dx. cbn. auto.
    + destruct (I d c' e' n' b' Ec Ee En Eb) as (i & dx & H). exists i, dx. cbn. auto.
Qed.

Lemma mesh_lengths convs : forall ext ns, mesh_ok convs ext ns -> length convs = length ext /\ length ns = length ext.
Proof. induction convs as [|c cs IH]; intros [|e es] [|n ns] M; cbn in *; try contradiction; auto. destruct M as (_ & _ & M). apply IH in M. lia. Qed.

Lemma cell_back l : map (fun ij => IZR (fst ij) + snd ij) (map cell_of l) = l.
Proof. rewrite map_map. rewrite <- (map_id l) at 2. apply map_ext. intros x. unfold cell_of. cbn [fst snd]. ring. Qed.

Theorem inside_ok eps convs cart sq ppc0 V0 ext ns nd box full us l V q1 q2 :
  0 <= eps -> mesh_ok convs ext ns -> continues (length ext) box full -> code_volume convs ext full V ->
  0 <= ppc0 * nd -> ppc0 * nd / 2 * V < IZR (2 ^ 32) ->
  (forall p, length (us p) = length ext /\ Forall (fun u => 0 <= u < 1) (us p)) ->
  inject_uniform eps convs cart sq (negb cart) ppc0 V0 ext nd (negb cart) box us = Ok l -> In (q1, q2) l ->
  q1 = q2 /\ length (p_cells q1) = length ext /\
  p_weight q1 = (if cart then 1 else sq (map (fun ij => IZR (fst ij) + snd ij) (p_cells q1)) / V0) /\
  forall d c e n b, nth_error convs d = Some c -> nth_error ext d = Some e -> nth_error ns d = Some n -> nth_error full d = Some b ->
  exists i dx, nth_error (p_cells q1) d = Some (i, dx) /\
    (0 <= i < n)%Z /\ 0 <= dx < 1 /\ exists x, within_ext e x /\ within b x /\ c x = IZR i + dx.
Proof.
  intros He M C CV K U R E I.
  destruct (run_value eps convs cart sq ppc0 V0 ext ns nd box full us V He M C CV K U) as [(E' & EV & F)|(E' & _)];
    rewrite E' in E; injection E as <-; [|destruct I].
  apply in_map_iff in I. destruct I as (p & Q & I). apply in_seq in I. unfold place in Q. injection Q as Q1 Q2.
  assert (FP : 0 < prod (sides convs ext full)).
  { assert (0 <= V) by (eapply (volume_sides eps convs He ext ns full V); eauto).
    rewrite <- EV. destruct (Req_dec V 0) as [Z|Z]; [|lra]. exfalso. rewrite Z, Rmult_0_r in I.
    rewrite (Zfloor_imp 0 0) in I by (simpl; lra). cbn in I. lia. }
  apply prod_pos in FP; auto. destruct (R p) as [R1 R2].
  destruct (draws_inside convs ext ns full (us p) M (proj1 C) R1 FP R2) as [D1 D2]. cbv zeta in *.
  subst q1 q2. cbn [p_cells p_weight]. split; auto. split; auto. split; auto.
  rewrite cell_back. unfold weight_of. destruct cart; auto. unfold Rdiv. rewrite Rmult_1_l. auto.
Qed.

(** Weights have to be asked for exactly where they are needed. *)
Theorem refuses eps convs cart sq enabled ppc0 V0 ext nd w box us :
  (w <> negb cart \/ enabled <> w) -> inject_uniform eps convs cart sq enabled ppc0 V0 ext nd w box us = Err.
Proof. unfold inject_uniform. destruct cart, w, enabled; cbn; intros [H|H]; auto; congruence. Qed.

(** ** Many subdomains *)
Lemma hi_step c0 c1 z b : c0 < c1 -> c1 <= z ->
  (hi (c0, z) b = hi (c0, c1) b /\ hi (c1, z) b = c1) \/ (hi (c0, c1) b = c1 /\ hi (c0, z) b = hi (c1, z) b).
Proof. intros A B. destruct b as [|y|]; cbn [hi fst snd]; [left; lra| |right; lra]. unfold Rmin, Rmax. repeat destruct (Rle_dec _ _); lra. Qed.
Lemma lo_step c0 c1 z b : c0 < c1 -> c1 <= z ->
  (lo (c0, z) b = lo (c0, c1) b /\ lo (c1, z) b = c1) \/ (lo (c0, c1) b = c1 /\ lo (c0, z) b = lo (c1, z) b).
Proof. intros A B. destruct b as [|y|]; cbn [lo fst snd]; [left; lra| |right; lra]. unfold Rmin, Rmax. repeat destruct (Rle_dec _ _); lra. Qed.

Lemma increasing_last l : forall a, increasing (a :: l) -> a <= last (a :: l) 0.
Proof.
  induction l as [|b l IH]; intros a H; [cbn; lra|]. destruct H as [A H]. apply IH in H.
  change (last (a :: b :: l) 0) with (last (b :: l) 0). lra.
Qed.
Lemma pieces_sum (G : R -> R) b l : forall a, increasing (a :: l) ->
  totalR (fun e => G (hi e b)) (pieces (a :: l)) = totalR (fun e => G (fst e)) (pieces (a :: l)) + G (hi (a, last (a :: l) 0) b) - G a /\
  totalR (fun e => G (lo e b)) (pieces (a :: l)) = totalR (fun e => G (fst e)) (pieces (a :: l)) + G (lo (a, last (a :: l) 0) b) - G a.
Proof.
  induction l as [|c l IH]; intros a H.
  - cbn [pieces totalR fold_right last]. 
    assert (hi (a, a) b = a) as -> by (destruct b; cbn [hi fst snd]; auto; unfold Rmin, Rmax; repeat destruct (Rle_dec _ _); lra).
    assert (lo (a, a) b = a) as -> by (destruct b; cbn [lo fst snd]; auto; unfold Rmin, Rmax; repeat destruct (Rle_dec _ _); lra). lra.
  - destruct H as [A H]. destruct (IH c H) as [I1 I2]. pose proof (increasing_last l c H) as L.
    change (pieces (a :: c :: l)) with ((a, c) :: pieces (c :: l)). change (last (a :: c :: l) 0) with (last (c :: l) 0).
    cbn [totalR fold_right] in *. fold (totalR (fun e => G (hi e b)) (pieces (c :: l))). fold (totalR (fun e => G (lo e b)) (pieces (c :: l))).
    fold (totalR (fun e => G (fst e)) (pieces (c :: l))). rewrite I1, I2. cbn [fst]. split.
    + destruct (hi_step a c (last (c :: l) 0) b A L) as [[-> ->]|[-> ->]]; lra.
    + destruct (lo_step a c (last (c :: l) 0) b A L) as [[-> ->]|[-> ->]]; lra.
Qed.

Lemma ordered_le e b : proper e -> ordered b -> lo e (fst b) <= hi e (snd b).
Proof. intros P. destruct b as [[|x|] [|y|]]; cbn [ordered fst snd lo hi]; intros O; unfold proper in P; try contradiction; unfold Rmin, Rmax; repeat destruct (Rle_dec _ _); lra. Qed.
Lemma len_ordered G e b : proper e -> ordered b -> len G e b = G (hi e (snd b)) - G (lo e (fst b)).
Proof. intros P O. pose proof (ordered_le e b P O). unfold len. destruct (Rlt_dec _ _); auto. replace (hi e (snd b)) with (lo e (fst b)) by lra. lra. Qed.
Lemma pieces_proper l : increasing l -> Forall proper (pieces l).
Proof.
  induction l as [|a l IH]; intros H; [constructor|]. destruct l as [|b l]; [constructor|]. destruct H as [A H].
  change (pieces (a :: b :: l)) with ((a, b) :: pieces (b :: l)). constructor; auto.
Qed.
Lemma totalR_cons {A} (f : A -> R) a l : totalR f (a :: l) = f a + totalR f l.
Proof. reflexivity. Qed.
Lemma totalZ_cons {A} (f : A -> Z) a l : totalZ f (a :: l) = (f a + totalZ f l)%Z.
Proof. reflexivity. Qed.
Lemma totalR_ext {A} (f g : A -> R) l : (forall a, In a l -> f a = g a) -> totalR f l = totalR g l.
Proof. induction l as [|a l IH]; intros H; auto. cbn [totalR fold_right]. rewrite H by (left; auto). f_equal. apply IH. intros x X. apply H. right. auto. Qed.
Lemma totalR_minus {A} (f g : A -> R) l : totalR (fun a => f a - g a) l = totalR f l - totalR g l.
Proof. induction l as [|a l IH]; [cbn; lra|]. rewrite !totalR_cons, IH. lra. Qed.
Lemma totalR_scal {A} c (f : A -> R) l : totalR (fun a => c * f a) l = c * totalR f l.
Proof. induction l as [|a l IH]; [cbn; lra|]. rewrite !totalR_cons, IH. lra. Qed.
Lemma totalR_app {A} (f : A -> R) l m : totalR f (l ++ m) = totalR f l + totalR f m.
Proof. induction l as [|a l IH]; [change ([] ++ m) with m; change (totalR f []) with 0; lra|]. cbn [app]. rewrite !totalR_cons, IH. lra. Qed.

Lemma len_pieces G b a c l : increasing (a :: c :: l) -> ordered b ->
  totalR (fun e => len (local G e) e b) (pieces (a :: c :: l)) = len G (a, last (a :: c :: l) 0) b.
Proof.
  intros H O. pose proof (pieces_proper _ H) as P. rewrite Forall_forall in P.
  rewrite (totalR_ext _ (fun e => G (hi e (snd b)) - G (lo e (fst b)))).
  2:{ intros e E. rewrite len_ordered by auto. unfold local. ring. }
  rewrite totalR_minus. destruct (pieces_sum G (snd b) (c :: l) a H) as [-> _]. destruct (pieces_sum G (fst b) (c :: l) a H) as [_ ->].
  rewrite len_ordered; auto; [lra|]. unfold proper. cbn [fst snd]. destruct H as [A H]. pose proof (increasing_last l c H).
  change (last (a :: c :: l) 0) with (last (c :: l) 0). lra.
Qed.

(** Volumes as products. *)
Fixpoint vol (convs : list (R -> R)) (ext : list (R * R)) (box : list (bnd * bnd)) : R :=
  match convs, ext, box with
  | c :: cs, e :: es, b :: bs => len c e b * vol cs es bs
  | _, _, _ => 1
  end.
Lemma volume_vol convs : forall ext box V, Forall proper ext -> code_volume convs ext box V -> V = vol convs ext box.
Proof.
  induction convs as [|c cs IH]; intros [|e es] [|b bs] V P H; cbn in *; try contradiction; auto.
  inversion P; subst. destruct H as (L & W & CL & CV & ->). apply code_length_len in CL; auto. rewrite CL. f_equal. auto.
Qed.
Lemma subdomains_proper cuts : Forall increasing cuts -> forall e, In e (subdomains cuts) -> Forall proper e.
Proof.
  induction 1 as [|c r A F IH]; intros e E; cbn in E; [destruct E as [<-|[]]; constructor|].
  apply in_flat_map in E. destruct E as (e0 & E0 & E). apply in_map_iff in E. destruct E as (es & <- & E).
  constructor; auto. pose proof (pieces_proper c A) as P. rewrite Forall_forall in P. auto.
Qed.
Lemma vol_tiled Gs : forall cuts box, length Gs = length cuts -> length box = length cuts ->
  Forall increasing cuts -> Forall (fun c => (2 <= length c)%nat) cuts -> Forall ordered box ->
  totalR (fun e => vol (locals Gs e) e box) (subdomains cuts) = vol Gs (whole cuts) box.
Proof.
  induction Gs as [|g gs IH]; intros [|c r] [|b bs] L1 L2 I K O; try discriminate.
  - cbn. lra.
  - inversion I as [|? ? I1 I2]; inversion K as [|? ? K1 K2]; inversion O as [|? ? O1 O2]; subst. cbn in L1, L2.
    specialize (IH r bs ltac:(lia) ltac:(lia) I2 K2 O2).
    cbn [subdomains whole map vol]. fold (whole r). rewrite <- IH.
    destruct c as [|a [|c0 c]]; [cbn in K1; lia|cbn in K1; lia|].
    cbn [hd]. rewrite <- (len_pieces g b a c0 c) by auto. clear I1 K1.
    induction (pieces (a :: c0 :: c)) as [|e es IHe].
    { cbn. lra. }
    cbn [flat_map]. rewrite totalR_app, IHe, totalR_cons.
    rewrite Rmult_plus_distr_r. f_equal.
    rewrite <- totalR_scal. clear. induction (subdomains r) as [|x xs IHx]; auto.
    cbn [map]. rewrite !totalR_cons. f_equal; auto.
Qed.

Lemma whole_proper cuts : Forall increasing cuts -> Forall (fun c => (2 <= length c)%nat) cuts -> Forall proper (whole cuts).
Proof.
  induction 1 as [|c r A F IH]; intros K; [constructor|]. inversion K; subst. cbn [whole map]. constructor; [|auto].
  destruct c as [|a [|c0 c]]; [cbn in *; lia|cbn in *; lia|]. unfold proper. cbn [fst snd hd]. destruct A as [A A2].
  pose proof (increasing_last c c0 A2). change (last (a :: c0 :: c) 0) with (last (c0 :: c) 0). lra.
Qed.
Lemma volume_lengths2 convs : forall ext box V, code_volume convs ext box V -> length convs = length ext.
Proof.
  induction convs as [|c cs IH]; intros [|e es] [|b bs] V H; cbn in *; try contradiction; auto.
  destruct H as (L & W & _ & H & _). f_equal. eapply IH; eauto.
Qed.

Theorem tiled Gs cuts box V f :
  Forall increasing cuts -> Forall (fun c => (2 <= length c)%nat) cuts -> Forall ordered box ->
  code_volume Gs (whole cuts) box V ->
  (forall e, In e (subdomains cuts) -> code_volume (locals Gs e) e box (f e)) ->
  totalR f (subdomains cuts) = V.
Proof.
  intros I K O CV CF. pose proof (volume_lengths _ _ _ _ CV) as L1. pose proof (volume_lengths2 _ _ _ _ CV) as L2.
  unfold whole in L1, L2. rewrite map_length in L1, L2.
  rewrite (volume_vol Gs (whole cuts) box V) by (auto using whole_proper).
  rewrite <- vol_tiled by auto. apply totalR_ext. intros e E. apply volume_vol; auto. eapply subdomains_proper; eauto.
Qed.

Lemma floors {A} k (f : A -> R) l : IZR (totalZ (fun a => Zfloor (k * f a)) l) <= k * totalR f l /\
  (l <> [] -> k * totalR f l - INR (length l) < IZR (totalZ (fun a => Zfloor (k * f a)) l)).
Proof.
  induction l as [|a l [I1 I2]].
  - cbn. split; [lra|congruence].
  - cbn [length]. rewrite totalR_cons, totalZ_cons.
    rewrite plus_IZR, S_INR. pose proof (Zfloor_lb (k * f a)). pose proof (Zfloor_ub (k * f a)). split; [lra|]. intros _.
    destruct l as [|b l]; [cbn in *; lra|]. specialize (I2 ltac:(discriminate)). lra.
Qed.

Lemma totalZ_le {A} (f g : A -> Z) l : (forall a, In a l -> (f a <= g a)%Z) -> (totalZ f l <= totalZ g l)%Z.
Proof.
  induction l as [|a l IH]; intros H; [cbn; lia|]. rewrite !totalZ_cons.
  pose proof (H a (or_introl eq_refl)). assert (totalZ f l <= totalZ g l)%Z by (apply IH; intros x X; apply H; right; auto). lia.
Qed.
Lemma totalR_member {A} (f : A -> R) l a : (forall x, In x l -> 0 <= f x) -> In a l -> f a <= totalR f l.
Proof.
  intros H I. induction l as [|x l IH]; [destruct I|]. rewrite totalR_cons.
  assert (0 <= totalR f l).
  { clear IH I. assert (H' : forall y, In y l -> 0 <= f y) by (intros y Y; apply H; right; auto). clear H.
    induction l as [|y l IH]; [cbn; lra|]. rewrite totalR_cons. pose proof (H' y (or_introl eq_refl)).
    assert (0 <= totalR f l) by (apply IH; intros z Z; apply H'; right; auto). lra. }
  destruct I as [->|I]; [lra|]. pose proof (H x (or_introl eq_refl)). assert (f a <= totalR f l) by (apply IH; auto; intros y Y; apply H; right; auto). lra.
Qed.

Theorem total_number eps Gs cuts cart sq ppc0 V0 nd box full us V f l :
  0 <= eps -> Forall increasing cuts -> Forall (fun c => (2 <= length c)%nat) cuts ->
  continues (length cuts) box full -> Forall ordered full ->
  code_volume Gs (whole cuts) full V ->
  (forall e, In e (subdomains cuts) -> code_volume (locals Gs e) e full (f e) /\ exists ns, mesh_ok (locals Gs e) e ns) ->
  0 <= ppc0 * nd -> ppc0 * nd / 2 * V < IZR (2 ^ 32) ->
  (forall e, In e (subdomains cuts) ->
     inject_uniform eps (locals Gs e) cart sq (negb cart) ppc0 V0 e nd (negb cart) box (us e) = Ok (l e)) ->
  let n := totalZ (fun e => Z.of_nat (length (l e))) (subdomains cuts) in
  IZR n <= ppc0 * nd / 2 * V /\
  ((forall e, In e (subdomains cuts) -> ~ thin eps e full) -> ppc0 * nd / 2 * V - INR (length (subdomains cuts)) < IZR n).
Proof.
  intros He I K C O CV CF P U E. cbv zeta.
  assert (T : totalR f (subdomains cuts) = V) by (eapply tiled; eauto; intros e X; apply CF; auto).
  assert (F0 : forall e, In e (subdomains cuts) -> 0 <= f e).
  { intros e X. destruct (CF e X) as (C1 & ns & M). eapply (volume_sides eps _ He e ns full); eauto. }
  assert (LE : forall e, In e (subdomains cuts) -> length e = length cuts).
  { intros e X. destruct (CF e X) as (C1 & _). apply volume_lengths in C1. destruct C as [C _]. lia. }
  assert (S : forall e, In e (subdomains cuts) -> Z.of_nat (length (l e)) = Zfloor (ppc0 * nd / 2 * f e) \/ (l e = [] /\ thin eps e full)).
  { intros e X. destruct (CF e X) as (C1 & ns & M).
    destruct (count_ok eps (locals Gs e) cart sq ppc0 V0 e ns nd box full (us e) (f e) He M) as (l' & E' & H); auto.
    - rewrite LE; auto.
    - apply Rle_lt_trans with (ppc0 * nd / 2 * V); auto. apply Rmult_le_compat_l; [lra|]. rewrite <- T. apply totalR_member; auto.
    - rewrite E in E' by auto. injection E' as <-. auto. }
  destruct (floors (ppc0 * nd / 2) f (subdomains cuts)) as [Fl Fu]. rewrite T in Fl, Fu. split.
  - eapply Rle_trans; [|exact Fl]. apply IZR_le, totalZ_le. intros e X. destruct (S e X) as [->|[-> _]]; [lia|].
    cbn [length]. apply floor_nonneg, Rmult_le_pos; [lra|auto].
  - intros NT. assert (N : subdomains cuts <> []).
    { clear -K. induction K as [|c r K1 K IH]; cbn [subdomains]; [discriminate|]. destruct c as [|a [|b c]]; [cbn in K1; lia|cbn in K1; lia|].
      change (pieces (a :: b :: c)) with ((a, b) :: pieces (b :: c)). cbn [flat_map]. destruct (subdomains r); [congruence|discriminate]. }
    eapply Rlt_le_trans; [apply Fu, N|]. apply IZR_le, totalZ_le. intros e X. destruct (S e X) as [->|[_ H]]; [lia|]. exfalso. eapply NT; eauto.
Qed.
