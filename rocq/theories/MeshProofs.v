(** Proofs about region queries. *)
From Coq Require Import ZArith List Bool Reals Lra Lia.
From Flocq Require Import Core.Raux.
From Verif Require Import Base ListLemmas MeshModel MeshSpec.
Import ListNotations.
Open Scope R_scope.

Definition lo (e : R * R) (b : bnd) : R :=
  match b with NInf => fst e | Fin y => Rmin (snd e) (Rmax (fst e) y) | PInf => snd e end.
Definition hi (e : R * R) (b : bnd) : R :=
  match b with NInf => fst e | Fin y => Rmax (fst e) (Rmin (snd e) y) | PInf => snd e end.

Ltac cases := unfold bmin, bmax, blt, lo, hi, Rmin, Rmax in *;
  repeat match goal with
  | |- context [Rlt_dec ?a ?b] => destruct (Rlt_dec a b)
  | |- context [Rle_dec ?a ?b] => destruct (Rle_dec a b)
  | H : context [Rlt_dec ?a ?b] |- _ => destruct (Rlt_dec a b)
  | H : context [Rle_dec ?a ?b] |- _ => destruct (Rle_dec a b)
  end; try (f_equal; lra); try lra.

Lemma min_lo e b : proper e -> bmin (bmax (Fin (fst e)) b) (Fin (snd e)) = Fin (lo e b).
Proof. unfold proper. intros H. destruct b; cases. Qed.
Lemma max_hi e b : proper e -> bmax (bmin (Fin (snd e)) b) (Fin (fst e)) = Fin (hi e b).
Proof. unfold proper. intros H. destruct b; cases. Qed.
Lemma min_lo' e b : proper e -> b <> NInf -> bmin (Fin (snd e)) (bmax (Fin (fst e)) b) = Fin (lo e b).
Proof. unfold proper. intros H N. destruct b; [congruence| |]; cases. Qed.
Lemma max_hi' e b : proper e -> bmax (Fin (fst e)) (bmin (Fin (snd e)) b) = Fin (hi e b).
Proof. unfold proper. intros H. destruct b; cases. Qed.

Lemma intersect1_ok e b : proper e -> not_half_open b -> intersect1 e b = [(Fin (lo e (fst b)), Fin (hi e (snd b)))].
Proof.
  intros H N. unfold intersect1, is_all. destruct b as [b1 b2]; cbn [fst snd] in *. rewrite max_hi' by auto.
  unfold not_half_open in N. cbn [fst snd] in N.
  destruct b1; cbn [is_ninf andb]; [|rewrite min_lo' by (auto; discriminate)|rewrite min_lo' by (auto; discriminate)];
    destruct b2; cbn [is_pinf]; auto; discriminate (N eq_refl).
Qed.
Lemma intersect1_half e b : fst b <> NInf -> snd b = PInf -> intersect1 e b = [].
Proof. destruct b as [b1 b2]. cbn [fst snd]. intros N ->. unfold intersect1, is_all. cbn [fst snd is_pinf]. destruct b1; auto. congruence. Qed.

Lemma half_dec b : not_half_open b \/ (fst b <> NInf /\ snd b = PInf).
Proof.
  destruct b as [b1 b2]. unfold not_half_open. cbn [fst snd].
  destruct b2; [left; discriminate|left; discriminate|]. destruct b1; [left; auto| |]; right; split; auto; discriminate.
Qed.

(** The clamped ends describe the overlap. *)
Lemma within_lo_hi e b x : proper e -> (within_ext e x /\ within b x) -> lo e (fst b) <= x <= hi e (snd b).
Proof.
  unfold proper, within_ext, within. destruct b as [[|y|] [|z|]]; cbn [fst snd above_end below_end]; intros H [A [B C]];
    try contradiction; cases.
Qed.
Lemma lo_hi_within e b x : proper e -> lo e (fst b) < hi e (snd b) -> lo e (fst b) <= x <= hi e (snd b) ->
  within_ext e x /\ within b x.
Proof.
  unfold proper, within_ext, within. destruct b as [[|y|] [|z|]]; cbn [fst snd above_end below_end]; intros H A B;
    cases; repeat split; auto; lra.
Qed.
Lemma overlap_iff e b : proper e -> (overlap e b <-> lo e (fst b) < hi e (snd b)).
Proof.
  intros H. split.
  - intros [x [y [L [A [B [C D]]]]]]. pose proof (within_lo_hi e b x H (conj A C)). pose proof (within_lo_hi e b y H (conj B D)). lra.
  - intros L. exists (lo e (fst b)), (hi e (snd b)). split; auto.
    pose proof (lo_hi_within e b (lo e (fst b)) H L ltac:(lra)). pose proof (lo_hi_within e b (hi e (snd b)) H L ltac:(lra)). tauto.
Qed.
Lemma lo_range e b : proper e -> fst e <= lo e b <= snd e.
Proof. unfold proper. intros H. destruct b; cases. Qed.
Lemma hi_range e b : proper e -> fst e <= hi e b <= snd e.
Proof. unfold proper. intros H. destruct b; cases. Qed.

(** ** Intersection *)
Theorem intersection_ok ext box : Forall proper ext -> Forall not_half_open box -> length box = length ext ->
  exists l, intersection ext box = Ok l /\ length l = length ext /\
    forall d e b i, nth_error ext d = Some e -> nth_error box d = Some b -> nth_error l d = Some i ->
      (overlap e b -> exists x y, i = (Fin x, Fin y) /\ x < y /\ forall t, x <= t <= y <-> within_ext e t /\ within b t) /\
      (~ overlap e b -> exists x y, i = (Fin x, Fin y) /\ y <= x).
Proof.
  intros Fe Fb L. unfold intersection. rewrite (proj2 (Nat.eqb_eq _ _) L).
  assert (E : concat (map2 intersect1 ext box) = map2 (fun e b => (Fin (lo e (fst b)), Fin (hi e (snd b)))) ext box).
  { clear L. revert box Fb. induction Fe as [|e ext He Fe IH]; intros box Fb; [destruct box; auto|]. destruct Fb as [|b box Hb Fb]; auto.
    cbn [map2 concat]. rewrite intersect1_ok by auto. cbn [app]. f_equal. apply IH. auto. }
  rewrite E. eexists. split; [reflexivity|]. split; [rewrite map2_length; lia|].
  intros d e b i He Hb Hi.
  assert (P : proper e). { rewrite Forall_forall in Fe. apply Fe. eapply nth_error_In; eauto. }
  assert (X : i = (Fin (lo e (fst b)), Fin (hi e (snd b)))).
  { clear E Fe Fb L P. revert box d He Hb Hi. induction ext as [|e' ext IH]; intros box [|d] He Hb Hi; destruct box as [|b' box]; cbn in *; try discriminate.
    - congruence.
    - eapply IH; eauto. }
  subst i. rewrite overlap_iff by auto. split.
  - intros O. exists (lo e (fst b)), (hi e (snd b)). split; auto. split; auto. intros t. split; intros T.
    + apply lo_hi_within; auto.
    + apply within_lo_hi; auto.
  - intros O. exists (lo e (fst b)), (hi e (snd b)). split; auto. lra.
Qed.

Lemma intersects_forallb eps ext : forall box, length box = length ext ->
  intersects eps ext box = Ok (forallb (fun p => forallb (fun i => negb (blt (snd i) (fst i) || almost_equal eps (fst i) (snd i)))
                                                   (intersect1 (fst p) (snd p))) (combine ext box)).
Proof.
  intros box L. unfold intersects, intersection. rewrite (proj2 (Nat.eqb_eq _ _) L). cbn [rbind]. f_equal. clear L.
  revert box. induction ext as [|e ext IH]; intros box; auto. destruct box as [|b box]; auto.
  cbn [map2 concat combine forallb fst snd]. rewrite forallb_app, IH. auto.
Qed.

Lemma query1 eps e b : 0 <= eps -> proper e -> not_half_open b ->
  let r := forallb (fun i => negb (blt (snd i) (fst i) || almost_equal eps (fst i) (snd i))) (intersect1 e b) in
  (r = true -> overlap e b) /\ (overlap e b -> r = true \/ sliver eps e b).
Proof.
  intros He P N. cbv zeta. rewrite intersect1_ok by auto. cbn [forallb fst snd]. rewrite andb_true_r, overlap_iff by auto.
  cbn [blt almost_equal]. split.
  - destruct (Rlt_dec (hi e (snd b)) (lo e (fst b))); cbn [orb negb]; [discriminate|].
    destruct (Rle_dec _ _); cbn [negb]; [discriminate|]. destruct (Req_EM_T (lo e (fst b)) (hi e (snd b))); cbn [negb]; [discriminate|]. lra.
  - intros O. destruct (Rlt_dec (hi e (snd b)) (lo e (fst b))); [lra|]. cbn [orb].
    destruct (Rle_dec _ _) as [A|A].
    + right. exists (lo e (fst b)), (hi e (snd b)). split.
      * intros t. split; intros T; [apply lo_hi_within; auto|apply within_lo_hi; auto].
      * rewrite Rabs_minus_sym, Rabs_pos_eq in A by lra. exact A.
    + left. destruct (Req_EM_T _ _); [lra|]. auto.
Qed.

Theorem intersects_ok eps ext box : 0 <= eps -> Forall proper ext -> Forall not_half_open box -> length box = length ext ->
  exists r, intersects eps ext box = Ok r /\
    (r = true -> Forall2 overlap ext box) /\
    (Forall2 overlap ext box -> r = true \/ exists d e b, nth_error ext d = Some e /\ nth_error box d = Some b /\ sliver eps e b).
Proof.
  intros He Fe Fb L. rewrite intersects_forallb by auto. eexists. split; [reflexivity|].
  revert box Fb L. induction Fe as [|e ext Pe Fe IH]; intros box Fb L; destruct Fb as [|b box Nb Fb]; cbn in L; try discriminate.
  - cbn. split; auto.
  - cbn [combine forallb fst snd]. rewrite andb_true_iff. destruct (query1 eps e b He Pe Nb) as [Q1 Q2]. destruct (IH box Fb) as [I1 I2]; [lia|].
    split.
    + intros [A B]. constructor; auto.
    + intros O. inversion O; subst. destruct Q2 as [Q2|Q2]; auto; [|right; exists 0%nat, e, b; auto].
      destruct I2 as [I2|[d [e' [b' H']]]]; auto. right. exists (S d), e', b'. auto.
Qed.

(** ** Cell ranges *)
Open Scope Z_scope.
Lemma to_u32_ok z : 0 <= z < 2 ^ 32 -> to_u32 z = Ok z.
Proof. intros H. unfold to_u32. rewrite (proj2 (Z.leb_le 0 z)), (proj2 (Z.ltb_lt z _)) by lia. auto. Qed.

Lemma conv_range conv e n x : grid_map conv e n -> within_ext e x -> (0 <= conv x <= IZR n)%R.
Proof.
  intros [M [A [B _]]] X. unfold within_ext in *.
  assert (E1 : within_ext e (fst e)) by (unfold within_ext; lra). assert (E2 : within_ext e (snd e)) by (unfold within_ext; lra).
  split.
  - destruct (Req_dec (fst e) x) as [<-|N]; [rewrite A; lra|]. rewrite <- A. left. apply M; auto. unfold within_ext in *. lra.
  - destruct (Req_dec (snd e) x) as [<-|N]; [rewrite B; lra|]. rewrite <- B. left. apply M; auto. unfold within_ext in *. lra.
Qed.

Lemma floor_of conv e n x : grid_map conv e n -> within_ext e x -> 0 <= Zfloor (conv x) <= n.
Proof.
  intros G X. pose proof (conv_range conv e n x G X) as [A B]. split.
  - apply Zfloor_lub. exact A.
  - apply le_IZR. eapply Rle_trans; [apply Zfloor_lb|exact B].
Qed.
Lemma ceil_of conv e n x : grid_map conv e n -> within_ext e x -> 0 <= Zceil (conv x) <= n.
Proof.
  intros G X. pose proof (conv_range conv e n x G X) as [A B]. split.
  - apply le_IZR. eapply Rle_trans; [exact A|apply Zceil_ub].
  - apply Zceil_glb. exact B.
Qed.

(** The clamped ends in code coordinates. *)
Lemma range1_value g conv e n b gh : grid_map conv e n -> proper e -> 0 <= g -> 0 <= n -> n + 2 * g < 2 ^ 32 -> is_all b = false ->
  range1 g conv e n b gh = Ok (Zfloor (conv (lo e (fst b))) + (if fst gh then 0 else g), Zceil (conv (hi e (snd b))) + (if snd gh then 2 * g else g)).
Proof.
  intros G P Hg Hn H32 NA. unfold range1. rewrite NA, min_lo, max_hi by auto. cbn [fin].
  pose proof (floor_of conv e n _ G (lo_range e (fst b) P)). pose proof (ceil_of conv e n _ G (hi_range e (snd b) P)).
  replace (if fst gh then _ else Z.max _ 0) with (Zfloor (conv (lo e (fst b)))) by (destruct (fst gh); lia).
  replace (if snd gh then _ else Z.min _ n) with (Zceil (conv (hi e (snd b)))) by (destruct (snd gh); lia).
  rewrite !to_u32_ok by lia. cbn [rbind]. unfold w32. rewrite !Z.mod_small; [auto| |]; destruct (fst gh), (snd gh); lia.
Qed.

Lemma meets_iff conv e b n j : grid_map conv e n -> proper e -> (lo e (fst b) < hi e (snd b))%R ->
  (cell_meets conv e b j <-> (conv (lo e (fst b)) < IZR (j + 1))%R /\ (IZR j < conv (hi e (snd b)))%R).
Proof.
  intros G P L. pose proof G as [M [_ [_ S]]].
  assert (ML : forall x y, within_ext e x -> within_ext e y -> (x <= y)%R -> (conv x <= conv y)%R).
  { intros x y Hx Hy [H|H]; [left; auto|subst; lra]. }
  pose proof (lo_range e (fst b) P) as RL. pose proof (hi_range e (snd b) P) as RH. fold (within_ext e (lo e (fst b))) in RL. fold (within_ext e (hi e (snd b))) in RH.
  pose proof (conv_range conv e n _ G RL) as CL. pose proof (conv_range conv e n _ G RH) as CH.
  pose proof (M _ _ RL RH L) as LT. split.
  - intros [x [X1 [X2 X3]]]. pose proof (within_lo_hi e b x P (conj X1 X2)) as X4.
    pose proof (ML _ _ RL X1 (proj1 X4)). pose proof (ML _ _ X1 RH (proj2 X4)). lra.
  - intros [A B]. rewrite plus_IZR in A.
    set (c := ((Rmax (conv (lo e (fst b))) (IZR j) + Rmin (conv (hi e (snd b))) (IZR j + 1)) / 2)%R).
    assert (C : (conv (lo e (fst b)) < c < conv (hi e (snd b)))%R /\ (IZR j < c < IZR j + 1)%R).
    { unfold c. clear c. clear -A B CL CH LT.
      revert A B LT. generalize (conv (lo e (fst b))) (conv (hi e (snd b))) (IZR j). intros u v w A B LT.
      unfold Rmax, Rmin. repeat match goal with |- context [Rle_dec ?p ?q] => destruct (Rle_dec p q) end; lra. }
    destruct (S c ltac:(lra)) as [x [X1 X2]]. exists x. rewrite plus_IZR, X2.
    assert (X : (lo e (fst b) <= x <= hi e (snd b))%R).
    { split; apply Rnot_lt_le; intros H; [pose proof (M _ _ X1 RL H)|pose proof (M _ _ RH X1 H)]; lra. }
    destruct (lo_hi_within e b x P L X) as [Y1 Y2]. split; [exact Y1|]. split; [exact Y2|]. lra.
Qed.

Lemma floor_le_iff x j : Zfloor x <= j <-> (x < IZR (j + 1))%R.
Proof.
  rewrite plus_IZR. split; intros H.
  - pose proof (Zfloor_ub x). apply IZR_le in H. lra.
  - apply Z.lt_succ_r. apply lt_IZR. rewrite succ_IZR. pose proof (Zfloor_lb x). lra.
Qed.
Lemma ceil_gt_iff x j : j < Zceil x <-> (IZR j < x)%R.
Proof.
  split; intros H.
  - destruct (Rlt_or_le (IZR j) x) as [A|A]; auto. apply Zceil_glb in A. lia.
  - apply lt_IZR. pose proof (Zceil_ub x). lra.
Qed.

Lemma range1_cells eps g conv e n b : 0 <= g -> 0 <= n -> n + 2 * g < 2 ^ 32 -> (0 <= eps)%R -> grid_map conv e n -> proper e ->
  forallb (fun i => negb (blt (snd i) (fst i) || almost_equal eps (fst i) (snd i))) (intersect1 e b) = true ->
  exists a c, range1 g conv e n b (false, false) = Ok (a, c) /\ g <= a /\ c <= n + g /\
    forall i, a <= i < c <-> cell_meets conv e b (i - g).
Proof.
  intros Hg Hn H32 He G P Q. destruct (is_all b) eqn:NA.
  - exists g, (n + g). unfold range1. rewrite NA. cbn [fst snd]. split; auto. split; [lia|]. split; [lia|].
    intros i. destruct b as [[|?|] [|?|]]; try discriminate NA.
    assert (L : (lo e (fst (NInf, PInf)) < hi e (snd (NInf, PInf)))%R) by exact P.
    rewrite (meets_iff conv e _ n) by auto. cbn [fst snd lo hi]. destruct G as [_ [-> [-> _]]]. split.
    + intros H. split; apply IZR_lt; lia.
    + intros [A B]. apply lt_IZR in A, B. lia.
  - pose proof (range1_value g conv e n b (false, false) G P Hg Hn H32 NA) as E. cbn [fst snd] in E. eexists _, _. split; [exact E|].
    pose proof (floor_of conv e n _ G (lo_range e (fst b) P)). pose proof (ceil_of conv e n _ G (hi_range e (snd b) P)).
    split; [lia|]. split; [lia|]. intros i.
    assert (D : (lo e (fst b) < hi e (snd b))%R \/ (hi e (snd b) <= lo e (fst b) /\ snd b = PInf)%R).
    { destruct (half_dec b) as [N|[N1 N2]].
      - left. apply overlap_iff; auto. apply (query1 eps e b He P N); auto.
      - destruct (Rlt_or_le (lo e (fst b)) (hi e (snd b))); [left; auto|right; auto]. }
    destruct D as [D|[D1 D2]].
    + rewrite (meets_iff conv e b n) by auto. rewrite <- floor_le_iff, <- ceil_gt_iff. lia.
    + rewrite D2 in *. cbn [hi] in *. pose proof (lo_range e (fst b) P) as RL.
      assert (EL : lo e (fst b) = snd e) by lra. rewrite EL in *. destruct G as [M [A [B S]]]. rewrite B in *.
      rewrite Zfloor_IZR, Zceil_IZR. split; [lia|].
      intros [x [X1 [X2 X3]]]. exfalso. pose proof (within_lo_hi e b x P (conj X1 X2)) as X4. rewrite EL in X4.
      assert (x = snd e) by (unfold within_ext in X1; lra). subst x. rewrite B in X3. destruct X3 as [X5 X6].
      apply lt_IZR in X5, X6. lia.
Qed.

Lemma ranges_cells eps g : (0 <= eps)%R -> forall convs ext ns box ghs, dims_ok g convs ext ns -> length box = length ext ->
  length ghs = length ext -> Forall (fun gh => gh = (false, false)) ghs ->
  forallb (fun p => forallb (fun i => negb (blt (snd i) (fst i) || almost_equal eps (fst i) (snd i))) (intersect1 (fst p) (snd p))) (combine ext box) = true ->
  exists rs, ranges g convs ext ns box ghs = Ok rs /\ length rs = length ext /\
    forall d conv e n b r, nth_error convs d = Some conv -> nth_error ext d = Some e -> nth_error ns d = Some n -> nth_error box d = Some b ->
      nth_error rs d = Some r -> g <= fst r /\ snd r <= n + g /\ forall i, fst r <= i < snd r <-> cell_meets conv e b (i - g).
Proof.
  intros He. induction convs as [|conv convs IH]; intros ext ns box ghs [Hg [L1 [L2 H]]] L3 L4 F Q;
    destruct ext as [|e ext]; destruct ns as [|n ns]; destruct box as [|b box]; destruct ghs as [|gh ghs]; cbn in L1, L2, L3, L4; try discriminate.
  - exists []. cbn. split; auto. split; auto. intros [|d] ? ? ? ? ? E; discriminate E.
  - inversion F as [|? ? F1 F2]; subst. cbn [combine forallb fst snd] in Q. apply andb_true_iff in Q as [Q1 Q2].
    destruct (H 0%nat conv e n eq_refl eq_refl eq_refl) as [P [G [Hn H32]]].
    destruct (range1_cells eps g conv e n b Hg Hn H32 He G P Q1) as [a [c [E [A [C D]]]]].
    destruct (IH ext ns box ghs) as [rs [E' [Lr H']]]; auto.
    { split; auto. split; [lia|]. split; [lia|]. intros d. apply (H (S d)). }
    exists ((a, c) :: rs). cbn [ranges]. rewrite E. cbn [rbind]. rewrite E'. cbn [rbind]. split; auto. split; [cbn; lia|].
    intros [|d] conv' e' n' b' r X1 X2 X3 X4 X5; cbn in *.
    + injection X1 as <-. injection X2 as <-. injection X3 as <-. injection X4 as <-. injection X5 as <-. cbn [fst snd]. auto.
    + eapply H'; eauto.
Qed.

Theorem range_cells eps g convs ext ns box ghs : (0 <= eps)%R -> dims_ok g convs ext ns -> length box = length ext ->
  length ghs = length ext -> Forall (fun gh => gh = (false, false)) ghs -> intersects eps ext box = Ok true ->
  exists rs, extent_to_range eps g convs ext ns box ghs = Ok rs /\ length rs = length ext /\
    forall d conv e n b r, nth_error convs d = Some conv -> nth_error ext d = Some e -> nth_error ns d = Some n -> nth_error box d = Some b ->
      nth_error rs d = Some r -> g <= fst r /\ snd r <= n + g /\ forall i, fst r <= i < snd r <-> cell_meets conv e b (i - g).
Proof.
  intros He D L1 L2 F Q. unfold extent_to_range. rewrite (proj2 (Nat.eqb_eq _ _) L1), (proj2 (Nat.eqb_eq _ _) L2). cbn [andb].
  rewrite Q. cbn [rbind]. rewrite intersects_forallb in Q by auto. injection Q as Q. apply (ranges_cells eps); auto.
Qed.

Theorem range_outside eps g convs ext ns box ghs : length box = length ext -> length ghs = length ext ->
  intersects eps ext box = Ok false -> extent_to_range eps g convs ext ns box ghs = Ok (map (fun _ => (0, 0)) box).
Proof.
  intros L1 L2 Q. unfold extent_to_range. rewrite (proj2 (Nat.eqb_eq _ _) L1), (proj2 (Nat.eqb_eq _ _) L2). cbn [andb]. rewrite Q. auto.
Qed.

(** Ghost cells. *)
Theorem range_ghosts g conv e n b gh a c : 0 <= g -> 0 <= n -> n + 2 * g < 2 ^ 32 -> grid_map conv e n -> proper e ->
  range1 g conv e n b gh = Ok (a, c) ->
  (fst gh = true -> above_end (fst b) (fst e) -> a = 0) /\
  (snd gh = true -> below_end (snd b) (snd e) -> c = n + 2 * g) /\
  (fst gh = true -> forall y, fst b = Fin y -> (fst e <= y <= snd e)%R -> a = Zfloor (conv y)) /\
  (snd gh = true -> forall y, snd b = Fin y -> (fst e <= y <= snd e)%R -> c = Zceil (conv y) + 2 * g).
Proof.
  intros Hg Hn H32 G P E. destruct (is_all b) eqn:NA.
  - unfold range1 in E. rewrite NA in E. injection E as <- <-. destruct b as [[|?|] [|?|]]; try discriminate NA.
    cbn [fst snd]. repeat split; intros ->; auto; intros; discriminate.
  - rewrite (range1_value g conv e n b gh G P Hg Hn H32 NA) in E. injection E as <- <-. pose proof G as [_ [C0 [Cn _]]].
    destruct b as [b1 b2]. cbn [fst snd] in *. unfold proper in P. split; [|split; [|split]].
    + intros -> A. assert (X : lo e b1 = fst e). { destruct b1; cbn [above_end] in A; [auto| |contradiction]. cases. }
      rewrite X, C0, Zfloor_IZR. auto.
    + intros -> A. assert (X : hi e b2 = snd e). { destruct b2; cbn [below_end] in A; [contradiction| |auto]. cases. }
      rewrite X, Cn, Zceil_IZR. auto.
    + intros -> y -> A. assert (X : lo e (Fin y) = y) by cases. rewrite X. lia.
    + intros -> y -> A. assert (X : hi e (Fin y) = y) by cases. rewrite X. reflexivity.
Qed.

(** ** A Cartesian mesh is such a map *)
Lemma linear_map x0 dx n : (0 < dx)%R -> 0 < n ->
  grid_map (fun x => (x - x0) / dx)%R (x0, x0 + IZR n * dx)%R n /\ proper (x0, x0 + IZR n * dx)%R.
Proof.
  intros Hd Hn. apply IZR_lt in Hn. unfold grid_map, proper, within_ext. cbn [fst snd].
  assert (Hm : (0 < IZR n * dx)%R) by (apply Rmult_lt_0_compat; auto).
  split; [|lra]. split; [|split; [|split]].
  - intros x y _ _ H. apply Rmult_lt_compat_r; [apply Rinv_0_lt_compat; auto|lra].
  - field. lra.
  - field. lra.
  - intros c Hc. exists (x0 + c * dx)%R. split; [|field; lra].
    split.
    + pose proof (Rmult_le_compat_r dx _ _ ltac:(lra) (proj1 Hc)). lra.
    + pose proof (Rmult_le_compat_r dx _ _ ltac:(lra) (proj2 Hc)). lra.
Qed.

Lemma half_open_wrong : intersection [(0%R, 1%R)] [(Fin 5, PInf)] = Ok [] /\
  (forall eps, intersects eps [(0%R, 1%R)] [(Fin 5, PInf)] = Ok true) /\
  forall x, ~ (within_ext (0%R, 1%R) x /\ within (Fin 5, PInf) x).
Proof.
  split; [reflexivity|]. split; [reflexivity|]. intros x [A [B _]]. unfold within_ext in A. cbn in *. lra.
Qed.

(** Ten cells on [0, 10], two ghost cells. *)
Lemma ghost_low_wrong : exists a c,
  range1 2 (fun x => x) (0%R, 10%R) 10 (Fin 4, Fin 10) (true, false) = Ok (a, c) /\
  a <= 4 < c /\ ~ cell_meets (fun x => x) (0%R, 10%R) (Fin 4, Fin 10) (4 - 2).
Proof.
  exists 4, 12. assert (G : grid_map (fun x => x) (0%R, 10%R) 10).
  { split; [auto|]. split; [reflexivity|]. split; [reflexivity|]. intros c Hc. exists c. split; auto. }
  rewrite (range1_value 2 _ _ _ _ _ G) by (try lia; try (unfold proper; cbn; lra); reflexivity).
  cbn [fst snd lo hi]. unfold Rmin, Rmax.
  destruct (Rle_dec 0 4) as [_|]; [|lra]. destruct (Rle_dec 10 4) as [|_]; [lra|].
  destruct (Rle_dec 10 10) as [_|]; [|lra]. destruct (Rle_dec 0 10) as [_|]; [|lra]. rewrite Zfloor_IZR, Zceil_IZR.
  split; [reflexivity|]. split; [lia|]. intros [x [_ [[A _] B]]]. cbn in A, B. lra.
Qed.
