(** Proofs about fixed fields at a boundary. *)
From Coq Require Import ZArith List Bool Reals Lra Lia.
From Verif Require Import Base ListLemmas DecompModel DecompSpec FieldModel FieldProofs HaloSpec HaloProofs SyncProofs ShapeSpec InterpSpec StepSpec.
From Verif Require Import MatchModel MatchSpec MatchProofs MatchTop AxisModel AxisProofs MetModel FixModel FixSpec.
From Verif Require StatsProofs.
Import ListNotations.
Open Scope R_scope.

Lemma comps_on tags on c : (forall c, on c = true <-> asked tags c) -> (In c (fixed_comps tags) <-> on c = true).
Proof.
  intro H. rewrite (on_electric tags on c H). destruct (sete_on tags on H) as [HE HB]. unfold setE, setB in HE, HB. unfold fixed_comps. rewrite HE, HB.
  destruct (on Ex1), (on Bx1); destruct c; cbn; intuition discriminate.
Qed.
Lemma comps_nodup tags : NoDup (fixed_comps tags).
Proof. unfold fixed_comps. destruct (negb _), (negb _); cbn; repeat (constructor; [cbn; intuition discriminate|]); constructor. Qed.

Section Fold.
  Variables (r : list (Z * Z)) (val : comp -> R) (fix_ : comp -> R * bool).
  Notation step := (fun F c => let '(v, shouldset) := fix_ c in if shouldset then fill F c r (val c) else F).
  Lemma fill_fold cs : forall F c x, NoDup cs ->
    fold_left step cs F c x = if in_dec comp_eq_dec c cs then if snd (fix_ c) && in_range r x then val c else F c x else F c x.
  Proof.
    induction cs as [|k cs IH]; intros F c x N; [reflexivity|]. inversion N as [|? ? Nk N']; subst. cbn [fold_left]. rewrite IH by exact N'.
    assert (E : step F k c x = if comp_eq_dec c k then if snd (fix_ c) && in_range r x then val c else F c x else F c x).
    { cbv beta. destruct (comp_eq_dec c k) as [->|D].
      - destruct (fix_ k) as [v []]; cbn [snd andb]; [|reflexivity]. unfold fill. destruct (comp_eq_dec k k) as [_|Q]; [reflexivity|congruence].
      - destruct (fix_ k) as [v []]; [|reflexivity]. unfold fill. destruct (comp_eq_dec c k); [contradiction|reflexivity]. }
    cbv beta in E. rewrite E.
    destruct (in_dec comp_eq_dec c cs) as [A|A], (in_dec comp_eq_dec c (k :: cs)) as [B|B]; destruct (comp_eq_dec c k) as [C|C]; subst; try reflexivity; try (exfalso; cbn in B; intuition congruence).
  Qed.
End Fold.

Lemma range_past g o up n y : (0 <= g)%Z -> in_extended g y n -> (o < length n)%nat ->
  in_range (fixed_range g o up n) (loc g y) = past up o (nth o n 0%Z) y.
Proof.
  intros Hg Hy Ho. assert (Ly : length y = length n) by (eapply Forall2_length; exact Hy).
  unfold in_range. assert (Lr : length (fixed_range g o up n) = length n) by (unfold fixed_range; rewrite map_length, seq_length; reflexivity).
  assert (Ll : length (loc g y) = length n) by (unfold loc; rewrite map_length; exact Ly).
  rewrite Lr, Ll, Nat.eqb_refl. cbn [andb].
  assert (Nl : forall i, (i < length n)%nat -> nth i (loc g y) 0%Z = (nth i y 0 + g)%Z).
  { intros i Hi. unfold loc. rewrite (nth_indep _ 0%Z (0 + g)%Z) by (rewrite map_length; lia). apply (map_nth (fun a => a + g)%Z). }
  assert (Nr : forall i, (i < length n)%nat -> nth i (fixed_range g o up n) (0, 0)%Z = if Nat.eqb i o then (if up then (nth i n 0 + 2 * g - g, nth i n 0 + 2 * g)%Z else (0, g)%Z) else (0, nth i n 0 + 2 * g)%Z).
  { intros i Hi. unfold fixed_range. clear Lr. rewrite (nth_indep _ (0, 0)%Z ((fun d => if Nat.eqb d o then (if up then (nth d n 0 + 2 * g - g, nth d n 0 + 2 * g)%Z else (0, g)%Z) else (0, nth d n 0 + 2 * g)%Z) 0%nat)) by (rewrite map_length, seq_length; exact Hi).
    rewrite (map_nth (fun d => if Nat.eqb d o then (if up then (nth d n 0 + 2 * g - g, nth d n 0 + 2 * g)%Z else (0, g)%Z) else (0, nth d n 0 + 2 * g)%Z)). rewrite seq_nth by exact Hi. reflexivity. }
  assert (Hi : forall i, (i < length n)%nat -> (- g <= nth i y 0 < nth i n 0 + g)%Z) by (intros i Hi; apply ext_nth; assumption).
  apply eq_true_iff_eq. rewrite forallb_forall. split.
  - intro H. specialize (H (nth o (fixed_range g o up n) (0, 0)%Z, nth o (loc g y) 0%Z)). rewrite Nr, Nl, Nat.eqb_refl in H by exact Ho. cbn [fst snd] in H.
    assert (I : In ((if up then (nth o n 0 + 2 * g - g, nth o n 0 + 2 * g) else (0, g)), (nth o y 0 + g))%Z (combine (fixed_range g o up n) (loc g y))).
    { rewrite <- (Nl o Ho). replace (if up then (nth o n 0 + 2 * g - g, nth o n 0 + 2 * g)%Z else (0, g)%Z) with (nth o (fixed_range g o up n) (0, 0)%Z) by (rewrite Nr, Nat.eqb_refl by exact Ho; reflexivity).
      rewrite <- combine_nth by congruence. apply nth_In. rewrite combine_length. lia. }
    specialize (H I). apply andb_true_iff in H. unfold past. destruct up; cbn [fst snd] in H; [apply Z.leb_le|apply Z.ltb_lt]; lia.
  - intros H [r a] I. destruct (In_nth _ _ ((0, 0)%Z, 0%Z) I) as (i & Li & E). rewrite combine_length in Li. rewrite combine_nth in E by congruence.
    rewrite Nr, Nl in E by lia. apply pair_equal_spec in E as [<- <-]. cbn [fst snd]. assert (Li' : (i < length n)%nat) by lia. pose proof (Hi i Li'). rewrite andb_true_iff, Z.leb_le, Z.ltb_lt.
    destruct (Nat.eqb_spec i o) as [Q|N]; [|cbn [fst snd]; lia]. unfold past in H. rewrite <- Q in H. destruct up; cbn [fst snd]; [apply Z.leb_le in H|apply Z.ltb_lt in H]; lia.
Qed.


Lemma fixed_pass g cartesian o up n tags on tu fix_ F : (forall c, on c = true <-> asked tags c) -> (0 <= g)%Z -> (o < length n)%nat ->
  (cartesian = true \/ o = 0%nat -> exists F', fixed_fields_in g cartesian o up n tags tu fix_ F = Ok F' /\
   forall c y, in_extended g y n -> F' c (loc g y) =
     if on c && snd (fix_ c) && past up o (nth o n 0%Z) y then tu (S (axis_of c)) (repeat 0 (length n)) (fst (fix_ c)) else F c (loc g y)) /\
  (cartesian = false -> o <> 0%nat -> fixed_fields_in g cartesian o up n tags tu fix_ F = Err).
Proof.
  intros Hon Hg Ho. split.
  - intro H. unfold fixed_fields_in. assert (E : negb (Nat.eqb o 0) && negb cartesian = false) by (destruct H as [->| ->]; [apply andb_false_r|reflexivity]).
    rewrite E. eexists; split; [reflexivity|]. intros c y Hy.
    set (val := fun c => tu (number c) (map (fun _ => 0) n) (fst (fix_ c))).
    transitivity (fold_left (fun F c => let '(v, shouldset) := fix_ c in if shouldset then fill F c (fixed_range g o up n) (val c) else F) (fixed_comps tags) F c (loc g y)).
    { assert (EQ : forall cs F0, fold_left (fun F c => let '(v, shouldset) := fix_ c in if shouldset then fill F c (fixed_range g o up n) (tu (number c) (map (fun _ => 0) n) v) else F) cs F0 =
         fold_left (fun F c => let '(v, shouldset) := fix_ c in if shouldset then fill F c (fixed_range g o up n) (val c) else F) cs F0); [|rewrite EQ; reflexivity].
      induction cs as [|k cs IH]; intro F0; [reflexivity|]. cbn [fold_left]. rewrite IH. f_equal. unfold val. destruct (fix_ k); reflexivity. }
    rewrite (fill_fold (fixed_range g o up n) val fix_ (fixed_comps tags) F c (loc g y) (comps_nodup tags)). rewrite range_past by assumption.
    assert (V : val c = tu (S (axis_of c)) (repeat 0 (length n)) (fst (fix_ c))).
    { unfold val. f_equal; [destruct c; reflexivity|]. clear. induction n; [reflexivity|]. cbn. f_equal. assumption. }
    rewrite <- V. pose proof (comps_on tags on c Hon) as CO. destruct (in_dec comp_eq_dec c (fixed_comps tags)) as [A|A].
    + apply CO in A. rewrite A. reflexivity.
    + destruct (on c); [exfalso; apply A, CO; reflexivity|]. reflexivity.
  - intros -> N. unfold fixed_fields_in. destruct (Nat.eqb_spec o 0); [contradiction|]. reflexivity.
Qed.

(** ** Divided grids *)
Lemma block_side g l p : wide1 g l -> (0 <= p < len l)%Z -> (0 <= off l p)%Z /\ (off l p = 0 \/ g <= off l p)%Z /\
  (off l p + blk l p = sumZ l \/ off l p + blk l p + g <= sumZ l)%Z.
Proof.
  intros W P. pose proof (off_nonneg g l p W P) as O. split; [exact O|]. split.
  - destruct (Z.eq_dec p 0) as [->|N]; [left; apply off_0; lia|]. right. replace p with (p - 1 + 1)%Z by lia. rewrite off_next by lia.
    destruct (blk_wide g l (p - 1) W ltac:(lia)). pose proof (off_nonneg g l (p - 1) W ltac:(lia)). lia.
  - destruct (Z.eq_dec p (len l - 1)) as [->|N]; [left; apply off_last; lia|]. right.
    pose proof (off_end g l (p + 1) W ltac:(lia)) as E. rewrite off_next in E by lia. destruct (blk_wide g l (p + 1) W ltac:(lia)). lia.
Qed.
Lemma dom_side g ls d o : wide g ls -> In d (domains ls) -> (o < length ls)%nat ->
  let s := nth o (sub_offset_ncells d) 0%Z in let n := nth o (sub_ncells d) 0%Z in let N := nth o (map sumZ ls) 0%Z in
  (0 <= s)%Z /\ (s = 0 \/ g <= s)%Z /\ (s + n = N \/ s + n + g <= N)%Z.
Proof.
  intros W Hd Ho. destruct (HaloProofs.dom_pos ls d Hd) as [B [-> ->]]. cbv zeta. destruct W as [_ W]. clear Hd. revert B o Ho. generalize (sub_offset_ndomains d) as p.
  induction ls as [|l r IH]; intros p B o Ho; [cbn in Ho; lia|]. inversion W as [|? ? Wl Wr]; subst. rewrite counts_cons in B. inversion B as [|a ? p' ? P B']; subst.
  rewrite size_cons. destruct o as [|o].
  - cbn [nth map]. apply block_side; assumption.
  - cbn [nth map]. apply (IH Wr p' B' o). cbn in Ho. lia.
Qed.
Definition fix_values (tu : nat -> list R -> R -> R) (dim : nat) (fix_ : comp -> R * bool) : comp -> option R :=
  fun c => if snd (fix_ c) then Some (tu (S (axis_of c)) (repeat 0 dim) (fst (fix_ c))) else None.
Definition local_agree (g : Z) (d : subdomain) (m F : fields) : Prop :=
  forall c y, in_extended g y (sub_ncells d) -> m c (loc g y) = F c (map2 Z.add (sub_offset_ncells d) y).
Lemma one_fixed g cartesian ls o up tags on tu fix_ d m F : wide g ls -> (o < length ls)%nat -> (cartesian = true \/ o = 0%nat) ->
  (forall c, on c = true <-> asked tags c) -> In d (domains ls) -> local_agree g d m F ->
  let N := nth o (map sumZ ls) 0%Z in
  exists m', (if touches up o N d then fixed_fields_in g cartesian o up (sub_ncells d) tags tu fix_ m else Ok m) = Ok m' /\
    local_agree g d m' (fixed_past up o N on (fix_values tu (length ls) fix_) F).
Proof.
  intros W Ho Hc Hon Hd A N. destruct (StatsProofs.dom_length ls d Hd) as [L1 L2]. assert (Hg : (0 <= g)%Z) by (destruct W; assumption).
  destruct (dom_side g ls d o W Hd Ho) as (S0 & S1 & S2).
  assert (NX : forall y, in_extended g y (sub_ncells d) -> nth o (map2 Z.add (sub_offset_ncells d) y) 0%Z = (nth o (sub_offset_ncells d) 0 + nth o y 0)%Z).
  { intros y Hy. assert (length y = length (sub_ncells d)) by (eapply Forall2_length; exact Hy). rewrite (nth_map2 _ (sub_offset_ncells d) y o 0%Z 0%Z) by lia. reflexivity. }
  assert (HY : forall y, in_extended g y (sub_ncells d) -> (- g <= nth o y 0 < nth o (sub_ncells d) 0 + g)%Z) by (intros y Hy; apply ext_nth; [assumption|lia]).
  destruct (touches up o N d) eqn:T.
  - destruct (proj1 (fixed_pass g cartesian o up (sub_ncells d) tags on tu fix_ m Hon Hg ltac:(lia)) Hc) as [m' [E V]].
    exists m'. split; [exact E|]. intros c y Hy. rewrite V by exact Hy. unfold fixed_past, fix_values.
    assert (P : past up o (nth o (sub_ncells d) 0%Z) y = past up o N (map2 Z.add (sub_offset_ncells d) y)).
    { unfold past. rewrite NX by exact Hy. unfold touches in T. fold N in S2. apply eq_true_iff_eq. destruct up; apply Z.eqb_eq in T; rewrite ?Z.leb_le, ?Z.ltb_lt; lia. }
    rewrite P. assert (L2' : length (sub_ncells d) = length ls) by lia. rewrite L2'.
    destruct (snd (fix_ c)); [|rewrite andb_false_r; apply A; assumption]. rewrite andb_true_r. destruct (on c && _); [reflexivity|]. apply A; assumption.
  - exists m. split; [reflexivity|]. intros c y Hy. rewrite (A c y Hy). unfold fixed_past, fix_values. destruct (snd (fix_ c)); [|reflexivity].
    assert (P : past up o N (map2 Z.add (sub_offset_ncells d) y) = false); [|rewrite P, andb_false_r; reflexivity].
    unfold past. rewrite NX by exact Hy. pose proof (HY y Hy). unfold touches in T. fold N in S2. destruct up; apply Z.eqb_neq in T; [apply Z.leb_gt|apply Z.ltb_ge]; lia.
Qed.
Lemma divided_fixed g cartesian ls o up tags on tu fix_ st F : wide g ls -> (o < length ls)%nat -> (cartesian = true \/ o = 0%nat) ->
  (forall c, on c = true <-> asked tags c) -> agree g ls st F ->
  let N := nth o (map sumZ ls) 0%Z in
  let run d := if touches up o N d then fixed_fields_in g cartesian o up (sub_ncells d) tags tu fix_ (st (sub_offset_ndomains d)) else Ok (st (sub_offset_ndomains d)) in
  (forall d, In d (domains ls) -> exists m, run d = Ok m) /\
  forall st', (forall d, In d (domains ls) -> run d = Ok (st' (sub_offset_ndomains d))) ->
    agree g ls st' (fixed_past up o N on (fun c => if snd (fix_ c) then Some (tu (S (axis_of c)) (repeat 0 (length ls)) (fst (fix_ c))) else None) F).
Proof.
  intros W Ho Hc Hon A N run.
  assert (K := fun d Hd => one_fixed g cartesian ls o up tags on tu fix_ d (st (sub_offset_ndomains d)) F W Ho Hc Hon Hd (fun c y Hy => A d c y Hd Hy)).
  split.
  - intros d Hd. destruct (K d Hd) as [m [E _]]. exists m. exact E.
  - intros st' H d c y Hd Hy. destruct (K d Hd) as [m [E V]]. pose proof (eq_trans (eq_sym E) (H d Hd)) as Q. injection Q as Q. rewrite <- Q. apply V. exact Hy.
Qed.

(** ** All sides *)
Import TopoModel.
Open Scope R_scope.
Lemma bind_fold {S} (f : nat * bool -> S -> res S) ds r : (forall a, r <> Ok a) -> fold_left (fun r d => rbind r (f d)) ds r = r.
Proof. revert r. induction ds as [|d ds IH]; intros r H; [reflexivity|]. cbn [fold_left]. destruct r as [a| |]; [exfalso; eapply H; reflexivity| |]; cbn [rbind]; apply IH; discriminate. Qed.
Lemma sides_fixed g cartesian ls tags on tu (fix_ : nat * bool -> comp -> R * bool) k global local d : wide g ls -> (forall c, on c = true <-> asked tags c) -> In d (domains ls) ->
  (forall s m, k F_FIXED s m = fixed_fields_in g cartesian (fst s) (snd s) (sub_ncells d) tags tu (fix_ s) m) ->
  (forall s, global s = F_FIXED \/ global s = F_PERIODIC) ->
  (forall s, global s = F_FIXED -> (cartesian = true \/ fst s = 0%nat) /\ local s = if touches (snd s) (fst s) (nth (fst s) (map sumZ ls) 0%Z) d then F_FIXED else F_SYNC) ->
  forall dirs m F, (forall s, In s dirs -> (fst s < length ls)%nat) -> local_agree g d m F ->
  exists m', sr_field_boundaries k global local dirs m = Ok m' /\
    local_agree g d m' (fold_left (fun F s => match global s with F_FIXED => fixed_past (snd s) (fst s) (nth (fst s) (map sumZ ls) 0%Z) on (fix_values tu (length ls) (fix_ s)) F | _ => F end) dirs F).
Proof.
  intros W Hon Hd Hk HG HL. unfold sr_field_boundaries. induction dirs as [|s dirs IH]; intros m F HD A.
  - exists m. split; [reflexivity|exact A].
  - cbn [fold_left rbind]. destruct (HG s) as [G|G].
    + destruct (HL s G) as [Hc Hl].
      destruct (one_fixed g cartesian ls (fst s) (snd s) tags on tu (fix_ s) d m F W (HD s (or_introl eq_refl)) Hc Hon Hd A) as [m' [E V]].
      assert (E' : sr_in_direction k global local s m = Ok m').
      { unfold sr_in_direction. rewrite G, Hl. destruct (touches _ _ _ d); [rewrite Hk; exact E|exact E]. }
      rewrite E'. rewrite G. apply IH; [intros; apply HD; right; assumption|exact V].
    + assert (E' : sr_in_direction k global local s m = Ok m) by (unfold sr_in_direction; rewrite G; reflexivity).
      rewrite E'. rewrite G. apply IH; [intros; apply HD; right; assumption|exact A].
Qed.
Lemma orth_axis dim s : (1 <= dim <= 3)%nat -> In s (sr_orth dim) -> (fst s < dim)%nat.
Proof. intros D. assert (C : dim = 1%nat \/ dim = 2%nat \/ dim = 3%nat) by lia. destruct C as [->|[->| ->]]; cbn; intuition (subst; cbn; lia). Qed.
Lemma divided_sides g cartesian ls tags on tu (fix_ : nat * bool -> comp -> R * bool) k global local st F :
  wide g ls -> (1 <= length ls <= 3)%nat -> (forall c, on c = true <-> asked tags c) -> agree g ls st F ->
  (forall d s m, k d F_FIXED s m = fixed_fields_in g cartesian (fst s) (snd s) (sub_ncells d) tags tu (fix_ s) m) ->
  (forall s, global s = F_FIXED \/ global s = F_PERIODIC) ->
  (forall d s, global s = F_FIXED -> (cartesian = true \/ fst s = 0%nat) /\ local d s = if touches (snd s) (fst s) (nth (fst s) (map sumZ ls) 0%Z) d then F_FIXED else F_SYNC) ->
  let run d := sr_field_boundaries (k d) global (local d) (sr_orth (length ls)) (st (sub_offset_ndomains d)) in
  (forall d, In d (domains ls) -> exists m, run d = Ok m) /\
  forall st', (forall d, In d (domains ls) -> run d = Ok (st' (sub_offset_ndomains d))) ->
    agree g ls st' (fold_left (fun F s => match global s with
      | F_FIXED => fixed_past (snd s) (fst s) (nth (fst s) (map sumZ ls) 0%Z) on (fun c => if snd (fix_ s c) then Some (tu (S (axis_of c)) (repeat 0%R (length ls)) (fst (fix_ s c))) else None) F
      | _ => F end) (sr_orth (length ls)) F).
Proof.
  intros W D Hon A Hk HG HL run.
  assert (K := fun d Hd => sides_fixed g cartesian ls tags on tu fix_ (k d) global (local d) d W Hon Hd (Hk d) HG (HL d) (sr_orth (length ls)) (st (sub_offset_ndomains d)) F
    (fun s => orth_axis (length ls) s D) (fun c y Hy => A d c y Hd Hy)).
  split.
  - intros d Hd. destruct (K d Hd) as [m [E _]]. exists m. exact E.
  - intros st' H d c y Hd Hy. destruct (K d Hd) as [m [E V]]. pose proof (eq_trans (eq_sym E) (H d Hd)) as Q. injection Q as Q. rewrite <- Q. apply V. exact Hy.
Qed.

(** ** The two sides *)
Lemma not_mirror N : exists c X X', nth 0 (place c X) 0 + nth 0 (place c X') 0 = IZR N /\ past true 0 N X = true /\ past false 0 N X' = false.
Proof.
  exists Ex2, [N], [0%Z]. unfold place, past. cbn. unfold node. split; [lra|]. split; [apply Z.leb_refl|reflexivity].
Qed.

(** ** Spherical coordinates *)
Lemma third_divisor (g : grid) : x2_min g = 0 -> s_sqrt_h g 3 (0, 0) = 0.
Proof. intro H. cbn. rewrite H. replace (0 * s_dth g + 0) with 0 by ring. rewrite sin_0. ring. Qed.
Lemma second_value (g : grid) v b : 0 < x1_min g < x1_max g -> (0 < nx1 g)%Z -> 0 < s_dth g -> v <> 0 ->
  v / s_sqrt_h g 2 (0, 0) * s_sqrt_h g 2 (IZR (nx1 g), b) = v * (x1_max g / x1_min g) /\ v * (x1_max g / x1_min g) <> v.
Proof.
  intros H N D V. cbn. apply IZR_lt in N. assert (E : IZR (nx1 g) * s_dr g = x1_max g - x1_min g) by (unfold s_dr; field; lra). split.
  - rewrite E. field. split; lra.
  - intro Q. apply (f_equal (fun z => z * x1_min g)) in Q. replace (v * (x1_max g / x1_min g) * x1_min g) with (v * x1_max g) in Q by (field; lra). nra.
Qed.
Lemma curvilinear (gh : Z) (g : grid) n1 n2 v F : (1 <= gh)%Z -> (0 < n2)%Z -> nx1 g = n1 -> 0 < x1_min g < x1_max g -> (0 < n1)%Z -> 0 < s_dth g -> v <> 0 ->
  forall fix_ : comp -> R * bool, fix_ Ex2 = (v, true) -> exists F', fixed_fields_in gh false 0 true [n1; n2] tag_e (spherical_tu g) fix_ F = Ok F' /\
    s_transform1 g 2 IU IT (IZR n1, 0) (F' Ex2 (loc gh [n1; 0%Z])) = Some (v * (x1_max g / x1_min g)) /\ v * (x1_max g / x1_min g) <> v.
Proof.
  intros Hg H2 E H1 N D V fix_ Hf.
  set (on := fun c => match c with Ex1 | Ex2 | Ex3 => true | _ => false end).
  assert (Hon : forall c, on c = true <-> asked tag_e c) 
    by (intro c; unfold asked, tag_e; destruct c; cbn; split; intro Q; try discriminate Q; try (exists 0%Z; split; [lia|reflexivity]); try reflexivity;
        destruct Q as [b [Q1 Q2]]; assert (C : (b = 3 \/ b = 4 \/ b = 5)%Z) by lia; destruct C as [->|[->| ->]]; discriminate Q2).
  destruct (proj1 (fixed_pass gh false 0 true [n1; n2] tag_e on (spherical_tu g) fix_ F Hon ltac:(lia) ltac:(cbn; lia)) (or_intror eq_refl)) as [F' [E' V']].
  exists F'. split; [exact E'|]. rewrite V' by (unfold in_extended; repeat constructor; lia). cbn [on]. rewrite Hf. cbn [snd fst andb past nth]. rewrite Z.leb_refl.
  pose proof (second_value g v 0 H1 ltac:(lia) D V) as [A B]. split; [|exact B]. rewrite <- A. unfold spherical_tu. cbn [s_transform1 axis_of repeat length nth]. rewrite E. reflexivity.
Qed.
Lemma fixed_twice up o N on value F : fixed_past up o N on value (fixed_past up o N on value F) = fixed_past up o N on value F.
Proof.
  apply FunctionalExtensionality.functional_extensionality; intro c. apply FunctionalExtensionality.functional_extensionality; intro X.
  unfold fixed_past. destruct (value c); [|reflexivity]. destruct (on c && past up o N X); reflexivity.
Qed.
