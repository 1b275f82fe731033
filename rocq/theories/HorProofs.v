(** Proofs about the field boundaries of the general-relativistic engine. *)
From Coq Require Import ZArith List Bool Reals Lra Lia Permutation.
From Verif Require Import Base ListLemmas DecompModel DecompSpec FieldModel FieldProofs HaloSpec HaloProofs SyncProofs ShapeSpec InterpSpec.
From Verif Require Import StepSpec MatchModel MatchSpec MatchProofs AxisModel AxisSpec AxisProofs HorModel HorSpec.
From Verif Require MomentTop.
Import ListNotations.
Open Scope R_scope.

(** ** Columns *)
Lemma fold_cs (i1 g nf i2 i : Z) : (i1 - g + i <> i1 + 1 + nf)%Z -> forall cs F c a b,
  fold_left (fun F c => copy_row i1 g nf i2 F i c) cs F c [a; b] =
  if in_dec comp_eq_dec c cs then if cell_dec [a; b] [(i1 - g + i)%Z; i2] then F c [(i1 + 1 + nf)%Z; i2] else F c [a; b] else F c [a; b].
Proof.
  intro N. induction cs as [|c0 cs IH]; intros F c a b; [reflexivity|]. cbn [fold_left]. rewrite !IH. unfold copy_row. rewrite !set_at.
  destruct (cell_dec [(i1 + 1 + nf)%Z; i2] [(i1 - g + i)%Z; i2]) as [Q|_]; [injection Q; intros; lia|].
  destruct (in_dec comp_eq_dec c cs) as [A|A], (in_dec comp_eq_dec c (c0 :: cs)) as [B|B]; destruct (comp_eq_dec c c0) as [C|C]; subst; try (exfalso; cbn in B; intuition congruence);
  destruct (cell_dec [a; b] [(i1 - g + i)%Z; i2]); reflexivity.
Qed.
Lemma fold_rows (i1 g nf i2 : Z) cs rows : Forall (fun i => i1 - g + i <> i1 + 1 + nf)%Z rows -> forall F c a b,
  fold_left (fun F i => fold_left (fun F c => copy_row i1 g nf i2 F i c) cs F) rows F c [a; b] =
  if in_dec comp_eq_dec c cs then if (b =? i2)%Z && (if in_dec Z.eq_dec (a - i1 + g)%Z rows then true else false) then F c [(i1 + 1 + nf)%Z; i2] else F c [a; b] else F c [a; b].
Proof.
  induction rows as [|r rows IH]; intros H F c a b.
  - cbn [fold_left in_dec]. rewrite andb_false_r. destruct (in_dec comp_eq_dec c cs); reflexivity.
  - inversion H as [|? ? Hr H']; subst. cbn [fold_left]. rewrite IH by exact H'. rewrite !fold_cs by exact Hr.
    destruct (in_dec comp_eq_dec c cs) as [A|A]; [|reflexivity].
    destruct (cell_dec [(i1 + 1 + nf)%Z; i2] [(i1 - g + r)%Z; i2]) as [Q|_]; [injection Q; intros; lia|].
    destruct (Z.eqb_spec b i2) as [->|Nb]; cbn [andb].
    + destruct (in_dec Z.eq_dec (a - i1 + g)%Z rows) as [B|B], (in_dec Z.eq_dec (a - i1 + g)%Z (r :: rows)) as [C|C]; try (exfalso; cbn in C; tauto); try reflexivity.
      * destruct C as [C|C]; [|contradiction]. destruct (cell_dec [a; i2] [(i1 - g + r)%Z; i2]) as [E|E]; [reflexivity|]. exfalso. apply E. f_equal. lia.
      * destruct (cell_dec [a; i2] [(i1 - g + r)%Z; i2]) as [E|E]; [|reflexivity]. exfalso. apply C. left. injection E. lia.
    + destruct (cell_dec [a; b] [(i1 - g + r)%Z; i2]) as [E|E]; [injection E; intros; congruence|reflexivity].
Qed.

Definition copied (g nf : Z) (on : comp -> bool) (F : fields) (c : comp) (a b : Z) : R :=
  if on c && ((0 <=? a)%Z && (a <=? 2 + nf)%Z) then F c [(g + 1 + nf)%Z; b] else F c [a; b].
Lemma col_at g nf tags on F i2 c a b : (2 <= g)%Z -> (forall c, on c = true <-> asked tags c) ->
  horizon_col g g nf tags F i2 c [a; b] = if (b =? i2)%Z then copied g nf on F c a b else F c [a; b].
Proof.
  intros Hg Hon. destruct (sete_on tags on Hon) as [HE HB]. unfold horizon_col, copied. rewrite HE, HB, (on_electric tags on c Hon).
  assert (R0 : Forall (fun i => g - g + i <> g + 1 + nf)%Z (zrange 0 (2 + nf + 1))) by (apply Forall_forall; intros i Hi; apply in_zrange in Hi; lia).
  assert (IN : (if in_dec Z.eq_dec (a - g + g)%Z (zrange 0 (2 + nf + 1)) then true else false) = (0 <=? a)%Z && (a <=? 2 + nf)%Z).
  { replace (a - g + g)%Z with a by lia. destruct (in_dec _ _ _) as [A|A]; rewrite in_zrange in A; symmetry; [apply andb_true_iff; lia|]. apply andb_false_iff.
    destruct (Z.leb_spec 0 a); [right; apply Z.leb_gt; lia|left; reflexivity]. }
  destruct (on Ex1), (on Bx1); rewrite ?(fold_rows g g nf i2 _ _ R0), ?IN; destruct c; cbn [electric andb];
  rewrite ?andb_false_r, ?andb_true_r; destruct (Z.eqb_spec b i2) as [->|N]; cbn; reflexivity.
Qed.
Lemma copied_ext g nf on F G b : (forall c a, F c [a; b] = G c [a; b]) -> forall c a, copied g nf on F c a b = copied g nf on G c a b.
Proof. intros H c a. unfold copied. rewrite !H. reflexivity. Qed.
Lemma cols g nf tags on l : (2 <= g)%Z -> (forall c, on c = true <-> asked tags c) -> forall F c a b, NoDup l ->
  fold_left (horizon_col g g nf tags) l F c [a; b] = if in_dec Z.eq_dec b l then copied g nf on F c a b else F c [a; b].
Proof.
  intros Hg H. induction l as [|k l IH]; intros F c a b N; [reflexivity|]. inversion N as [|? ? Nk N']; subst. cbn [fold_left]. rewrite IH by exact N'.
  destruct (Z.eq_dec b k) as [->|D].
  - destruct (in_dec Z.eq_dec k l) as [A|A]; [contradiction|]. destruct (in_dec Z.eq_dec k (k :: l)) as [B|B]; [|exfalso; apply B; left; reflexivity].
    rewrite (col_at g nf tags on) by assumption. rewrite Z.eqb_refl. reflexivity.
  - assert (E : forall c a, horizon_col g g nf tags F k c [a; b] = F c [a; b]).
    { intros. rewrite (col_at g nf tags on) by assumption. destruct (Z.eqb_spec b k); [contradiction|reflexivity]. }
    destruct (in_dec Z.eq_dec b l) as [A|A], (in_dec Z.eq_dec b (k :: l)) as [B|B]; try (exfalso; cbn in B; intuition congruence).
    + apply copied_ext. exact E.
    + apply E.
Qed.

(** ** A subdomain at the horizon *)
Lemma horizon_pass g n1 n2 nf tags on order F : (2 <= g)%Z -> (forall c, on c = true <-> asked tags c) -> (forall l, Permutation (order l) l) ->
  (n1 + g <= nf + 1 -> horizon_kernel g [n1; n2] nf tags order F = UB)%Z /\
  ((nf + 1 < n1 + g)%Z -> exists F', horizon_kernel g [n1; n2] nf tags order F = Ok F' /\
   forall c i j, (- g <= i)%Z -> active g F' c [i; j] = if (0 <=? j)%Z && (j <=? n2)%Z then opened (nf + 2 - g) (nf + 1) on (active g F) c [i; j] else active g F c [i; j]).
Proof.
  intros Hg Hon P. unfold horizon_kernel. split; intro H.
  - replace (n1 + 2 * g <=? g + 1 + nf)%Z with true by (symmetry; apply Z.leb_le; lia). reflexivity.
  - replace (n1 + 2 * g <=? g + 1 + nf)%Z with false by (symmetry; apply Z.leb_gt; lia). eexists; split; [reflexivity|]. intros c i j Hi.
    unfold active, opened. cbn [loc map]. set (l := zrange g (g + n2 + 1)).
    assert (N : NoDup (order l)) by (eapply Permutation_NoDup; [symmetry; apply P|apply nodup_zrange]).
    rewrite (cols g nf tags on (order l) Hg Hon F c (i + g)%Z (j + g)%Z N).
    assert (I : In (j + g)%Z (order l) <-> (0 <= j <= n2)%Z).
    { transitivity (In (j + g)%Z l); [split; apply Permutation_in; [apply P|symmetry; apply P]|]. unfold l. rewrite in_zrange. lia. }
    assert (E : (if in_dec Z.eq_dec (j + g)%Z (order l) then true else false) = (0 <=? j)%Z && (j <=? n2)%Z).
    { destruct (in_dec _ _ _) as [A|A]; symmetry; [apply I in A; apply andb_true_iff; lia|].
      apply andb_false_iff. destruct (Z.leb_spec 0 j); [|auto]. right. apply Z.leb_gt. apply Z.nle_gt. intro. apply A, I. lia. }
    rewrite <- E. destruct (in_dec _ _ _); [|reflexivity]. unfold copied.
    assert (Q : ((0 <=? i + g)%Z && (i + g <=? 2 + nf)%Z) = (i <=? nf + 2 - g)%Z).
    { apply eq_true_iff_eq. rewrite andb_true_iff, !Z.leb_le. lia. }
    rewrite Q. replace (g + 1 + nf)%Z with (nf + 1 + g)%Z by lia. reflexivity.
Qed.
Lemma opened_twice last src on F c i j : (last < src)%Z -> opened last src on (opened last src on F) c [i; j] = opened last src on F c [i; j].
Proof.
  intro H. unfold opened. destruct (on c); cbn [andb]; [|reflexivity]. destruct (Z.leb_spec i last); [|reflexivity].
  replace (src <=? last)%Z with false by (symmetry; apply Z.leb_gt; lia). reflexivity.
Qed.

(** ** Divided grids *)
Section Divided.
  Variables (g : Z) (l1 l2 : list Z) (nf : Z).
  Notation ls := [l1; l2].
  Hypothesis (W : wide g ls) (W1 : (nf + g < nth 0 l1 0)%Z).
  Lemma later_block : forall k, (0 < k)%nat -> (Z.of_nat k < len l1)%Z -> (nf + g < off l1 (Z.of_nat k))%Z.
  Proof using W W1.
    induction k as [|k IH]; intros K L; [lia|]. replace (Z.of_nat (S k)) with (Z.of_nat k + 1)%Z in * by lia. rewrite off_next by lia.
    assert (Wl : wide1 g l1) by (destruct W as [_ W']; inversion W'; assumption).
    assert (B : (0 < blk l1 (Z.of_nat k))%Z) by (destruct (blk_wide g l1 (Z.of_nat k) Wl ltac:(lia)); assumption).
    destruct k as [|k]; [|specialize (IH ltac:(lia) ltac:(lia)); lia].
    rewrite off_0 by lia. unfold blk. cbn. lia.
  Qed.
  Lemma sides1 d : In d (domains ls) -> exists s1 s2 n1 n2, sub_offset_ncells d = [s1; s2] /\ sub_ncells d = [n1; n2] /\ (0 <= s1 /\ 0 <= g)%Z /\
    (s1 = 0 /\ nf + g < n1 \/ s1 <> 0 /\ nf + g < s1)%Z.
  Proof using W W1.
    intro Hd. destruct (HaloProofs.dom_pos ls d Hd) as [B [-> ->]]. pose proof (in_box_length _ _ B) as LB.
    destruct (sub_offset_ndomains d) as [|p1 [|p2 [|p3 r]]]; try (cbn in LB; discriminate LB).
    rewrite !counts_cons in B. inversion B as [|? ? ? ? P1 B']; subst. inversion B' as [|? ? ? ? P2 _]; subst.
    exists (off l1 p1), (off l2 p2), (blk l1 p1), (blk l2 p2). split; [reflexivity|]. split; [rewrite !size_cons; reflexivity|].
    assert (Wl : wide1 g l1) by (destruct W as [_ W']; inversion W'; assumption).
    assert (O : (0 <= off l1 p1)%Z) by (apply (off_nonneg g); assumption).
    assert (Hg : (0 <= g)%Z) by (destruct W; assumption).
    split; [split; assumption|]. destruct (Z.eq_dec p1 0) as [->|N].
    - left. split; [apply off_0; lia|]. unfold blk. cbn. exact W1.
    - right. assert (K : (nf + g < off l1 p1)%Z) by (rewrite <- (Z2Nat.id p1) by lia; apply later_block; lia).
      destruct (Z.eq_dec (off l1 p1) 0) as [E|E]; [|split; assumption]. exfalso.
      assert (0 < off l1 p1)%Z; [|lia]. clear K. pose proof (off_next l1 (p1 - 1) ltac:(lia) ltac:(lia)) as E'. replace (p1 - 1 + 1)%Z with p1 in E' by lia. rewrite E'.
      destruct (blk_wide g l1 (p1 - 1) Wl ltac:(lia)). pose proof (off_nonneg g l1 (p1 - 1) Wl ltac:(lia)). lia.
  Qed.
End Divided.
Lemma divided_horizon l1 l2 nf tags on order st F : wide 2 [l1; l2] -> (0 <= nf)%Z -> (nf + 2 < nth 0 l1 0)%Z ->
  (forall c, on c = true <-> asked tags c) -> (forall p l, Permutation (order p l) l) -> agree 2 [l1; l2] st F ->
  let run d := if (nth 0 (sub_offset_ncells d) 0 =? 0)%Z then horizon_kernel 2 (sub_ncells d) nf tags (order (sub_offset_ndomains d)) (st (sub_offset_ndomains d))
               else Ok (st (sub_offset_ndomains d)) in
  (forall d, In d (domains [l1; l2]) -> exists m, run d = Ok m) /\
  forall st', (forall d, In d (domains [l1; l2]) -> run d = Ok (st' (sub_offset_ndomains d))) ->
  forall d c i j, In d (domains [l1; l2]) -> in_extended 2 [i; j] (sub_ncells d) -> (0 <= j <= nth 1 (sub_ncells d) 0)%Z ->
    st' (sub_offset_ndomains d) c (loc 2 [i; j]) = opened nf (nf + 1) on F c (map2 Z.add (sub_offset_ncells d) [i; j]).
Proof.
  intros W Hnf W1 Hon Po A run.
  assert (K : forall d, In d (domains [l1; l2]) -> exists m, run d = Ok m /\ forall c i j, in_extended 2 [i; j] (sub_ncells d) -> (0 <= j <= nth 1 (sub_ncells d) 0)%Z ->
      m c (loc 2 [i; j]) = opened nf (nf + 1) on F c (map2 Z.add (sub_offset_ncells d) [i; j])).
  { intros d Hd. destruct (sides1 2 l1 l2 nf W W1 d Hd) as (s1 & s2 & n1 & n2 & Es & En & P1 & P2).
    assert (A' : forall c y1 y2, (- 2 <= y1 < n1 + 2)%Z -> (- 2 <= y2 < n2 + 2)%Z -> st (sub_offset_ndomains d) c [(y1 + 2)%Z; (y2 + 2)%Z] = F c [(s1 + y1)%Z; (s2 + y2)%Z]).
    { intros c y1 y2 H1 H2. pose proof (A d c [y1; y2] Hd) as Q. rewrite En, Es in Q. apply Q. repeat constructor; lia. }
    unfold run. rewrite En, Es. cbn [nth]. destruct (Z.eqb_spec s1 0) as [E|E].
    - destruct (horizon_pass 2 n1 n2 nf tags on (order (sub_offset_ndomains d)) (st (sub_offset_ndomains d)) ltac:(lia) Hon (Po _)) as [_ HP].
      destruct (HP ltac:(lia)) as [m [Em V]]. exists m. split; [exact Em|]. intros c i j Hy Hj.
      inversion Hy as [|? ? ? ? H1 Hr]; subst. inversion Hr as [|? ? ? ? H2 Hr']; subst.
      pose proof (V c i j ltac:(lia)) as V'. unfold active in V'. rewrite V'. replace ((0 <=? j)%Z && (j <=? n2)%Z) with true by (symmetry; apply andb_true_iff; lia).
      unfold opened. cbn [map2 loc map]. replace (nf + 2 - 2)%Z with nf by lia. cbn [Z.add]. destruct (on c && (i <=? nf)%Z).
      + rewrite A' by lia. do 3 f_equal.
      + rewrite A' by lia. reflexivity.
    - exists (st (sub_offset_ndomains d)). split; [reflexivity|]. intros c i j Hy Hj.
      inversion Hy as [|? ? ? ? H1 Hr]; subst. inversion Hr as [|? ? ? ? H2 Hr']; subst. cbn [map2 loc map]. rewrite A' by assumption.
      unfold opened. replace (s1 + i <=? nf)%Z with false by (symmetry; apply Z.leb_gt; lia). rewrite andb_false_r. reflexivity. }
  split.
  - intros d Hd. destruct (K d Hd) as [m [E _]]. exists m. exact E.
  - intros st' H d c i j Hd Hy Hj. destruct (K d Hd) as [m [E V]]. rewrite (H d Hd) in E. injection E as E. rewrite E. apply V; assumption.
Qed.

(** ** What is missed *)
Definition by_row : fields := fun _ X => IZR (nth 0 X 0%Z).
Lemma gap g n1 n2 nf order : (3 <= g)%Z -> (0 <= nf)%Z -> (nf + 1 < n1 + g)%Z -> (0 <= n2)%Z -> (forall l, Permutation (order l) l) ->
  exists F F', horizon_kernel g [n1; n2] nf 63 order F = Ok F' /\ forall c, active g F' c [nf; 0%Z] <> active g F' c [(nf + 1)%Z; 0%Z].
Proof.
  intros Hg Hnf Hn Hn2 Po. exists by_row.
  destruct (horizon_pass g n1 n2 nf 63 (fun _ => true) order by_row ltac:(lia)) as [_ H]; [|exact Po|].
  - intro c. split; [|reflexivity]. intros _. destruct (electric c) eqn:E; [exists 0%Z|exists 3%Z]; rewrite E; split; [lia|reflexivity|lia|reflexivity].
  - destruct (H Hn) as [F' [E V]]. exists F'. split; [exact E|]. intro c. rewrite !V by lia.
    replace ((0 <=? 0)%Z && (0 <=? n2)%Z) with true by (symmetry; apply andb_true_iff; lia). unfold opened. cbn [andb].
    replace (nf <=? nf + 2 - g)%Z with false by (symmetry; apply Z.leb_gt; lia). replace (nf + 1 <=? nf + 2 - g)%Z with false by (symmetry; apply Z.leb_gt; lia).
    unfold active, by_row. cbn. intro Q. apply eq_IZR in Q. lia.
Qed.
Lemma stale nf order : (0 <= nf)%Z -> (forall p l, Permutation (order p l) l) ->
  let ls := [[(nf + 4)%Z]; [4%Z; 4%Z]] in
  exists st F, wide 2 ls /\ agree 2 ls st F /\
  forall st', (forall d, In d (domains ls) -> horizon_kernel 2 (sub_ncells d) nf 63 (order (sub_offset_ndomains d)) (st (sub_offset_ndomains d)) = Ok (st' (sub_offset_ndomains d))) ->
  ~ exists F', agree 2 ls st' F'.
Proof.
  intros Hnf Po ls. exists (fun _ => fun _ X => IZR (nth 0 X 0%Z - 2)), by_row. split; [split; [lia|]; repeat constructor; lia|]. split.
  { intros d c y Hd Hy. destruct (HaloProofs.dom_pos ls d Hd) as [B [En Es]]. pose proof (in_box_length _ _ B) as LB.
    destruct (sub_offset_ndomains d) as [|p1 [|p2 [|p3 r]]]; try (cbn in LB; discriminate LB). rewrite En in Hy. unfold ls in Hy, B. rewrite !size_cons in Hy. rewrite !counts_cons in B.
    inversion Hy as [|? ? ? ? H1 Hr]; subst. inversion Hr as [|? ? ? ? H2 Hr']; subst. inversion Hr'; subst.
    inversion B as [|? ? ? ? B1 _]; subst. cbn in B1. assert (p1 = 0)%Z by lia. subst p1. rewrite Es. unfold by_row. cbn. f_equal. lia. }
  intros st' H [F' A].
  assert (D0 : exists d, In d (domains ls) /\ sub_offset_ndomains d = [0%Z; 0%Z] /\ sub_offset_ncells d = [0%Z; 0%Z] /\ sub_ncells d = [(nf + 4)%Z; 4%Z]) by (eexists; split; [left; reflexivity|]; auto).
  assert (D1 : exists d, In d (domains ls) /\ sub_offset_ndomains d = [0%Z; 1%Z] /\ sub_offset_ncells d = [0%Z; 4%Z] /\ sub_ncells d = [(nf + 4)%Z; 4%Z]) by (eexists; split; [right; left; reflexivity|]; auto).
  destruct D0 as (d0 & H0 & P0 & S0 & N0). destruct D1 as (d1 & H1 & P1 & S1 & N1).
  pose proof (H d0 H0) as K0. pose proof (H d1 H1) as K1. rewrite P0, N0 in K0. rewrite P1, N1 in K1.
  assert (Hon : forall c, (fun _ : comp => true) c = true <-> asked 63 c).
  { intro c. split; [|reflexivity]. intros _. destruct (electric c) eqn:E; [exists 0%Z|exists 3%Z]; rewrite E; split; [lia|reflexivity|lia|reflexivity]. }
  destruct (proj2 (horizon_pass 2 (nf + 4) 4 nf 63 (fun _ => true) (order [0%Z; 0%Z]) (fun _ X => IZR (nth 0 X 0%Z - 2)) ltac:(lia) Hon (Po _)) ltac:(lia)) as [m0 [E0 V0]].
  destruct (proj2 (horizon_pass 2 (nf + 4) 4 nf 63 (fun _ => true) (order [0%Z; 1%Z]) (fun _ X => IZR (nth 0 X 0%Z - 2)) ltac:(lia) Hon (Po _)) ltac:(lia)) as [m1 [E1 V1]].
  rewrite E0 in K0. rewrite E1 in K1. injection K0 as K0. injection K1 as K1.
  pose proof (A d0 Ex1 [0%Z; 3%Z] H0) as A0. pose proof (A d1 Ex1 [0%Z; (-1)%Z] H1) as A1.
  rewrite P0, N0, S0, <- K0 in A0. rewrite P1, N1, S1, <- K1 in A1.
  specialize (A0 ltac:(repeat constructor; lia)). specialize (A1 ltac:(repeat constructor; lia)). cbn [map2 Z.add Z.opp Z.pos_sub Pos.pred_double] in A0, A1.
  pose proof (V0 Ex1 0%Z 3%Z ltac:(lia)) as Q0. pose proof (V1 Ex1 0%Z (-1)%Z ltac:(lia)) as Q1. unfold active in Q0, Q1. rewrite A0 in Q0. rewrite A1 in Q1.
  change (4 + -1)%Z with 3%Z in Q1. rewrite Q0 in Q1. clear -Q1 Hnf. cbn in Q1. unfold opened in Q1. cbn [andb] in Q1.
  replace (0 <=? nf + 2 - 2)%Z with true in Q1 by (symmetry; apply Z.leb_le; lia). cbn in Q1. apply eq_IZR in Q1. lia.
Qed.

(** ** Currents *)
Lemma quarter ds d : ds <> 0 -> tanh (d / (1 / 4 * ds)) = weight ds d.
Proof. intro H. rewrite <- shape_weight by exact H. unfold shape. f_equal. field. exact H. Qed.
Lemma jset_at (m : mem jcomp) c x v c' y : set jcomp_eq_dec m c x v c' y = if jcomp_eq_dec c' c then (if cell_dec y x then v else m c' y) else m c' y.
Proof. reflexivity. Qed.
Lemma absorbed g phi edge ds cells order J c y : ds <> 0 -> NoDup cells -> Permutation order (map (loc g) cells) -> (0 < length y)%nat ->
  par_for (absorb_body g phi edge ds) order J c (loc g y) =
  if in_dec cell_dec y cells then weight ds (Rabs (phi (IZR (nth 0 y 0%Z)) - edge)) * J c (loc g y) else J c (loc g y).
Proof.
  intros Hds ND P Ly.
  assert (ND' : NoDup order). { eapply Permutation_NoDup; [symmetry; exact P|]. apply FinFun.Injective_map_NoDup; [intros a b; apply MomentTop.loc_inj|exact ND]. }
  assert (AT : forall J x c, absorb_body g phi edge ds J x c x = J c x * weight ds (Rabs (phi (co g (nth 0 x 0%Z)) - edge))).
  { intros J0 x c0. unfold absorb_body. cbv zeta. rewrite quarter by exact Hds. cbn [fold_left]. rewrite !jset_at.
    destruct (cell_dec x x) as [_|N]; [|congruence]. destruct c0; cbn; reflexivity. }
  assert (OT : forall J x c y, y <> x -> absorb_body g phi edge ds J x c y = J c y).
  { intros J0 x c0 z N. unfold absorb_body. cbv zeta. cbn [fold_left]. rewrite !jset_at. destruct (cell_dec z x) as [E|_]; [contradiction|]. destruct c0; cbn; reflexivity. }
  rewrite (par_for_spec (fun _ => true) (absorb_body g phi edge ds)).
  - assert (IN : In (loc g y) order <-> In y cells).
    { transitivity (In (loc g y) (map (loc g) cells)); [split; apply Permutation_in; [exact P|symmetry; exact P]|].
      rewrite in_map_iff. split; [intros [z [E I]]; apply MomentTop.loc_inj in E; congruence|intro I; exists y; auto]. }
    destruct (in_dec cell_dec (loc g y) order) as [A|A], (in_dec cell_dec y cells) as [B|B]; try tauto. rewrite AT, Rmult_comm. f_equal.
    destruct y as [|a y]; [cbn in Ly; lia|]. cbn [loc map nth]. unfold co. rewrite Z.add_simpl_r. reflexivity.
  - intros m' x' c' z [H|H]; [discriminate H|]. apply OT. exact H.
  - intros m' m'' c' x' _ _ H. rewrite !AT, H by exact I. reflexivity.
  - exact ND'.
Qed.
Lemma absorbed_size ds d j : 0 < ds -> 0 <= d -> Rabs (weight ds d * j) <= Rabs j /\ (d = 0 -> weight ds d * j = 0) /\ 0 <= j * (weight ds d * j).
Proof.
  intros Hs Hd. destruct (weight_range ds d Hs Hd) as [A B]. split; [|split].
  - rewrite Rabs_mult, (Rabs_pos_eq (weight ds d)) by exact A. pose proof (Rabs_pos j). nra.
  - intros ->. rewrite weight_edge. ring.
  - replace (j * (weight ds d * j)) with (weight ds d * (j * j)) by ring. apply Rmult_le_pos; [exact A|nra].
Qed.

(** ** Dispatch *)
Lemma aux_nothing {S} (mk ak xk hk : dir -> S -> res S) global local absorbs s :
  (forall d, local d = HORIZON -> fst d = 0%nat) -> field_boundaries mk ak xk hk global local absorbs false aux s = Ok s.
Proof.
  intro H. unfold field_boundaries, orth. cbn [map side_of DirsModel.orth_dirs Z.eqb Z.ltb Z.compare fst snd]. cbn [fold_left rbind].
  assert (E : forall d s, in_direction mk ak xk hk global local absorbs false aux d s = Ok s).
  { intros d s0. cbn [in_direction]. destruct (local d) eqn:L; try reflexivity. unfold horizon_fields_in. rewrite (H d L). reflexivity. }
  repeat (rewrite E; cbn [rbind]). reflexivity.
Qed.
Lemma main_order {S} (mk ak xk hk : dir -> S -> res S) global local absorbs s :
  global (0%nat, false) = HORIZON -> global (0%nat, true) = MATCH -> global (1%nat, false) = AXIS -> global (1%nat, true) = AXIS ->
  (forall d, local d = global d \/ local d = OTHER) ->
  let at_ d f s := match local d with OTHER => Ok s | _ => f d s end in
  field_boundaries mk ak xk hk global local absorbs false main s =
  rbind (at_ (0%nat, false) hk s) (fun s => rbind (at_ (1%nat, false) xk s) (fun s => rbind (at_ (1%nat, true) xk s) (mk (0%nat, true)))).
Proof.
  intros G1 G2 G3 G4 L at_. unfold field_boundaries. change orth with [(0%nat, false); (1%nat, false); (1%nat, true); (0%nat, true)]. cbn [fold_left].
  set (D := in_direction mk ak xk hk global local absorbs false main).
  assert (E1 : forall s, D (0%nat, false) s = at_ (0%nat, false) hk s).
  { intro s0. unfold D, at_. cbn [in_direction]. rewrite G1. destruct (L (0%nat, false)) as [E|E]; rewrite E, ?G1; reflexivity. }
  assert (E2 : forall b s, D (1%nat, b) s = at_ (1%nat, b) xk s).
  { intros b s0. assert (G : global (1%nat, b) = AXIS) by (destruct b; assumption). unfold D, at_. cbn [in_direction]. rewrite G. destruct (L (1%nat, b)) as [E|E]; rewrite E, ?G; reflexivity. }
  assert (E3 : forall s, D (0%nat, true) s = mk (0%nat, true) s).
  { intro s0. unfold D. cbn [in_direction]. rewrite G2. reflexivity. }
  cbn [rbind]. rewrite E1. destruct (at_ (0%nat, false) hk s) as [s1| |]; cbn [rbind]; try reflexivity.
  rewrite E2. destruct (at_ (1%nat, false) xk s1) as [s2| |]; cbn [rbind]; try reflexivity.
  rewrite E2. destruct (at_ (1%nat, true) xk s2) as [s3| |]; cbn [rbind]; try reflexivity. apply E3.
Qed.
Lemma currents {S} (mk ak xk hk : dir -> S -> res S) global local absorbs s :
  ((forall d, In d orth -> absorbs d = true -> d = (0%nat, true)) ->
   field_boundaries mk ak xk hk global local absorbs false curr s = if absorbs (0%nat, true) then ak (0%nat, true) s else Ok s) /\
  (absorbs (0%nat, false) = true -> field_boundaries mk ak xk hk global local absorbs false curr s = Err).
Proof.
  split.
  - intro H. assert (N : forall d, In d orth -> d <> (0%nat, true) -> absorbs d = false).
    { intros d I D. destruct (absorbs d) eqn:E; [|reflexivity]. exfalso. apply D, H; assumption. }
    unfold field_boundaries. change orth with [(0%nat, false); (1%nat, false); (1%nat, true); (0%nat, true)]. cbn [fold_left].
    set (D := in_direction mk ak xk hk global local absorbs false curr).
    assert (E : forall d s, In d orth -> d <> (0%nat, true) -> D d s = Ok s) by (intros d s0 I Q; unfold D; cbn [in_direction]; rewrite (N d I Q); reflexivity).
    cbn [rbind]. rewrite !E by (cbn; auto; discriminate). cbn [rbind]. rewrite !E by (cbn; auto; discriminate). cbn [rbind]. rewrite !E by (cbn; auto; discriminate). cbn [rbind].
    unfold D. cbn [in_direction]. destruct (absorbs (0%nat, true)); reflexivity.
  - intro H. unfold field_boundaries. change orth with [(0%nat, false); (1%nat, false); (1%nat, true); (0%nat, true)]. cbn [fold_left rbind in_direction]. rewrite H. reflexivity.
Qed.
