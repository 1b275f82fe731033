(** Proofs about fields at the polar axis. *)
From Coq Require Import ZArith List Bool Reals Lra Lia Permutation.
From Verif Require Import Base ListLemmas DecompModel DecompSpec FieldModel FieldProofs HaloSpec HaloProofs SyncProofs ShapeModel ShapeSpec InterpModel InterpSpec InterpProofs.
From Verif Require Import StepSpec MatchModel MatchSpec MatchProofs AxisModel AxisSpec.
From Verif Require StatsProofs.
Import ListNotations.
Open Scope R_scope.

Definition body_of (up : bool) : Z -> Z -> fields -> Z -> fields := if up then axis_pos else axis_neg.

Lemma set_at (m : fields) c x v c' y : fset m c x v c' y = if comp_eq_dec c' c then (if cell_dec y x then v else m c' y) else m c' y.
Proof.
  destruct (comp_eq_dec c' c) as [->|N]; [|apply set_neq_c; exact N]. destruct (cell_dec y x) as [->|N]; [apply set_eq|apply set_neq_x; exact N].
Qed.
Lemma sete_on tags on : (forall c, on c = true <-> asked tags c) -> setE tags = on Ex1 /\ setB tags = on Bx1.
Proof.
  intro H. split; apply eq_true_iff_eq; rewrite H, <- tagged_asked; reflexivity.
Qed.
Lemma on_electric tags on c : (forall c, on c = true <-> asked tags c) -> on c = if electric c then on Ex1 else on Bx1.
Proof. intro H. apply eq_true_iff_eq. destruct c; cbn [electric]; rewrite !H; unfold asked; cbn [electric]; reflexivity. Qed.

Lemma cell2 (i j i' j' : Z) : [i; j] <> [i'; j'] <-> (i <> i' \/ j <> j')%Z.
Proof. split; [intro H; destruct (Z.eq_dec i i'); [right; intros ->; apply H; congruence|auto]|intros H E; injection E; intros; subst; tauto]. Qed.

Ltac split_cells a :=
  repeat (match goal with |- context [comp_eq_dec ?x ?x] => destruct (comp_eq_dec x x) as [_|E]; [|congruence] end);
  repeat (match goal with |- context [cell_dec [?p; ?q] [?r; ?s]] => destruct (cell_dec [p; q] [r; s]) as [K|K]; [injection K; intros|apply cell2 in K] end);
  repeat (match goal with |- context [Z.eqb ?p ?q] => destruct (Z.eqb_spec p q) end); cbn [andb]; try lia; try reflexivity; subst;
  rewrite ?Rmult_1_l; try ring; try (f_equal; f_equal; f_equal; lia); try (rewrite <- Ropp_mult_distr_l, Rmult_1_l; f_equal; f_equal; f_equal; f_equal; lia);
  try (replace (-1) with (- (1)) by ring; rewrite <- Ropp_mult_distr_l, Rmult_1_l; f_equal; f_equal; f_equal; f_equal; lia).
(** One column. *)
Lemma body_same up a tags on F i j c : (forall c, on c = true <-> asked tags c) ->
  body_of up a tags F i c [i; j] = at_pole up a on F c [i; j].
Proof.
  intro H. destruct (sete_on tags on H) as [HE HB]. unfold at_pole. rewrite (on_electric tags on c H).
  assert (Q : forall p q : Z, cell_dec [i; p] [i; q] = cell_dec [i; p] [i; q]) by reflexivity. clear Q.
  destruct up; cbn [body_of]; unfold axis_pos, axis_neg; rewrite HE, HB; destruct (on Ex1), (on Bx1); destruct c; cbn [electric is_ex1 negb andb];
  unfold first_beyond, mirror, mid_cell; cbn [electric axis_of Nat.eqb Bool.eqb negb andb parity];
  rewrite ?andb_false_r, ?andb_true_r; repeat rewrite set_neq_c by discriminate; try reflexivity; rewrite ?set_at; cbn [comp_eq_dec comp_rec comp_rect sumbool_rec sumbool_rect].
  all: split_cells a.
  all: destruct (cell_dec _ _) as [K'|K']; [apply (f_equal (fun l => nth 1 l 0%Z)) in K'; cbn [nth] in K'; try lia|apply cell2 in K']; try reflexivity; try lia.
  all: first [f_equal; f_equal; f_equal; lia|replace (-1) with (- (1)) by ring; rewrite <- Ropp_mult_distr_l, Rmult_1_l; f_equal; f_equal; f_equal; f_equal; lia].
Qed.

Lemma body_other up a tags F i i' j c : i' <> i -> body_of up a tags F i c [i'; j] = F c [i'; j].
Proof.
  intro N. assert (K : forall q r, [i'; q] <> [i; r]) by (intros; apply cell2; left; exact N).
  destruct up; cbn [body_of]; unfold axis_pos, axis_neg; destruct (setE tags), (setB tags); repeat rewrite set_neq_x by apply K; reflexivity.
Qed.
Lemma pole_ext up a on F G i : (forall c j, F c [i; j] = G c [i; j]) -> forall c j, at_pole up a on F c [i; j] = at_pole up a on G c [i; j].
Proof. intros H c j. unfold at_pole. rewrite !H. reflexivity. Qed.
Lemma columns up a tags on l : (forall c, on c = true <-> asked tags c) -> forall F c i j, NoDup l ->
  fold_left (body_of up a tags) l F c [i; j] = if in_dec Z.eq_dec i l then at_pole up a on F c [i; j] else F c [i; j].
Proof.
  intro H. induction l as [|k l IH]; intros F c i j N; [reflexivity|]. inversion N as [|? ? Nk N']; subst. cbn [fold_left]. rewrite IH by exact N'.
  destruct (Z.eq_dec i k) as [->|D].
  - destruct (in_dec Z.eq_dec k l) as [A|A]; [contradiction|]. destruct (in_dec Z.eq_dec k (k :: l)) as [B|B]; [|exfalso; apply B; left; reflexivity].
    apply body_same. exact H.
  - destruct (in_dec Z.eq_dec i l) as [A|A], (in_dec Z.eq_dec i (k :: l)) as [B|B]; try (exfalso; cbn in B; intuition congruence).
    + apply pole_ext. intros. apply body_other. exact D.
    + apply body_other. exact D.
Qed.

Lemma pass g up n1 n2 tags on order F : (forall c, on c = true <-> asked tags c) -> (forall l, Permutation (order l) l) ->
  exists F', axis_fields_in g false 1 up [n1; n2] tags order F = Ok F' /\
  forall c i j, F' c [i; j] = if (0 <=? i)%Z && (i <? n1 + 2 * g)%Z then at_pole up (if up then g + n2 else g)%Z on F c [i; j] else F c [i; j].
Proof.
  intros H P. unfold axis_fields_in. cbn [negb Nat.eqb]. eexists; split; [reflexivity|]. intros c i j.
  set (l := zrange 0 (n1 + 2 * g)). assert (N : NoDup (order l)) by (eapply Permutation_NoDup; [symmetry; apply P|apply nodup_zrange]).
  assert (I : In i (order l) <-> (0 <= i < n1 + 2 * g)%Z).
  { unfold l. rewrite <- in_zrange. split; apply Permutation_in; [apply P|symmetry; apply P]. }
  assert (E : (if in_dec Z.eq_dec i (order l) then true else false) = (0 <=? i)%Z && (i <? n1 + 2 * g)%Z).
  { destruct (in_dec Z.eq_dec i (order l)) as [A|A]; symmetry; [apply I in A; apply andb_true_iff; lia|].
    apply andb_false_iff. destruct (Z.leb_spec 0 i); [|auto]. right. apply Z.ltb_ge. apply Z.nlt_ge. intro. apply A, I. lia. }
  pose proof (columns up (if up then g + n2 else g)%Z tags on (order l) H F c i j N) as C.
  destruct up; cbn [body_of] in C; rewrite C, <- E; destruct (in_dec Z.eq_dec i (order l)); reflexivity.
Qed.

(** ** Mirror images *)
Lemma mirror_place c a j : node (mid_cell c 1) (mirror c a j) - IZR a = - (node (mid_cell c 1) j - IZR a).
Proof. unfold mirror, node. destruct (mid_cell c 1); rewrite ?minus_IZR, ?mult_IZR; lra. Qed.
Lemma mirror_first up c a : let j := first_beyond up c a in beyond up c a j = true /\ beyond up c a (mirror c a j) = false /\ mirror c a j <> j /\
  (mid_cell c 1 = false -> mirror c a j <> a) /\ mirror c a (mirror c a j) = j.
Proof.
  unfold beyond, first_beyond, mirror. destruct up, (mid_cell c 1); repeat split; try lia; try (intro; discriminate).
Qed.
Lemma pole_image up a on F c i : on c = true -> c <> Ex1 ->
  at_pole up a on F c [i; first_beyond up c a] = parity c * at_pole up a on F c [i; mirror c a (first_beyond up c a)] /\
  (mid_cell c 1 = false -> at_pole up a on F c [i; a] = 0).
Proof.
  intros O N. assert (E : on c && negb (is_ex1 c) = true) by (rewrite O; destruct c; try reflexivity; congruence).
  destruct (mirror_first up c a) as (_ & _ & M1 & M2 & _). unfold at_pole. rewrite E, Z.eqb_refl. split.
  - destruct (Z.eqb_spec (mirror c a (first_beyond up c a)) (first_beyond up c a)); [contradiction|].
    destruct (mid_cell c 1) eqn:Mc; cbn [negb]; rewrite ?andb_false_r, ?andb_true_r; [reflexivity|].
    destruct (Z.eqb_spec (mirror c a (first_beyond up c a)) a); [exfalso; apply (M2 eq_refl); assumption|reflexivity].
  - intro Mc. rewrite Mc. cbn [negb]. rewrite andb_true_r, Z.eqb_refl. unfold first_beyond. rewrite Mc. destruct up; [destruct (Z.eqb_spec a (a + 1))|destruct (Z.eqb_spec a (a - 1))]; try lia; reflexivity.
Qed.
Lemma pole_twice up a on F c i j : at_pole up a on (at_pole up a on F) c [i; j] = at_pole up a on F c [i; j].
Proof.
  destruct (on c) eqn:O; [|unfold at_pole; rewrite O; reflexivity].
  destruct (comp_eq_dec c Ex1) as [->|N]; [unfold at_pole; rewrite O; reflexivity|].
  pose proof (pole_image up a on F c i O N) as [I1 I2].
  assert (E : on c && negb (is_ex1 c) = true) by (rewrite O; destruct c; try reflexivity; congruence).
  unfold at_pole at 1. rewrite E. destruct (Z.eqb_spec j (first_beyond up c a)) as [->|D]; [symmetry; exact I1|].
  destruct ((j =? a)%Z && negb (mid_cell c 1)) eqn:K; [|reflexivity]. apply andb_prop in K. destruct K as [K1 K2]. apply Z.eqb_eq in K1. subst j.
  symmetry. apply I2. destruct (mid_cell c 1); [discriminate|reflexivity].
Qed.

(** ** Interpolation *)
Lemma interp_ext_from o c : forall ps d F F', (forall k, In k (reads_from o c d ps) -> F k = F' k) -> interp_from o c d ps F = interp_from o c d ps F'.
Proof.
  induction ps as [|p ps IH]; intros d F F' H; cbn [interp_from reads_from] in *; [rewrite H by (left; reflexivity); reflexivity|].
  destruct (weights (dual c d) o p) as [w|]; [|reflexivity]. revert H. induction w as [|[i s] w IHw]; intro H; [reflexivity|].
  rewrite (IH (S d) (fun r => F (i :: r)) (fun r => F' (i :: r))).
  - rewrite IHw; [reflexivity|]. intros k Hk. apply H. cbn [flat_map]. apply in_or_app. right. exact Hk.
  - intros k Hk. apply H. cbn [flat_map]. apply in_or_app. left. apply in_map. exact Hk.
Qed.
Lemma rows stag o i dx w j s : (o <= 1)%nat -> 0 <= dx <= 1 -> weights stag o (i, dx) = Some w -> In (j, s) w ->
  if stag then (i - 1 <= j <= i + 1)%Z else (i <= j <= i + 1)%Z.
Proof.
  intros Ho Hd W I. destruct o as [|[|o]]; [| |lia]; cbn [weights] in W.
  - injection W as <-. unfold zz_weights in I. destruct stag; [|cbn in I; destruct I as [E|[E|[]]]; injection E as <- <-; lia].
    assert (B : Int_part (dx + 1 / 2) = 0%Z \/ Int_part (dx + 1 / 2) = 1%Z).
    { destruct (Rlt_dec dx (1 / 2)); [left|right]; unfold Int_part; symmetry; apply (Z.add_cancel_r _ _ 1); rewrite Z.sub_add; apply up_tech || (apply tech_up); rewrite ?plus_IZR; cbn; lra. }
    destruct B as [B|B]; rewrite B in I; cbn in I; destruct I as [E|[E|[]]]; injection E as <- <-; lia.
  - unfold order_weights, order in W. cbn [fst snd] in W. destruct stag; cbn [negb] in W.
    + destruct (Rlt_dec dx (1 / 2)); injection W as <-; cbn in I; destruct I as [E|[E|[]]]; injection E as <- <-; lia.
    + injection W as <-; cbn in I; destruct I as [E|[E|[]]]; injection E as <- <-; lia.
Qed.

Lemma pole_value up a on F G c i j : on c = true -> symmetric a G -> same_inside up a F G ->
  beyond up c a j = false \/ (mid_cell c 1 = true /\ j = first_beyond up c a) -> at_pole up a on F c [i; j] = G c [i; j].
Proof.
  intros O [S1 S2] I H. unfold at_pole. rewrite O. cbn [andb]. destruct (mirror_first up c a) as (B1 & B2 & _ & M2 & M3).
  destruct (comp_eq_dec c Ex1) as [->|N].
  - cbn [is_ex1 negb]. destruct H as [H|[H _]]; [|discriminate H]. apply I; [exact H|]. intros _. left. reflexivity.
  - assert (E : negb (is_ex1 c) = true) by (destruct c; try reflexivity; congruence). rewrite E.
    destruct (Z.eqb_spec j (first_beyond up c a)) as [->|D].
    + rewrite I; [|exact B2|intro Mc; right; apply M2; exact Mc]. rewrite S1. destruct c; cbn [parity]; ring.
    + destruct H as [H|[_ H]]; [|contradiction]. destruct ((j =? a)%Z && negb (mid_cell c 1)) eqn:K.
      * apply andb_prop in K. destruct K as [K1 K2]. apply Z.eqb_eq in K1. subst j.
        destruct c; try discriminate K2; try (exfalso; apply N; reflexivity); [symmetry; apply S2|]. pose proof (S1 Bx2 i a) as Q. unfold mirror in Q. cbn in Q.
        replace (match a with 0 => 0 | Z.pos y' => Z.pos y'~0 | Z.neg y' => Z.neg y'~0 end - a)%Z with a in Q by (destruct a; lia). lra.
      * apply I; [exact H|]. intro Mc. right. intros ->. rewrite Z.eqb_refl, Mc in K. discriminate K.
Qed.
Lemma seen (up : bool) (a : Z) on F G (o : nat) c (p1 : pos) (i : Z) (dx : R) : (o <= 1)%nat -> 0 <= dx <= 1 -> (if up then i < a else a <= i)%Z -> on c = true -> symmetric a G -> same_inside up a F G ->
  interp o c [p1; (i, dx)] (at_pole up a on F) = interp o c [p1; (i, dx)] G.
Proof.
  intros Ho Hd Hi O S I. apply interp_ext_from. intros k Hk. cbn [reads_from] in Hk.
  destruct (weights (dual c 0) o p1) as [w1|]; [|destruct Hk]. apply in_flat_map in Hk. destruct Hk as [[i1 s1] [_ Hk]].
  apply in_map_iff in Hk. destruct Hk as [r [<- Hr]]. destruct (weights (dual c 1) o (i, dx)) as [w2|] eqn:W; [|destruct Hr].
  apply in_flat_map in Hr. destruct Hr as [[j s2] [J Hr]]. apply in_map_iff in Hr. destruct Hr as [r' [<- [<-|[]]]].
  pose proof (rows _ _ _ _ _ _ _ Ho Hd W J) as Hj. rewrite <- mid_dual in Hj by lia. apply pole_value; try assumption.
  unfold beyond, first_beyond. destruct up, (mid_cell c 1); lia.
Qed.

(** ** Quadratic interpolation *)
Definition unit_radial : fields := fun c _ => match c with Ex1 => 1 | _ => 0 end.
Definition no_ghosts (a : Z) : fields := fun c x => match c, x with Ex1, [_; j] => if (j <? a)%Z then 0 else 1 | _, _ => 0 end.
Lemma wide_refuted a on : exists F G, symmetric a G /\ same_inside false a F G /\
  forall i, interp 2 Ex1 [(i, 0); (a, 0)] (at_pole false a on F) = Some (7 / 8) /\ interp 2 Ex1 [(i, 0); (a, 0)] G = Some 1.
Proof.
  exists (no_ghosts a), unit_radial. split; [split; [intros c i j; destruct c; cbn; ring|reflexivity]|]. split.
  - intros c i j B _. destruct c; cbn in *; try reflexivity. rewrite B. reflexivity.
  - intro i. assert (E : forall x, at_pole false a on (no_ghosts a) Ex1 x = no_ghosts a Ex1 x).
    { intro x. unfold at_pole. destruct x as [|? [|? [|? ?]]]; try reflexivity. rewrite andb_false_r. reflexivity. }
    assert (V0 : (a - 1 + Z.of_nat 0 <? a)%Z = true) by (cbn; lia). assert (V1 : (a - 1 + Z.of_nat 1 <? a)%Z = false) by (cbn; lia). assert (V2 : (a - 1 + Z.of_nat 2 <? a)%Z = false) by (cbn; lia).
    unfold interp. rewrite (interp_ext_from 2 Ex1 _ 0 (at_pole false a on (no_ghosts a) Ex1) (no_ghosts a Ex1)) by (intros; apply E).
    unfold no_ghosts, unit_radial, interp_from, weights, order_weights, order. cbn [dual negb fst snd map seq Nat.add].
    destruct (Rlt_dec 0 (1 / 2)); [|lra]. cbn [map seq Nat.add]. rewrite V0, V1, V2. unfold sqr. cbn [Z.of_nat Z.eqb Pos.eqb Pos.of_succ_nat Pos.succ]. split; f_equal; field.
Qed.

(** ** Divided grids *)
Section Divided.
  Variables (g : Z) (l1 l2 : list Z).
  Notation ls := [l1; l2].
  Hypothesis (W : wide g ls) (W2 : Forall (fun n => g < n)%Z l2).
  Lemma low_block : forall k, (0 < k)%nat -> (Z.of_nat k < len l2)%Z -> (g < off l2 (Z.of_nat k))%Z.
  Proof using W W2.
    induction k as [|k IH]; intros K L; [lia|]. replace (Z.of_nat (S k)) with (Z.of_nat k + 1)%Z in * by lia. rewrite off_next by lia.
    assert (B : (g < blk l2 (Z.of_nat k))%Z).
    { unfold blk. rewrite Forall_forall in W2. apply W2. apply nth_In. unfold len in L. lia. }
    assert (O : (0 <= off l2 (Z.of_nat k))%Z). { apply (off_nonneg g); [destruct W as [_ W1]; inversion W1 as [|? ? ? W1']; inversion W1'; assumption|lia]. }
    lia.
  Qed.
  Lemma edges d : In d (domains ls) -> exists s1 s2 n1 n2, sub_offset_ncells d = [s1; s2] /\ sub_ncells d = [n1; n2] /\ (0 <= s2 /\ g < n2)%Z /\
    (s2 = 0 \/ g < s2)%Z /\ (s2 + n2 = sumZ l2 \/ s2 + n2 + g <= sumZ l2)%Z.
  Proof using W W2.
    intro Hd. destruct (HaloProofs.dom_pos ls d Hd) as [B [-> ->]]. pose proof (in_box_length _ _ B) as LB.
    destruct (sub_offset_ndomains d) as [|p1 [|p2 [|p3 r]]]; try (cbn in LB; discriminate LB).
    rewrite !counts_cons in B. inversion B as [|? ? ? ? P1 B']; subst. inversion B' as [|? ? ? ? P2 _]; subst.
    exists (off l1 p1), (off l2 p2), (blk l1 p1), (blk l2 p2). split; [reflexivity|]. split; [rewrite !size_cons; reflexivity|].
    assert (Wl : wide1 g l2) by (destruct W as [_ W1]; inversion W1 as [|? ? ? W1']; inversion W1'; assumption).
    assert (B2 : (g < blk l2 p2)%Z). { unfold blk. rewrite Forall_forall in W2. apply W2. apply nth_In. unfold len in P2. lia. }
    split; [split; [apply (off_nonneg g); assumption|exact B2]|]. split.
    - destruct (Z.eq_dec p2 0) as [->|N]; [left; apply off_0; lia|]. right. rewrite <- (Z2Nat.id p2) by lia. apply low_block; lia.
    - destruct (Z.eq_dec p2 (len l2 - 1)) as [->|N]; [left; apply off_last; lia|]. right.
      pose proof (off_end g l2 (p2 + 1) Wl ltac:(lia)) as E. rewrite off_next in E by lia.
      destruct (blk_wide g l2 (p2 + 1) Wl ltac:(lia)). lia.
  Qed.
  Lemma divided_axis up tags on order st F : (forall c, on c = true <-> asked tags c) -> (forall p l, Permutation (order p l) l) -> agree g ls st F ->
    let run d := if at_edge up (sumZ l2) d then axis_fields_in g false 1 up (sub_ncells d) tags (order (sub_offset_ndomains d)) (st (sub_offset_ndomains d))
                 else Ok (st (sub_offset_ndomains d)) in
    (forall d, In d (domains ls) -> exists m, run d = Ok m) /\
    forall st', (forall d, In d (domains ls) -> run d = Ok (st' (sub_offset_ndomains d))) -> agree g ls st' (at_pole up (if up then sumZ l2 else 0%Z) on F).
  Proof using W W2.
    intros Hon Po A run.
    assert (K : forall d, In d (domains ls) -> exists m, run d = Ok m /\ forall c y, in_extended g y (sub_ncells d) ->
      m c (loc g y) = at_pole up (if up then sumZ l2 else 0%Z) on F c (map2 Z.add (sub_offset_ncells d) y)).
    { intros d Hd. destruct (edges d Hd) as (s1 & s2 & n1 & n2 & Es & En & [P1 P2] & P3 & P4).
      assert (A' : forall c y1 y2, (- g <= y1 < n1 + g)%Z -> (- g <= y2 < n2 + g)%Z -> st (sub_offset_ndomains d) c [(y1 + g)%Z; (y2 + g)%Z] = F c [(s1 + y1)%Z; (s2 + y2)%Z]).
      { intros c y1 y2 H1 H2. pose proof (A d c [y1; y2] Hd) as Q. rewrite En, Es in Q. apply Q. repeat constructor; lia. }
      assert (Hg : (0 <= g)%Z) by (destruct W; assumption).
      unfold run. rewrite En, Es. unfold at_edge. rewrite Es, En. cbn [nth].
      destruct (if up then (s2 + n2 =? sumZ l2)%Z else (s2 =? 0)%Z) eqn:E.
      - destruct (pass g up n1 n2 tags on (order (sub_offset_ndomains d)) (st (sub_offset_ndomains d)) Hon (Po _)) as [m [Em V]].
        exists m. split; [exact Em|]. intros c y Hy. inversion Hy as [|y1 ? r ? H1 Hr]; subst. inversion Hr as [|y2 ? r' ? H2 Hr']; subst. inversion Hr'; subst.
        cbn [loc map map2]. rewrite V. replace ((0 <=? y1 + g)%Z && (y1 + g <? n1 + 2 * g)%Z) with true by (symmetry; apply andb_true_iff; lia).
        unfold at_pole. destruct (on c && negb (is_ex1 c)); [|apply A'; assumption].
        assert (E' : (if up then s2 + n2 = sumZ l2 else s2 = 0)%Z) by (destruct up; apply Z.eqb_eq; exact E).
        assert (FB : (y2 + g =? first_beyond up c (if up then g + n2 else g))%Z = (s2 + y2 =? first_beyond up c (if up then sumZ l2 else 0))%Z).
        { unfold first_beyond. apply eq_true_iff_eq. rewrite !Z.eqb_eq. destruct up, (mid_cell c 1); lia. }
        rewrite FB. destruct (Z.eqb_spec (s2 + y2) (first_beyond up c (if up then sumZ l2 else 0%Z))) as [D|D].
        + f_equal. replace (mirror c (if up then (g + n2)%Z else g) (y2 + g)%Z) with ((mirror c (if up then sumZ l2 else 0%Z) (s2 + y2) - s2) + g)%Z
            by (unfold mirror; destruct up, (mid_cell c 1); lia).
          rewrite A'; [|exact H1|unfold mirror, first_beyond in *; destruct up, (mid_cell c 1); lia]. do 3 f_equal. lia.
        + replace ((y2 + g =? (if up then g + n2 else g))%Z) with ((s2 + y2 =? (if up then sumZ l2 else 0))%Z)
            by (apply eq_true_iff_eq; rewrite !Z.eqb_eq; destruct up; lia).
          destruct (_ && _); [reflexivity|]. apply A'; assumption.
      - exists (st (sub_offset_ndomains d)). split; [reflexivity|]. intros c y Hy. inversion Hy as [|y1 ? r ? H1 Hr]; subst. inversion Hr as [|y2 ? r' ? H2 Hr']; subst. inversion Hr'; subst.
        cbn [loc map map2]. rewrite A' by assumption. unfold at_pole. destruct (on c && negb (is_ex1 c)); [|reflexivity].
        assert (E' : (if up then s2 + n2 + g <= sumZ l2 else g < s2)%Z) by (destruct up; apply Z.eqb_neq in E; lia).
        destruct (Z.eqb_spec (s2 + y2) (first_beyond up c (if up then sumZ l2 else 0%Z))) as [D|D]; [unfold first_beyond in D; destruct up, (mid_cell c 1); lia|].
        destruct (Z.eqb_spec (s2 + y2) (if up then sumZ l2 else 0%Z)) as [D'|D']; [destruct up; lia|]. reflexivity. }
    split.
    - intros d Hd. destruct (K d Hd) as [m [E _]]. exists m. exact E.
    - intros st' H d c y Hd Hy. destruct (K d Hd) as [m [E V]]. rewrite (H d Hd) in E. injection E as E. rewrite E. apply V. exact Hy.
  Qed.
End Divided.

(** ** Cases *)
Definition even_field : fields := fun c x => match c, x with Bx1, [i; j] => IZR (i + (2 * j + 1) * (2 * j + 1)) | Bx2, [i; j] => IZR (i * j) | _, _ => 0 end.
Lemma case_symmetric : symmetric 0 even_field /\ even_field Bx1 [1%Z; 1%Z] = 10 /\ even_field Bx2 [2%Z; 3%Z] = 6.
Proof.
  split; [|split; reflexivity]. split; [|reflexivity]. intros c i j. destruct c; cbn [even_field parity]; try ring; unfold mirror; cbn [mid_cell electric axis_of Nat.eqb Bool.eqb].
  - rewrite Rmult_1_l. f_equal. ring.
  - rewrite <- mult_IZR. f_equal. ring.
Qed.
