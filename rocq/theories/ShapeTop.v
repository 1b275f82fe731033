(** Properties of [order] and [for_deposit]. *)
From Coq Require Import ZArith Reals Lra Lia Bool.
From Verif Require Import ShapeModel ShapeSpec ShapePieces ShapeProofs.
Open Scope R_scope.

Lemma order_defined : forall stag o i di, (1 <= o <= 11)%nat <-> order stag o i di <> None.
Proof.
  intros stag o i di. split.
  - intros [H1 H2]. do 12 (destruct o as [|o]; [try lia; cbn; destruct stag; cbn; try destruct Rlt_dec; discriminate|]). lia.
  - intros H. do 12 (destruct o as [|o]; [try lia; now elim H|]). now elim H.
Qed.

Ltac first_orders n Hn HS :=
  let K := fresh in
  assert (K : n = 0%Z \/ n = 1%Z \/ n = 2%Z) by lia;
  destruct K as [->|[->| ->]]; try (exfalso; lia); rewrite <- HS.

Lemma order_ok : forall stag o i di m S, order stag o i di = Some (m, S) -> 0 <= di <= 1 ->
  (forall n, (0 <= n <= Z.of_nat o)%Z -> S n = bspline o (IZR i + di - node stag (m + n))) /\
  node stag m <= IZR i + di - INR (pred o) / 2 /\
  IZR i + di + INR (pred o) / 2 <= node stag (m + Z.of_nat o).
Proof.
  intros stag o i di m S H Hdi.
  destruct o as [|[|[|o]]]; [discriminate| | |].
  - cbn [pred INR]. unfold node. destruct stag; cbn in H; [destruct Rlt_dec as [Hd|Hd]|]; injection H as <- HS;
    (split; [intros n Hn; first_orders n Hn HS; rewrite <- code_1; cbn [Z.eqb]; rewrite ?plus_IZR, ?minus_IZR;
       unfold Rabs; destruct Rcase_abs; try (rewrite S1_0 by lra; lra); try (rewrite S1_out by lra; lra)
     | rewrite ?plus_IZR, ?minus_IZR; cbn; lra ]).
  - unfold node. destruct stag; cbn in H; [|destruct Rlt_dec as [Hd|Hd]]; injection H as <- HS;
    (split; [intros n Hn; first_orders n Hn HS; rewrite <- code_2; cbn [Z.eqb Pos.eqb]; rewrite ?plus_IZR, ?minus_IZR;
       unfold Rabs; destruct Rcase_abs;
       try (rewrite S2_0 by lra; unfold sqr; lra); try (rewrite S2_1 by lra; unfold sqr; lra); try (rewrite S2_out by lra; unfold sqr; lra)
     | rewrite ?plus_IZR, ?minus_IZR; cbn; lra ]).
  - do 9 (destruct o as [|o]; [
      unfold node; destruct stag; cbn in H; try destruct Rlt_dec as [Hd|Hd]; injection H as <- HS;
      (split; [intros n Hn; rewrite <- HS;
         first [rewrite code_3|rewrite code_4|rewrite code_5|rewrite code_6|rewrite code_7|rewrite code_8|rewrite code_9|rewrite code_10|rewrite code_11];
         f_equal; rewrite ?plus_IZR, ?minus_IZR; lra
       | rewrite ?plus_IZR, ?minus_IZR; cbn [pred Z.of_nat Pos.of_succ_nat Pos.succ]; rewrite INR_IZR_INZ;
         cbn [Z.of_nat Pos.of_succ_nat Pos.succ]; lra ])|]).
    discriminate.
Qed.

(** Every node outside the window has weight zero. *)
Lemma order_outside : forall stag o i di m S k, order stag o i di = Some (m, S) -> 0 <= di <= 1 ->
  (k < m \/ m + Z.of_nat o < k)%Z -> bspline o (IZR i + di - node stag k) = 0.
Proof.
  intros stag o i di m S k H Hdi Hk. pose proof (order_ok _ _ _ _ _ _ H Hdi) as (_ & H1 & H2).
  assert (Ho : (0 < o)%nat). { destruct o; [discriminate|lia]. }
  apply bspline_out; [assumption|].
  assert (E : INR (Datatypes.S o) = INR (pred o) + 2) by (destruct o; [lia|]; cbn [pred]; rewrite !S_INR; ring).
  rewrite E. unfold node in *. rewrite plus_IZR in H2. pose proof (pos_INR (pred o)).
  destruct Hk as [Hk|Hk].
  - assert (IZR k <= IZR (m - 1)) by (apply IZR_le; lia). rewrite minus_IZR in *. rewrite Rabs_pos_eq; lra.
  - assert (IZR (m + Z.of_nat o + 1) <= IZR k) by (apply IZR_le; lia). rewrite !plus_IZR in *. rewrite Rabs_left1; lra.
Qed.

Lemma order_nonneg : forall stag o i di m S n, order stag o i di = Some (m, S) -> 0 <= di <= 1 ->
  (0 <= n <= Z.of_nat o)%Z -> 0 <= S n.
Proof.
  intros stag o i di m S n H Hdi Hn. destruct (order_ok _ _ _ _ _ _ H Hdi) as (H1 & _).
  rewrite H1 by assumption. apply bspline_nonneg.
Qed.

Lemma zsum_rebase : forall n lo m f, zsum f (m + lo) n = zsum (fun k => f (m + k)%Z) lo n.
Proof.
  induction n as [|n IH]; intros lo m f; cbn [zsum]; [reflexivity|].
  rewrite <- IH. now rewrite Z.add_assoc.
Qed.

Lemma order_sum : forall stag o i di m S, order stag o i di = Some (m, S) -> 0 <= di <= 1 ->
  zsum S 0 (1 + o) = 1.
Proof.
  intros stag o i di m S H Hdi. destruct (order_ok _ _ _ _ _ _ H Hdi) as (H1 & H2 & H3).
  assert (Ho : (0 < o)%nat). { destruct o; [discriminate|lia]. }
  set (x := IZR i + di - (if stag then 1/2 else 0)).
  rewrite <- (bspline_unity o x m o Ho); unfold node in *.
  - replace m with (m + 0)%Z at 1 by lia. rewrite zsum_rebase. apply zsum_ext. intros k Hk. rewrite H1 by lia. unfold node, x. f_equal. ring.
  - unfold x. lra.
  - unfold x. lra.
Qed.

Lemma order_centre : forall stag o i di m S, order stag o i di = Some (m, S) -> 0 <= di <= 1 ->
  zsum (fun n => node stag (m + n) * S n) 0 (1 + o) = IZR i + di.
Proof.
  intros stag o i di m S H Hdi. destruct (order_ok _ _ _ _ _ _ H Hdi) as (H1 & H2 & H3).
  assert (Ho : (0 < o)%nat). { destruct o; [discriminate|lia]. }
  set (x := IZR i + di - (if stag then 1/2 else 0)).
  pose proof (bspline_centre o x m o Ho ltac:(unfold node, x in *; lra) ltac:(unfold node, x in *; lra)) as HC.
  pose proof (order_sum _ _ _ _ _ _ H Hdi) as HS.
  replace m with (m + 0)%Z in HC at 1 by lia. rewrite zsum_rebase in HC.
  rewrite (zsum_ext (Datatypes.S o) 0 _ (fun k => (IZR i + di) * S k + -1 * (node stag (m + k) * S k))) in HC.
  - rewrite zsum_plus, !zsum_scal in HC. change (1 + o)%nat with (Datatypes.S o) in *. rewrite HS in HC. lra.
  - intros k Hk. rewrite H1 by lia. unfold node, x.
    replace (IZR i + di - (if stag then 1/2 else 0) - IZR (m + k)) with (IZR i + di - (IZR (m + k) + (if stag then 1/2 else 0))) by ring.
    ring.
Qed.

(** The first node, as a function of the cell and the offset. *)
Lemma order_min : forall stag o i di m S, order stag o i di = Some (m, S) -> 0 <= di <= 1 ->
  let oz := Z.of_nat o in
  m = (if Bool.eqb stag (Z.even oz) then i - oz / 2
       else if Rlt_dec di (1/2) then (if stag then i - (oz + 1) / 2 else i - oz / 2)
       else (if stag then i - (oz - 1) / 2 else i - oz / 2 + 1))%Z.
Proof.
  intros stag o i di m S H Hdi oz. unfold oz. clear oz.
  destruct o as [|o]; [discriminate|].
  do 11 (destruct o as [|o]; [
    destruct stag; cbn in H |- *; try destruct Rlt_dec; injection H as <- HS;
    try match goal with |- context [(?a / ?b)%Z] => let v := eval cbv in (a / b)%Z in change (a / b)%Z with v end; lia|]).
  discriminate.
Qed.

(** The windows at the two ends of a move differ by at most one node if the particle moves by
    less than one cell. *)
Lemma order_min_move : forall o i di m S i' di' m' S',
  order false o i di = Some (m, S) -> order false o i' di' = Some (m', S') ->
  0 <= di <= 1 -> 0 <= di' <= 1 -> (-1 <= i' - i <= 1)%Z ->
  Rabs (IZR i' + di' - (IZR i + di)) < 1 ->
  (-1 <= m' - m <= 1)%Z.
Proof.
  intros o i di m S i' di' m' S' H H' Hd Hd' Hi Hx.
  pose proof (order_min _ _ _ _ _ _ H Hd) as E. pose proof (order_min _ _ _ _ _ _ H' Hd') as E'.
  cbv zeta in E, E'. destruct (Z.even (Z.of_nat o)); cbn [Bool.eqb] in E, E'; [|lia].
  destruct (Rlt_dec di (1/2)) as [A|A]; destruct (Rlt_dec di' (1/2)) as [A'|A']; try lia.
  - destruct (Z.eq_dec i' (i + 1)) as [->|]; [|lia]. exfalso. rewrite plus_IZR in Hx.
    rewrite Rabs_pos_eq in Hx; lra.
  - destruct (Z.eq_dec i' (i - 1)) as [->|]; [|lia]. exfalso. rewrite minus_IZR in Hx.
    rewrite Rabs_left1 in Hx; lra.
Qed.

Ltac bounds m m' :=
  first [ let H := fresh in assert (H : IZR m' = IZR m + 1) by (rewrite <- plus_IZR; f_equal; lia); rewrite ?plus_IZR; lra
        | let H := fresh in assert (H : IZR m = IZR m' + 1) by (rewrite <- plus_IZR; f_equal; lia); rewrite ?plus_IZR; lra
        | rewrite ?plus_IZR; lra ].

(** [for_deposit] tabulates both splines on one window that contains both supports. *)
Lemma for_deposit_ok : forall o i di i' di' lo hi iS fS,
  for_deposit o i di i' di' = Some (lo, hi, iS, fS) ->
  0 <= di <= 1 -> 0 <= di' <= 1 -> (-1 <= i' - i <= 1)%Z ->
  Rabs (IZR i' + di' - (IZR i + di)) < 1 ->
  (hi = lo + Z.of_nat o \/ hi = lo + Z.of_nat o + 1)%Z /\
  (forall n, (0 <= n <= Z.of_nat o + 1)%Z ->
     iS n = bspline o (IZR i + di - IZR (lo + n)) /\ fS n = bspline o (IZR i' + di' - IZR (lo + n))) /\
  (forall k, (k < lo \/ hi < k)%Z ->
     bspline o (IZR i + di - IZR k) = 0 /\ bspline o (IZR i' + di' - IZR k) = 0) /\
  (IZR lo <= IZR i + di - INR (pred o) / 2 /\ IZR i + di + INR (pred o) / 2 <= IZR hi) /\
  (IZR lo <= IZR i' + di' - INR (pred o) / 2 /\ IZR i' + di' + INR (pred o) / 2 <= IZR hi).
Proof.
  intros o i di i' di' lo hi iS fS H Hd Hd' Hi Hx. unfold for_deposit in H.
  destruct (order false o i di) as [[m S]|] eqn:E; [|discriminate].
  destruct (order false o i' di') as [[m' S']|] eqn:E'; [|discriminate].
  pose proof (order_min_move _ _ _ _ _ _ _ _ _ E E' Hd Hd' Hi Hx) as Hm.
  destruct (order_ok _ _ _ _ _ _ E Hd) as (A & U1 & U2). destruct (order_ok _ _ _ _ _ _ E' Hd') as (A' & U1' & U2').
  unfold node in U1, U2, U1', U2'. rewrite Rplus_0_r in U1, U2, U1', U2'.
  rewrite plus_IZR in U2, U2'.
  assert (B : forall k, (k < m \/ m + Z.of_nat o < k)%Z -> bspline o (IZR i + di - IZR k) = 0).
  { intros k Hk. pose proof (order_outside _ _ _ _ _ _ k E Hd Hk) as B. unfold node in B. now rewrite Rplus_0_r in B. }
  assert (B' : forall k, (k < m' \/ m' + Z.of_nat o < k)%Z -> bspline o (IZR i' + di' - IZR k) = 0).
  { intros k Hk. pose proof (order_outside _ _ _ _ _ _ k E' Hd' Hk) as B'. unfold node in B'. now rewrite Rplus_0_r in B'. }
  assert (C : forall n, (0 <= n <= Z.of_nat o)%Z -> S n = bspline o (IZR i + di - IZR (m + n))).
  { intros n Hn. rewrite A by assumption. unfold node. now rewrite Rplus_0_r. }
  assert (C' : forall n, (0 <= n <= Z.of_nat o)%Z -> S' n = bspline o (IZR i' + di' - IZR (m' + n))).
  { intros n Hn. rewrite A' by assumption. unfold node. now rewrite Rplus_0_r. }
  clear A A'.
  destruct (Z.ltb_spec m m') as [L|L]; [|destruct (Z.ltb_spec m' m) as [L'|L']]; injection H as <- <- <- <-.
  - split; [lia|]. split.
    + intros n Hn. split.
      * destruct (Z.eqb_spec n (Z.of_nat o + 1)) as [->|Hne]; [rewrite B by lia; reflexivity|apply C; lia].
      * destruct (Z.eqb_spec n 0) as [->|Hne]; [rewrite B' by lia; reflexivity|rewrite C' by lia; do 3 f_equal; lia].
    + split; [intros k Hk; split; [apply B|apply B']; lia|bounds m m'].
  - split; [lia|]. split.
    + intros n Hn. split.
      * destruct (Z.eqb_spec n 0) as [->|Hne]; [rewrite B by lia; reflexivity|rewrite C by lia; do 3 f_equal; lia].
      * destruct (Z.eqb_spec n (Z.of_nat o + 1)) as [->|Hne]; [rewrite B' by lia; reflexivity|apply C'; lia].
    + split; [intros k Hk; split; [apply B|apply B']; lia|bounds m m'].
  - assert (m' = m) by lia. subst m'. split; [lia|]. split.
    + intros n Hn. split.
      * destruct (Z.eqb_spec n (Z.of_nat o + 1)) as [->|Hne]; [rewrite B by lia; reflexivity|apply C; lia].
      * destruct (Z.eqb_spec n (Z.of_nat o + 1)) as [->|Hne]; [rewrite B' by lia; reflexivity|apply C'; lia].
    + split; [intros k Hk; split; [apply B|apply B']; lia|rewrite ?plus_IZR; lra].
Qed.

Lemma weights_are_splines : forall stag o i di m w, order stag o i di = Some (m, w) -> 0 <= di <= 1 ->
  (forall n, (0 <= n <= Z.of_nat o)%Z -> w n = bspline o (IZR i + di - node stag (m + n))) /\
  (forall k, (k < m \/ m + Z.of_nat o < k)%Z -> bspline o (IZR i + di - node stag k) = 0).
Proof.
  intros stag o i di m w H Hd. destruct (order_ok _ _ _ _ _ _ H Hd) as (A & _ & _). split; [exact A|].
  intros k Hk. eapply order_outside; eassumption.
Qed.

Lemma shape_functions : forall x,
  S1 (Rabs x) = bspline 1 x /\ S2 (Rabs x) = bspline 2 x /\ S3 (Rabs x) = bspline 3 x /\
  S4 (Rabs x) = bspline 4 x /\ S5 (Rabs x) = bspline 5 x /\ S6 (Rabs x) = bspline 6 x /\
  S7 (Rabs x) = bspline 7 x /\ S8 (Rabs x) = bspline 8 x /\ S9 (Rabs x) = bspline 9 x /\
  S10 (Rabs x) = bspline 10 x /\ S11 (Rabs x) = bspline 11 x.
Proof.
  intros x. repeat split; [apply code_1|apply code_2|apply code_3|apply code_4|apply code_5|apply code_6
    |apply code_7|apply code_8|apply code_9|apply code_10|apply code_11].
Qed.
