(** Proofs about tables. *)
From Coq Require Import ZArith List Bool Lia.
From Verif Require Import Base TblModel TblSpec.
Import ListNotations.
Open Scope Z_scope.

Definition starts (c : Z) : Z := if negb (Z.land c 192 =? 128) then 1 else 0.
Definition width (s : list Z) : Z := fold_right (fun c n => starts c + n) 0 s.
Lemma strlen_width s : strlen_utf8 s = width s.
Proof.
  unfold strlen_utf8. assert (H : forall s n, fold_left (fun length c => if negb (Z.land c 192 =? 128) then length + 1 else length) s n = n + width s).
  { clear. induction s as [|c s IH]; intros n; cbn [fold_left width fold_right]; [lia|]. rewrite IH. fold (width s). unfold starts. destruct (negb _); lia. }
  rewrite H. lia.
Qed.
Lemma width_cons c s : width (c :: s) = starts c + width s.
Proof. reflexivity. Qed.
Lemma width_app a b : width (a ++ b) = width a + width b.
Proof. induction a as [|c a IH]; [change (width []) with 0; cbn [app]; lia|]. cbn [app]. rewrite !width_cons. lia. Qed.
Lemma starts_range c : 0 <= starts c <= 1.
Proof. unfold starts. destruct (negb _); lia. Qed.
Lemma width_range s : 0 <= width s <= Z.of_nat (length s).
Proof. induction s as [|c s IH]; [cbn; lia|]. rewrite width_cons. cbn [length]. pose proof (starts_range c). lia. Qed.

Lemma bytes_check : forallb (fun n => Bool.eqb (Z.land (Z.of_nat n) 192 =? 128) ((128 <=? Z.of_nat n) && (Z.of_nat n <? 192))) (seq 0 256) = true.
Proof. vm_compute. reflexivity. Qed.
Lemma starts_value c : 0 <= c < 256 -> starts c = if (128 <=? c) && (c <? 192) then 0 else 1.
Proof.
  intros H. pose proof bytes_check as B. rewrite forallb_forall in B. specialize (B (Z.to_nat c)).
  rewrite Z2Nat.id in B by lia. unfold starts. apply eqb_prop in B; [|apply in_seq; lia]. rewrite B. destruct (_ && _); auto.
Qed.
Lemma starts_one c : 0 <= c < 128 \/ 192 <= c < 256 -> starts c = 1.
Proof. intros H. rewrite starts_value by lia. destruct (Z.leb_spec 128 c), (Z.ltb_spec c 192); cbn; auto; lia. Qed.
Lemma starts_zero c : 128 <= c < 192 -> starts c = 0.
Proof. intros H. rewrite starts_value by lia. destruct (Z.leb_spec 128 c), (Z.ltb_spec c 192); cbn; auto; lia. Qed.
Lemma tail_byte c : starts (128 + c mod 64) = 0.
Proof. apply starts_zero. pose proof (Z.mod_pos_bound c 64). lia. Qed.

Theorem utf8_length s : Forall code_point s -> strlen_utf8 (encode s) = Z.of_nat (length s).
Proof.
  rewrite strlen_width. induction 1 as [|c s [C0 C1] F IH]; auto. unfold encode in *. cbn [flat_map length]. rewrite width_app, IH.
  enough (width (encode1 c) = 1) by lia. unfold encode1.
  destruct (Z.ltb_spec c 128); [cbn [width fold_right]; rewrite starts_one by lia; lia|].
  destruct (Z.ltb_spec c 2048).
  { cbn [width fold_right]. rewrite tail_byte, starts_one; [lia|]. right. pose proof (Z.div_le_lower_bound c 64 2). pose proof (Z.div_lt_upper_bound c 64 32). lia. }
  destruct (Z.ltb_spec c 65536).
  { cbn [width fold_right]. rewrite !tail_byte, starts_one; [lia|]. right. pose proof (Z.div_le_lower_bound c 4096 0). pose proof (Z.div_lt_upper_bound c 4096 16). lia. }
  cbn [width fold_right]. rewrite !tail_byte, starts_one; [lia|]. right. pose proof (Z.div_le_lower_bound c 262144 0). pose proof (Z.div_lt_upper_bound c 262144 16). lia.
Qed.

Lemma width_repeat f n : 0 <= f < 128 -> width (repeat f n) = Z.of_nat n.
Proof. intros F. induction n as [|n IH]; auto. cbn [repeat]. rewrite width_cons, starts_one by lia. lia. Qed.

Lemma rep_ok c n : 0 <= n < 2 ^ 63 -> rep c n = Ok (repeat c (Z.to_nat n)).
Proof. intros H. unfold rep. rewrite (proj2 (Z.ltb_lt _ _)) by lia. auto. Qed.
Lemma rep_err c n : 2 ^ 63 <= n -> rep c n = Err.
Proof. intros H. unfold rep. rewrite (proj2 (Z.ltb_ge _ _)) by lia. auto. Qed.
Lemma w64_id x : 0 <= x < 2 ^ 64 -> w64 x = x.
Proof. apply Z.mod_small. Qed.
Lemma w64_neg x : - 2 ^ 63 <= x < 0 -> 2 ^ 63 <= w64 x.
Proof. intros H. unfold w64. rewrite <- (Z_mod_plus_full x 1), Z.mod_small; lia. Qed.

Lemma visible_app a b : visible (a ++ b) = visible a ++ visible b.
Proof. apply flat_map_app. Qed.

Lemma columns_step bb rs cntr cmn cols col colors a anchors f fillers : 0 <= cntr < 2 ^ 33 -> 0 <= width cmn < 2 ^ 31 -> - 2 ^ 31 < a < 2 ^ 31 ->
  0 <= f < 128 ->
  (~ ((a <= 0 -> cntr + (if f =? colon then 2 else 0) <= - a) /\ (0 < a -> cntr + width cmn <= a)) ->
   columns_from bb rs cntr (cmn :: cols) (col :: colors) (a :: anchors) (f :: fillers) = Err) /\
  ((a <= 0 -> cntr + (if f =? colon then 2 else 0) <= - a) /\ (0 < a -> cntr + width cmn <= a) ->
   exists left, width left = (if a <=? 0 then - a else a - width cmn) - cntr /\
   columns_from bb rs cntr (cmn :: cols) (col :: colors) (a :: anchors) (f :: fillers) =
   rbind (columns_from bb rs (if a <=? 0 then - a + width cmn else a) cols colors anchors fillers)
     (fun rest => Ok ([Ctl bb; Text left; Ctl col; Text cmn; Ctl rs] ++ rest))).
Proof.
  intros Hc Hw Ha Hf. cbn [columns_from]. rewrite strlen_width.
  destruct (Z.leb_spec a 0) as [A|A].
  - replace (if a <? 0 then - a else a) with (- a) by (destruct (Z.ltb_spec a 0); lia).
    destruct (Z.eqb_spec f colon) as [->|F].
    + split; intros H.
      * rewrite rep_err; auto. apply w64_neg. lia.
      * destruct H as [H _]. specialize (H A). rewrite rep_ok by (rewrite w64_id by lia; lia). cbn [rbind fst snd].
        exists ([space; colon] ++ repeat space (Z.to_nat (w64 (- a - cntr - 2)))). split.
        { rewrite width_app, width_repeat by (unfold space; lia). rewrite w64_id by lia. rewrite Z2Nat.id by lia. change (width [space; colon]) with 2. lia. }
        rewrite (w64_id (- a - cntr)) by lia. rewrite (w64_id (cntr + (- a - cntr))) by lia. rewrite w64_id by lia.
        replace (cntr + (- a - cntr) + width cmn) with (- a + width cmn) by lia. auto.
    + split; intros H.
      * rewrite rep_err; auto. apply w64_neg. lia.
      * destruct H as [H _]. specialize (H A). rewrite rep_ok by (rewrite w64_id by lia; lia). cbn [rbind fst snd].
        exists (repeat f (Z.to_nat (w64 (- a - cntr)))). split.
        { rewrite width_repeat by lia. rewrite w64_id by lia. rewrite Z2Nat.id by lia. lia. }
        rewrite (w64_id (- a - cntr)) by lia. rewrite (w64_id (cntr + (- a - cntr))) by lia. rewrite w64_id by lia.
        replace (cntr + (- a - cntr) + width cmn) with (- a + width cmn) by lia. auto.
  - replace (if a <? 0 then - a else a) with a by (destruct (Z.ltb_spec a 0); lia).
    split; intros H.
    + rewrite rep_err; auto. apply w64_neg. lia.
    + destruct H as [_ H]. specialize (H A). rewrite rep_ok by (rewrite w64_id by lia; lia). cbn [rbind fst snd].
      exists (repeat f (Z.to_nat (w64 (a - cntr - width cmn)))). split.
      { rewrite width_repeat by lia. rewrite w64_id by lia. rewrite Z2Nat.id by lia. lia. }
      rewrite (w64_id (a - cntr - width cmn)) by lia. rewrite (w64_id (cntr + (a - cntr - width cmn))) by lia. rewrite w64_id by lia.
      replace (cntr + (a - cntr - width cmn) + width cmn) with a by lia. auto.
Qed.

Lemma columns_ok bb rs columns : forall cntr colors anchors fillers, 0 <= cntr < 2 ^ 33 ->
  length colors = length columns -> length anchors = length columns -> length fillers = length columns ->
  sane columns anchors fillers ->
  (fits cntr (map width columns) anchors fillers -> exists t, columns_from bb rs cntr columns colors anchors fillers = Ok t /\
     forall before, width before = cntr -> forall i col a, nth_error columns i = Some col -> nth_error anchors i = Some a -> forall after,
       at_anchor (before ++ visible t ++ after) col a) /\
  (~ fits cntr (map width columns) anchors fillers -> columns_from bb rs cntr columns colors anchors fillers = Err).
Proof.
  induction columns as [|c cs IH]; intros cntr colors anchors fillers Hc L1 L2 L3 S.
  - split; [|intros N; destruct N; exact I]. intros _. exists []. split; auto. intros before _ [|i]; discriminate.
  - destruct colors as [|col colors], anchors as [|a anchors], fillers as [|f fillers]; try discriminate. destruct S as (S1 & S2 & S3).
    inversion S1; inversion S2; inversion S3; subst. cbn in L1, L2, L3. pose proof (width_range c) as Wc.
    destruct (columns_step bb rs cntr c cs col colors a anchors f fillers Hc ltac:(lia) ltac:(lia) ltac:(lia)) as [E1 E2].
    cbn [map fits].
    assert (Hn : (a <= 0 -> cntr + (if f =? colon then 2 else 0) <= - a) /\ (0 < a -> cntr + width c <= a) ->
      0 <= (if a <=? 0 then - a + width c else a) < 2 ^ 33) by (destruct (Z.leb_spec a 0); lia).
    assert (D : ((a <= 0 -> cntr + (if f =? colon then 2 else 0) <= - a) /\ (0 < a -> cntr + width c <= a)) \/
      ~ ((a <= 0 -> cntr + (if f =? colon then 2 else 0) <= - a) /\ (0 < a -> cntr + width c <= a))) by (destruct (f =? colon); lia).
    assert (FF : ((a <= 0 -> cntr + (if f =? colon then 2 else 0) <= - a /\ fits (- a + width c) (map width cs) anchors fillers) /\
      (0 < a -> cntr + width c <= a /\ fits a (map width cs) anchors fillers)) <->
      (((a <= 0 -> cntr + (if f =? colon then 2 else 0) <= - a) /\ (0 < a -> cntr + width c <= a)) /\
       fits (if a <=? 0 then - a + width c else a) (map width cs) anchors fillers)).
    { destruct (Z.leb_spec a 0) as [A|A]; split.
      - intros [X _]. destruct (X A). repeat split; auto; lia.
      - intros [[X _] Y]. split; [auto|lia].
      - intros [_ X]. destruct (X A). repeat split; auto; lia.
      - intros [[_ X] Y]. split; [lia|auto]. }
    rewrite FF. clear FF. destruct D as [D|D].
    + destruct (E2 D) as (left & WL & ->). destruct (IH _ colors anchors fillers (Hn D)) as [I1 I2]; try lia; [split; auto|].
      split.
      * intros [_ F]. destruct (I1 F) as (t & -> & T). cbn [rbind]. eexists. split; [reflexivity|].
        intros before B i col' a' Ec Ea after. destruct i as [|i]; cbn in Ec, Ea.
        -- injection Ec as <-. injection Ea as <-. exists (before ++ left), (visible t ++ after). split.
           { rewrite visible_app. cbn [visible flat_map]. rewrite app_nil_r. rewrite <- !app_assoc. cbn [app]. auto. }
           rewrite !strlen_width, !width_app, B, WL. destruct (Z.leb_spec a 0); lia.
        -- specialize (T (before ++ left ++ c)). rewrite !width_app, B, WL in T.
           assert (at_anchor ((before ++ left ++ c) ++ visible t ++ after) col' a') as Q.
           { apply (T ltac:(destruct (Z.leb_spec a 0); lia) i); auto. }
           rewrite visible_app. cbn [visible flat_map app]. rewrite app_nil_r. rewrite <- !app_assoc in *. exact Q.
      * intros N. rewrite I2; auto.
    + split; [intros [F _]; contradiction|]. intros _. auto.
Qed.

Lemma widths_strlen columns : map strlen_utf8 columns = map width columns.
Proof. apply map_ext. apply strlen_width. Qed.

Theorem table_ok columns colors anchors fillers bb rs :
  length colors = length columns -> length anchors = length columns -> length fillers = length columns ->
  sane columns anchors fillers -> fits 0 (map strlen_utf8 columns) anchors fillers ->
  exists t, aligned_table columns colors anchors fillers bb rs = Ok t /\
    forall i col a, nth_error columns i = Some col -> nth_error anchors i = Some a -> at_anchor (visible t) col a.
Proof.
  intros L1 L2 L3 S F. rewrite widths_strlen in F.
  destruct (proj1 (columns_ok bb rs columns 0 colors anchors fillers ltac:(lia) L1 L2 L3 S) F) as (t & E & T).
  unfold aligned_table. rewrite E. cbn [rbind]. eexists. split; [reflexivity|]. intros i col a Ec Ea.
  specialize (T [] eq_refl i col a Ec Ea [10]). rewrite !visible_app. exact T.
Qed.
Theorem table_throws columns colors anchors fillers bb rs :
  length colors = length columns -> length anchors = length columns -> length fillers = length columns ->
  sane columns anchors fillers -> ~ fits 0 (map strlen_utf8 columns) anchors fillers ->
  aligned_table columns colors anchors fillers bb rs = Err.
Proof.
  intros L1 L2 L3 S F. rewrite widths_strlen in F.
  unfold aligned_table. rewrite (proj2 (columns_ok bb rs columns 0 colors anchors fillers ltac:(lia) L1 L2 L3 S) F). auto.
Qed.

Lemma table_iff columns colors anchors fillers bb rs :
  length colors = length columns -> length anchors = length columns -> length fillers = length columns ->
  sane columns anchors fillers ->
  (fits 0 (map strlen_utf8 columns) anchors fillers -> exists t, aligned_table columns colors anchors fillers bb rs = Ok t).
Proof. intros L1 L2 L3 S F. destruct (table_ok columns colors anchors fillers bb rs L1 L2 L3 S F) as (t & E & _). eauto. Qed.

(** The rows of the report. *)
Lemma species_sane head label count pct : short head -> short label -> short count -> short pct -> 
  sane [species_text head label; count; pct ++ [37]] [-2; 37; 45] [space; 46; space].
Proof.
  unfold short, sane, species_text. intros. repeat split; repeat constructor; rewrite ?app_length; cbn [length]; unfold space; lia.
Qed.
Lemma species_fits head label count pct : strlen_utf8 head = 12 -> strlen_utf8 pct <= 7 ->
  fits 0 (map strlen_utf8 [species_text head label; count; pct ++ [37]]) [-2; 37; 45] [space; 46; space] <->
  strlen_utf8 label + strlen_utf8 count <= 22.
Proof.
  rewrite !strlen_width. intros H P. cbn [map fits]. rewrite !strlen_width. unfold species_text. rewrite !width_app, H.
  change (width [41]) with 1. change (width [37]) with 1. change (space =? colon) with false. change (46 =? colon) with false. lia.
Qed.

Theorem species_row_ok head label count pct colors bb rs :
  short head -> short label -> short count -> short pct -> strlen_utf8 head = 12 -> strlen_utf8 pct <= 7 -> length colors = 3%nat ->
  (exists t, species_row head label count pct colors bb rs = Ok t) <-> strlen_utf8 label + strlen_utf8 count <= 22.
Proof.
  intros S1 S2 S3 S4 H P C. unfold species_row. pose proof (species_sane head label count pct S1 S2 S3 S4) as S.
  pose proof (species_fits head label count pct H P) as F. split.
  - intros [t E]. destruct (Z_le_gt_dec (strlen_utf8 label + strlen_utf8 count) 22) as [|N]; auto. exfalso.
    rewrite table_throws in E; auto; [discriminate|]. rewrite F. lia.
  - intros L. apply F in L. apply table_iff; auto.
Qed.
Theorem species_row_throws head label count pct colors bb rs :
  short head -> short label -> short count -> short pct -> strlen_utf8 head = 12 -> strlen_utf8 pct <= 7 -> length colors = 3%nat ->
  22 < strlen_utf8 label + strlen_utf8 count -> species_row head label count pct colors bb rs = Err.
Proof.
  intros S1 S2 S3 S4 H P C L. apply table_throws; auto; [apply species_sane; auto|]. rewrite species_fits by auto. lia.
Qed.

Lemma species_mpi_fits head label count p q m n : strlen_utf8 head = 12 -> strlen_utf8 p <= 7 -> strlen_utf8 q + strlen_utf8 m <= 14 ->
  fits 0 (map strlen_utf8 [species_text head label; count; p ++ [37]; q ++ [37]; m; n])
    [-2; 37; 45; -48; 63; -66] [space; 46; space; colon; space; colon] <->
  strlen_utf8 label + strlen_utf8 count <= 22.
Proof.
  rewrite !strlen_width. intros H P Q. cbn [map fits]. rewrite !strlen_width. unfold species_text. rewrite !width_app, H.
  change (width [41]) with 1. change (width [37]) with 1. change (space =? colon) with false. change (46 =? colon) with false. change (colon =? colon) with true.
  cbn [fits]. pose proof (width_range q). pose proof (width_range m). lia.
Qed.
Theorem species_row_mpi_ok head label count p q m n colors bb rs :
  Forall short [head; label; count; p; q; m; n] -> strlen_utf8 head = 12 -> strlen_utf8 p <= 7 ->
  strlen_utf8 q + strlen_utf8 m <= 14 -> length colors = 6%nat ->
  (exists t, species_row_mpi head label count p q m n colors bb rs = Ok t) <-> strlen_utf8 label + strlen_utf8 count <= 22.
Proof.
  intros S0 H P Q C. unfold species_row_mpi.
  assert (S : sane [species_text head label; count; p ++ [37]; q ++ [37]; m; n] [-2; 37; 45; -48; 63; -66] [space; 46; space; colon; space; colon]).
  { repeat match goal with H : Forall short _ |- _ => inversion H; clear H; subst end.
    unfold short, sane, species_text in *. repeat split; repeat constructor; rewrite ?app_length; cbn [length]; unfold space, colon; lia. }
  pose proof (species_mpi_fits head label count p q m n H P Q) as F. split.
  - intros [t E]. destruct (Z_le_gt_dec (strlen_utf8 label + strlen_utf8 count) 22) as [|N]; auto. exfalso.
    rewrite table_throws in E; auto; [discriminate|]. rewrite F. lia.
  - intros L. apply F in L. apply table_iff; auto.
Qed.

Theorem step_row_ok name value more colors bb rs :
  Forall short [name; value; more] -> strlen_utf8 name = 5 -> length colors = 3%nat ->
  (exists t, step_row name value more colors bb rs = Ok t) <-> strlen_utf8 value <= 26.
Proof.
  intros S0 H C. unfold step_row.
  assert (S : sane [name; value; more] [0; -6; -32] [space; space; 46]).
  { repeat match goal with H : Forall short _ |- _ => inversion H; clear H; subst end.
    unfold short, sane in *. repeat split; repeat constructor; unfold space; lia. }
  assert (F : fits 0 (map strlen_utf8 [name; value; more]) [0; -6; -32] [space; space; 46] <-> strlen_utf8 value <= 26).
  { cbn [map fits]. change (space =? colon) with false. change (46 =? colon) with false. rewrite H. lia. }
  split.
  - intros [t E]. destruct (Z_le_gt_dec (strlen_utf8 value) 26) as [|N]; auto. exfalso.
    rewrite table_throws in E; auto; [discriminate|]. rewrite F. lia.
  - intros L. apply F in L. apply table_iff; auto.
Qed.
