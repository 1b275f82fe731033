(** Proofs about the particle exchange, one rank at a time. *)
From Coq Require Import ZArith List Bool Arith Lia Permutation.
From Verif Require Import Base ListLemmas DecompModel DirsModel PrtlModel PrtlSpec PrtlProofs PrtlCommModel.
Import ListNotations.

(** ** Buffer layout *)
Definition slot (a : attr) : grp * nat :=
  match a with
  | I d => (GInt, 2 * (d - 1)) | Iprev d => (GInt, 2 * (d - 1) + 1)
  | Dx d => (GDx, 2 * (d - 1)) | Dxprev d => (GDx, 2 * (d - 1) + 1)
  | Ux d => (GReal, d - 1) | Weight => (GReal, 3) | Phi => (GReal, 4)
  | PldR l => (GPldR, l) | PldI l => (GPldI, l)
  end.
Definition attr_of (g : grp) (k : nat) : attr :=
  match g with
  | GInt => nth k [I 1; Iprev 1; I 2; Iprev 2; I 3; Iprev 3] Weight
  | GDx => nth k [Dx 1; Dxprev 1; Dx 2; Dxprev 2; Dx 3; Dxprev 3] Weight
  | GReal => nth k [Ux 1; Ux 2; Ux 3; Weight; Phi] Weight
  | GPldR => PldR k
  | GPldI => PldI k
  end.
Definition good (c : cfg) (x : grp * nat * attr) : Prop :=
  let '(g, k, a) := x in slot a = (g, k) /\ attr_of g k = a /\ k < width c g /\ In a (attrs c).

Lemma layout_good : forall c, Forall (good c) (pack_layout c).
Proof.
  intros c. unfold pack_layout.
  assert (A : forall d l, In l (if ge_dim c d then [I d; Dx d; Iprev d; Dxprev d] else []) -> d = 1 \/ d = 2 \/ d = 3 -> In l (attrs c)).
  { intros d l Hl [->|[->| ->]]; unfold attrs, when; rewrite !in_app_iff; tauto. }
  assert (X : forall l, (In l [Ux 1; Ux 2; Ux 3; Weight] \/ (has_phi c = true /\ l = Phi)) -> In l (attrs c)).
  { intros l [Hl|[E ->]]; unfold attrs; rewrite !in_app_iff; [tauto|]. rewrite E. cbn. tauto. }
  rewrite !Forall_app. split; [|split; [|split; [|split; [|split; [|split]]]]].
  - destruct (ge_dim c 1) eqn:E; cbn [when]; [|constructor]. pose proof (A 1) as A1. rewrite E in A1.
    apply Nat.leb_le in E.
    repeat apply Forall_cons; try apply Forall_nil; (repeat split; [cbn; lia|apply A1; cbn; auto 10]).
  - destruct (ge_dim c 2) eqn:E; cbn [when]; [|constructor]. pose proof (A 2) as A1. rewrite E in A1.
    apply Nat.leb_le in E.
    repeat apply Forall_cons; try apply Forall_nil; (repeat split; [cbn; lia|apply A1; cbn; auto 10]).
  - destruct (ge_dim c 3) eqn:E; cbn [when]; [|constructor]. pose proof (A 3) as A1. rewrite E in A1.
    apply Nat.leb_le in E.
    repeat apply Forall_cons; try apply Forall_nil; (repeat split; [cbn; lia|apply A1; cbn; auto 10]).
  - repeat apply Forall_cons; try apply Forall_nil; (repeat split; [cbn; destruct (has_phi c); lia|apply X; cbn; auto 10]).
  - destruct (has_phi c) eqn:E; cbn [when]; [|constructor].
    repeat apply Forall_cons; try apply Forall_nil; (repeat split; [cbn; rewrite E; lia|apply X; auto]).
  - apply Forall_forall. intros x Hx. apply in_map_iff in Hx. destruct Hx as (l & <- & Hl). apply in_seq in Hl.
    repeat split; [cbn; lia|]. unfold attrs. rewrite !in_app_iff, !in_map_iff.
    do 4 right. left. exists l. split; [reflexivity|apply in_seq; lia].
  - apply Forall_forall. intros x Hx. apply in_map_iff in Hx. destruct Hx as (l & <- & Hl). apply in_seq in Hl.
    repeat split; [cbn; lia|]. unfold attrs. rewrite !in_app_iff, !in_map_iff.
    do 5 right. left. exists l. split; [reflexivity|apply in_seq; lia].
Qed.

Lemma layout_covers : forall c a, In a (attrs c) -> exists g k, In (g, k, a) (pack_layout c).
Proof.
  intros c a H. exists (fst (slot a)), (snd (slot a)).
  unfold attrs in H. unfold pack_layout. rewrite !in_app_iff in *. rewrite !in_map_iff in *.
  unfold when in *.
  destruct H as [H|[H|[H|[H|[H|[H|H]]]]]].
  - left. destruct (ge_dim c 1); [|contradiction]. cbn in *. intuition (subst; cbn; auto).
  - right; left. destruct (ge_dim c 2); [|contradiction]. cbn in *. intuition (subst; cbn; auto).
  - do 2 right; left. destruct (ge_dim c 3); [|contradiction]. cbn in *. intuition (subst; cbn; auto).
  - do 3 right; left. cbn in *. intuition (subst; cbn; auto).
  - do 5 right; left. destruct H as (l & <- & Hl). exists l. auto.
  - do 6 right. destruct H as (l & <- & Hl). exists l. auto.
  - do 4 right; left. destruct (has_phi c); [|contradiction]. cbn in *. intuition (subst; cbn; auto).
Qed.

Lemma layouts_agree : forall c, unpack_layout c = pack_layout c.
Proof. reflexivity. Qed.

Lemma cell_index : forall w p k p' k', k < w -> k' < w -> w * p + k = w * p' + k' -> p = p' /\ k = k'.
Proof. intros w p k p' k' H H' E. apply (Nat.div_mod_unique w); assumption. Qed.

(** ** Messages *)
Definition content (s : parts) (p : nat) : attr -> Z := fun a => ar s a p.
Definition carries_n (c : cfg) (n : nat) (b : buffers) (vs : list (attr -> Z)) : Prop :=
  n = length vs /\ forall p f, nth_error vs p = Some f -> forall g k a, In (g, k, a) (pack_layout c) -> b g (width c g * p + k) = f a.
Definition carries (c : cfg) (m : message) (vs : list (attr -> Z)) : Prop := carries_n c (mcount m) (mbuf m) vs.

Lemma put_fold : forall c p (v : attr -> Z) L, Forall (good c) L -> forall b,
  let b' := fold_left (fun b '(g, k, a) => put b g (width c g * p + k) (v a)) L b in
  (forall g k a, In (g, k, a) L -> b' g (width c g * p + k) = v a) /\
  (forall g i, (forall k a, In (g, k, a) L -> i <> width c g * p + k) -> b' g i = b g i).
Proof.
  intros c p v L. induction L as [|[[g0 k0] a0] L IH] using rev_ind; intros F b; cbn.
  - split; [contradiction|reflexivity].
  - apply Forall_app in F. destruct F as [F F0]. inversion F0 as [|? ? G0 _]; subst. destruct G0 as (S0 & A0 & W0 & _).
    rewrite fold_left_app. cbn [fold_left]. specialize (IH F b). cbv zeta in IH. destruct IH as [I1 I2].
    split.
    + intros g k a Hin. unfold put. destruct (grp_eq_dec g g0) as [->|N].
      * destruct (Nat.eqb_spec (width c g0 * p + k) (width c g0 * p + k0)) as [E|N].
        -- assert (k = k0) as -> by lia. apply in_app_iff in Hin. destruct Hin as [Hin|[Hin|[]]]; [|congruence].
           rewrite Forall_forall in F. specialize (F _ Hin). cbn in F. destruct F as (_ & A & _). congruence.
        -- apply in_app_iff in Hin. destruct Hin as [Hin|[Hin|[]]]; [now apply I1|congruence].
      * apply in_app_iff in Hin. destruct Hin as [Hin|[Hin|[]]]; [now apply I1|congruence].
    + intros g i Hi. unfold put. destruct (grp_eq_dec g g0) as [->|N].
      * destruct (Nat.eqb_spec i (width c g0 * p + k0)) as [E|N].
        -- exfalso. apply (Hi k0 a0); [apply in_app_iff; right; now left|assumption].
        -- apply I2. intros k a Hin. apply Hi with a. apply in_app_iff. now left.
      * apply I2. intros k a Hin. apply Hi with a. apply in_app_iff. now left.
Qed.

Lemma populate_ok : forall c outgoing off n order s l, Permutation order (seq 0 n) -> length l = n ->
  (forall p, p < n -> nth_error outgoing (off + p) = nth_error l p) ->
  exists s' b, populate c outgoing off order s = Ok (s', b) /\ carries_n c n b (map (content s) l) /\
  ar s' = ar s /\ np s' = np s /\ maxp s' = maxp s /\
  (forall q, tg s' q = if in_dec Nat.eq_dec q l then 0%Z else tg s q).
Proof.
  intros c outgoing off n order s l HP Hl Ho. unfold populate.
  assert (Hin : forall p, In p order -> p < n).
  { intros p Hp. apply (Permutation_in p HP) in Hp. apply in_seq in Hp. lia. }
  assert (G : forall l1 l2, order = l1 ++ l2 -> exists s' b,
    fold_left (populate_one c outgoing off) l1 (Ok (s, fun _ _ => 0%Z)) = Ok (s', b) /\
    (forall p f, In p l1 -> nth_error l p = Some f -> forall g k a, In (g, k, a) (pack_layout c) ->
       b g (width c g * p + k) = ar s a f) /\
    ar s' = ar s /\ np s' = np s /\ maxp s' = maxp s /\
    (forall q, (exists p, In p l1 /\ nth_error l p = Some q) -> tg s' q = 0%Z) /\
    (forall q, ~ (exists p, In p l1 /\ nth_error l p = Some q) -> tg s' q = tg s q)).
  { induction l1 as [|p l1 IH] using rev_ind; intros l2 E.
    - exists s, (fun _ _ => 0%Z). repeat split; try contradiction. intros q (p & [] & _).
    - rewrite <- app_assoc in E. destruct (IH _ E) as (s1 & b1 & E1 & B & A & N & M & T1 & T2).
      assert (Hp : p < n) by (apply Hin; rewrite E; apply in_app_iff; right; now left).
      rewrite fold_left_app, E1. cbn [fold_left populate_one rbind]. rewrite (Ho p Hp).
      destruct (nth_error l p) as [idx|] eqn:Ei; [|apply nth_error_None in Ei; lia].
      eexists _, _. split; [reflexivity|].
      destruct (put_fold c p (fun a => ar s1 a idx) (pack_layout c) (layout_good c) b1) as [P1 P2].
      split; [|split; [exact A|split; [exact N|split; [exact M|split]]]].
      + intros p' f Hp' Hf g k a Hin'. destruct (Nat.eq_dec p' p) as [->|Np].
        * rewrite (P1 _ _ _ Hin'). rewrite A. congruence.
        * rewrite P2.
          -- apply in_app_iff in Hp'. destruct Hp' as [Hp'|[Hp'|[]]]; [|congruence]. now apply B.
          -- intros k' a' Hin'' C. pose proof (layout_good c) as F. rewrite Forall_forall in F.
             pose proof (F _ Hin') as (_ & _ & W1 & _). pose proof (F _ Hin'') as (_ & _ & W2 & _).
             destruct (cell_index _ _ _ _ _ W1 W2 C). congruence.
      + intros q (p' & Hp' & Hq). cbn [tg with_tg]. unfold upd. destruct (Nat.eqb_spec q idx) as [->|Nq]; [reflexivity|].
        apply T1. apply in_app_iff in Hp'. destruct Hp' as [Hp'|[Hp'|[]]]; [eauto|congruence].
      + intros q Hq. cbn [tg with_tg]. unfold upd. destruct (Nat.eqb_spec q idx) as [->|Nq].
        * elim Hq. exists p. split; [apply in_app_iff; right; now left|assumption].
        * apply T2. intros (p' & Hp' & Hq'). apply Hq. exists p'. split; [apply in_app_iff; now left|assumption]. }
  destruct (G order []) as (s' & b & E & B & A & N & M & T1 & T2); [now rewrite app_nil_r|].
  exists s', b. split; [assumption|]. split; [|split; [exact A|split; [exact N|split; [exact M|]]]].
  - split; [now rewrite map_length|]. intros p f Hf g k a Hin'. rewrite nth_error_map in Hf.
    destruct (nth_error l p) as [idx|] eqn:Ei; [|discriminate]. cbn in Hf. injection Hf as <-.
    apply (B p idx); auto. apply (Permutation_in p (Permutation_sym HP)). apply in_seq.
    assert (p < length l) by (apply nth_error_Some; congruence). lia.
  - intros q. destruct (in_dec Nat.eq_dec q l) as [Hq|Hq].
    + apply T1. apply In_nth_error in Hq. destruct Hq as [p Hp]. exists p. split; [|assumption].
      apply (Permutation_in p (Permutation_sym HP)). apply in_seq.
      assert (p < length l) by (apply nth_error_Some; congruence). lia.
    + apply T2. intros (p & _ & Hp). apply Hq. eapply nth_error_In; eauto.
Qed.

(** ** Preparation *)
Lemma cnt_ge : forall T s t, valid_tags T s = true -> T <= t -> cnt s t = 0.
Proof.
  intros T s t V H. unfold cnt, count. unfold valid_tags in V. rewrite forallb_forall in V.
  rewrite (filter_ext_in' _ (fun _ => false)).
  - generalize (seq 0 (np s)). clear. induction l; cbn; auto.
  - intros p Hp. specialize (V p Hp). apply andb_true_iff in V. rewrite Z.leb_le, Z.ltb_lt in V.
    unfold is_tag. apply Z.eqb_neq. lia.
Qed.

Definition tagged (s : parts) (t : nat) (l : list nat) : list nat := filter (is_tag s (Z.of_nat t)) l.
Definition layout_of (s : parts) (order : list nat) (ts : list nat) : list nat := flat_map (fun t => tagged s t order) ts.

Lemma cnt_tagged : forall s t order, Permutation order (seq 0 (np s)) -> length (tagged s t order) = cnt s t.
Proof. intros. unfold tagged, cnt. now apply count_perm. Qed.

Lemma isbin_tag : forall T s p b, valid_tags T s = true -> p < np s -> b <> 1 -> isbin (out_bin s) b p = is_tag s (Z.of_nat b) p.
Proof.
  intros T s p b V Hp Hb. unfold valid_tags in V. rewrite forallb_forall in V.
  specialize (V p ltac:(apply in_seq; lia)). apply andb_true_iff in V. rewrite Z.leb_le, Z.ltb_lt in V.
  unfold isbin, out_bin, is_tag, alive_tag. destruct (Z.eqb_spec (tg s p) 1) as [E|N].
  - symmetry. apply Z.eqb_neq. lia.
  - destruct (Nat.eqb_spec (Z.to_nat (tg s p)) b); symmetry; [apply Z.eqb_eq|apply Z.eqb_neq]; lia.
Qed.

Lemma flat_map_ext_in {A B} (f g : A -> list B) l : (forall x, In x l -> f x = g x) -> flat_map f l = flat_map g l.
Proof.
  induction l as [|a l IH]; intros H; cbn; [reflexivity|]. rewrite (H a), IH; auto.
  - intros x Hx. apply H. now right.
  - now left.
Qed.

Lemma tag_offset_sum : forall s order, Permutation order (seq 0 (np s)) -> forall j,
  tag_offset s j = length (layout_of s order (seq 2 (S j))).
Proof.
  intros s order HP. induction j as [|j IH].
  - cbn. rewrite app_nil_r. symmetry. now apply cnt_tagged.
  - cbn [tag_offset]. rewrite IH. rewrite (seq_S (S j) 2). unfold layout_of. rewrite flat_map_app, app_length.
    cbn [flat_map]. rewrite app_nil_r. rewrite cnt_tagged by assumption.
    replace (2 + S j) with (S j + 2) by lia. lia.
Qed.

Lemma non_alive_sum : forall s order, Permutation order (seq 0 (np s)) -> forall T, 2 <= T ->
  non_alive T s = length (layout_of s order (0 :: seq 2 (T - 2))).
Proof.
  intros s order HP T HT. unfold non_alive. replace T with (2 + (T - 2)) at 1 by lia. rewrite seq_app. cbn [seq app plus].
  cbn [fold_left Nat.eqb]. unfold layout_of. cbn [flat_map]. rewrite app_length, cnt_tagged by assumption.
  generalize (cnt s 0). generalize (T - 2). clear T HT. intros n.
  assert (G : forall m i a, 2 <= i -> fold_left (fun a t => if Nat.eqb t 1 then a else a + cnt s t) (seq i m) a =
     a + length (flat_map (fun t => tagged s t order) (seq i m))).
  { induction m as [|m IH]; intros i a Hi; cbn; [lia|]. rewrite IH by lia. rewrite app_length, cnt_tagged by assumption.
    rewrite (proj2 (Nat.eqb_neq i 1)) by lia. lia. }
  intros a. rewrite G by lia. f_equal.
Qed.

Lemma prepare_ok : forall c T sh order s, Permutation order (seq 0 (np s)) -> 3 <= T -> valid_tags T s = true ->
  exists s1, prepare c T sh order s = Ok (s1, layout_of s order (0 :: seq 2 (T - 2))) /\
  s1 = fold_left (shift_one c sh) order s.
Proof.
  intros c T sh order s HP HT V. unfold prepare. rewrite V. cbn [negb].
  set (bs := 0 :: seq 2 (T - 2)).
  assert (Hin : forall p, In p order -> p < np s).
  { intros p Hp. apply (Permutation_in p HP) in Hp. apply in_seq in Hp. lia. }
  assert (Hbs : forall b, In b bs -> b <> 1).
  { intros b [<-|Hb]; [discriminate|]. apply in_seq in Hb. lia. }
  assert (EL : forall ts, (forall b, In b ts -> b <> 1) -> flat_map (fun b => filter (isbin (out_bin s) b) order) ts = layout_of s order ts).
  { intros ts Hts. unfold layout_of. apply flat_map_ext_in. intros b Hb. unfold tagged. apply filter_ext_in'.
    intros p Hp. apply (isbin_tag T); auto. }
  destruct (fill_ok (out_bin s) (out_off s) (np s - n_alive T s) bs order) as (cur & E & _).
  - intros p b Hp. unfold out_bin, is_tag, alive_tag. destruct (Z.eqb_spec (tg s p) 1) as [Ea|Na]; [discriminate|].
    intros [= <-]. unfold valid_tags in V. rewrite forallb_forall in V.
    specialize (V p ltac:(apply in_seq; specialize (Hin p Hp); lia)). apply andb_true_iff in V. rewrite Z.leb_le, Z.ltb_lt in V.
    unfold bs. destruct (Z.eq_dec (tg s p) 0) as [->|]; [now left|]. right. apply in_seq. lia.
  - intros pre b post E. rewrite EL by (intros b' Hb'; apply Hbs; unfold bs in *; rewrite E; apply in_app_iff; now left).
    unfold bs in E. destruct pre as [|x pre]; cbn in E; injection E as <- E.
    + reflexivity.
    + assert (Hb : In b (seq 2 (T - 2))) by (rewrite E; apply in_app_iff; right; now left). apply in_seq in Hb.
      unfold layout_of. cbn [flat_map]. rewrite app_length, cnt_tagged by assumption.
      unfold out_off. rewrite (proj2 (Nat.eqb_neq b 0)) by lia. f_equal.
      assert (Epre : pre = seq 2 (b - 2)).
      { clear -E Hb. assert (L : b - 2 = length pre).
        { assert (X : nth_error (seq 2 (T - 2)) (length pre) = Some b) by (rewrite E, nth_error_app2, Nat.sub_diag by lia; reflexivity).
          assert (length pre < T - 2) by (rewrite <- (seq_length (T - 2) 2), E, app_length; cbn; lia).
          apply nth_error_nth with (d := 0) in X. rewrite seq_nth in X by lia. lia. }
        replace (T - 2) with (length pre + (T - 2 - length pre)) in E by (rewrite <- L; lia). rewrite seq_app in E.
        apply (f_equal (firstn (length pre))) in E.
        rewrite <- (seq_length (length pre) 2) in E at 1. rewrite firstn_app, firstn_all, Nat.sub_diag, app_nil_r in E.
        rewrite firstn_app, firstn_all, Nat.sub_diag, app_nil_r in E. rewrite L. now symmetry. }
      rewrite Epre. destruct (Nat.ltb_spec 2 b) as [Hl|Hl].
      * rewrite (tag_offset_sum s order HP). replace (S (b - 3)) with (b - 2) by lia. reflexivity.
      * replace (b - 2) with 0 by lia. reflexivity.
  - rewrite EL by assumption. unfold n_alive. rewrite (non_alive_sum s order HP) by lia. fold bs.
    assert (length (layout_of s order bs) <= np s); [|lia].
    rewrite <- (seq_length (np s) 0). rewrite <- (Permutation_length HP). apply NoDup_incl_length.
    + unfold layout_of. assert (ND : NoDup order) by (eapply Permutation_NoDup; [apply Permutation_sym, HP|apply seq_NoDup]).
      assert (NB : NoDup bs) by (constructor; [rewrite in_seq; lia|apply seq_NoDup]).
      clear -ND NB. induction NB as [|b bs N NB IH]; [constructor|]. cbn [flat_map]. apply NoDup_app_intro; auto.
      * now apply NoDup_filter.
      * intros x Hx Hy. apply filter_In in Hx. apply in_flat_map in Hy. destruct Hy as (b' & Hb' & Hy). apply filter_In in Hy.
        destruct Hx as [_ Hx], Hy as [_ Hy]. unfold is_tag in *. apply Z.eqb_eq in Hx, Hy.
        assert (b = b') by lia. congruence.
    + intros x Hx. apply in_flat_map in Hx. destruct Hx as (b & _ & Hx). now apply filter_In in Hx.
  - rewrite E. cbn [rbind]. eexists. rewrite EL by assumption. split; reflexivity.
Qed.

(** ** Shifts *)
Definition shift_of (c : cfg) (sh : nat -> nat -> Z) (a : attr) (t : nat) : Z :=
  match a with
  | I d | Iprev d => if ge_dim c d && Nat.leb 1 d && Nat.leb d 3 then sh d t else 0%Z
  | _ => 0%Z
  end.

Lemma shift_at_ar : forall p v s a b q, ar (shift_at p v s a) b q =
  if attr_eq_dec b a then (if Nat.eqb q p then ar s a p + v else ar s a q)%Z else ar s b q.
Proof. intros. unfold shift_at, upd_attr, upd. cbn. destruct attr_eq_dec; reflexivity. Qed.

Lemma shift_two : forall (e : bool) p v s d b q,
  ar (if e then shift_at p v (shift_at p v s (I d)) (Iprev d) else s) b q =
  (ar s b q + (if e && Nat.eqb q p then match b with I d' | Iprev d' => if Nat.eqb d' d then v else 0 | _ => 0 end else 0))%Z.
Proof.
  intros e p v s d b q. destruct e; cbn [andb]; [|lia]. rewrite shift_at_ar.
  destruct (attr_eq_dec b (Iprev d)) as [->|N1].
  - rewrite !shift_at_ar. destruct (attr_eq_dec (Iprev d) (I d)); [discriminate|]. rewrite Nat.eqb_refl.
    destruct (Nat.eqb_spec q p) as [->|]; lia.
  - rewrite shift_at_ar. destruct (attr_eq_dec b (I d)) as [->|N2].
    + rewrite Nat.eqb_refl. destruct (Nat.eqb_spec q p) as [->|]; lia.
    + destruct (Nat.eqb q p); [|lia]. destruct b; try lia; destruct (Nat.eqb_spec d0 d) as [->|]; try congruence; lia.
Qed.

Lemma shift_two_rest : forall (e : bool) p v s d,
  let s' := if e then shift_at p v (shift_at p v s (I d)) (Iprev d) else s in
  tg s' = tg s /\ np s' = np s /\ maxp s' = maxp s.
Proof. intros. subst s'. destruct e; cbn; auto. Qed.

Lemma shift_one_ar : forall c sh s p b q, ar (shift_one c sh s p) b q =
  (ar s b q + (if Nat.eqb q p && negb (is_tag s alive_tag p || is_tag s dead_tag p)
               then shift_of c sh b (Z.to_nat (tg s p) - 2) else 0))%Z.
Proof.
  intros. unfold shift_one. destruct (is_tag s alive_tag p || is_tag s dead_tag p); cbn [negb].
  - rewrite andb_false_r. lia.
  - cbv zeta. rewrite !shift_two. rewrite andb_true_r. rewrite <- !Z.add_assoc. f_equal.
    destruct (Nat.eqb q p); [|rewrite !andb_false_r; lia]. rewrite !andb_true_r.
    unfold shift_of. destruct b as [d|d|d|d|d| | |l|l]; try (destruct (ge_dim c 1), (ge_dim c 2), (ge_dim c 3); reflexivity);
    (destruct d as [|[|[|[|d]]]]; cbn [Nat.eqb Nat.leb];
     [ destruct (ge_dim c 0), (ge_dim c 1), (ge_dim c 2), (ge_dim c 3); cbn [andb]; lia
     | destruct (ge_dim c 1), (ge_dim c 2), (ge_dim c 3); cbn [andb]; lia
     | destruct (ge_dim c 1), (ge_dim c 2), (ge_dim c 3); cbn [andb]; lia
     | destruct (ge_dim c 1), (ge_dim c 2), (ge_dim c 3); cbn [andb]; lia
     | destruct (ge_dim c (S (S (S (S d))))), (ge_dim c 1), (ge_dim c 2), (ge_dim c 3); cbn [andb]; lia ]).
Qed.
Lemma shift_one_rest : forall c sh s p, let s' := shift_one c sh s p in tg s' = tg s /\ np s' = np s /\ maxp s' = maxp s.
Proof.
  intros. subst s'. unfold shift_one. destruct (_ || _); [auto|]. cbv zeta.
  destruct (ge_dim c 1), (ge_dim c 2), (ge_dim c 3); cbn; auto.
Qed.

Lemma shift_all : forall c sh order s, NoDup order -> let s' := fold_left (shift_one c sh) order s in
  tg s' = tg s /\ np s' = np s /\ maxp s' = maxp s /\
  forall a q, ar s' a q = (ar s a q + (if in_dec Nat.eq_dec q order then
     (if is_tag s alive_tag q || is_tag s dead_tag q then 0 else shift_of c sh a (Z.to_nat (tg s q) - 2)) else 0))%Z.
Proof.
  intros c sh order. induction order as [|p order IH]; intros s ND; cbn [fold_left].
  - repeat split. intros. cbn. lia.
  - inversion ND as [|? ? Np ND']; subst. destruct (IH (shift_one c sh s p) ND') as (T & N & M & A).
    destruct (shift_one_rest c sh s p) as (T1 & N1 & M1).
    split; [now rewrite T|]. split; [now rewrite N|]. split; [now rewrite M|].
    intros a q. rewrite A, shift_one_ar. unfold is_tag. rewrite T1.
    destruct (Nat.eqb_spec q p) as [->|Nq]; cbn [andb].
    + destruct (in_dec Nat.eq_dec p order); [contradiction|]. destruct (in_dec Nat.eq_dec p (p :: order)) as [_|C]; [|elim C; now left].
      unfold is_tag. destruct (_ || _); cbn [negb]; lia.
    + destruct (in_dec Nat.eq_dec q order) as [Hi|Hi]; destruct (in_dec Nat.eq_dec q (p :: order)) as [Hj|Hj]; try lia.
      * elim Hj. now right.
      * destruct Hj as [C|C]; congruence.
Qed.

(** ** All sends of a rank *)
Lemma layout_nth : forall s order T t k, Permutation order (seq 0 (np s)) -> 2 <= t < T -> k < cnt s t ->
  nth_error (layout_of s order (0 :: seq 2 (T - 2))) (cnt s 0 + (if Nat.ltb 2 t then tag_offset s (t - 3) else 0) + k)
  = nth_error (tagged s t order) k.
Proof.
  intros s order T t k HP Ht Hk. unfold layout_of. cbn [flat_map].
  replace (seq 2 (T - 2)) with (seq 2 (t - 2) ++ t :: seq (S t) (T - t - 1)).
  2:{ replace (T - 2) with ((t - 2) + (T - t)) by lia. rewrite seq_app. f_equal. replace (2 + (t - 2)) with t by lia.
      assert (E : T - t = S (T - t - 1)) by lia. rewrite E at 2. reflexivity. }
  rewrite flat_map_app. cbn [flat_map].
  assert (E : (if Nat.ltb 2 t then tag_offset s (t - 3) else 0) = length (flat_map (fun t => tagged s t order) (seq 2 (t - 2)))).
  { destruct (Nat.ltb_spec 2 t).
    - rewrite (tag_offset_sum s order HP). replace (S (t - 3)) with (t - 2) by lia. reflexivity.
    - replace (t - 2) with 0 by lia. reflexivity. }
  rewrite E. rewrite <- (cnt_tagged s 0 order HP). rewrite <- Nat.add_assoc.
  rewrite nth_error_app2 by lia. rewrite Nat.add_comm, Nat.add_sub.
  rewrite Nat.add_comm. rewrite nth_error_app2 by lia. rewrite Nat.add_sub.
  rewrite nth_error_app1; [reflexivity|]. rewrite cnt_tagged by assumption. lia.
Qed.

Definition tag_ok (T : nat) (dir : list Z) : Prop := exists t, dir2tag dir = Ok (Z.of_nat t) /\ 2 <= t < T.

Lemma send_ok : forall c T order ord s0 s1 dirs, Permutation order (seq 0 (np s0)) -> Forall (tag_ok T) dirs ->
  (forall d n, Permutation (ord d n) (seq 0 n)) -> tg s1 = tg s0 -> np s1 = np s0 -> maxp s1 = maxp s0 ->
  exists s2 ms, fold_left (send_one c s0 (layout_of s0 order (0 :: seq 2 (T - 2))) ord) dirs (Ok (s1, [])) = Ok (s2, ms) /\
  ar s2 = ar s1 /\ np s2 = np s0 /\ maxp s2 = maxp s0 /\
  (forall q, tg s2 q = if in_dec Nat.eq_dec q order then
      (if existsb (fun d => match dir2tag d with Ok t => Z.eqb (tg s0 q) t | _ => false end) dirs then 0%Z else tg s0 q) else tg s0 q) /\
  Forall2 (fun d x => fst x = d /\ exists t, dir2tag d = Ok (Z.of_nat t) /\
             carries c (snd x) (map (content s1) (tagged s0 t order))) dirs ms.
Proof.
  intros c T order ord s0 s1 dirs HP HD HO Et En Em.
  assert (G : forall l1 l2, dirs = l1 ++ l2 -> exists s2 ms,
    fold_left (send_one c s0 (layout_of s0 order (0 :: seq 2 (T - 2))) ord) l1 (Ok (s1, [])) = Ok (s2, ms) /\
    ar s2 = ar s1 /\ np s2 = np s0 /\ maxp s2 = maxp s0 /\
    (forall q, tg s2 q = if in_dec Nat.eq_dec q order then
      (if existsb (fun d => match dir2tag d with Ok t => Z.eqb (tg s0 q) t | _ => false end) l1 then 0%Z else tg s0 q) else tg s0 q) /\
    Forall2 (fun d x => fst x = d /\ exists t, dir2tag d = Ok (Z.of_nat t) /\
             carries c (snd x) (map (content s1) (tagged s0 t order))) l1 ms).
  { induction l1 as [|d l1 IH] using rev_ind; intros l2 E.
    - exists s1, []. cbn. repeat split; auto. intros q. rewrite Et. now destruct in_dec.
    - rewrite <- app_assoc in E. destruct (IH _ E) as (s2 & ms & E2 & A2 & N2 & M2 & T2 & F2).
      assert (Hd : tag_ok T d) by (rewrite Forall_forall in HD; apply HD; rewrite E; apply in_app_iff; right; now left).
      destruct Hd as (t & Hd & Ht).
      rewrite fold_left_app, E2. cbn [fold_left send_one rbind]. rewrite Hd. cbn [rbind]. rewrite Nat2Z.id.
      destruct (populate_ok c (layout_of s0 order (0 :: seq 2 (T - 2))) (cnt s0 0 + (if Nat.ltb 2 t then tag_offset s0 (t - 3) else 0))
        (cnt s0 t) (ord d (cnt s0 t)) s2 (tagged s0 t order)) as (s3 & b & E3 & C3 & A3 & N3 & M3 & T3).
      + apply HO.
      + now apply cnt_tagged.
      + intros p Hp. now apply layout_nth.
      + cbv zeta. rewrite E3. cbn [rbind]. eexists _, _. split; [reflexivity|].
        split; [congruence|]. split; [congruence|]. split; [congruence|]. split.
        * intros q. rewrite T3, T2. rewrite existsb_app. cbn [existsb]. rewrite Hd, orb_false_r.
          destruct (in_dec Nat.eq_dec q (tagged s0 t order)) as [Hq|Hq].
          -- apply filter_In in Hq. destruct Hq as [Hq Hq']. unfold is_tag in Hq'. rewrite Hq', orb_true_r.
             destruct in_dec; [reflexivity|contradiction].
          -- destruct (in_dec Nat.eq_dec q order) as [Ho|Ho]; [|reflexivity].
             replace (Z.eqb (tg s0 q) (Z.of_nat t)) with false; [now rewrite orb_false_r|].
             symmetry. destruct (Z.eqb (tg s0 q) (Z.of_nat t)) eqn:Eq; [|reflexivity].
             elim Hq. apply filter_In. auto.
        * apply Forall2_app; [assumption|]. constructor; [|constructor]. cbn. split; [reflexivity|].
          exists t. split; [assumption|]. unfold carries. cbn.
          replace (map (content s1) (tagged s0 t order)) with (map (content s2) (tagged s0 t order)); [assumption|].
          unfold content. now rewrite A2. }
  apply (G dirs []). now rewrite app_nil_r.
Qed.

(** ** Receives *)
Lemma store_carries : forall c cur b vs n m vs', carries_n c cur b vs -> carries_n c n m vs' ->
  carries_n c (cur + n) (store c b cur n m) (vs ++ vs').
Proof.
  intros c cur b vs n m vs' [L1 B1] [L2 B2]. split; [rewrite app_length; lia|].
  intros p f Hf g k a Hin. pose proof (layout_good c) as F. rewrite Forall_forall in F.
  pose proof (F _ Hin) as (_ & _ & W & _). unfold store.
  assert (Hp : p < cur + n) by (rewrite L1, L2, <- app_length; apply nth_error_Some; congruence).
  destruct (le_lt_dec cur p) as [C|C].
  - rewrite (proj2 (Nat.leb_le _ _)) by nia. rewrite (proj2 (Nat.ltb_lt _ _)) by nia. cbn [andb].
    rewrite nth_error_app2 in Hf by lia. rewrite <- L1 in Hf.
    replace (width c g * p + k - cur * width c g) with (width c g * (p - cur) + k) by nia.
    now apply (B2 _ _ Hf).
  - rewrite (proj2 (Nat.leb_gt _ _)) by nia. cbn [andb].
    rewrite nth_error_app1 in Hf by lia. now apply (B1 _ _ Hf).
Qed.

Definition inc_ok (c : cfg) (inc : list Z -> option message) (vsd : list Z -> list (attr -> Z)) (dir : list Z) : Prop :=
  match inc dir with Some m => carries c m (vsd dir) | None => vsd dir = [] end.

Lemma sum_upd : forall vec j n m a, vec j = 0 ->
  fold_left (fun a t => a + upd vec j n t) (seq m a) 0 = fold_left (fun a t => a + vec t) (seq m a) 0 + (if Nat.leb m j && Nat.ltb j (m + a) then n else 0).
Proof.
  intros vec j n m a Hj.
  assert (G : forall a m x y, fold_left (fun a t => a + upd vec j n t) (seq m a) (x + y) =
     fold_left (fun a t => a + vec t) (seq m a) x + y + (if Nat.leb m j && Nat.ltb j (m + a) then n else 0)).
  { clear a m. induction a as [|a IH]; intros m x y; cbn [seq fold_left].
    - rewrite Nat.add_0_r. destruct (Nat.leb_spec m j), (Nat.ltb_spec j m); cbn; lia.
    - unfold upd at 2. destruct (Nat.eqb_spec m j) as [->|N].
      + rewrite Hj, Nat.add_0_r. replace (x + y + n) with (x + (y + n)) by lia. rewrite IH.
        destruct (Nat.leb_spec (S j) j); [lia|]. cbn [andb].
        rewrite (proj2 (Nat.leb_le j j)) by lia. rewrite (proj2 (Nat.ltb_lt _ _)) by lia. cbn. lia.
      + replace (x + y + vec m) with ((x + vec m) + y) by lia. rewrite IH. f_equal.
        replace (S m + a) with (m + S a) by lia.
        destruct (Nat.leb_spec (S m) j), (Nat.leb_spec m j); cbn [andb]; try reflexivity; lia. }
  specialize (G a m 0 0). cbn [plus] in G. rewrite G. lia.
Qed.

Lemma recv_counts : forall c T inc vsd s dirs, NoDup dirs ->
  Forall (fun d => tag_ok T (opp_dir d)) dirs ->
  (forall d d', In d dirs -> In d' dirs -> dir2tag (opp_dir d) = dir2tag (opp_dir d') -> d = d') ->
  Forall (inc_ok c inc vsd) dirs ->
  let R := length (flat_map vsd dirs) in np s + R < maxp s ->
  exists vec, fold_left (recv_count s inc) dirs (Ok (fun _ => 0, 0)) = Ok (vec, R) /\
    fold_left (fun a t => a + vec t) (seq 0 (T - 2)) 0 = R /\
    (forall d t, In d dirs -> dir2tag (opp_dir d) = Ok (Z.of_nat t) -> vec (t - 2) = length (vsd d)).
Proof.
  intros c T inc vsd s dirs ND HT Inj HI R HR.
  assert (G : forall l1 l2, dirs = l1 ++ l2 -> exists vec,
    fold_left (recv_count s inc) l1 (Ok (fun _ => 0, 0)) = Ok (vec, length (flat_map vsd l1)) /\
    fold_left (fun a t => a + vec t) (seq 0 (T - 2)) 0 = length (flat_map vsd l1) /\
    (forall d t, In d l1 -> dir2tag (opp_dir d) = Ok (Z.of_nat t) -> vec (t - 2) = length (vsd d)) /\
    (forall j, (forall d, In d l1 -> dir2tag (opp_dir d) <> Ok (Z.of_nat (j + 2))) -> vec j = 0)).
  { induction l1 as [|d l1 IH] using rev_ind; intros l2 E.
    - exists (fun _ => 0). cbn. repeat split; try contradiction.
      generalize (seq 0 (T - 2)). clear. induction l; cbn; auto.
    - pose proof E as E0. rewrite <- app_assoc in E. destruct (IH _ E) as (vec & E1 & S1 & V1 & Z1).
      assert (Hd : In d dirs) by (rewrite E; apply in_app_iff; right; now left).
      rewrite Forall_forall in HT, HI. destruct (HT d Hd) as (t & Ht & Hb). pose proof (HI d Hd) as Hi.
      assert (Hn : nrecv_of inc d = length (vsd d)).
      { unfold inc_ok in Hi. unfold nrecv_of. destruct (inc d) as [m|]; [apply Hi|now rewrite Hi]. }
      assert (Hle : length (flat_map vsd l1) + length (vsd d) <= R).
      { unfold R. rewrite E. rewrite flat_map_app. cbn. rewrite !app_length. lia. }
      assert (Nd : forall d', In d' l1 -> dir2tag (opp_dir d') <> dir2tag (opp_dir d)).
      { intros d' Hd' C. assert (d' = d) by (apply Inj; auto; rewrite E; apply in_app_iff; now left). subst d'.
        rewrite E in ND. apply NoDup_remove_2 in ND. apply ND. apply in_app_iff. now left. }
      assert (Z0 : vec (t - 2) = 0).
      { apply Z1. intros d' Hd' C. apply (Nd d' Hd'). rewrite C, Ht. do 2 f_equal. lia. }
      rewrite fold_left_app, E1. cbn [fold_left recv_count rbind]. rewrite Ht. cbn [rbind]. rewrite Hn, Nat2Z.id.
      rewrite (proj2 (Nat.leb_gt _ _)) by lia.
      eexists. split; [rewrite flat_map_app, app_length; cbn; rewrite app_nil_r; reflexivity|]. split; [|split].
      + rewrite sum_upd by assumption. rewrite S1. rewrite (proj2 (Nat.leb_le 0 (t - 2))) by lia.
        rewrite (proj2 (Nat.ltb_lt _ _)) by lia. cbn [andb]. rewrite flat_map_app, app_length. cbn. now rewrite app_nil_r.
      + intros d' t' Hd' Ht'. unfold upd. apply in_app_iff in Hd'. destruct Hd' as [Hd'|[<-|[]]].
        * destruct (Nat.eqb_spec (t' - 2) (t - 2)) as [C|C]; [|now apply V1].
          exfalso. apply (Nd d' Hd'). rewrite Ht, Ht'.
          assert (2 <= t'). { destruct (HT d') as (t'' & Q & Q'); [rewrite E; apply in_app_iff; now left|].
            rewrite Ht' in Q. injection Q as Q. apply Nat2Z.inj in Q. lia. }
          do 2 f_equal. lia.
        * rewrite Ht in Ht'. injection Ht' as Ht'. apply Nat2Z.inj in Ht'. subst t'. now rewrite Nat.eqb_refl.
      + intros j Hj. unfold upd. destruct (Nat.eqb_spec j (t - 2)) as [->|N].
        * exfalso. apply (Hj d); [apply in_app_iff; right; now left|]. rewrite Ht. do 2 f_equal. lia.
        * apply Z1. intros d' Hd'. apply Hj. apply in_app_iff. now left. }
  destruct (G dirs []) as (vec & A & B & C & _); [now rewrite app_nil_r|]. exists vec. auto.
Qed.

Lemma recv_buffers : forall c T inc vsd vec dirs,
  Forall (fun d => tag_ok T (opp_dir d)) dirs -> Forall (inc_ok c inc vsd) dirs ->
  (forall d t, In d dirs -> dir2tag (opp_dir d) = Ok (Z.of_nat t) -> vec (t - 2) = length (vsd d)) ->
  exists b, fold_left (recv_one c vec inc) dirs (Ok (0, fun _ _ => 0%Z)) = Ok (length (flat_map vsd dirs), b) /\
    carries_n c (length (flat_map vsd dirs)) b (flat_map vsd dirs).
Proof.
  intros c T inc vsd vec dirs HT HI HV.
  induction dirs as [|d l1 IH] using rev_ind.
  - eexists. split; [reflexivity|]. split; [reflexivity|]. intros p f Hf. destruct p; discriminate.
  - apply Forall_app in HT, HI. destruct HT as [HT HTd], HI as [HI HId]. inversion HTd as [|? ? (t & Ht & Hb) _]; subst.
    inversion HId as [|? ? Hd _]; subst.
    destruct (IH HT HI) as (b & E & C). { intros d' t' Hd'. apply HV. apply in_app_iff. now left. }
    rewrite fold_left_app, E. cbn [fold_left recv_one rbind]. rewrite Ht. cbn [rbind]. rewrite Nat2Z.id.
    rewrite (HV d t) by (auto; apply in_app_iff; right; now left).
    rewrite flat_map_app, app_length. cbn [flat_map]. rewrite app_nil_r.
    eexists. split; [reflexivity|]. unfold inc_ok in Hd. destruct (inc d) as [m|].
    + assert (Ln : mcount m = length (vsd d)) by apply Hd. unfold carries in Hd. rewrite Ln in Hd. now apply store_carries.
    + rewrite Hd. cbn [length]. now rewrite Nat.add_0_r, app_nil_r.
Qed.

Lemma upd_eq {V} (f : nat -> V) i v : upd f i v i = v.
Proof. unfold upd. now rewrite Nat.eqb_refl. Qed.
Lemma upd_neq {V} (f : nat -> V) i v j : j <> i -> upd f i v j = f j.
Proof. intros H. unfold upd. now rewrite (proj2 (Nat.eqb_neq j i)). Qed.

Lemma unpack_fold : forall c idx (v : grp -> nat -> Z) L, Forall (good c) L -> forall s,
  let s' := fold_left (fun s '(g, k, a) => with_ar s (upd_attr (ar s) a (upd (ar s a) idx (v g k)))) L s in
  tg s' = tg s /\ np s' = np s /\ maxp s' = maxp s /\
  (forall g k a, In (g, k, a) L -> ar s' a idx = v g k) /\
  (forall a q, q <> idx -> ar s' a q = ar s a q).
Proof.
  intros c idx v L. induction L as [|[[g0 k0] a0] L IH] using rev_ind; intros F s; cbn.
  - repeat split; contradiction.
  - apply Forall_app in F. destruct F as [F F0]. inversion F0 as [|? ? G0 _]; subst. destruct G0 as (S0 & A0 & W0 & _).
    rewrite fold_left_app. cbn [fold_left]. specialize (IH F s). cbv zeta in IH. destruct IH as (T & N & M & I1 & I2).
    cbn [tg np maxp ar with_ar]. split; [assumption|]. split; [assumption|]. split; [assumption|]. split.
    + intros g k a Hin. unfold upd_attr, upd. destruct (attr_eq_dec a a0) as [->|Na].
      * rewrite Nat.eqb_refl. apply in_app_iff in Hin. destruct Hin as [Hin|[Hin|[]]]; [|congruence].
        rewrite Forall_forall in F. specialize (F _ Hin). cbn in F. destruct F as (S1 & _). congruence.
      * apply in_app_iff in Hin. destruct Hin as [Hin|[Hin|[]]]; [now apply I1 with (1 := Hin)|congruence].
    + intros a q Hq. unfold upd_attr, upd. destruct (attr_eq_dec a a0) as [->|Na]; [|now apply I2].
      rewrite (proj2 (Nat.eqb_neq q idx)) by assumption. now apply I2.
Qed.

(** Slot taken by the [p]-th received particle. *)
Definition target (n : nat) (outgoing : list nat) (p : nat) : nat :=
  if Nat.leb (length outgoing) p then n + p - length outgoing else nth p outgoing 0.

Lemma extract_ok : forall c outgoing b R vs order s, carries_n c R b vs -> Permutation order (seq 0 R) ->
  NoDup outgoing -> (forall q, In q outgoing -> q < np s) -> np s + R < maxp s ->
  exists s', fold_left (extract_one c (np s) outgoing b) order (Ok s) = Ok s' /\ np s' = np s /\ maxp s' = maxp s /\
    (forall q, (forall p, p < R -> q <> target (np s) outgoing p) -> tg s' q = tg s q /\ forall a, ar s' a q = ar s a q) /\
    (forall p f, nth_error vs p = Some f -> tg s' (target (np s) outgoing p) = 1%Z /\
       forall a, In a (attrs c) -> ar s' a (target (np s) outgoing p) = f a).
Proof.
  intros c outgoing b R vs order s [Lv B] HP ND Hlt HR.
  assert (Tinj : forall p p', target (np s) outgoing p = target (np s) outgoing p' -> p = p').
  { intros p p'. unfold target. destruct (Nat.leb_spec (length outgoing) p), (Nat.leb_spec (length outgoing) p').
    - lia.
    - intros E. pose proof (Hlt (nth p' outgoing 0) (nth_In _ _ H0)). lia.
    - intros E. pose proof (Hlt (nth p outgoing 0) (nth_In _ _ H)). lia.
    - intros E. apply (proj1 (NoDup_nth outgoing 0)) in E; auto. }
  assert (Hin : forall p, In p order -> p < R).
  { intros p Hp. apply (Permutation_in p HP) in Hp. apply in_seq in Hp. lia. }
  assert (Tlt : forall p, p < R -> target (np s) outgoing p < maxp s).
  { intros p Hp. unfold target. destruct (Nat.leb_spec (length outgoing) p); [lia|].
    pose proof (Hlt (nth p outgoing 0) (nth_In _ _ H)). lia. }
  assert (G : forall l1 l2, order = l1 ++ l2 -> exists s',
    fold_left (extract_one c (np s) outgoing b) l1 (Ok s) = Ok s' /\ np s' = np s /\ maxp s' = maxp s /\
    (forall q, (forall p, In p l1 -> q <> target (np s) outgoing p) -> tg s' q = tg s q /\ forall a, ar s' a q = ar s a q) /\
    (forall p f, In p l1 -> nth_error vs p = Some f -> tg s' (target (np s) outgoing p) = 1%Z /\
       forall a, In a (attrs c) -> ar s' a (target (np s) outgoing p) = f a)).
  { induction l1 as [|p l1 IH] using rev_ind; intros l2 E.
    - exists s. cbn. repeat split; contradiction.
    - pose proof E as E0. rewrite <- app_assoc in E. destruct (IH _ E) as (s1 & E1 & N1 & M1 & U1 & W1).
      assert (Hp : p < R) by (apply Hin; rewrite E; apply in_app_iff; right; now left).
      rewrite fold_left_app, E1. cbn [fold_left extract_one rbind].
      assert (ET : (if Nat.leb (length outgoing) p then Some (np s + p - length outgoing) else nth_error outgoing p)
                   = Some (target (np s) outgoing p)).
      { unfold target. destruct (Nat.leb_spec (length outgoing) p); [reflexivity|]. now apply nth_error_nth'. }
      rewrite ET. rewrite M1. rewrite (proj2 (Nat.leb_gt _ _)) by now apply Tlt.
      rewrite layouts_agree.
      destruct (unpack_fold c (target (np s) outgoing p) (fun g k => b g (width c g * p + k)) (pack_layout c) (layout_good c) s1)
        as (T2 & N2 & M2 & I1 & I2).
      eexists. split; [reflexivity|]. cbn [np maxp tg ar with_tg]. split; [congruence|]. split; [congruence|]. split.
      + intros q Hq. assert (q <> target (np s) outgoing p) by (apply Hq; apply in_app_iff; right; now left).
        rewrite upd_neq by assumption. rewrite T2.
        destruct (U1 q) as [U1a U1b]. { intros p' Hp'. apply Hq. apply in_app_iff. now left. }
        split; [assumption|]. intros a. rewrite I2 by assumption. apply U1b.
      + intros p' f Hp' Hf. destruct (Nat.eq_dec p' p) as [->|Np].
        * split; [apply upd_eq|]. intros a Ha. destruct (layout_covers c a Ha) as (g & k & Hgk).
          rewrite (I1 _ _ _ Hgk). now apply (B _ _ Hf).
        * assert (target (np s) outgoing p' <> target (np s) outgoing p) by (intros C; apply Np; now apply Tinj).
          apply in_app_iff in Hp'. destruct Hp' as [Hp'|[Hp'|[]]]; [|congruence].
          destruct (W1 p' f Hp' Hf) as [W1a W1b]. split.
          -- rewrite upd_neq by assumption. now rewrite T2.
          -- intros a Ha. rewrite I2 by assumption. now apply W1b. }
  destruct (G order []) as (s' & E & N & M & U & W); [now rewrite app_nil_r|].
  exists s'. split; [assumption|]. split; [assumption|]. split; [assumption|]. split.
  - intros q Hq. apply U. intros p Hp. apply Hq. now apply Hin.
  - intros p f Hf. apply W; auto. apply (Permutation_in p (Permutation_sym HP)). apply in_seq.
    assert (p < length vs) by (apply nth_error_Some; congruence). lia.
Qed.

Theorem recv_ok : forall c T dirs inc vsd ord outgoing s, NoDup dirs ->
  Forall (fun d => tag_ok T (opp_dir d)) dirs ->
  (forall d d', In d dirs -> In d' dirs -> dir2tag (opp_dir d) = dir2tag (opp_dir d') -> d = d') ->
  Forall (inc_ok c inc vsd) dirs -> (forall n, Permutation (ord n) (seq 0 n)) ->
  NoDup outgoing -> (forall q, In q outgoing -> q < np s) ->
  let vs := flat_map vsd dirs in np s + length vs < maxp s ->
  exists s', recv_phase c T dirs inc ord outgoing s = Ok s' /\ maxp s' = maxp s /\
    np s' = np s + (length vs - length outgoing) /\
    (forall q, (forall p, p < length vs -> q <> target (np s) outgoing p) -> tg s' q = tg s q /\ forall a, ar s' a q = ar s a q) /\
    (forall p f, nth_error vs p = Some f -> tg s' (target (np s) outgoing p) = 1%Z /\
       forall a, In a (attrs c) -> ar s' a (target (np s) outgoing p) = f a).
Proof.
  intros c T dirs inc vsd ord outgoing s ND HT Inj HI HO NDo Hlt vs HR. unfold recv_phase.
  destruct (recv_counts c T inc vsd s dirs ND HT Inj HI HR) as (vec & E1 & S1 & V1). rewrite E1. cbn [rbind].
  rewrite S1. destruct (recv_buffers c T inc vsd vec dirs HT HI V1) as (b & E2 & C2). rewrite E2. cbn [rbind].
  destruct (extract_ok c outgoing b _ _ (ord (length vs)) s C2 (HO _) NDo Hlt HR) as (s' & E3 & N3 & M3 & U & W).
  fold vs. rewrite E3. cbn [rbind].
  destruct (Nat.ltb_spec (length outgoing) (length vs)) as [C|C].
  - unfold set_npart. rewrite M3. rewrite (proj2 (Nat.ltb_ge _ _)) by lia.
    eexists. split; [reflexivity|]. cbn [np maxp tg ar]. split; [first [assumption|reflexivity]|]. split; [lia|]. auto.
  - exists s'. split; [reflexivity|]. split; [assumption|]. split; [lia|]. auto.
Qed.
