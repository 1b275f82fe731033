From Coq Require Import ZArith List Bool Reals Lra Lia Permutation.
From Flocq Require Import Core.
From Verif Require Import Base ListLemmas DecompModel DecompSpec DecompProofs DecompTop TopoModel HaloModel HaloSpec HaloProofs DoubleQuot CkptProofs OutModel OutSpec OutProofs.
Import ListNotations.
Open Scope Z_scope.

Lemma cast_ok z : 0 <= z < 2 ^ 32 -> cast32 z = Ok z.
Proof.
  intros Hz. unfold cast32. replace (0 <=? z) with true by (symmetry; apply Z.leb_le; lia).
  replace (z <? 2 ^ 32) with true by (symmetry; apply Z.ltb_lt; lia). auto.
Qed.

(** ** Coordinates *)
Section Coords.
  Variables (N d : Z).
  Definition cell_ok (b : Z * Z) : Prop := ok1 N (fst b) (snd b) d.
  Definition owns (b : Z * Z) (c : Z) : Prop := fst b <= c < fst b + snd b.
  Lemma owns_dec b c : owns b c \/ ~ owns b c.
  Proof. unfold owns. lia. Qed.

  Definition cstep (acc : res ((Z -> option (option R)) * (Z -> option (option R)))) (b : Z * Z) :=
    let '(l, n) := b in rbind acc (fun '(xc, xe) =>
    rbind (layout1 false N l n d) (fun L =>
    rbind (centres l n d) (fun bc =>
    rbind (edges N l n d) (fun be =>
    rbind (put1 (corner_dwn L) (shape_dwn L) bc xc) (fun xc' =>
    rbind (put1 (corner_dwn L) (shape_dwn L + if l + n =? N then 1 else 0) be xe) (fun xe' =>
    Ok (xc', xe'))))))).

  Lemma coords_step l n xc xe : ok1 N l n d ->
    exists xc' xe', cstep (Ok (xc, xe)) (l, n) = Ok (xc', xe') /\
    (forall j, xc' j = if (l <=? j * d) && (j * d <? l + n) then Some (Some (IZR (j * d) + / 2)%R) else xc j) /\
    (forall j, 0 <= j * d < N -> xe' j = if (l <=? j * d) && (j * d <? l + n) then Some (Some (IZR (j * d))) else xe j) /\
    xe' (cdiv N d) = if l + n =? N then Some (if l <=? (cdiv N d - 1) * d then Some (IZR ((cdiv N d - 1) * d + 1)) else None) else xe (cdiv N d).
  Proof.
    intros O. pose proof O as (H1 & H2 & H3 & H4 & H5). unfold cstep. cbn [rbind]. rewrite layout1_ok by auto. cbn [rbind].
    unfold centres, edges. pose proof (cdiv_spec l d ltac:(lia)) as C. pose proof (cdiv_spec N d ltac:(lia)) as CN.
    rewrite lay_f_exact, lay_size_exact, Ztrunc_IZR by lia. cbn [ideal corner_dwn shape_dwn].
    set (a := cdiv l d) in *. set (m := cdiv N d) in *.
    pose proof (cdiv_spec (n - (a * d - l)) d ltac:(lia)) as CS. set (b := cdiv (n - (a * d - l)) d) in *.
    rewrite !cast_ok by nia. cbn [rbind]. unfold put1. cbn [b_shape b_data]. rewrite !Z.eqb_refl. cbn [rbind].
    assert (BI : forall j, (0 <=? j - a) && (j - a <? b) = ((l <=? j * d) && (j * d <? l + n))).
    { intros j. pose proof (block_iff N l n d j O) as B. cbn in B. fold a in B. fold b in B.
      apply eq_true_iff_eq. rewrite !andb_true_iff, !Z.leb_le, !Z.ltb_lt. tauto. }
    eexists _, _. split; [reflexivity|]. split; [|split].
    - intros j. rewrite BI. destruct ((l <=? j * d) && (j * d <? l + n)); auto. cbn [nth]. do 2 f_equal.
      rewrite <- plus_IZR. do 2 f_equal. nia.
    - intros j Hj. rewrite <- BI. destruct ((0 <=? j - a) && (j - a <? b)) eqn:Q.
      + apply andb_prop in Q as [Q1 Q2]. apply Z.leb_le in Q1. apply Z.ltb_lt in Q2.
        replace (0 <=? j - a) with true by (symmetry; apply Z.leb_le; lia).
        replace (j - a <? b + (if l + n =? N then 1 else 0)) with true by (symmetry; apply Z.ltb_lt; destruct (l + n =? N); lia).
        cbn [andb nth]. replace (j - a <? b) with true by (symmetry; apply Z.ltb_lt; lia). do 2 f_equal. rewrite <- plus_IZR. f_equal. nia.
      + destruct ((0 <=? j - a) && (j - a <? b + (if l + n =? N then 1 else 0))) eqn:Q'; auto. exfalso.
        apply andb_prop in Q' as [Q1 Q2]. rewrite Q1 in Q. cbn [andb] in Q. apply Z.leb_le in Q1. apply Z.ltb_lt in Q2. apply Z.ltb_ge in Q.
        destruct (Z.eqb_spec (l + n) N); [|lia]. nia.
    - assert (AB : l + n = N -> a + b = m) by (intros; symmetry; apply cdiv_unique; nia).
      destruct (Z.eqb_spec (l + n) N) as [EN|NN].
      + specialize (AB EN). replace (0 <=? m - a) with true by (symmetry; apply Z.leb_le; nia).
        replace (m - a <? b + 1) with true by (symmetry; apply Z.ltb_lt; lia). cbn [andb nth].
        replace (m - a <? b) with false by (symmetry; apply Z.ltb_ge; lia). f_equal.
        destruct (Z.leb_spec 1 b), (Z.leb_spec l ((m - 1) * d)); try (exfalso; nia); auto.
        f_equal. rewrite <- plus_IZR, plus_IZR. rewrite (plus_IZR _ 1). f_equal. rewrite <- plus_IZR. f_equal. nia.
      + replace ((0 <=? m - a) && (m - a <? b + 0)) with false; auto. symmetry. apply andb_false_intro2. apply Z.ltb_ge. nia.
  Qed.

  Theorem coords blocks n0 : Forall cell_ok blocks -> (forall c, 0 <= c < N -> exists b, In b blocks /\ owns b c) ->
    (forall b, In b blocks -> fst b + snd b = N -> snd b = n0) -> 0 < N ->
    exists xc xe, write_coords N d blocks = Ok (xc, xe) /\
    (forall j, 0 <= j * d < N -> xc j = Some (Some (IZR (j * d) + / 2)%R) /\ xe j = Some (Some (IZR (j * d)))) /\
    (forall j, ~ (0 <= j * d < N) -> xc j = None) /\
    xe (cdiv N d) = Some (if N - n0 <=? (cdiv N d - 1) * d then Some (IZR ((cdiv N d - 1) * d + 1)) else None).
  Proof.
    intros OK COV LAST NP.
    assert (G : forall bs xc0 xe0, Forall cell_ok bs -> (forall b, In b bs -> fst b + snd b = N -> snd b = n0) ->
      exists xc xe, fold_left cstep bs (Ok (xc0, xe0)) = Ok (xc, xe) /\
      (forall j, ((exists b, In b bs /\ owns b (j * d)) /\ xc j = Some (Some (IZR (j * d) + / 2)%R)) \/ ((forall b, In b bs -> ~ owns b (j * d)) /\ xc j = xc0 j)) /\
      (forall j, 0 <= j * d < N -> ((exists b, In b bs /\ owns b (j * d)) /\ xe j = Some (Some (IZR (j * d)))) \/ ((forall b, In b bs -> ~ owns b (j * d)) /\ xe j = xe0 j)) /\
      (((exists b, In b bs /\ fst b + snd b = N) /\ xe (cdiv N d) = Some (if N - n0 <=? (cdiv N d - 1) * d then Some (IZR ((cdiv N d - 1) * d + 1)) else None)) \/
       ((forall b, In b bs -> fst b + snd b <> N) /\ xe (cdiv N d) = xe0 (cdiv N d)))).
    { clear OK COV LAST blocks. induction bs as [|[l n] bs IH]; intros xc0 xe0 OK LAST; cbn [fold_left].
      - exists xc0, xe0. split; auto. split; [|split]; [right..|]; auto.
      - inversion OK as [|? ? O1 O2]; subst. destruct (coords_step l n xc0 xe0 O1) as (xc1 & xe1 & -> & A1 & A2 & A3).
        destruct (IH xc1 xe1 O2) as (xc & xe & E & R1 & R2 & R3); [intros b Hb; apply LAST; right; auto|].
        exists xc, xe. split; auto.
        assert (BE : forall j, ((l <=? j * d) && (j * d <? l + n) = true <-> owns (l, n) (j * d))).
        { intros j. unfold owns. cbn. rewrite andb_true_iff, Z.leb_le, Z.ltb_lt. tauto. }
        split; [|split].
        + intros j. destruct (R1 j) as [[(b & B1 & B2) V]|[NO V]].
          * left. split; auto. exists b. split; auto. right. auto.
          * rewrite V, A1. destruct ((l <=? j * d) && (j * d <? l + n)) eqn:Q.
            -- left. split; auto. exists (l, n). split; [left; auto|]. apply BE. auto.
            -- right. split; auto. intros b [<- | B]; auto. rewrite <- BE. congruence.
        + intros j Hj. destruct (R2 j Hj) as [[(b & B1 & B2) V]|[NO V]].
          * left. split; auto. exists b. split; auto. right. auto.
          * rewrite V, A2 by auto. destruct ((l <=? j * d) && (j * d <? l + n)) eqn:Q.
            -- left. split; auto. exists (l, n). split; [left; auto|]. apply BE. auto.
            -- right. split; auto. intros b [<- | B]; auto. rewrite <- BE. congruence.
        + destruct R3 as [[(b & B1 & B2) V]|[NO V]].
          * left. split; auto. exists b. split; auto. right. auto.
          * rewrite V, A3. destruct (Z.eqb_spec (l + n) N) as [Q|Q].
            -- left. split; [exists (l, n); split; [left|]; auto|]. pose proof (LAST (l, n) (or_introl eq_refl) Q) as LN. cbn in LN. replace (N - n0) with l by lia. auto.
            -- right. split; auto. intros b [<- | B]; auto. }
    destruct (G blocks (fun _ => None) (fun _ => None) OK LAST) as (xc & xe & E & R1 & R2 & R3).
    exists xc, xe. split; [exact E|]. split; [|split].
    - intros j Hj. destruct (COV (j * d) Hj) as (b & B1 & B2).
      destruct (R1 j) as [[_ V1]|[NO _]]; [|exfalso; eapply NO; eauto]. destruct (R2 j Hj) as [[_ V2]|[NO _]]; [|exfalso; eapply NO; eauto]. auto.
    - intros j Hj. destruct (R1 j) as [[(b & B1 & B2) _]|[_ V]]; auto. exfalso. apply Hj. rewrite Forall_forall in OK. destruct (OK b B1) as (Q1 & Q2 & Q3 & Q4 & Q5). unfold owns in B2. lia.
    - destruct R3 as [[_ V]|[NO _]]; auto. exfalso. destruct (COV (N - 1) ltac:(lia)) as (b & B1 & B2).
      rewrite Forall_forall in OK. destruct (OK b B1) as (Q1 & Q2 & Q3 & Q4 & Q5). unfold owns in B2. apply (NO b B1). lia.
  Qed.
End Coords.

Lemma last_block l a : wide1 0 l -> 0 <= a < len l -> off l a + blk l a = sumZ l -> blk l a = last l 0.
Proof.
  intros W Ha E. assert (a = len l - 1).
  { destruct (Z.eq_dec a (len l - 1)); auto. exfalso. assert (Ha' : 0 <= a + 1 < len l) by lia.
    pose proof (off_end 0 l (a + 1) W Ha'). pose proof (blk_wide 0 l (a + 1) W Ha').
    rewrite off_sum in * by auto. unfold blk, len in *. replace (Z.to_nat (a + 1)) with (S (Z.to_nat a)) in * by lia. rewrite firstn_S_sum in H by lia. lia. }
  subst a. unfold blk, len. replace (Z.to_nat (Z.of_nat (length l) - 1)) with (Nat.pred (length l)) by lia. clear. induction l as [|x [|y l] IH]; auto.
Qed.

Section Dims.
  Variables (ls : list (list Z)) (k : nat) (d : Z).
  Hypothesis POS : Forall (Forall (fun a => 0 < a)) ls.
  Hypothesis NE : Forall (fun l => l <> []) ls.
  Hypothesis SMALL : Forall (fun l => sumZ l < 2 ^ 32) ls.
  Hypothesis K : (k < length ls)%nat.
  Hypothesis D1 : 1 <= d < 2 ^ 32.

  Let lk := nth k ls [].
  Lemma lk_wide : wide1 0 lk.
  Proof. rewrite Forall_forall in POS. pose proof (POS lk (nth_In _ _ K)) as H. unfold wide1. eapply Forall_impl; [|exact H]. cbn. intros. lia. Qed.

  Lemma ext_nth s : In s (domains ls) -> exists a, 0 <= a < len lk /\ extent k s = (off lk a, blk lk a).
  Proof.
    intros Hs. destruct (dom_pos ls s Hs) as (B & E1 & E2). unfold extent. rewrite E1, E2. exists (nth k (sub_offset_ndomains s) 0).
    pose proof (in_box_length _ _ B) as L. unfold counts in L. rewrite map_length in L. split.
    - pose proof (proj2 (proj1 (Forall2_nth _ _ _ 0 0) B) k) as H. specialize (H ltac:(lia)).
      unfold counts in H. rewrite (nth_indep (map (fun l : list Z => Z.of_nat (length l)) ls) 0 ((fun l : list Z => Z.of_nat (length l)) [])) in H by (rewrite map_length; auto). rewrite (map_nth (fun l : list Z => Z.of_nat (length l))) in H. exact H.
    - unfold offs, size. f_equal; rewrite (nth_map2 _ _ _ _ [] 0 0); auto; lia.
  Qed.

  Theorem coordinates order : Permutation order (domains ls) ->
    let N := sumZ lk in
    exists xc xe, write_coords N d (map (extent k) order) = Ok (xc, xe) /\
    (forall j, 0 <= j * d < N -> xc j = Some (Some (IZR (j * d) + / 2)%R) /\ xe j = Some (Some (IZR (j * d)))) /\
    (forall j, ~ (0 <= j * d < N) -> xc j = None) /\
    xe (samples N d) = Some (if N - last lk 0 <=? (samples N d - 1) * d then Some (IZR ((samples N d - 1) * d + 1)) else None).
  Proof.
    intros PM N. assert (SN : samples N d = cdiv N d).
    { symmetry. apply cdiv_unique; [lia|]. unfold samples. pose proof (Z.div_mod (N + d - 1) d ltac:(lia)). pose proof (Z.mod_pos_bound (N + d - 1) d ltac:(lia)). nia. }
    rewrite SN. assert (SL : N < 2 ^ 32) by (rewrite Forall_forall in SMALL; apply SMALL, nth_In; auto).
    assert (NP : 0 < N).
    { assert (Q : lk <> []) by (rewrite Forall_forall in NE; apply NE, nth_In; auto). destruct lk as [|x r] eqn:E; [congruence|].
      pose proof lk_wide as W. fold lk in W. rewrite E in W.
      pose proof (off_end 0 _ 0 W ltac:(unfold len; cbn [length]; lia)). pose proof (off_nonneg 0 _ 0 W ltac:(unfold len; cbn [length]; lia)). pose proof (blk_wide 0 _ 0 W ltac:(unfold len; cbn [length]; lia)). unfold N. lia. }
    apply coords; auto.
    - apply Forall_forall. intros b Hb. apply in_map_iff in Hb as (s & <- & Hs). apply (Permutation_in _ PM) in Hs.
      destruct (ext_nth s Hs) as (a & Ha & ->). unfold cell_ok, ok1. cbn [fst snd].
      pose proof (off_end 0 _ a lk_wide Ha). pose proof (off_nonneg 0 _ a lk_wide Ha). pose proof (blk_wide 0 _ a lk_wide Ha). unfold N. lia.
    - intros c Hc.
      set (x := map (fun i => if Nat.eqb i k then c else 0) (seq 0 (length ls))).
      assert (B : in_box x (map sumZ ls)).
      { assert (B0 : forall m l, (forall i, (i < length l)%nat -> 0 <= (if Nat.eqb (m + i) k then c else 0) < sumZ (nth i l [])) ->
                   in_box (map (fun i => if Nat.eqb i k then c else 0) (seq m (length l))) (map sumZ l)).
        { intros m l. revert m. induction l as [|a l IH]; intros m H; cbn [length seq map]; constructor.
          - specialize (H 0%nat ltac:(cbn; lia)). cbn [nth] in H. replace (m + 0)%nat with m in H by lia. auto.
          - apply IH. intros i Hi. specialize (H (S i) ltac:(cbn; lia)). cbn [nth] in H. replace (m + S i)%nat with (S m + i)%nat in H by lia. auto. }
        apply B0. intros i Hi. cbn [Nat.add]. destruct (Nat.eqb_spec i k) as [-> | Ni]; auto.
        assert (P1 := POS). assert (P2 := NE). rewrite Forall_forall in P1, P2. specialize (P1 _ (nth_In _ [] Hi)). specialize (P2 _ (nth_In _ [] Hi)).
        destruct (nth i ls []) as [|a r]; [congruence|]. inversion P1; subst. unfold sumZ. cbn [fold_right].
        assert (0 <= sumZ r) by (apply sumZ_nonneg; eapply Forall_impl; [|eassumption]; cbn; intros; lia). unfold sumZ in *. lia. }
      assert (NNL : Forall (Forall (fun a => 0 <= a)) ls) by (eapply Forall_impl; [|exact POS]; intros l H; eapply Forall_impl; [|exact H]; cbn; intros; lia).
      destruct (tiles_cover ls _ eq_refl NNL _ B) as ([idx z] & (s & S1 & S2) & _). cbn [fst snd] in *.
      assert (Hs : In s (domains ls)) by (eapply nth_error_In; exact S1).
      exists (extent k s). split; [apply in_map; eapply Permutation_in; [symmetry; exact PM|auto]|].
      destruct S2 as [Bz Ex]. destruct (dom_lens ls s Hs) as (L1 & L2 & _). unfold owns, extent. cbn [fst snd].
      pose proof (proj2 (proj1 (Forall2_nth _ _ _ 0 0) Bz) k) as Bk; rewrite (in_box_length _ _ Bz) in Bk; specialize (Bk ltac:(lia)). cbn in Bk.
      assert (Xk : nth k x 0 = c).
      { unfold x. rewrite (nth_indep _ 0 ((fun i => if Nat.eqb i k then c else 0) 0%nat)) by (rewrite map_length, seq_length; auto).
        rewrite (map_nth (fun i => if Nat.eqb i k then c else 0)), seq_nth by auto. cbn. rewrite Nat.eqb_refl. auto. }
      apply in_box_length in Bz as Lz. rewrite Ex, (nth_map2 _ _ _ _ 0 0 0) in Xk by lia. lia.
    - intros b Hb E. apply in_map_iff in Hb as (s & <- & Hs). apply (Permutation_in _ PM) in Hs.
      destruct (ext_nth s Hs) as (a & Ha & X). rewrite X in *. cbn [fst snd] in *. apply last_block; auto. apply lk_wide.
  Qed.
End Dims.

(** ** What fails *)
Lemma add_at_ok k a v : (k < length v)%nat -> exists v', add_at v k a = Ok v' /\ length v' = length v.
Proof.
  revert k. induction v as [|x v IH]; intros k Hk; cbn in Hk; [lia|]. destruct k as [|k]; cbn.
  - eexists. split; [reflexivity|auto].
  - destruct (IH k ltac:(lia)) as (v' & -> & L). cbn. eexists. split; [reflexivity|]. cbn. lia.
Qed.
Lemma add_at_past v a : add_at v (length v) a = UB.
Proof. induction v; cbn; auto. rewrite IHv. auto. Qed.
Lemma ghosts_ub w mult v : add_ghosts w mult v = UB.
Proof.
  unfold add_ghosts. rewrite seq_S, fold_left_app. cbn [fold_left Nat.add].
  match goal with |- rbind ?a _ = _ => assert (H : a = UB \/ exists v', a = Ok v' /\ length v' = length v) end.
  { assert (G : forall ks v0, length v0 = length v -> (forall k, In k ks -> (k < length v)%nat) ->
      fold_left (fun acc k => rbind acc (fun v => match nth_error mult k with None => UB | Some m => add_at v k (2 * w * m) end)) ks (Ok v0) = UB \/
      exists v', fold_left (fun acc k => rbind acc (fun v => match nth_error mult k with None => UB | Some m => add_at v k (2 * w * m) end)) ks (Ok v0) = Ok v' /\ length v' = length v).
    { assert (U : forall ks, fold_left (fun acc k => rbind acc (fun v => match nth_error mult k with None => UB | Some m => add_at v k (2 * w * m) end)) ks UB = UB) by (induction ks; auto).
      induction ks as [|k ks IH]; intros v0 L0 IN; cbn [fold_left rbind]; [right; eauto|].
      destruct (nth_error mult k) as [m|]; [|left; apply U].
      destruct (add_at_ok k (2 * w * m) v0) as (v1 & -> & L1); [rewrite L0; apply IN; left; auto|].
      apply IH; [lia|]. intros; apply IN; right; auto. }
    apply G; auto. intros k Hk. apply in_seq in Hk. lia. }
  destruct H as [-> | (v' & -> & L)]; auto. cbn [rbind]. destruct (nth_error mult (length v)); auto. rewrite <- L. apply add_at_past.
Qed.
Lemma ghosts_init w N ns dwn s : init_layout w true N ns dwn s = UB.
Proof. unfold init_layout. rewrite ghosts_ub. auto. Qed.

Lemma layout1_noerr g l n d : layout1 false g l n d <> Err.
Proof.
  unfold layout1. rewrite andb_false_r. destruct (d =? 0); [discriminate|].
  unfold cast32. repeat (match goal with |- context [if ?b then Ok _ else UB] => destruct b end; cbn [rbind]; try discriminate).
Qed.
Lemma short_dwn w N ns dwn s : (length dwn < length N)%nat -> init_layout w false N ns dwn s = UB.
Proof.
  unfold init_layout. generalize (sub_offset_ncells s) as l, (sub_ncells s) as n. revert dwn.
  induction N as [|g N IH]; intros [|d dwn] l n L; cbn in L; try lia; destruct l as [|x l], n as [|y n]; cbn [layouts]; auto.
  destruct (layout1 false g x y d) as [a| |] eqn:E; cbn [rbind]; auto; [|exfalso; eapply layout1_noerr; eauto].
  rewrite IH by lia. auto.
Qed.

Theorem last_edge_missing : exists l d xc xe, Forall (fun a => 5 <= a) l /\ 0 < d /\
  write_coords (sumZ l) d (map (extent 0) (domains [l])) = Ok (xc, xe) /\ xe (samples (sumZ l) d) = Some None.
Proof.
  destruct (coordinates [[11; 10]] 0 25) with (order := domains [[11; 10]]) as (xc & xe & E & _ & _ & X).
  1-4: repeat constructor; cbn; try lia; discriminate. 1: lia. 1: apply Permutation_refl.
  exists [11; 10], 25, xc, xe. split; [repeat constructor; lia|]. split; [lia|]. split; [exact E|exact X].
Qed.
Theorem last_edge_short : exists l d xc xe e, Forall (fun a => 5 <= a) l /\ 0 < d /\
  write_coords (sumZ l) d (map (extent 0) (domains [l])) = Ok (xc, xe) /\ xe (samples (sumZ l) d) = Some (Some e) /\ (e < IZR (sumZ l))%R.
Proof.
  destruct (coordinates [[10]] 0 4) with (order := domains [[10]]) as (xc & xe & E & _ & _ & X).
  1-4: repeat constructor; cbn; try lia; discriminate. 1: lia. 1: apply Permutation_refl.
  exists [10], 4, xc, xe, 9%R. split; [repeat constructor; lia|]. split; [lia|]. split; [exact E|]. split; [exact X|]. cbn. lra.
Qed.

Lemma once w ls dwn : Forall (Forall (fun a => 0 < a)) ls -> Forall (fun l => sumZ l < 2 ^ 32) ls ->
  length dwn = length ls -> Forall (fun d => 1 <= d < 2 ^ 32) dwn ->
  forall j, length j = length dwn -> in_box (sampled dwn j) (map sumZ ls) ->
  exists! p : nat * list Z, exists s L, nth_error (domains ls) (fst p) = Some s /\
    init_layout w false (map sumZ ls) (counts ls) dwn s = Ok L /\
    in_box (snd p) (map shape_dwn L) /\ j = map2 Z.add (map corner_dwn L) (snd p).
Proof.
  intros POS SMALL LD DW. exact (written_once w ls dwn POS SMALL LD DW).
Qed.
Lemma declared w ls dwn s L : Forall (Forall (fun a => 0 < a)) ls -> Forall (fun l => sumZ l < 2 ^ 32) ls ->
  length dwn = length ls -> Forall (fun d => 1 <= d < 2 ^ 32) dwn ->
  In s (domains ls) -> init_layout w false (map sumZ ls) (counts ls) dwn s = Ok L ->
  forall j, length j = length dwn -> (in_box j (map g_dwn L) <-> in_box (sampled dwn j) (map sumZ ls)).
Proof. intros POS SMALL LD DW. apply shape_ok; auto. Qed.
