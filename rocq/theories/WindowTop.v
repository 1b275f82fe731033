(** The fields of the whole grid under a window move; extents. *)
From Coq Require Import ZArith List Bool Lia Permutation Reals Lra.
From Verif Require Import Base ListLemmas DecompModel DecompSpec DecompProofs DirsModel DirsSpec DirsProofs TopoModel TopoSpec
  TopoProofs TopoTop HaloModel HaloSpec HaloProofs SyncProofs HaloTop PrtlModel PrtlSpec PrtlCommModel PrtlCommSpec
  WindowModel WindowSpec WindowFields.
Import ListNotations.
Open Scope Z_scope.

Lemma nth_add x y j : length x = length y -> nth j (map2 Z.add x y) 0 = nth j x 0 + nth j y 0.
Proof. revert x j. induction y as [|b y IH]; intros [|a x] [|j] H; cbn in *; try discriminate; auto. Qed.

Lemma offs_length ls o : in_box o (counts ls) -> length (offs ls o) = length ls.
Proof. intros H. unfold offs. rewrite map2_length. apply in_box_length in H. unfold counts in H. rewrite map_length in H. lia. Qed.

Lemma nth_offs ls o j : in_box o (counts ls) -> (j < length ls)%nat -> nth j (offs ls o) 0 = off (nth j ls []) (nth j o 0).
Proof.
  intros H. apply in_box_length in H. unfold counts in H. rewrite map_length in H. unfold offs.
  revert o j H. induction ls as [|l ls IH]; intros [|a o] [|j] H Hj; cbn in *; try lia; auto. apply IH; lia.
Qed.
Lemma nth_size ls o j : in_box o (counts ls) -> (j < length ls)%nat -> nth j (size ls o) 0 = blk (nth j ls []) (nth j o 0).
Proof.
  intros H. apply in_box_length in H. unfold counts in H. rewrite map_length in H. unfold size.
  revert o j H. induction ls as [|l ls IH]; intros [|a o] [|j] H Hj; cbn in *; try lia; auto. apply IH; lia.
Qed.
Lemma nth_counts ls j : (j < length ls)%nat -> nth j (counts ls) 0 = len (nth j ls []).
Proof. intros H. unfold counts. rewrite (nth_indep _ 0 (len [])) by (rewrite map_length; auto). apply (map_nth len). Qed.
Lemma nth_sums ls j d : (j < length ls)%nat -> nth j (map sumZ ls) d = sumZ (nth j ls []).
Proof. intros H. rewrite (nth_indep _ d (sumZ [])) by (rewrite map_length; auto). apply (map_nth sumZ). Qed.

(** Blocks of dimension [j]. *)
Lemma block_facts g ls o j : wide g ls -> in_box o (counts ls) -> (j < length ls)%nat ->
  let l := nth j ls [] in let a := nth j o 0 in
  0 <= a < len l /\ 0 <= off l a /\ off l a + blk l a <= sumZ l /\ g <= blk l a /\ 0 < blk l a /\ wide1 g l.
Proof.
  intros [_ W] Ho Hj. cbv zeta.
  assert (W1 : wide1 g (nth j ls [])). { rewrite Forall_forall in W. apply W, nth_In. auto. }
  assert (Ha : 0 <= nth j o 0 < len (nth j ls [])).
  { rewrite <- nth_counts by auto. apply in_box_nth; auto. unfold counts. rewrite map_length. auto. }
  split; [auto|]. split; [eapply off_nonneg; eauto|]. split; [eapply off_end; eauto|].
  destruct (blk_wide g _ _ W1 Ha). auto.
Qed.

Lemma box_ext g ls y n : wide g ls -> in_box y n -> in_extended g y n.
Proof. intros [Hg _]. unfold in_box, in_extended. induction 1; constructor; auto. lia. Qed.

Lemma small_blk g ls o j : wide g ls -> Forall (Forall (fun n => n + 2 * g < 2 ^ 32)) ls ->
  in_box o (counts ls) -> (j < length ls)%nat -> nth j (size ls o) 0 + 2 * g < 2 ^ 32.
Proof.
  intros W H32 Ho Hj. rewrite nth_size by auto. destruct (block_facts g ls o j W Ho Hj) as [Ha _].
  rewrite Forall_forall in H32. specialize (H32 (nth j ls []) ltac:(apply nth_In; auto)). rewrite Forall_forall in H32.
  unfold blk. apply H32. apply nth_In. unfold len in Ha. lia.
Qed.

Section Move.
  Context {V : Type}.
  Variables (g : Z) (ls : list (list Z)) (gbc : list (flds_bc * flds_bc)) (k : nat) (s : Z).
  Hypothesis W : wide g ls.
  Hypothesis L : length gbc = length ls.
  Hypothesis P : paired_flds gbc.
  Hypothesis HD : dimension (length ls).
  Hypothesis Hk : (k < length ls)%nat.
  Hypothesis Hs : 0 <= s <= g.
  Hypothesis H32 : Forall (Forall (fun n => n + 2 * g < 2 ^ 32)) ls.
  Let N := nth k (map sumZ ls) 1.


  Variables (s0 s1 : hstate V) (G : list Z -> V) (es : list hevent).
  Hypothesis F0 : fresh s0.
  Hypothesis H0 : holds g ls (fld s0) G.
  Hypothesis We : Forall (wf_event ls) es.
  Hypothesis Ar : all_received ls es.
  Hypothesis Ex : hexec g ls gbc s0 es = Some s1.
  Variables (order : list Z -> list (list Z)) (F : list Z -> list Z -> V).
  Hypothesis Ord : forall o, in_box o (counts ls) -> full_loop g k s (size ls o) (order o).
  Hypothesis Sh : forall o, in_box o (counts ls) -> shift_fields g k s (size ls o) (order o) (fld s1 o) = Ok (F o).

  Lemma moved_cell o z : in_box o (counts ls) -> in_box z (size ls o) ->
    F o (loc g z) = fld s1 o (loc g (above k s z)).
  Proof.
    intros Ho Hz. assert (LS := size_length ls o Ho). assert (Hg : 0 <= g) by apply W.
    assert (HK : (k < length (size ls o))%nat) by (rewrite LS; auto).
    pose proof (wide_pos g ls o W Ho) as PW. rewrite Forall_forall in PW.
    pose proof (PW (nth k (size ls o) 0) ltac:(apply nth_In; auto)) as Pk.
    destruct (shift_defined g k s (size ls o) HK (order o) (fld s1 o)) as [F' [E H]].
    - lia.
    - apply small_blk; auto.
    - apply Ord; auto.
    - rewrite (Sh o Ho) in E. injection E as <-. rewrite H by (apply (box_ext g ls z _ W); auto).
      apply in_box_iff in Hz as [Lz Hz]. specialize (Hz k HK). rewrite (proj2 (Z.ltb_lt _ _)); [auto|lia].
  Qed.

  Lemma moved_value d z : In d (domains ls) -> in_box z (sub_ncells d) ->
    let c := map2 Z.add (sub_offset_ncells d) z in
    (nth k c 0 + s < N \/ periodic_in gbc k = true ->
       F (sub_offset_ndomains d) (loc g z) = G (above_wrapped (map sumZ ls) k s c)) /\
    (N <= nth k c 0 + s -> periodic_in gbc k = false ->
       F (sub_offset_ndomains d) (loc g z) = fld s0 (sub_offset_ndomains d) (loc g (above k s z))).
  Proof.
    intros Hd Hz c. destruct (dom_pos ls d Hd) as [Ho [En Eo]]. set (o := sub_offset_ndomains d) in *.
    rewrite En in Hz. rewrite (moved_cell o z Ho Hz). assert (LS := size_length ls o Ho).
    assert (HK : (k < length (size ls o))%nat) by (rewrite LS; auto).
    destruct (exchange_result g ls gbc G W L P s0 es s1 F0 H0 We Ex) as [R1 R2].
    pose proof (block_facts g ls o k W Ho Hk) as BF. cbv zeta in BF. destruct BF as [B1 [B2 [B3 [B4 [B5 B6]]]]].
    pose proof Hz as Hz'. apply in_box_iff in Hz' as [Lz Zj]. pose proof (Zj k HK) as Zk. rewrite nth_size in Zk by auto.
    set (y := above k s z) in *. assert (Ly : length y = length ls) by (unfold y, above; rewrite at_dim_length; lia).
    assert (Yj : forall j, nth j y 0 = if Nat.eqb j k then nth j z 0 + s else nth j z 0).
    { intros j. apply (nth_above k s (size ls o) HK); auto. }
    assert (Lc : length c = length ls) by (unfold c; rewrite map2_length, Eo, offs_length by auto; lia).
    assert (Cj : forall j, (j < length ls)%nat -> nth j c 0 = off (nth j ls []) (nth j o 0) + nth j z 0).
    { intros j Hj. unfold c. rewrite nth_add by (rewrite Eo, offs_length by auto; lia). rewrite Eo, nth_offs by auto. auto. }
    assert (EN : N = sumZ (nth k ls [])) by (unfold N; apply nth_sums; auto).
    assert (WR : map2 (fun c N => c mod N) (map2 Z.add (sub_offset_ncells d) y) (map sumZ ls) = above_wrapped (map sumZ ls) k s c).
    { apply list_nth_ext.
      - rewrite map2_length, map2_length, map_length, Eo, offs_length by auto. unfold above_wrapped. rewrite at_dim_length. lia.
      - rewrite !map2_length, map_length, Eo, offs_length by auto. intros j Hj.
        rewrite (nth_map2 (fun c N => c mod N) _ _ j 0 1 0).
        2:{ rewrite map2_length, offs_length by auto. lia. } 2:{ rewrite map_length. lia. }
        rewrite nth_add by (rewrite offs_length by auto; lia). rewrite nth_offs, nth_sums, Yj by (auto; lia).
        unfold above_wrapped. rewrite nth_at_dim by lia. rewrite Cj by lia. fold N. rewrite EN.
        destruct (Nat.eqb_spec j k) as [e|e]; [rewrite e; f_equal; lia|].
        pose proof (block_facts g ls o j W Ho ltac:(lia)) as BJ. cbv zeta in BJ.
        specialize (Zj j ltac:(lia)). rewrite nth_size in Zj by (auto; lia). apply Z.mod_small. lia. }
    assert (CK := Cj k Hk).
    destruct (Z.lt_ge_cases (nth k z 0 + s) (blk (nth k ls []) (nth k o 0))) as [In|Out].
    - (* the source is an active cell *)
      assert (By : in_box y (size ls o)).
      { apply in_box_iff. rewrite LS. split; auto. intros j Hj. rewrite Yj. specialize (Zj j ltac:(lia)).
        destruct (Nat.eqb_spec j k) as [e|e]; [|auto]. rewrite e in *. rewrite nth_size by auto. lia. }
      split; [intros _|intros X; exfalso; lia].
      pose proof (R1 d y Hd ltac:(rewrite En; exact By)) as R1'. fold o in R1'. rewrite R1'. rewrite <- WR. f_equal.
      apply list_nth_ext; [rewrite !map2_length, map_length, Eo, offs_length by auto; lia|].
      rewrite map2_length, Eo, offs_length by auto. intros j Hj.
      rewrite (nth_map2 (fun c N => c mod N) _ _ j 0 1 0).
      2:{ rewrite map2_length, offs_length by auto. lia. } 2:{ rewrite map_length. lia. }
      rewrite nth_add by (rewrite offs_length by auto; lia). rewrite nth_offs, nth_sums by (auto; lia).
      pose proof (block_facts g ls o j W Ho ltac:(lia)) as BJ. cbv zeta in BJ.
      apply in_box_iff in By as [_ By]. specialize (By j ltac:(lia)). rewrite nth_size in By by (auto; lia).
      symmetry. apply Z.mod_small. lia.
    - (* the source is a ghost cell *)
      assert (Ey : in_extended g y (size ls o)).
      { apply in_extended_iff. rewrite LS. split; auto. intros j Hj. rewrite Yj. specialize (Zj j ltac:(lia)).
        destruct (Nat.eqb_spec j k) as [e|e]; [|lia]. rewrite e in *. rewrite nth_size by auto. lia. }
      assert (Ny : ~ in_box y (size ls o)).
      { intros By. apply in_box_iff in By as [_ By]. specialize (By k HK). rewrite Yj, Nat.eqb_refl, nth_size in By by auto. lia. }
      assert (ZN : zone y (size ls o) = face (length ls) k 1).
      { apply face_eq; auto.
        - unfold zone. rewrite map2_length. lia.
        - intros j Hj. unfold zone. rewrite (nth_map2 side y (size ls o) j 0 0 0) by lia. rewrite Yj. specialize (Zj j ltac:(lia)).
          destruct (Nat.eqb_spec j k) as [e|e]; unfold side.
          + rewrite e in *. rewrite nth_size in * by auto. destruct (Z.ltb_spec (nth k z 0 + s) 0); [lia|].
            destruct (Z.leb_spec (blk (nth k ls []) (nth k o 0)) (nth k z 0 + s)); lia.
          + destruct (Z.ltb_spec (nth j z 0) 0); [lia|]. destruct (Z.leb_spec (nth j (size ls o) 0) (nth j z 0)); lia. }
      specialize (R2 d y Hd). rewrite En in R2. specialize (R2 Ey Ny). cbv zeta in R2. fold o in R2.
      rewrite ZN, opp_face in R2 by auto. change (- (1)) with (-1) in R2. destruct R2 as [R2 R3].
      pose proof (face_recv ls gbc L P o k 1 Ho Hk (or_intror eq_refl)) as FR. change (- (1)) with (-1) in FR.
      destruct (recv_from (counts ls) gbc o (face (length ls) k (-1))) as [b|] eqn:RF.
      + assert (V1 : fld s1 o (loc g y) = G (above_wrapped (map sumZ ls) k s c)).
        { rewrite R3; [unfold wrapped; rewrite WR; auto|discriminate|]. apply Ar; auto.
          eapply axis_nonzero. apply face_aligned; auto. }
        split; [auto|]. intros X Y. exfalso.
        assert (Z' : on_global_boundary (counts ls) o k 1).
        { right. split; auto. rewrite nth_counts by auto.
          destruct (Z.eq_dec (nth k o 0) (len (nth k ls []) - 1)) as [e|e]; auto.
          pose proof (off_next (nth k ls []) (nth k o 0) ltac:(lia) ltac:(lia)) as ON.
          pose proof (off_end g (nth k ls []) (nth k o 0 + 1) B6 ltac:(lia)).
          pose proof (blk_wide g (nth k ls []) (nth k o 0 + 1) B6 ltac:(lia)). lia. }
        pose proof (proj2 FR (conj Z' Y)). discriminate.
      + destruct (proj1 FR eq_refl) as [OB PF]. split.
        * intros [X|X]; [|congruence]. exfalso.
          destruct OB as [[X1 _]|[_ X2]]; [lia|]. rewrite nth_counts in X2 by auto.
          pose proof (off_last (nth k ls []) ltac:(lia)) as OL. rewrite <- X2 in OL. lia.
        * intros _ _. apply R2; auto.
  Qed.

  Variables (s2 : hstate V) (es' : list hevent).
  Hypothesis We' : Forall (wf_event ls) es'.
  Hypothesis Ex' : hexec g ls gbc {| fld := F; msg := fun _ _ => None |} es' = Some s2.

  Theorem window_fields d z : In d (domains ls) -> in_box z (sub_ncells d) ->
    let o := sub_offset_ndomains d in
    let c := map2 Z.add (sub_offset_ncells d) z in
    (nth k c 0 + s < N \/ periodic_in gbc k = true ->
       fld s2 o (loc g z) = G (above_wrapped (map sumZ ls) k s c)) /\
    (N <= nth k c 0 + s -> periodic_in gbc k = false ->
       fld s2 o (loc g z) = fld s0 o (loc g (above k s z))).
  Proof.
    intros Hd Hz o c.
    assert (E : fld s2 o (loc g z) = F o (loc g z)).
    { pose proof (glue_holds g ls (fld s0 [] []) F W HD) as GH.
      destruct (exchange_result g ls gbc (glue g ls (fld s0 [] []) F) W L P {| fld := F; msg := fun _ _ => None |} es' s2) as [R1 _]; eauto.
      - intros ? ?. reflexivity.
      - unfold o. rewrite (R1 d z Hd Hz). symmetry. apply (GH d z Hd Hz). }
    rewrite E. apply moved_value; auto.
  Qed.

  Theorem window_periodic : all_periodic gbc -> all_received ls es' ->
    forall d y, In d (domains ls) -> in_extended g y (sub_ncells d) ->
    fld s2 (sub_offset_ndomains d) (loc g y) = G (above_wrapped (map sumZ ls) k s (wrapped ls d y)).
  Proof.
    intros AP Ar' d y Hd Hy.
    apply (periodic_exchange g ls gbc {| fld := F; msg := fun _ _ => None |} s2
             (fun c => G (above_wrapped (map sumZ ls) k s c)) es' W L AP); auto.
    - intros ? ?. reflexivity.
    - intros d' z Hd' Hz. cbn [fld]. apply moved_value; auto. right. unfold periodic_in.
      unfold all_periodic in AP. rewrite Forall_forall in AP. rewrite (AP (nth k gbc (F_INVALID, F_INVALID))) by (apply nth_In; lia).
      cbn. auto.
  Qed.
End Move.

(** ** A shift larger than the ghost zone *)
Section Stale.
  Context {V : Type}.
  Variables (g : Z) (ls : list (list Z)) (gbc : list (flds_bc * flds_bc)) (k : nat) (s : Z).
  Hypothesis W : wide g ls.
  Hypothesis L : length gbc = length ls.
  Hypothesis P : paired_flds gbc.
  Hypothesis HD : dimension (length ls).
  Hypothesis Hk : (k < length ls)%nat.
  Hypothesis H32 : Forall (Forall (fun n => n + 2 * g < 2 ^ 32)) ls.

  Theorem stale_cells (s1 s2 : hstate V) order F es' :
    (forall o, in_box o (counts ls) -> 0 <= s <= nth k (size ls o) 0 + 2 * g) ->
    (forall o, in_box o (counts ls) -> full_loop g k s (size ls o) (order o)) ->
    (forall o, in_box o (counts ls) -> shift_fields g k s (size ls o) (order o) (fld s1 o) = Ok (F o)) ->
    Forall (wf_event ls) es' -> hexec g ls gbc {| fld := F; msg := fun _ _ => None |} es' = Some s2 ->
    forall d z, In d (domains ls) -> in_box z (sub_ncells d) ->
    nth k (sub_ncells d) 0 + g <= nth k z 0 + s ->
    fld s2 (sub_offset_ndomains d) (loc g z) = fld s1 (sub_offset_ndomains d) (loc g z).
  Proof.
    intros Hs Ord Sh We Ex d z Hd Hz Hl. destruct (dom_pos ls d Hd) as [Ho [En Eo]].
    set (o := sub_offset_ndomains d) in *. assert (LS := size_length ls o Ho).
    assert (HK : (k < length (size ls o))%nat) by (rewrite LS; auto).
    transitivity (F o (loc g z)).
    - pose proof (glue_holds g ls (fld s1 [] []) F W HD) as GH.
      destruct (exchange_result g ls gbc (glue g ls (fld s1 [] []) F) W L P {| fld := F; msg := fun _ _ => None |} es' s2) as [R1 _]; eauto.
      + intros ? ?. reflexivity.
      + unfold o. rewrite (R1 d z Hd Hz). symmetry. apply (GH d z Hd Hz).
    - destruct (shift_defined g k s (size ls o) HK (order o) (fld s1 o) (Hs o Ho)) as [F' [E H]]; auto.
      + apply small_blk; auto.
      + rewrite (Sh o Ho) in E. injection E as <-. rewrite En in Hz, Hl. rewrite H by (apply (box_ext g ls z _ W); auto).
        destruct (Z.ltb_spec (nth k z 0 + s) (nth k (size ls o) 0 + g)); [lia|auto].
  Qed.
End Stale.

(** ** Extents *)
Lemma shift_mesh_keeps n k m m' : shift_mesh n k m = Ok m' -> n <> 0 -> 
  length (ext m') = length (ext m) /\ res1 m' = res1 m /\ mdx m' = mdx m /\
  forall j x, (j < length (ext m))%nat -> (k < length (ext m))%nat ->
    place_of m' j (x - (if Nat.eqb k j then IZR n else 0))%R = place_of m j x.
Proof.
  unfold shift_mesh. intros E Hn. destruct (Z.eqb_spec n 0) as [|_]; [contradiction|]. injection E as <-.
  assert (D : mdx {| ext := at_dim k (fun e => (fst e + IZR n * mdx m, snd e + IZR n * mdx m)%R) (ext m); res1 := res1 m |} = mdx m).
  { unfold mdx. cbn [ext res1]. destruct (ext m) as [|[lo hi] e]; [destruct k; auto|]. destruct k; cbn [at_dim fst snd]; auto.
    f_equal. lra. }
  cbn [ext res1]. rewrite at_dim_length. split; [auto|]. split; [auto|]. split; [exact D|].
  intros j x Hj Hk. unfold place_of. rewrite D. cbn [ext]. rewrite nth_at_dim by auto.
  rewrite Nat.eqb_sym. destruct (Nat.eqb k j); cbn [fst]; lra.
Qed.

Theorem shifts_mesh_keep hist : forall m, Forall (fun h => fst h <> 0 /\ (snd h < length (ext m))%nat) hist ->
  exists m', shifts_mesh hist m = Ok m' /\ length (ext m') = length (ext m) /\ mdx m' = mdx m /\
  forall j x, (j < length (ext m))%nat -> place_of m' j (x - IZR (total_shift hist j))%R = place_of m j x.
Proof.
  induction hist as [|[n k] hist IH]; intros m H.
  - exists m. split; [auto|]. split; [auto|]. split; [auto|]. intros j x Hj. unfold total_shift. cbn. f_equal. lra.
  - inversion H as [|? ? [H1 H2] H3]; subst. cbn [fst snd] in *. cbn [shifts_mesh].
    destruct (shift_mesh n k m) as [m1| |] eqn:E.
    + destruct (shift_mesh_keeps n k m m1 E H1) as [L1 [_ [D1 P1]]]. cbn [rbind].
      destruct (IH m1) as [m' [E' [L' [D' P']]]]; [rewrite L1; exact H3|].
      exists m'. split; [auto|]. split; [congruence|]. split; [congruence|]. intros j x Hj.
      unfold total_shift. cbn [map fst snd]. fold (total_shift hist j).
      change (sumZ ((if Nat.eqb k j then n else 0) :: map (fun h => if Nat.eqb (snd h) j then fst h else 0) hist))
        with ((if Nat.eqb k j then n else 0) + total_shift hist j).
      rewrite plus_IZR. rewrite <- (P1 j x Hj H2). rewrite <- (P' j (x - _)%R ltac:(lia)). f_equal.
      destruct (Nat.eqb k j); lra.
    + unfold shift_mesh in E. destruct (Z.eqb_spec n 0); [contradiction|discriminate].
    + unfold shift_mesh in E. destruct (n =? 0); discriminate.
Qed.
