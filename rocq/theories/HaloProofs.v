From Coq Require Import ZArith List Bool Lia.
From Verif Require Import Base ListLemmas DecompModel DecompSpec DecompProofs DecompTop
  DirsModel DirsSpec DirsProofs TopoModel TopoSpec TopoProofs TopoTop HaloModel HaloSpec.
Import ListNotations.
Open Scope Z_scope.

(** * Blocks of one dimension *)
Definition blk (l : list Z) (a : Z) : Z := nth (Z.to_nat a) l 0.
Definition off (l : list Z) (a : Z) : Z := nth (Z.to_nat a) (running 0 l) 0.
Definition len (l : list Z) : Z := Z.of_nat (length l).
Definition wide1 (g : Z) (l : list Z) : Prop := Forall (fun n => g <= n /\ 0 < n) l.

Lemma off_sum l a : 0 <= a < len l -> off l a = sumZ (firstn (Z.to_nat a) l).
Proof. unfold off, len. intros H. rewrite nth_running by lia. lia. Qed.

Lemma firstn_S_sum l k : (k < length l)%nat -> sumZ (firstn (S k) l) = sumZ (firstn k l) + nth k l 0.
Proof.
  revert k; induction l as [|x l IH]; intros [|k] H; cbn [length] in H; try lia.
  - simpl. lia.
  - change (x + sumZ (firstn (S k) l) = x + sumZ (firstn k l) + nth k l 0).
    rewrite IH by lia. lia.
Qed.

Lemma off_next l a : 0 <= a -> a + 1 < len l -> off l (a + 1) = off l a + blk l a.
Proof.
  intros. rewrite !off_sum by lia. replace (Z.to_nat (a + 1)) with (S (Z.to_nat a)) by lia.
  unfold len in *. apply firstn_S_sum. lia.
Qed.
Lemma off_0 l : 0 < len l -> off l 0 = 0.
Proof. intros. rewrite off_sum by lia. reflexivity. Qed.
Lemma off_last l : 0 < len l -> off l (len l - 1) + blk l (len l - 1) = sumZ l.
Proof.
  intros. rewrite off_sum by lia. unfold blk, len in *.
  rewrite <- firstn_S_sum by lia. rewrite firstn_all2 by lia. auto.
Qed.
Lemma blk_wide g l a : wide1 g l -> 0 <= a < len l -> g <= blk l a /\ 0 < blk l a.
Proof.
  unfold wide1, blk, len. intros H Ha. rewrite Forall_forall in H. apply H. apply nth_In. lia.
Qed.
Lemma wide1_nonneg g l : wide1 g l -> Forall (fun a => 0 <= a) l.
Proof. intros H. eapply Forall_impl; [|exact H]. simpl. lia. Qed.
Lemma off_nonneg g l a : wide1 g l -> 0 <= a < len l -> 0 <= off l a.
Proof.
  intros W Ha. rewrite off_sum by auto. apply sumZ_nonneg. apply wide1_nonneg in W.
  clear Ha. revert W. generalize (Z.to_nat a) as k. intros k W. revert k.
  induction W; intros [|k]; simpl; auto.
Qed.
Lemma off_end g l a : wide1 g l -> 0 <= a < len l -> off l a + blk l a <= sumZ l.
Proof.
  intros W Ha. rewrite off_sum by auto. unfold blk, len in *.
  rewrite <- firstn_S_sum by lia. rewrite <- (firstn_skipn (S (Z.to_nat a)) l) at 2.
  rewrite sumZ_app. assert (0 <= sumZ (skipn (S (Z.to_nat a)) l)); [|lia].
  apply sumZ_nonneg. apply wide1_nonneg in W.
  rewrite <- (firstn_skipn (S (Z.to_nat a)) l) in W. apply Forall_app in W. tauto.
Qed.

Lemma sum_pos g l : wide1 g l -> 0 < len l -> 0 < sumZ l.
Proof.
  intros W H. pose proof (off_end g l 0 W ltac:(lia)). rewrite off_0 in H0 by auto.
  pose proof (blk_wide g l 0 W ltac:(lia)). lia.
Qed.

(** A cell in zone [d] of block [o] is cell [z] of the neighbour in direction [d]. *)
Definition src_cell (g n na d y : Z) : Z :=
  y + g - fst (recv_slice g n (- d)) + fst (send_slice g na (- d)) - g.

Lemma halo1 g l o y :
  0 <= g -> wide1 g l -> 0 <= o < len l -> - g <= y < blk l o + g ->
  let d := side y (blk l o) in
  let a := neighbor1 (len l) o d in
  let z := src_cell g (blk l o) (blk l a) d y in
  0 <= z < blk l a /\ off l a + z = (off l o + y) mod sumZ l.
Proof.
  intros Hg W Ho Hy. cbv zeta. unfold side, src_cell, neighbor1.
  pose proof (blk_wide g l o W Ho) as Bo.
  pose proof (off_nonneg g l o W Ho) as Oo. pose proof (off_end g l o W Ho) as Eo.
  pose proof (sum_pos g l W ltac:(lia)) as SP.
  pose proof (off_0 l ltac:(lia)) as O0. pose proof (off_last l ltac:(lia)) as OL.
  destruct (Z.ltb_spec y 0) as [Y|Y]; [|destruct (Z.leb_spec (blk l o) y) as [Y2|Y2]];
    cbn [Z.eqb Z.opp Pos.eqb andb]; unfold recv_slice, send_slice, i_min, i_max;
    cbn [Z.eqb Z.opp Pos.eqb fst snd].
  - destruct (Z.eqb_spec o 0) as [E|E].
    + pose proof (blk_wide g l (len l - 1) W ltac:(lia)).
      pose proof (off_nonneg g l (len l - 1) W ltac:(lia)).
      split; [lia|]. rewrite E in *.
      apply (Zmod_unique _ _ (-1)); lia.
    + pose proof (blk_wide g l (o - 1) W ltac:(lia)) as B1.
      pose proof (off_next l (o - 1) ltac:(lia) ltac:(lia)) as ON.
      pose proof (off_nonneg g l (o - 1) W ltac:(lia)) as O1.
      replace (o - 1 + 1) with o in ON by lia.
      change (o + -1) with (o - 1).
      split; [lia|]. rewrite Z.mod_small; lia.
  - destruct (Z.eqb_spec o (len l - 1)) as [E|E].
    + pose proof (blk_wide g l 0 W ltac:(lia)). pose proof (off_end g l 0 W ltac:(lia)).
      split; [lia|]. rewrite E in *. apply (Zmod_unique _ _ 1); lia.
    + pose proof (blk_wide g l (o + 1) W ltac:(lia)).
      pose proof (off_end g l (o + 1) W ltac:(lia)).
      pose proof (off_next l o ltac:(lia) ltac:(lia)).
      split; [lia|]. rewrite Z.mod_small; lia.
  - replace (o + 0) with o by lia. split; [lia|]. rewrite Z.mod_small; lia.
Qed.

Lemma recv_zone1 g n dir y : 0 <= g -> 0 < n -> -1 <= dir <= 1 -> - g <= y < n + g ->
  (fst (recv_slice g n dir) <= y + g < snd (recv_slice g n dir) <-> side y n = - dir).
Proof.
  intros Hg Hn Hd Hy. assert (C : dir = -1 \/ dir = 0 \/ dir = 1) by lia.
  unfold recv_slice, side, i_min, i_max.
  destruct C as [->|[->| ->]]; cbn [Z.eqb Z.opp Pos.eqb fst snd];
  destruct (Z.ltb_spec y 0), (Z.leb_spec n y); lia.
Qed.

(** * D dimensions *)
Definition offs (ls : list (list Z)) (o : list Z) : list Z := map2 off ls o.

Lemma size_cons l ls a o : size (l :: ls) (a :: o) = blk l a :: size ls o.
Proof. reflexivity. Qed.

Lemma counts_cons l ls : counts (l :: ls) = len l :: counts ls.
Proof. reflexivity. Qed.

Lemma dom_pos ls d : In d (domains ls) ->
  in_box (sub_offset_ndomains d) (counts ls) /\
  sub_ncells d = size ls (sub_offset_ndomains d) /\
  sub_offset_ncells d = offs ls (sub_offset_ndomains d).
Proof.
  intros H. unfold domains in H. destruct (sub_unique ls _ d eq_refl H) as [E B].
  split; auto. split; [exact E|].
  apply In_nth_error in H as [i Hi].
  destruct (nth_error_sub ls _ eq_refl i d Hi) as [k [_ [-> Hk]]]. cbn.
  clear. revert k. induction ls as [|l ls IH]; intros [|a k]; simpl; auto.
  unfold offs. cbn [map2]. f_equal; [unfold off; f_equal; lia|apply IH].
Qed.

Lemma pos_dom ls o : in_box o (counts ls) -> exists d, In d (domains ls) /\ sub_offset_ndomains d = o.
Proof.
  intros H. apply in_positions in H. unfold positions in H. apply in_map_iff in H.
  destruct H as [d [E H]]. exists d. split; auto.
Qed.

Lemma in_slices_zone g : 0 <= g -> forall n dir y,
  Forall (fun a => 0 < a) n -> length dir = length n -> Forall (fun a => -1 <= a <= 1) dir ->
  in_extended g y n ->
  (in_slices (loc g y) (slices (recv_slice g) n dir) = true <-> zone y n = opp_dir dir).
Proof.
  intros Hg. unfold in_extended, zone, loc, opp_dir, slices.
  induction n as [|n0 n IH]; intros [|d dir] y Hn L Hd Hy; try discriminate.
  - inversion Hy; subst. simpl. tauto.
  - inversion Hy as [|y0 ? y' ? Hy0 Hy']; subst. inversion Hn; subst. inversion Hd; subst.
    cbn [map2 map in_slices].
    destruct (recv_slice g n0 d) as [lo hi] eqn:E.
    pose proof (recv_zone1 g n0 d y0 Hg ltac:(auto) ltac:(auto) Hy0) as Z1. rewrite E in Z1. cbn [fst snd] in Z1.
    rewrite !andb_true_iff, Z.leb_le, Z.ltb_lt, Z1, IH by (auto; simpl in L; lia).
    split; [intros [-> ->]; auto|]. intros H. inversion H. auto.
Qed.

Lemma zone_dir g n y : in_extended g y n -> direction (length n) (zone y n).
Proof.
  intros H. unfold zone. induction H as [|a b y n Hab H IH].
  - split; auto. constructor.
  - cbn [map2]. destruct IH as [L F]. split; [simpl; auto|]. constructor; auto.
    unfold side. destruct (a <? 0), (b <=? a); lia.
Qed.

Lemma zone_zero g n y : in_extended g y n -> (is_zero (zone y n) = true <-> in_box y n).
Proof.
  intros H. unfold zone, in_box, is_zero. induction H as [|a b y n Hab H IH].
  - simpl. split; auto.
  - cbn [map2 forallb]. rewrite andb_true_iff, IH, Z.eqb_eq. unfold side. split.
    + intros [E F]. constructor; auto. destruct (Z.ltb_spec a 0); [lia|].
      destruct (Z.leb_spec b a); lia.
    + intros F. inversion F; subst. split; auto. destruct (Z.ltb_spec a 0); [lia|].
      destruct (Z.leb_spec b a); lia.
Qed.

Lemma wide_pos g ls o : wide g ls -> in_box o (counts ls) -> Forall (fun a => 0 < a) (size ls o).
Proof.
  intros [_ W]. revert o. induction W as [|l ls W1 W IH]; intros o H.
  - simpl. constructor.
  - rewrite counts_cons in H. inversion H as [|x ? o' ? Hx Ho']; subst. rewrite size_cons.
    constructor; auto. apply (blk_wide g l x W1 Hx).
Qed.

Lemma size_length ls o : in_box o (counts ls) -> length (size ls o) = length ls.
Proof.
  intros H. unfold size. rewrite map2_length. apply in_box_length in H.
  unfold counts in H. rewrite map_length in H. lia.
Qed.

(** The index a receiver reads from the message is the one the sender packed. *)
Definition fetch (g : Z) (ls : list (list Z)) (a o y dir : list Z) : list Z :=
  map2 Z.add (map fst (slices (send_slice g) (size ls a) dir))
    (map2 Z.sub (loc g y) (map fst (slices (recv_slice g) (size ls o) dir))).

Lemma haloD g ls : 0 <= g -> Forall (wide1 g) ls -> forall o y,
  in_box o (counts ls) -> in_extended g y (size ls o) ->
  let d := zone y (size ls o) in
  let a := neighbor_offset (counts ls) o d in
  exists z, in_box z (size ls a) /\ loc g z = fetch g ls a o y (opp_dir d) /\
    map2 Z.add (offs ls a) z =
    map2 (fun c N => c mod N) (map2 Z.add (offs ls o) y) (map sumZ ls).
Proof.
  intros Hg W. cbv zeta. induction W as [|l ls W1 W IH]; intros o y Ho Hy.
  - inversion Ho; subst. inversion Hy; subst. exists []. repeat split; constructor.
  - rewrite counts_cons in Ho. inversion Ho as [|o0 ? o' ? Ho0 Ho']; subst.
    rewrite size_cons in Hy. inversion Hy as [|y0 ? y' ? Hy0 Hy']; subst.
    destruct (IH o' y' Ho' Hy') as [z [Z1 [Z2 Z3]]].
    destruct (halo1 g l o0 y0 Hg W1 Ho0 Hy0) as [H1 H2].
    rewrite counts_cons, size_cons. unfold zone. cbn [map2]. rewrite neighbor_offset_cons.
    exists (src_cell g (blk l o0) (blk l (neighbor1 (len l) o0 (side y0 (blk l o0))))
              (side y0 (blk l o0)) y0 :: z).
    rewrite size_cons. fold (zone y' (size ls o')).
    split; [constructor; auto|]. split.
    + unfold fetch, loc, slices, opp_dir. rewrite !size_cons. cbn [map2 map]. f_equal.
      * unfold src_cell. lia.
      * unfold fetch, loc, slices, opp_dir in Z2. exact Z2.
    + unfold offs in *. cbn [map2 map]. f_equal; auto.
Qed.

(** * The exchange *)
Section Run.
  Context {V : Type}.
  Variables (g : Z) (ls : list (list Z)) (gbc : list (flds_bc * flds_bc)) (G : list Z -> V).
  Hypothesis W : wide g ls.
  Hypothesis L : length gbc = length ls.
  Hypothesis P : paired_flds gbc.
  Let ns := counts ls.

  Lemma Wl : Forall (wide1 g) ls.
  Proof. destruct W. auto. Qed.
  Lemma Wg : 0 <= g.
  Proof. destruct W. auto. Qed.

  Definition at_ (o y : list Z) : V :=
    G (map2 (fun c N => c mod N) (map2 Z.add (offs ls o) y) (map sumZ ls)).

  Lemma at_fetch (F : list Z -> list Z -> V) o y :
    (forall a z, in_box a ns -> in_box z (size ls a) ->
       F a (loc g z) = G (map2 Z.add (offs ls a) z)) ->
    in_box o ns -> in_extended g y (size ls o) ->
    let d := zone y (size ls o) in
    let a := neighbor_offset ns o d in
    F a (fetch g ls a o y (opp_dir d)) = at_ o y.
  Proof.
    intros HF Ho Hy. cbv zeta. destruct (haloD g ls Wg Wl o y Ho Hy) as [z [Z1 [Z2 Z3]]].
    unfold ns. rewrite <- Z2, HF; auto.
    - unfold at_. rewrite Z3. auto.
    - apply neighbor_offset_in_box; auto. apply dir_F2.
      unfold ns, counts. rewrite map_length, <- (size_length ls o Ho). eapply zone_dir; eauto.
  Qed.

  Lemma in_box_ext y n : in_box y n -> in_extended g y n.
  Proof.
    pose proof Wg. unfold in_box, in_extended. induction 1; constructor; auto. lia.
  Qed.

  Lemma zone_of_box y n : in_box y n -> zone y n = repeat 0 (length n).
  Proof.
    unfold zone. induction 1 as [|a b y n H0 H1 IH]; simpl; auto. f_equal; auto.
    unfold side. destruct (Z.ltb_spec a 0), (Z.leb_spec b a); lia.
  Qed.

  (** Active cells hold G also as wrapped coordinates. *)
  Lemma at_active o z : in_box o ns -> in_box z (size ls o) -> at_ o z = G (map2 Z.add (offs ls o) z).
  Proof.
    intros Ho Hz. unfold at_.
    destruct (haloD g ls Wg Wl o z Ho (in_box_ext _ _ Hz)) as [z' [Z1 [Z2 Z3]]].
    rewrite <- Z3. rewrite (zone_of_box _ _ Hz) in *.
    assert (E : neighbor_offset (counts ls) o (repeat 0 (length (size ls o))) = o).
    { assert (length (counts ls) = length ls) by apply map_length.
      pose proof (in_box_length _ _ Ho). unfold ns in *.
      rewrite size_length by auto. rewrite <- H.
      apply neighbor_zero; auto. apply repeat_length. }
    rewrite E in *. f_equal. f_equal.
    assert (Ez : loc g z' = loc g z).
    { rewrite Z2. unfold fetch. clear -Hz.
      assert (Lz := in_box_length _ _ Hz). clear Hz.
      unfold slices, opp_dir, loc. revert Lz. generalize (size ls o) as n.
      induction z as [|a z IH]; intros [|n0 n] Lz; try discriminate; auto.
      cbn [map2 map repeat length]. f_equal.
      - unfold send_slice, recv_slice, i_min. cbn [Z.eqb Z.opp fst]. lia.
      - apply IH. simpl in Lz. lia. }
    clear -Ez. revert z Ez. unfold loc. induction z' as [|a z' IH]; intros [|b z] E; try discriminate; auto.
    simpl in E. inversion E. f_equal; [lia|auto].
  Qed.

  (** Cells whose message has been unpacked so far. *)
  Record hinv (s0 s : hstate V) (done : list hevent) : Prop := {
    h_active : forall o z, in_box o ns -> in_box z (size ls o) ->
       fld s o (loc g z) = G (map2 Z.add (offs ls o) z);
    h_msg : forall a dir m, in_box a ns -> nonzero_direction (length ls) dir ->
       send_to ns gbc a dir = Some (neighbor_offset ns a dir) ->
       msg s a dir = Some m ->
       forall y, in_extended g y (size ls (neighbor_offset ns a dir)) ->
       zone y (size ls (neighbor_offset ns a dir)) = opp_dir dir ->
       m (map2 Z.sub (loc g y)
            (map fst (slices (recv_slice g) (size ls (neighbor_offset ns a dir)) dir)))
       = at_ (neighbor_offset ns a dir) y;
    h_done : forall o dir y, in_box o ns -> nonzero_direction (length ls) dir ->
       In (Unpack o dir) done -> recv_from ns gbc o dir <> None ->
       in_extended g y (size ls o) -> zone y (size ls o) = opp_dir dir ->
       fld s o (loc g y) = at_ o y;
    h_rest : forall o y, in_box o ns -> in_extended g y (size ls o) ->
       is_zero (zone y (size ls o)) = false ->
       recv_from ns gbc o (opp_dir (zone y (size ls o))) = None ->
       fld s o (loc g y) = fld s0 o (loc g y)
  }.

  Lemma send_is_neighbor o dir b : in_box o ns -> nonzero_direction (length ls) dir ->
    send_to ns gbc o dir = Some b -> b = neighbor_offset ns o dir.
  Proof.
    intros Ho Hd. unfold send_to.
    assert (LC : length ns = length ls) by apply map_length.
    rewrite partners_ok; rewrite ?LC; auto using paired_okbc. cbn [fst].
    destruct (cl _); congruence.
  Qed.
  Lemma recv_is_neighbor o dir b : in_box o ns -> nonzero_direction (length ls) dir ->
    recv_from ns gbc o dir = Some b -> b = neighbor_offset ns o (opp_dir dir).
  Proof.
    intros Ho Hd. unfold recv_from.
    assert (LC : length ns = length ls) by apply map_length.
    rewrite partners_ok; rewrite ?LC; auto using paired_okbc. cbn [snd].
    destruct (cl _); congruence.
  Qed.

  Lemma hinv_step s0 s done e s' : wf_event ls e -> hinv s0 s done ->
    hstep g ls gbc s e = Some s' -> hinv s0 s' (e :: done).
  Proof.
    intros WF I H. destruct e as [o dir|o dir]; destruct WF as [Ho Hd]; cbn [hstep] in H;
      fold (counts ls) in H; fold ns in H.
    - (* pack *)
      destruct (send_to ns gbc o dir) as [b|] eqn:Es.
      2:{ inversion H; subst. destruct I. constructor; auto.
          intros o' dir' y Ho' Hd' [C|C]; [discriminate|eauto]. }
      inversion H; subst; clear H.
      pose proof (send_is_neighbor o dir b Ho Hd Es) as ->.
      constructor.
      + apply (h_active _ _ _ I).
      + intros a dir' m Ha Hd' Hs. cbn [msg pack].
        destruct (list_eqb a o && list_eqb dir' dir) eqn:E.
        * apply andb_true_iff in E. destruct E as [E1 E2].
          apply list_eqb_true in E1, E2. subst a dir'.
          intros Hm y Hy Hz. inversion Hm; subst; clear Hm.
          assert (Hb : in_box (neighbor_offset ns o dir) ns).
          { apply neighbor_offset_in_box; auto. apply dir_F2. unfold ns, counts. rewrite map_length. apply Hd. }
          pose proof (at_fetch (fld s) (neighbor_offset ns o dir) y (h_active _ _ _ I) Hb Hy) as A.
          cbv zeta in A. rewrite Hz, opp_opp in A.
          assert (E : neighbor_offset ns (neighbor_offset ns o dir) (opp_dir dir) = o).
          { apply neighbor_offset_inv; auto. apply dir_F2. unfold ns, counts. rewrite map_length. apply Hd. }
          rewrite E in A. exact A.
        * apply (h_msg _ _ _ I); auto.
      + intros o' dir' y Ho' Hd' [C|C]; [discriminate|]. apply (h_done _ _ _ I); auto.
      + apply (h_rest _ _ _ I).
    - (* unpack *)
      destruct (recv_from ns gbc o dir) as [a|] eqn:Er.
      2:{ inversion H; subst. destruct I. constructor; auto.
          intros o' dir' y Ho' Hd' [C|C]; [|eauto]. inversion C; subst. congruence. }
      destruct (msg s a dir) as [m|] eqn:Em; [|discriminate]. inversion H; subst; clear H.
      pose proof (recv_is_neighbor o dir a Ho Hd Er) as Ea.
      assert (LC : length ns = length ls) by (unfold ns; apply map_length).
      assert (Fop : Forall2 (fun a (_ : Z) => -1 <= a <= 1) (opp_dir dir) ns).
      { apply dir_F2. rewrite LC. apply opp_direction, Hd. }
      assert (Ha : in_box a ns) by (subst a; apply neighbor_offset_in_box; auto).
      assert (Ena : neighbor_offset ns a dir = o).
      { subst a. pose proof (neighbor_offset_inv ns o (opp_dir dir) Ho Fop) as Q.
        fold (opp_dir (opp_dir dir)) in Q. rewrite opp_opp in Q. auto. }
      assert (Sa : send_to ns gbc a dir = Some o) by (apply match_partner; auto).
      assert (Write : forall y, in_extended g y (size ls o) -> zone y (size ls o) = opp_dir dir ->
        m (map2 Z.sub (loc g y) (map fst (slices (recv_slice g) (size ls o) dir))) = at_ o y).
      { intros y Hy Hz. pose proof (h_msg _ _ _ I a dir m Ha Hd) as M. rewrite Ena in M. auto. }
      assert (IS : forall y, in_extended g y (size ls o) ->
        (in_slices (loc g y) (slices (recv_slice g) (size ls o) dir) = true <-> zone y (size ls o) = opp_dir dir)).
      { intros y Hy. apply in_slices_zone; auto.
        - apply Wg. 
        - eapply wide_pos; eauto.
        - rewrite size_length by auto. apply Hd.
        - apply Hd. }
      (* value of the new field on extended cells *)
      assert (NV : forall o' y, in_extended g y (size ls o') ->
         (o' = o /\ zone y (size ls o) = opp_dir dir /\ fld (unpack g ls s m o dir) o' (loc g y) = at_ o y) \/
         ((o' <> o \/ zone y (size ls o) <> opp_dir dir) /\
           fld (unpack g ls s m o dir) o' (loc g y) = fld s o' (loc g y))).
      { intros o' y Hy. cbn [fld unpack].
        destruct (list_eqb o' o) eqn:E; cbn [andb].
        - apply list_eqb_true in E. subst o'.
          destruct (in_slices (loc g y) _) eqn:E2.
          + left. apply IS in E2; auto.
          + right. split; auto. right. intros C. apply IS in C; auto. congruence.
        - right. split; auto. left. intros C. subst.
          rewrite (proj2 (list_eqb_true o o) eq_refl) in E. discriminate. }
      assert (ZN : is_zero (opp_dir dir) = false).
      { eapply nonzero_is_zero. apply opp_nonzero. eauto. }
      constructor.
      + intros o' z Ho' Hz.
        destruct (NV o' z (in_box_ext _ _ Hz)) as [[-> [E _]]|[_ ->]].
        * exfalso. pose proof (proj2 (zone_zero g _ _ (in_box_ext _ _ Hz)) Hz). congruence.
        * apply (h_active _ _ _ I); auto.
      + intros a' dir' m' Ha' Hd' Hs' Hm'. apply (h_msg _ _ _ I); auto.
      + intros o' dir' y Ho' Hd' Hin Hr Hy Hz.
        destruct (NV o' y Hy) as [[-> [E V1]]|[N ->]]; auto.
        destruct Hin as [C|Hin]; [|eapply (h_done _ _ _ I); eauto].
        inversion C; subst. exfalso. destruct N; congruence.
      + intros o' y Ho' Hy Hz Hr.
        destruct (NV o' y Hy) as [[-> [E V1]]|[N ->]].
        * rewrite E, opp_opp in Hr. congruence.
        * apply (h_rest _ _ _ I); auto.
  Qed.

  Lemma hinv_exec s0 es : forall s done s', Forall (wf_event ls) es -> hinv s0 s done ->
    hexec g ls gbc s es = Some s' -> hinv s0 s' (rev es ++ done).
  Proof.
    induction es as [|e es IH]; intros s done s' WF I H; cbn [hexec] in H.
    - inversion H; subst. auto.
    - inversion WF; subst. destruct (hstep g ls gbc s e) as [s1|] eqn:E; [|discriminate].
      simpl rev. rewrite <- app_assoc. simpl. apply (IH s1); auto. eapply hinv_step; eauto.
  Qed.

  Lemma holds_active (s : hstate V) : holds g ls (fld s) G <->
    (forall o z, in_box o ns -> in_box z (size ls o) ->
       fld s o (loc g z) = G (map2 Z.add (offs ls o) z)).
  Proof.
    unfold holds. split.
    - intros H o z Ho Hz. destruct (pos_dom ls o Ho) as [d [Hd <-]].
      destruct (dom_pos ls d Hd) as [_ [E1 E2]]. rewrite <- E2. apply H; auto. rewrite E1. auto.
    - intros H d z Hd Hz. destruct (dom_pos ls d Hd) as [Hb [E1 E2]].
      rewrite E2. apply H; auto. rewrite <- E1. auto.
  Qed.

  Lemma exchange_result s es s' :
    fresh s -> holds g ls (fld s) G -> Forall (wf_event ls) es ->
    hexec g ls gbc s es = Some s' ->
    holds g ls (fld s') G /\
    forall d y, In d (domains ls) -> in_extended g y (sub_ncells d) -> ~ in_box y (sub_ncells d) ->
      let dir := opp_dir (zone y (sub_ncells d)) in
      let o := sub_offset_ndomains d in
      (recv_from ns gbc o dir = None -> fld s' o (loc g y) = fld s o (loc g y)) /\
      (recv_from ns gbc o dir <> None -> In (Unpack o dir) es ->
         fld s' o (loc g y) = G (wrapped ls d y)).
  Proof.
    intros Fr Ho WF H.
    assert (I0 : hinv s s []).
    { constructor.
      - apply holds_active; auto.
      - intros a dir m _ _ _ C. rewrite Fr in C. discriminate.
      - intros ? ? ? ? ? [].
      - auto. }
    pose proof (hinv_exec s es s [] s' WF I0 H) as I. rewrite app_nil_r in I. split.
    - apply holds_active. apply (h_active _ _ _ I).
    - intros d y Hd Hy Hn. cbv zeta. destruct (dom_pos ls d Hd) as [Hb [E1 E2]].
      rewrite E1 in *. set (o := sub_offset_ndomains d) in *.
      assert (Z0 : is_zero (zone y (size ls o)) = false).
      { destruct (is_zero _) eqn:E; auto. apply (zone_zero g) in E; auto. contradiction. }
      split.
      + intros Hr. apply (h_rest _ _ _ I); auto.
      + intros Hr Hin. unfold wrapped. rewrite E2.
        apply (h_done _ _ _ I o (opp_dir (zone y (size ls o))) y); auto.
        * apply opp_nonzero. apply nonzero_iff. split; auto.
          rewrite <- (size_length ls o Hb). eapply zone_dir; eauto.
        * apply -> in_rev. exact Hin.
        * rewrite opp_opp. auto.
  Qed.

  (** Everything periodic: every direction has a partner. *)
  Lemma periodic_partner o dir : all_periodic gbc -> in_box o ns ->
    nonzero_direction (length ls) dir ->
    recv_from ns gbc o dir = Some (neighbor_offset ns o (opp_dir dir)) /\
    send_to ns gbc o dir = Some (neighbor_offset ns o dir).
  Proof.
    intros AP Ho Hd.
    assert (LC : length ns = length ls) by (unfold ns; apply map_length).
    assert (C : forall dir, nonzero_direction (length ls) dir -> cl (flds_bc_in ns gbc o dir) <> CO).
    { intros d Hd'.
      assert (A : Forall (fun c => c <> CO) (fcl ns o d gbc)).
      { unfold fcl. clear -AP. revert o d gbc AP. induction ns as [|n l IH]; intros [|a o] [|d dir] [|b gbc] AP;
          cbn [faces map]; try constructor.
        inversion AP; subst.
        destruct (d =? 0); [apply IH; auto|]. constructor; [|apply IH; auto].
        unfold face1, raw1. cbn [fst snd].
        repeat match goal with
        | |- context [if ?c then _ else _] => destruct c
        end; cbn; discriminate. }
      rewrite (c_ccls ns gbc); auto using paired_okbc; rewrite ?LC; auto.
      pose proof (fcl_nonempty ns gbc ltac:(rewrite ?LC; auto) o d Ho ltac:(rewrite LC; auto)) as NE.
      rewrite (ccls_acc _ CO CP) by auto. clear -A. revert A. generalize (fcl ns o d gbc).
      intros l A. induction A as [|c l H A IH]; simpl; [discriminate|].
      destruct c; auto; discriminate. }
    unfold recv_from, send_to. rewrite partners_ok; rewrite ?LC; auto using paired_okbc.
    cbn [fst snd].
    pose proof (C dir Hd). pose proof (C _ (opp_nonzero _ _ Hd)).
    destruct (cl (flds_bc_in ns gbc o dir)), (cl (flds_bc_in ns gbc o (opp_dir dir))); try congruence; auto.
  Qed.
End Run.
