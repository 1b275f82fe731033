(** Proofs about matching layers: divided grids. *)
From Coq Require Import ZArith List Bool Reals Lra Lia Permutation.
From Flocq Require Import Core.Raux.
From Verif Require Import Base ListLemmas DecompModel DecompSpec FieldModel FieldProofs HaloSpec HaloProofs SyncProofs ShapeSpec InterpSpec.
From Verif Require Import MeshModel MeshSpec MeshProofs StepSpec MatchModel MatchSpec MatchProofs.
From Verif Require StatsProofs MomentTop.
Import ListNotations.
Open Scope R_scope.

(** ** Queries and ranges, dimension by dimension *)
Definition q1 (eps : R) (e : R * R) (b : bnd * bnd) : bool :=
  forallb (fun i => negb (blt (snd i) (fst i) || almost_equal eps (fst i) (snd i))) (intersect1 e b).
Lemma nth_map2 {A B C} (f : A -> B -> C) : forall l l' i da db dc, length l = length l' -> (i < length l)%nat -> nth i (map2 f l l') dc = f (nth i l da) (nth i l' db).
Proof.
  induction l as [|a l IH]; intros [|b l'] i da db dc L H; cbn in L, H; try lia. destruct i; cbn [map2 nth]; [reflexivity|]. apply IH; lia.
Qed.
Lemma nth_error_map2 {A B C} (f : A -> B -> C) l l' i da db : length l = length l' -> (i < length l)%nat ->
  nth_error (map2 f l l') i = Some (f (nth i l da) (nth i l' db)).
Proof.
  intros L H. rewrite (nth_error_nth' _ (f da db)) by (rewrite map2_length; lia). f_equal. apply nth_map2; assumption.
Qed.

Lemma query_true eps ext bx : length bx = length ext ->
  (forall i e b, nth_error ext i = Some e -> nth_error bx i = Some b -> q1 eps e b = true) -> intersects eps ext bx = Ok true.
Proof.
  intros L H. rewrite intersects_forallb by exact L. f_equal. clear L.
  revert bx H. induction ext as [|e ext IH]; intros [|b bx] H; try reflexivity. cbn [combine forallb fst snd].
  rewrite IH by (intros i e' b' A B; apply (H (S i)); assumption). rewrite andb_true_r. exact (H 0%nat e b eq_refl eq_refl).
Qed.
Lemma query_false eps ext bx i e b : length bx = length ext -> nth_error ext i = Some e -> nth_error bx i = Some b ->
  q1 eps e b = false -> intersects eps ext bx = Ok false.
Proof.
  intros L He Hb Q. rewrite intersects_forallb by exact L. f_equal. clear L.
  revert bx i He Hb. induction ext as [|e' ext IH]; intros [|b' bx] [|i] He Hb; try discriminate; cbn [combine forallb fst snd].
  - injection He as ->. injection Hb as ->. unfold q1 in Q. rewrite Q. reflexivity.
  - rewrite (IH bx i) by assumption. apply andb_false_r.
Qed.
Lemma ranges_all g : forall convs ext ns bx ghs Rf,
  length convs = length ns -> length ext = length ns -> length bx = length ns -> length ghs = length ns ->
  (forall i conv e n b gh, nth_error convs i = Some conv -> nth_error ext i = Some e -> nth_error ns i = Some n ->
     nth_error bx i = Some b -> nth_error ghs i = Some gh -> range1 g conv e n b gh = Ok (Rf i)) ->
  ranges g convs ext ns bx ghs = Ok (map Rf (seq 0 (length ns))).
Proof.
  induction convs as [|conv convs IH]; intros [|e ext] [|n ns] [|b bx] [|gh ghs] Rf L1 L2 L3 L4 H; cbn in L1, L2, L3, L4; try lia; try reflexivity.
  cbn [ranges length seq map]. rewrite (H 0%nat conv e n b gh) by reflexivity. cbn [rbind].
  rewrite (IH ext ns bx ghs (fun i => Rf (S i))); try lia.
  - cbn [rbind]. rewrite <- seq_shift, map_map. reflexivity.
  - intros i. exact (H (S i)).
Qed.
Lemma Forall2_seq (P : Z -> Z * Z -> Prop) Rf x k : Forall2 P x (map Rf (seq k (length x))) <-> forall i, (i < length x)%nat -> P (nth i x 0%Z) (Rf (k + i)%nat).
Proof.
  revert k. induction x as [|a x IH]; intro k; cbn [length seq map].
  - split; [intros _ i H; lia|intro; constructor].
  - split.
    + intro H. inversion H as [|? ? ? ? H1 H2]; subst. intros [|i] Hi; cbn [nth]; [rewrite Nat.add_0_r; exact H1|].
      replace (k + S i)%nat with (S k + i)%nat by lia. apply IH; [exact H2|cbn in Hi; lia].
    + intro H. constructor; [specialize (H 0%nat); rewrite Nat.add_0_r in H; apply H; lia|]. apply IH. intros i Hi.
      replace (S k + i)%nat with (k + S i)%nat by lia. exact (H (S i) ltac:(lia)).
Qed.

Lemma q_all eps e : proper e -> resolved eps e -> q1 eps e (NInf, PInf) = true.
Proof.
  intros P Q. unfold q1. rewrite intersect1_ok by (try assumption; intro; reflexivity). cbn [forallb fst snd lo hi blt almost_equal]. unfold proper, resolved in *.
  destruct (Rlt_dec (snd e) (fst e)); [lra|]. cbn [orb]. rewrite Rabs_minus_sym, Rabs_pos_eq by lra.
  destruct (Rle_dec _ _); [lra|]. destruct (Req_EM_T _ _); [lra|]. reflexivity.
Qed.
Lemma q_fin eps e a b : 0 <= eps -> proper e -> let l := lo e (Fin a) in let r := hi e (Fin b) in
  (l = r -> q1 eps e (Fin a, Fin b) = false) /\ (l < r -> resolved eps (l, r) -> q1 eps e (Fin a, Fin b) = true).
Proof.
  intros He P l r. unfold q1. rewrite intersect1_ok by (try assumption; intro H; discriminate H). cbn [forallb fst snd]. fold l r. cbn [blt almost_equal]. split.
  - intros ->. destruct (Rlt_dec r r); [lra|]. cbn [orb]. rewrite Rminus_eq_0, Rabs_R0.
    destruct (Rle_dec _ _) as [H|H]; [reflexivity|]. exfalso. apply H. apply Rmult_le_pos; [|exact He]. unfold Rmin. destruct (Rle_dec _ _); apply Rabs_pos.
  - intros H Q. unfold resolved in Q. cbn [fst snd] in Q. destruct (Rlt_dec r l); [lra|]. cbn [orb]. rewrite Rabs_minus_sym, Rabs_pos_eq by lra.
    destruct (Rle_dec _ _); [lra|]. destruct (Req_EM_T _ _); [lra|]. reflexivity.
Qed.

(** ** One subdomain *)
Section Sub.
  Variables (eps h : R) (g : Z) (x0 : list R) (s n : list Z) (o : nat) (up : bool) (N : Z) (ds : R).
  Hypothesis (He : 0 <= eps) (Hh : 0 < h) (Hds : 0 < ds) (Hg : (0 <= g)%Z).
  Hypothesis (Ls : length s = length n) (Lx : length x0 = length n) (Ho : (o < length n)%nat).
  Hypothesis Hn : forall i, (i < length n)%nat -> (0 < nth i n 0 /\ nth i n 0 + 2 * g < 2 ^ 32)%Z.
  Notation xs := (corner h x0 s).
  Hypothesis Hres : forall i, (i < length n)%nat -> resolved eps (nth i xs 0, nth i xs 0 + IZR (nth i n 0%Z) * h).
  Notation gext := (nth o x0 0, nth o x0 0 + IZR N * h).
  Hypothesis Hlay : resolved eps (layer_of up gext ds).
  Variable L : Z.
  Hypothesis HL : starts up h ds N L.
  Notation so := (nth o s 0%Z). Notation no := (nth o n 0%Z).

  Lemma len_xs : length xs = length n.
  Proof. unfold corner. rewrite map2_length. lia. Qed.
  Lemma nth_xs i : (i < length n)%nat -> nth i xs 0 = nth i x0 0 + IZR (nth i s 0%Z) * h.
  Proof. intro Hi. unfold corner. rewrite (nth_map2 _ x0 s i 0 0%Z) by lia. reflexivity. Qed.
  Lemma len_ext : length (mink_ext h xs n) = length n.
  Proof. unfold mink_ext. rewrite map2_length, len_xs. lia. Qed.
  Lemma nth_ext i : (i < length n)%nat -> nth_error (mink_ext h xs n) i = Some (nth i xs 0, nth i xs 0 + IZR (nth i n 0%Z) * h).
  Proof. intro Hi. unfold mink_ext. rewrite (nth_error_map2 _ xs n i 0 0%Z) by (rewrite len_xs; lia). reflexivity. Qed.
  Lemma nth_box l i : (i < length n)%nat -> nth_error (match_box (length n) o l) i = Some (if Nat.eqb i o then (Fin (fst l), Fin (snd l)) else (NInf, PInf)).
  Proof. intro Hi. unfold match_box. rewrite nth_error_map, (nth_error_nth' _ 0%nat) by (rewrite seq_length; exact Hi). rewrite seq_nth by exact Hi. reflexivity. Qed.
  Lemma nth_gh i : (i < length n)%nat -> nth_error (match_ghosts (length n) o false up) i = Some (if Nat.eqb i o then (if up then (false, true) else (true, false)) else (true, true)).
  Proof. intro Hi. unfold match_ghosts. rewrite nth_error_map, (nth_error_nth' _ 0%nat) by (rewrite seq_length; exact Hi). rewrite seq_nth by exact Hi. reflexivity. Qed.
  Lemma is_proper i : (i < length n)%nat -> proper (nth i xs 0, nth i xs 0 + IZR (nth i n 0%Z) * h).
  Proof. intro Hi. destruct (Hn i Hi) as [P _]. apply IZR_lt in P. unfold proper. cbn. nra. Qed.

  (** The layer ends before the subdomain. *)
  Lemma misses : (if up then so + no <= L else L <= so)%Z ->
    intersects eps (mink_ext h xs n) (match_box (length n) o (layer_of up gext ds)) = Ok false.
  Proof.
    intro H. eapply query_false with (i := o).
    - unfold match_box. rewrite map_length, seq_length, len_ext. reflexivity.
    - apply nth_ext. exact Ho.
    - rewrite nth_box by exact Ho. rewrite Nat.eqb_refl. reflexivity.
    - pose proof (is_proper o Ho) as P. apply (proj1 (q_fin eps _ _ _ He P)). unfold proper in P. rewrite nth_xs in * by exact Ho. cbn [fst snd] in *.
      assert (Dh : 0 < ds / h) by (apply Rmult_lt_0_compat; [exact Hds|apply Rinv_0_lt_compat; exact Hh]).
      assert (E : ds / h * h = ds) by (field; lra).
      unfold starts in HL. destruct up; cbn [layer_of fst snd lo hi]; apply IZR_le in H; rewrite ?plus_IZR in H.
      + set (X := nth o x0 0) in *. set (a := IZR so) in *. set (b := IZR no) in *.
        assert (A : X + a * h + b * h <= X + IZR N * h - ds) by (rewrite <- E; nra).
        rewrite (Rmax_right (X + a * h)) by lra. rewrite Rmin_left by lra. rewrite Rmin_left by lra. rewrite Rmax_right by lra. reflexivity.
      + set (X := nth o x0 0) in *. set (a := IZR so) in *. set (b := IZR no) in *.
        assert (A : X + ds <= X + a * h) by (rewrite <- E; nra).
        rewrite (Rmax_left (X + a * h) X) by lra. rewrite Rmin_right by lra. rewrite (Rmin_right _ (X + ds)) by lra. rewrite Rmax_left by lra. reflexivity.
  Qed.

  (** The subdomain at the edge. *)
  Hypothesis Hedge : (if up then so + no = N /\ so <= L else so = 0 /\ L <= no)%Z.
  Definition rng (i : nat) : Z * Z :=
    if Nat.eqb i o then (if up then (L - so + g, no + 2 * g)%Z else (0%Z, (L + g)%Z)) else (0%Z, (nth i n 0 + 2 * g)%Z).
  Lemma clamp : lo (nth o xs 0, nth o xs 0 + IZR no * h) (Fin (fst (layer_of up gext ds))) = fst (layer_of up gext ds) /\
    hi (nth o xs 0, nth o xs 0 + IZR no * h) (Fin (snd (layer_of up gext ds))) = snd (layer_of up gext ds).
  Proof.
    pose proof (is_proper o Ho) as P. unfold proper in P. rewrite nth_xs in * by exact Ho. cbn [fst snd] in *.
    assert (Dh : 0 < ds / h) by (apply Rmult_lt_0_compat; [exact Hds|apply Rinv_0_lt_compat; exact Hh]).
    assert (E : ds / h * h = ds) by (field; lra). unfold starts in HL.
    destruct up; destruct Hedge as [E1 E2]; cbn [layer_of fst snd lo hi]; set (X := nth o x0 0) in *.
    - apply IZR_le in E2. rewrite <- E1, plus_IZR in *. set (a := IZR so) in *. set (b := IZR no) in *.
      assert (A : X + a * h <= X + (a + b) * h - ds) by (rewrite <- E; nra).
      rewrite (Rmax_right (X + a * h)) by lra. rewrite !Rmin_right by lra. rewrite Rmax_right by lra. lra.
    - rewrite E1 in *. apply IZR_le in E2. set (b := IZR no) in *.
      assert (A : X + ds <= X + b * h) by (rewrite <- E; nra). rewrite !Rmult_0_l, !Rplus_0_r in *.
      rewrite (Rmax_left X X) by lra. rewrite !Rmin_right by lra. rewrite Rmax_right by lra. lra.
  Qed.
  Lemma hits : intersects eps (mink_ext h xs n) (match_box (length n) o (layer_of up gext ds)) = Ok true.
  Proof.
    apply query_true.
    - unfold match_box. rewrite map_length, seq_length, len_ext. reflexivity.
    - intros i e b A B. assert (Hi : (i < length n)%nat) by (rewrite <- len_ext; apply nth_error_Some; congruence).
      rewrite nth_ext in A by exact Hi. rewrite nth_box in B by exact Hi. injection A as <-. injection B as <-.
      destruct (Nat.eqb_spec i o) as [-> | _]; [|apply q_all; [apply is_proper; exact Hi|apply Hres; exact Hi]].
      destruct clamp as [C1 C2]. apply (proj2 (q_fin eps _ _ _ He (is_proper o Ho))); rewrite C1, C2; [destruct up; cbn; lra|].
      rewrite <- surjective_pairing. exact Hlay.
  Qed.
  Lemma ranges_are : extent_to_range eps g (map (mink_cd h) xs) (mink_ext h xs n) n (match_box (length n) o (layer_of up gext ds)) (match_ghosts (length n) o false up)
    = Ok (map rng (seq 0 (length n))).
  Proof.
    unfold extent_to_range. assert (Lb : length (match_box (length n) o (layer_of up gext ds)) = length n) by (unfold match_box; rewrite map_length, seq_length; reflexivity).
    assert (Lg : length (match_ghosts (length n) o false up) = length n) by (unfold match_ghosts; rewrite map_length, seq_length; reflexivity).
    rewrite len_ext, Lb, Lg, !Nat.eqb_refl. cbn [andb]. rewrite hits. cbn [rbind]. apply ranges_all; try assumption.
    - rewrite map_length. apply len_xs.
    - apply len_ext.
    - intros i conv e k b gh A B C D' E'. assert (Hi : (i < length n)%nat) by (apply nth_error_Some; congruence).
      rewrite nth_ext in B by exact Hi. rewrite nth_box in D' by exact Hi. rewrite nth_gh in E' by exact Hi.
      rewrite nth_error_map, (nth_error_nth' xs 0) in A by (rewrite len_xs; exact Hi). cbn in A.
      rewrite (nth_error_nth' n 0%Z) in C by exact Hi. injection A as <-. injection B as <-. injection C as <-. injection D' as <-. injection E' as <-.
      destruct (Hn i Hi) as [P32 Q32]. unfold rng. destruct (Nat.eqb_spec i o) as [-> | _]; [|unfold range1; reflexivity].
      destruct (linear_map (nth o xs 0) h no Hh P32) as [G P].
      change (mink_cd h (nth o xs 0)) with (fun x => (x - nth o xs 0) / h).
      rewrite (range1_value g _ _ no _ _ G P) by (try lia; reflexivity). cbn [fst snd]. destruct clamp as [C1 C2]. rewrite C1, C2. f_equal.
      rewrite nth_xs by exact Ho.
      unfold starts in HL. destruct up; destruct Hedge as [E1 E2]; cbn [layer_of fst snd]; set (X := nth o x0 0) in *.
      + f_equal.
        * assert (Z : Zfloor ((X + IZR N * h - ds - (X + IZR so * h)) / h) = (L - so)%Z); [|lia].
          replace ((X + IZR N * h - ds - (X + IZR so * h)) / h) with (IZR N - ds / h - IZR so) by (field; lra).
          apply Zfloor_imp. rewrite plus_IZR, minus_IZR. lra.
        * rewrite <- E1, plus_IZR. replace ((X + (IZR so + IZR no) * h - (X + IZR so * h)) / h) with (IZR no) by (field; lra). rewrite Zceil_IZR. reflexivity.
      + rewrite E1, Rmult_0_l, Rplus_0_r. f_equal.
        * replace ((X - X) / h) with (IZR 0) by (unfold Rdiv; ring). rewrite Zfloor_IZR. reflexivity.
        * replace ((X + ds - X) / h) with (ds / h) by (field; lra). f_equal. apply Zceil_imp. rewrite minus_IZR. lra.
  Qed.
  Lemma in_rng y : in_extended g y n -> (In (loc g y) (HaloSpec.box (map rng (seq 0 (length n)))) <-> in_layer up o L (map2 Z.add s y) = true).
  Proof using Ls Ho Hedge.
    clear Hn Lx Hres Hlay HL. intro Hy. assert (Ly : length y = length n) by (eapply Forall2_length; exact Hy).
    assert (Hyi : forall i, (i < length n)%nat -> (- g <= nth i y 0 < nth i n 0 + g)%Z).
    { clear -Hy Ly. revert n Hy Ly. induction y as [|a y IH]; intros [|b m] Hy Ly i Hi; cbn in *; try lia. inversion Hy; subst. destruct i; [assumption|]. apply IH; auto; lia. }
    rewrite in_boxl. assert (Ll : length (loc g y) = length n) by (unfold loc; rewrite map_length; exact Ly).
    rewrite <- Ll, Forall2_seq, Ll. cbn [Nat.add].
    assert (Nl : forall i, (i < length n)%nat -> nth i (loc g y) 0%Z = (nth i y 0 + g)%Z).
    { intros i Hi. unfold loc. rewrite (nth_indep _ 0%Z (0 + g)%Z) by (rewrite map_length; lia). apply (map_nth (fun a => a + g)%Z). }
    assert (NX : nth o (map2 Z.add s y) 0%Z = (so + nth o y 0)%Z) by (rewrite (nth_map2 _ s y o 0%Z 0%Z) by lia; reflexivity).
    unfold in_layer. rewrite NX. split.
    - intro H. specialize (H o Ho). rewrite Nl in H by exact Ho. unfold rng in H. rewrite Nat.eqb_refl in H.
      destruct up; cbn [fst snd] in H; [apply Z.leb_le|apply Z.ltb_lt]; lia.
    - intros H i Hi. rewrite Nl by exact Hi. pose proof (Hyi i Hi). unfold rng. destruct (Nat.eqb_spec i o) as [-> | _]; cbn [fst snd]; [|lia].
      destruct up; [apply Z.leb_le in H|apply Z.ltb_lt in H]; cbn [fst snd]; lia.
  Qed.
End Sub.

(** ** All subdomains *)
Lemma place_nth c s y : length s = length y -> forall d i, (i < length y)%nat ->
  nth i (place_from c d (map2 Z.add s y)) 0 = IZR (nth i s 0%Z) + nth i (place_from c d y) 0.
Proof.
  revert s. induction y as [|a y IH]; intros [|b s] L d i Hi; cbn in L, Hi; try lia. cbn [map2 place_from].
  destruct i; cbn [nth]; [unfold node; rewrite plus_IZR; lra|]. apply IH; lia.
Qed.
Lemma place_length c d y : length (place_from c d y) = length y.
Proof. revert d. induction y as [|a y IH]; intro d; [reflexivity|]. cbn. rewrite IH. reflexivity. Qed.
Lemma point_corner h x0 s y c : length s = length y -> length x0 = length y ->
  mink_ph h (corner h x0 s) (place c y) = point h x0 c (map2 Z.add s y).
Proof.
  intros Ls Lx. unfold mink_ph, point. apply (List.nth_ext _ _ 0 0).
  - unfold corner, place. rewrite !map2_length, !place_length, map2_length. lia.
  - intros i Hi. assert (Hy : (i < length y)%nat).
    { unfold corner, place in Hi. rewrite !map2_length, place_length in Hi. lia. }
    unfold place. rewrite (nth_map2 _ (corner h x0 s) _ i 0 0) by (unfold corner; rewrite !map2_length, ?place_length; lia).
    rewrite (nth_map2 _ x0 (place_from c 0 (map2 Z.add s y)) i 0 0) by (rewrite ?place_length, ?map2_length; lia).
    unfold corner. rewrite (nth_map2 _ x0 s i 0 0%Z) by lia. rewrite place_nth by lia. ring.
Qed.

Lemma ext_nth g y n i : in_extended g y n -> (i < length n)%nat -> (- g <= nth i y 0 < nth i n 0 + g)%Z.
Proof.
  intro H. revert i. induction H as [|a b y n Hab H IH]; intros [|i] Hi; cbn in Hi; try lia; cbn [nth]; [exact Hab|]. apply IH. lia.
Qed.

Section All.
  Variables (eps h : R) (g : Z) (ls : list (list Z)) (x0 : list R) (o : nat) (up : bool) (ds : R) (L : Z).
  Variables (tu : nat -> R -> R) (setter : comp -> option (list R -> R)) (tags : Z) (on : comp -> bool).
  Notation N := (map sumZ ls).
  Notation gext := (extent_along h x0 N o).
  Hypothesis (He : 0 <= eps) (Hh : 0 < h) (Hds : 0 < ds) (HD : (1 <= length ls <= 3)%nat) (Ho : (o < length ls)%nat).
  Hypothesis (Lx : length x0 = length ls) (W : wide g ls).
  Hypothesis H32 : Forall (Forall (fun n => n + 2 * g < 2 ^ 32)%Z) ls.
  Hypothesis (Hs : no_slivers eps h x0 ls) (Hlay : resolved eps (layer_of up gext ds)).
  Hypothesis (HL : starts up h ds (nth o N 0%Z) L) (Hc : clear_of_borders g ls o up L).
  Hypothesis Hon : forall c, on c = true <-> asked tags c.

  Lemma dom_cells d i : In d (domains ls) -> (i < length ls)%nat -> (0 < nth i (sub_ncells d) 0 /\ nth i (sub_ncells d) 0 + 2 * g < 2 ^ 32)%Z.
  Proof using W H32.
    intros Hd Hi. destruct (HaloProofs.dom_pos ls d Hd) as [B [-> _]]. destruct W as [_ W1]. clear -W1 H32 B Hi.
    revert H32 B i Hi. generalize (sub_offset_ndomains d). induction ls as [|l r IH]; intros p H32 B i Hi; cbn in Hi; [lia|].
    inversion W1; subst. inversion H32; subst. rewrite counts_cons in B. inversion B; subst. rewrite size_cons. destruct i; cbn [nth].
    - destruct (blk_wide g l x); [assumption|assumption|]. split; [assumption|].
      unfold blk. rewrite Forall_forall in H3. apply H3. apply nth_In. unfold len in *. lia.
    - apply IH; try assumption. lia.
  Qed.

  Lemma one d order m : In d (domains ls) -> (forall l, Permutation (order l) l) ->
    exists m', match_cartesian eps g h (corner h x0 (sub_offset_ncells d)) (sub_ncells d) o up gext ds tu setter tags order m = Ok m' /\
    forall F c y, in_extended g y (sub_ncells d) -> m c (loc g y) = F c (map2 Z.add (sub_offset_ncells d) y) ->
      m' c (loc g y) = matched h x0 o up L (edge_of up gext) ds tu setter on F c (map2 Z.add (sub_offset_ncells d) y).
  Proof using All.
    intros Hd Po. set (s := sub_offset_ncells d). set (n := sub_ncells d).
    assert (Ls : length s = length n) by apply (StatsProofs.dom_length ls d Hd).
    assert (Ln : length n = length ls) by apply (StatsProofs.dom_length ls d Hd).
    assert (Hg : (0 <= g)%Z) by (destruct W; assumption).
    assert (Hn : forall i, (i < length n)%nat -> (0 < nth i n 0 /\ nth i n 0 + 2 * g < 2 ^ 32)%Z) by (intros i Hi; apply dom_cells; [assumption|lia]).
    assert (Hr : forall i, (i < length n)%nat -> resolved eps (nth i (corner h x0 s) 0, nth i (corner h x0 s) 0 + IZR (nth i n 0%Z) * h)).
    { intros i Hi. apply (Hs d i Hd). lia. }
    assert (Lx' : length x0 = length n) by lia. assert (Ho' : (o < length n)%nat) by lia.
    unfold match_cartesian, match_fields_in.
    pose proof (Hc d Hd) as C. cbv zeta in C. fold s n in C.
    assert (C' : (if up then nth o s 0 + nth o n 0 = nth o N 0 /\ nth o s 0 <= L else nth o s 0 = 0 /\ L <= nth o n 0)%Z \/
                 (if up then nth o s 0 + nth o n 0 + g <= L else L <= nth o s 0 - g)%Z) by (destruct up; exact C).
    clear C. destruct C' as [E|E].
    - unfold extent_along in *. rewrite (hits eps h g x0 s n o up (nth o N 0%Z) ds He Hh Hds Ls Lx' Ho' Hn Hr Hlay L HL E). cbn [rbind].
      rewrite (ranges_are eps h g x0 s n o up (nth o N 0%Z) ds He Hh Hds Hg Ls Lx' Ho' Hn Hr Hlay L HL E). cbn [rbind].
      eexists; split; [reflexivity|]. intros F c y Hy Hm. rewrite (match_loop _ _ _ _ _ _ _ _ _ _ _ _ _ _ _ _ c (loc g y) (nodup_box _) (Po _)).
      pose proof (in_rng g s n o up (nth o N 0%Z) Ls Ho' L E y Hy) as IR.
      assert (Ly : length y = length n) by (eapply Forall2_length; exact Hy).
      unfold matched. destruct (setter c) as [f|] eqn:Ec.
      + destruct (on c) eqn:Eo; cbn [andb].
        * destruct (in_dec cell_dec _ _) as [A|A].
          -- rewrite (proj1 IR A). unfold value. rewrite Ec. apply Hon in Eo. apply tagged_asked in Eo. rewrite Eo.
             rewrite where_place by lia. cbv zeta. rewrite shape_weight by lra.
             assert (AX : at_axis g false false 0 c (loc g y) = false) by (destruct c; try reflexivity; destruct y as [|? [|? ?]]; reflexivity).
             rewrite AX. rewrite Hm. rewrite point_corner by lia. unfold blend.
             assert (Q : nth o (place c y) 0 * h + nth o (corner h x0 s) 0 = nth o (point h x0 c (map2 Z.add s y)) 0).
             { rewrite <- point_corner by lia. unfold mink_ph. rewrite (nth_map2 _ (corner h x0 s) (place c y) o 0 0); [reflexivity| |];
               unfold corner, place; rewrite !map2_length, ?place_length; lia. }
             rewrite Q. assert (Nc : number c = S (axis_of c)) by (destruct c; reflexivity). rewrite Nc. reflexivity.
          -- destruct (in_layer up o L (map2 Z.add s y)) eqn:IL; [exfalso; apply A, IR; reflexivity|]. exact Hm.
        * destruct (in_dec cell_dec _ _) as [A|A]; [|exact Hm]. unfold value. rewrite Ec.
          destruct (tagged tags c) eqn:T; [|exact Hm]. apply tagged_asked, Hon in T. congruence.
      + destruct (in_dec cell_dec _ _) as [A|A]; [|exact Hm]. unfold value. rewrite Ec. exact Hm.
    - unfold extent_along in *. rewrite (misses eps h g x0 s n o up (nth o N 0%Z) ds He Hh Hds Ls Lx' Ho' Hn Hr Hlay L HL) by (destruct up; lia). cbn [rbind].
      eexists; split; [reflexivity|]. intros F c y Hy Hm. unfold matched. destruct (setter c); [|exact Hm].
      assert (Ly : length y = length n) by (eapply Forall2_length; exact Hy).
      assert (IL : in_layer up o L (map2 Z.add s y) = false).
      { assert (Hyo : (- g <= nth o y 0 < nth o n 0 + g)%Z).
        { apply ext_nth; assumption. }
        unfold in_layer. rewrite (nth_map2 _ s y o 0%Z 0%Z) by lia. destruct up; [apply Z.leb_gt|apply Z.ltb_ge]; lia. }
      rewrite IL, andb_false_r. exact Hm.
  Qed.
End All.

(** ** Relaxation *)
Lemma blend_between w a b : 0 <= w <= 1 -> Rmin a b <= blend w a b <= Rmax a b.
Proof.
  intro H. unfold blend, Rmin, Rmax. destruct (Rle_dec a b); nra.
Qed.
Lemma blend_iter w T : forall k a, Nat.iter k (fun v => blend w v T) a - T = w ^ k * (a - T).
Proof.
  induction k as [|k IH]; intro a; cbn [Nat.iter pow nat_rect]; [ring|]. change (blend w (Nat.iter k (fun v => blend w v T) a) T - T = w * w ^ k * (a - T)).
  rewrite Rmult_assoc, <- IH. unfold blend. ring.
Qed.

(** ** General metrics *)
Lemma update g o gr ph phi tu setter edge ds tags axlo axhi n2 cells order m c y on :
  ds <> 0 -> (1 <= length y <= 3)%nat -> NoDup cells -> Permutation order (map (loc g) cells) -> (forall c', on c' = true <-> asked tags c') ->
  par_for (match_body g o gr ph phi tu setter edge ds tags axlo axhi (n2 + 2 * g)) order m c (loc g y) =
  match setter c with
  | Some f =>
      if on c && (if in_dec cell_dec y cells then true else false) then
        let p := place c y in let w := weight ds (Rabs (phi (nth o p 0) - edge)) in
        if on_axis axlo axhi n2 c y then w * m c (loc g y)
        else blend w (m c (loc g y)) (if gr then f (ph p) else tu (S (axis_of c)) p (f (ph p)))
      else m c (loc g y)
  | None => m c (loc g y)
  end.
Proof.
  intros Hds Ly ND P Hon.
  rewrite (match_loop _ _ _ _ _ _ _ _ _ _ _ _ _ (map (loc g) cells)); [|apply FinFun.Injective_map_NoDup; [intros a b; apply MomentTop.loc_inj|exact ND]|exact P].
  assert (IN : In (loc g y) (map (loc g) cells) <-> In y cells).
  { rewrite in_map_iff. split; [intros [z [E I]]; apply MomentTop.loc_inj in E; congruence|intro I; exists y; auto]. }
  unfold value. destruct (setter c) as [f|]; [|destruct (in_dec _ _ _); reflexivity].
  destruct (in_dec cell_dec (loc g y) _) as [A|A]; destruct (in_dec cell_dec y cells) as [B|B]; try tauto; [|rewrite andb_false_r; reflexivity].
  rewrite andb_true_r. destruct (tagged tags c) eqn:T.
  - pose proof T as T'. apply tagged_asked, Hon in T'. rewrite T'. rewrite where_place by exact Ly. cbv zeta. rewrite shape_weight by exact Hds.
    assert (AX : at_axis g axlo axhi (n2 + 2 * g) c (loc g y) = on_axis axlo axhi n2 c y).
    { unfold at_axis, on_axis. destruct c; try reflexivity. destruct y as [|a [|b y]]; cbn [loc map]; try reflexivity.
      destruct axlo, axhi; cbn [negb orb andb]; rewrite ?andb_true_r, ?orb_false_r; try reflexivity;
      destruct (Z.gtb_spec (b + g) g); destruct (Z.ltb_spec (b + g) (n2 + 2 * g - g)); destruct (Z.leb_spec b 0); destruct (Z.leb_spec n2 b); cbn; try reflexivity; lia. }
    rewrite AX. assert (Nc : number c = S (axis_of c)) by (destruct c; reflexivity). rewrite Nc. destruct (on_axis axlo axhi n2 c y); unfold blend; [ring|reflexivity].
  - destruct (on c) eqn:Eo; [|reflexivity]. apply Hon, tagged_asked in Eo. congruence.
Qed.

(** ** A layer that reaches over a border *)
Definition thick (order : list (list Z) -> list (list Z)) (eps : R) (s : Z) (m : fields) : res fields :=
  match_cartesian eps 2 1 (corner 1 [0] [s]) [4%Z] 0 true (0, 8) 6 (fun _ v => v)
    (fun c => match c with Ex1 => Some (fun _ => 1) | _ => None end) 1 order m.
Lemma thick_val eps order s A m : 0 <= eps < 1 / 10 -> (forall l, Permutation (order l) l) ->
  (s = 0 /\ A = 2 \/ s = 4 /\ A = 0)%Z ->
  exists m', thick order eps s m = Ok m' /\ forall c y, (-2 <= y < 6)%Z -> (c <> Ex1 \/ (y < A)%Z -> m' c [(y + 2)%Z] = m c [(y + 2)%Z]) /\
    ((A <= y)%Z -> m Ex1 [(y + 2)%Z] = 0 -> 0 < m' Ex1 [(y + 2)%Z]).
Proof.
  intros He Po Hs. unfold thick, match_cartesian, match_fields_in. cbn [length match_box seq map Nat.eqb layer_of fst snd corner mink_ext map2].
  set (a := 0 + IZR s * 1). set (e := (a, a + IZR 4 * 1)).
  assert (Ha : a = IZR s) by (unfold a; ring).
  assert (P : proper e) by (unfold proper, e; cbn [fst snd]; lra).
  assert (K : lo e (Fin (8 - 6)) = IZR (s + A) /\ hi e (Fin 8) = a + 4).
  { unfold lo, hi, e. cbn [fst snd]. rewrite Ha. destruct Hs as [[-> ->]|[-> ->]]; cbn [Z.add]; unfold Rmax, Rmin; repeat (destruct (Rle_dec _ _)); lra. }
  destruct K as [K1 K2].
  assert (Q : q1 eps e (Fin (8 - 6), Fin 8) = true).
  { apply (proj2 (q_fin eps e _ _ (proj1 He) P)); rewrite K1, K2, Ha.
    - destruct Hs as [[-> ->]|[-> ->]]; cbn; lra.
    - unfold resolved. cbn [fst snd]. destruct Hs as [[-> ->]|[-> ->]]; cbn [Z.add]; rewrite !Rabs_pos_eq by lra; rewrite Rmin_left by lra; lra. }
  assert (QI : intersects eps [e] [(Fin (8 - 6), Fin 8)] = Ok true).
  { apply query_true; [reflexivity|]. intros [|[|i]] e' b' E1 E2; try discriminate. injection E1 as <-. injection E2 as <-. exact Q. }
  rewrite QI. cbn [rbind]. unfold extent_to_range. rewrite QI. cbn [length Nat.eqb andb rbind match_ghosts seq map orb ranges].
  destruct (linear_map a 1 4 Rlt_0_1 eq_refl) as [G P'].
  change (mink_cd 1 a) with (fun x => (x - a) / 1).
  rewrite (range1_value 2 _ _ 4 _ _ G P') by (try lia; reflexivity). fold e. cbn [fst snd rbind]. rewrite K1, K2.
  assert (F1 : Zfloor ((IZR (s + A) - a) / 1) = A).
  { rewrite Ha, plus_IZR. replace ((IZR s + IZR A - IZR s) / 1) with (IZR A) by field. apply Zfloor_IZR. }
  assert (F2 : Zceil ((a + 4 - a) / 1) = 4%Z) by (replace ((a + 4 - a) / 1) with (IZR 4) by field; apply Zceil_IZR).
  rewrite F1, F2. eexists; split; [reflexivity|]. intros c y Hy.
  assert (IN : In [(y + 2)%Z] (HaloSpec.box [((A + 2)%Z, (4 + 2 * 2)%Z)]) <-> (A <= y)%Z).
  { rewrite in_boxl. split; [intro H; inversion H; subst; cbn in *; lia|intro H; constructor; [cbn; lia|constructor]]. }
  split.
  - intro H. rewrite (match_loop _ _ _ _ _ _ _ _ _ _ _ _ _ _ _ _ _ _ (nodup_box _) (Po _)). destruct (in_dec _ _ _) as [I|I]; [|reflexivity]. apply IN in I.
    destruct H as [H|H]; [|lia]. unfold value. destruct c; try reflexivity. congruence.
  - intros H Hm. rewrite (match_loop _ _ _ _ _ _ _ _ _ _ _ _ _ _ _ _ _ _ (nodup_box _) (Po _)). destruct (in_dec _ _ _) as [I|I]; [|tauto]. unfold value. change (tagged 1 Ex1) with true. cbv iota zeta. rewrite shape_weight by lra.
    rewrite Hm. change (at_axis 2 false false 0 Ex1 [(y + 2)%Z]) with false. cbv iota.
    match goal with |- 0 < ?w * 0 + (1 - ?w') * 1 => destruct (weight_range 6 (Rabs ((nth 0 (where_ 2 Ex1 [(y + 2)%Z]) 0) * 1 + nth 0 [a] 0 - edge_of true (0, 8)))) as [_ B]; try lra; try apply Rabs_pos end.
Qed.

Lemma dom44 d : In d (domains [[4%Z; 4%Z]]) ->
  (sub_offset_ndomains d = [0%Z] /\ sub_offset_ncells d = [0%Z] /\ sub_ncells d = [4%Z]) \/
  (sub_offset_ndomains d = [1%Z] /\ sub_offset_ncells d = [4%Z] /\ sub_ncells d = [4%Z]).
Proof. intro H. vm_compute in H. destruct H as [<-|[<-|[]]]; cbn; auto. Qed.
Lemma dom44_lo : exists d, In d (domains [[4%Z; 4%Z]]) /\ sub_offset_ndomains d = [0%Z] /\ sub_offset_ncells d = [0%Z] /\ sub_ncells d = [4%Z].
Proof. vm_compute. eexists. split; [left; reflexivity|]. auto. Qed.
Lemma dom44_hi : exists d, In d (domains [[4%Z; 4%Z]]) /\ sub_offset_ndomains d = [1%Z] /\ sub_offset_ncells d = [4%Z] /\ sub_ncells d = [4%Z].
Proof. vm_compute. eexists. split; [right; left; reflexivity|]. auto. Qed.

Definition zero_f : fields := fun _ _ => 0.
Lemma thick_refuted eps : 0 <= eps < 1 / 10 ->
  exists (ls : list (list Z)) (up : bool) (ds : R) (setter : comp -> option (list R -> R)) (st : list Z -> fields) (F : fields),
  wide 2 ls /\ agree 2 ls st F /\
  (forall order, (forall p l, Permutation (order p l) l) ->
   (forall d, In d (domains ls) -> exists m', match_cartesian eps 2 1 (corner 1 [0] (sub_offset_ncells d)) (sub_ncells d) 0 up (0, 8) ds
        (fun _ v => v) setter 1 (order (sub_offset_ndomains d)) (st (sub_offset_ndomains d)) = Ok m') /\
   forall st', (forall d, In d (domains ls) -> match_cartesian eps 2 1 (corner 1 [0] (sub_offset_ncells d)) (sub_ncells d) 0 up (0, 8) ds
        (fun _ v => v) setter 1 (order (sub_offset_ndomains d)) (st (sub_offset_ndomains d)) = Ok (st' (sub_offset_ndomains d))) ->
   ~ exists F', agree 2 ls st' F').
Proof.
  intro He. exists [[4%Z; 4%Z]], true, 6, (fun c => match c with Ex1 => Some (fun _ => 1) | _ => None end), (fun _ => zero_f), zero_f.
  split; [split; [lia|]; repeat constructor; lia|]. split; [intros d c y _ _; reflexivity|]. intros order Po. split.
  - intros d Hd. destruct (dom44 d Hd) as [(-> & -> & ->)|(-> & -> & ->)].
    + destruct (thick_val eps (order [0%Z]) 0 2 zero_f He (Po _)) as [m' [E _]]; [lia|]. exists m'. exact E.
    + destruct (thick_val eps (order [1%Z]) 4 0 zero_f He (Po _)) as [m' [E _]]; [lia|]. exists m'. exact E.
  - intros st' H [F' A]. destruct dom44_lo as (d0 & H0 & P0 & S0 & N0). destruct dom44_hi as (d1 & H1 & P1 & S1 & N1).
    destruct (thick_val eps (order [0%Z]) 0 2 zero_f He (Po _)) as [m0 [E0 V0]]; [lia|].
    destruct (thick_val eps (order [1%Z]) 4 0 zero_f He (Po _)) as [m1 [E1 V1]]; [lia|].
    pose proof (H d0 H0) as K0. pose proof (H d1 H1) as K1. rewrite P0, S0, N0 in K0. rewrite P1, S1, N1 in K1.
    unfold thick in E0, E1. rewrite E0 in K0. rewrite E1 in K1. injection K0 as K0. injection K1 as K1.
    pose proof (A d0 Ex1 [2%Z] H0) as A0. pose proof (A d1 Ex1 [(-2)%Z] H1) as A1. rewrite P0, S0, N0, <- K0 in A0. rewrite P1, S1, N1, <- K1 in A1.
    specialize (A0 ltac:(constructor; [lia|constructor])). specialize (A1 ltac:(constructor; [lia|constructor])).
    destruct (V0 Ex1 2%Z ltac:(lia)) as [_ B0]. specialize (B0 ltac:(lia) eq_refl).
    destruct (V1 Ex1 (-2)%Z ltac:(lia)) as [B1 _]. specialize (B1 ltac:(right; lia)).
    cbn in A0, A1, B0, B1. unfold zero_f in B1. lra.
Qed.

Lemma divided eps h g ls x0 o up ds L tu setter tags on order st F :
  0 <= eps -> 0 < h -> 0 < ds -> (1 <= length ls <= 3)%nat -> (o < length ls)%nat -> length x0 = length ls -> wide g ls ->
  Forall (Forall (fun n => n + 2 * g < 2 ^ 32)%Z) ls -> no_slivers eps h x0 ls ->
  resolved eps (slab up (extent_along h x0 (map sumZ ls) o) ds) ->
  starts up h ds (nth o (map sumZ ls) 0%Z) L -> clear_of_borders g ls o up L ->
  (forall c, on c = true <-> asked tags c) -> (forall p l, Permutation (order p l) l) -> agree g ls st F ->
  let gext := extent_along h x0 (map sumZ ls) o in
  let run d := match_cartesian eps g h (corner h x0 (sub_offset_ncells d)) (sub_ncells d) o up gext ds tu setter tags
                 (order (sub_offset_ndomains d)) (st (sub_offset_ndomains d)) in
  (forall d, In d (domains ls) -> exists m', run d = Ok m') /\
  forall st', (forall d, In d (domains ls) -> run d = Ok (st' (sub_offset_ndomains d))) ->
    agree g ls st' (matched h x0 o up L (edge_pos up gext) ds tu setter on F).
Proof.
  change slab with layer_of. change edge_pos with edge_of. intros He Hh Hds HD Ho Lx W H32 Hs Hlay HL Hc Hon Po A gext run. split.
  - intros d Hd. destruct (one eps h g ls x0 o up ds L tu setter tags on He Hh Hds HD Ho Lx W H32 Hs Hlay HL Hc Hon d (order (sub_offset_ndomains d)) (st (sub_offset_ndomains d)) Hd (Po _)) as [m' [E _]].
    exists m'. exact E.
  - intros st' H d c y Hd Hy. destruct (one eps h g ls x0 o up ds L tu setter tags on He Hh Hds HD Ho Lx W H32 Hs Hlay HL Hc Hon d (order (sub_offset_ndomains d)) (st (sub_offset_ndomains d)) Hd (Po _)) as [m' [E V]].
    pose proof (H d Hd) as K. unfold run in K. unfold gext in K. rewrite E in K. injection K as K. rewrite <- K. apply V; [exact Hy|]. apply A; assumption.
Qed.

(** A case. *)
Lemma case_layer : let eps := 1 / 1000 in let ls := [[4%Z; 4%Z]] in
  wide 2 ls /\ Forall (Forall (fun n => n + 2 * 2 < 2 ^ 32)%Z) ls /\ no_slivers eps 1 [0] ls /\
  resolved eps (slab true (extent_along 1 [0] (map sumZ ls) 0) 2) /\ starts true 1 2 (nth 0 (map sumZ ls) 0%Z) 6 /\ clear_of_borders 2 ls 0 true 6 /\
  (forall c, (match c with Ex1 | Ex2 | Ex3 => true | _ => false end) = true <-> asked 1 c).
Proof.
  intros eps ls. split; [split; [lia|]; repeat constructor; lia|]. split; [repeat constructor; lia|]. split; [|split; [|split; [|split]]].
  - intros d i Hd Hi. assert (i = 0%nat) as -> by (cbn in Hi; lia). unfold eps, resolved. destruct (dom44 d Hd) as [(_ & -> & ->)|(_ & -> & ->)]; cbn [corner map2 nth fst snd];
    rewrite !Rabs_pos_eq by lra; rewrite Rmin_left by lra; lra.
  - unfold resolved, eps. cbn [slab extent_along fst snd nth map sumZ ls fold_right]. cbn. rewrite !Rabs_pos_eq by lra. rewrite Rmin_left by lra. lra.
  - cbn. lra.
  - intros d Hd. destruct (dom44 d Hd) as [(_ & -> & ->)|(_ & -> & ->)]; cbn; lia.
  - intro c. split.
    + intro H. exists 0%Z. destruct c; try discriminate; split; cbn; auto; lia.
    + intros [b [Hb T]]. destruct c; try reflexivity; cbn in Hb; assert (C : (b = 3 \/ b = 4 \/ b = 5)%Z) by lia; destruct C as [->|[->| ->]]; discriminate T.
Qed.
