From Coq Require Import ZArith List Bool Reals Lra Lia Permutation.
From Flocq Require Import Core.
From Verif Require Import Base ListLemmas DecompModel DecompSpec DecompProofs DecompTop TopoModel HaloModel HaloSpec HaloProofs DoubleQuot CkptProofs OutModel.
Import ListNotations.
Open Scope Z_scope.

(** Smallest integer not below a / d. *)
Definition cdiv (a d : Z) : Z := - ((- a) / d).
Lemma cdiv_spec a d : 1 <= d -> (cdiv a d - 1) * d < a <= cdiv a d * d.
Proof. intros H. unfold cdiv. pose proof (Z.div_mod (- a) d ltac:(lia)). pose proof (Z.mod_pos_bound (- a) d ltac:(lia)). nia. Qed.
Lemma cdiv_unique a d k : 1 <= d -> (k - 1) * d < a <= k * d -> cdiv a d = k.
Proof. intros H K. pose proof (cdiv_spec a d H). nia. Qed.

(** ** The rounded quotient has the right ceiling *)
Lemma ceil_quot a d : Z.abs a < 2 ^ 33 -> 1 <= d < 2 ^ 32 -> Zceil (round_double (IZR a / IZR d)) = cdiv a d.
Proof.
  intros Ha Hd. set (k := cdiv a d). pose proof (cdiv_spec a d ltac:(lia)) as K. fold k in K.
  assert (D0 : (0 < IZR d)%R) by (apply IZR_lt; lia).
  set (e := Z.log2_up d).
  assert (E : d <= 2 ^ e < 2 * d /\ 0 <= e <= 32).
  { split; [|split; [apply Z.log2_up_nonneg|]].
    - destruct (Z.eq_dec d 1) as [-> | N]; [cbn; lia|].
      pose proof (Z.log2_up_spec d ltac:(lia)) as [A B]. unfold e. split; [lia|].
      replace (2 ^ Z.log2_up d) with (2 * 2 ^ Z.pred (Z.log2_up d)); [lia|].
      rewrite <- Z.pow_succ_r; [f_equal; lia|]. pose proof (Z.log2_up_pos d ltac:(lia)). lia.
    - unfold e. change 32 with (Z.log2_up (2 ^ 32)). apply Z.log2_up_le_mono. lia. }
  destruct E as [E1 E2].
  assert (Q : forall z, (IZR z <= IZR a / IZR d)%R <-> z * d <= a).
  { intros z. split; intros H.
    - apply le_IZR. rewrite mult_IZR. apply Rmult_le_compat_r with (r := IZR d) in H; [|lra].
      unfold Rdiv in H. rewrite Rmult_assoc, Rinv_l, Rmult_1_r in H; lra.
    - apply Rmult_le_reg_r with (IZR d); auto. unfold Rdiv. rewrite Rmult_assoc, Rinv_l, Rmult_1_r, <- mult_IZR by lra. apply IZR_le. auto. }
  assert (UP : (IZR a / IZR d <= IZR k)%R).
  { apply Rmult_le_reg_r with (IZR d); auto. unfold Rdiv. rewrite Rmult_assoc, Rinv_l, Rmult_1_r, <- mult_IZR by lra. apply IZR_le. lia. }
  set (y := F2R (Float radix2 ((k - 1) * 2 ^ e + 1) (- e))).
  assert (Y0 : y = (IZR (k - 1) + / IZR (2 ^ e))%R).
  { unfold y, F2R. cbn [Fnum Fexp]. rewrite plus_IZR, mult_IZR, bpow_opp, <- IZR_Zpower by lia. change (radix_val radix2) with 2.
    field. apply IZR_neq. lia. }
  assert (P2 : (0 < IZR (2 ^ e))%R) by (apply IZR_lt; lia).
  assert (Y1 : (y <= IZR a / IZR d)%R).
  { rewrite Y0. apply Rle_trans with (IZR (k - 1) + / IZR d)%R.
    - apply Rplus_le_compat_l. apply Rinv_le_contravar; auto. apply IZR_le. lia.
    - apply Rmult_le_reg_r with (IZR d); auto. unfold Rdiv. rewrite Rmult_plus_distr_r, Rmult_assoc, !Rinv_l, Rmult_1_r, <- mult_IZR, <- plus_IZR by lra.
      apply IZR_le. lia. }
  assert (KB : Z.abs (k - 1) * d < 2 ^ 34) by nia.
  assert (YG : generic_format radix2 (FLT_exp (-1074) 53) y).
  { apply generic_format_FLT. exists (Float radix2 ((k - 1) * 2 ^ e + 1) (- e)); auto; cbn [Fnum Fexp]; [|lia].
    change (Zpower radix2 53) with (2 ^ 53). nia. }
  assert (VE : Valid_exp (FLT_exp (-1074) 53)) by (apply FLT_exp_valid; reflexivity).
  apply Zceil_imp. split.
  - apply Rlt_le_trans with y.
    + rewrite Y0. rewrite <- (Rplus_0_r (IZR (k - 1))) at 1. apply Rplus_lt_compat_l. apply Rinv_0_lt_compat; auto.
    + apply round_ge_generic; auto with typeclass_instances.
  - apply round_le_generic; auto with typeclass_instances. apply IZR_generic. nia.
Qed.

Lemma round_Z z : Z.abs z < 2 ^ 53 -> round_double (IZR z) = IZR z.
Proof. intros H. apply round_generic; auto with typeclass_instances. apply IZR_generic; auto. Qed.

Lemma lay_f_exact l d : 0 <= l < 2 ^ 32 -> 1 <= d < 2 ^ 32 -> lay_f l d = IZR (cdiv l d * d - l).
Proof.
  intros Hl Hd. unfold lay_f. rewrite ceil_quot by lia. pose proof (cdiv_spec l d ltac:(lia)).
  rewrite <- mult_IZR, round_Z, <- minus_IZR, round_Z by lia. auto.
Qed.
Lemma lay_size_exact n f d : Z.abs n < 2 ^ 32 -> Z.abs f < 2 ^ 32 -> 1 <= d < 2 ^ 32 -> lay_size n (IZR f) d = cdiv (n - f) d.
Proof. intros Hn Hf Hd. unfold lay_size. rewrite <- minus_IZR, round_Z by lia. apply ceil_quot; lia. Qed.

Definition ok1 (g l n d : Z) : Prop := 0 <= l /\ 0 < n /\ l + n <= g /\ g < 2 ^ 32 /\ 1 <= d < 2 ^ 32.
Definition ideal (g l n d : Z) : lay :=
  {| g_dwn := cdiv g d; corner_dwn := cdiv l d; l_first := cdiv l d * d - l; shape_dwn := cdiv (n - (cdiv l d * d - l)) d |}.
Lemma layout1_ok g l n d : ok1 g l n d -> layout1 false g l n d = Ok (ideal g l n d).
Proof.
  intros (H1 & H2 & H3 & H4 & H5). unfold layout1. rewrite andb_false_r. destruct (Z.eqb_spec d 0); [lia|].
  pose proof (cdiv_spec l d ltac:(lia)) as C. pose proof (cdiv_spec g d ltac:(lia)) as CG.
  rewrite lay_f_exact, lay_size_exact, Ztrunc_IZR, !ceil_quot by lia.
  pose proof (cdiv_spec (n - (cdiv l d * d - l)) d ltac:(lia)) as CS.
  assert (CA : forall z, 0 <= z < 2 ^ 32 -> cast32 z = Ok z).
  { intros z Hz. unfold cast32. replace (0 <=? z) with true by (symmetry; apply Z.leb_le; lia).
    replace (z <? 2 ^ 32) with true by (symmetry; apply Z.ltb_lt; lia). auto. }
  rewrite !CA; cbn [rbind]; auto; nia.
Qed.
(** Index [j] of the file belongs to the block iff cell [j * d] belongs to the subdomain. *)
Lemma block_iff g l n d j : ok1 g l n d ->
  0 <= j - cdiv l d < shape_dwn (ideal g l n d) <-> l <= j * d < l + n.
Proof.
  intros (H1 & H2 & H3 & H4 & H5). cbn. pose proof (cdiv_spec l d ltac:(lia)) as C.
  pose proof (cdiv_spec (n - (cdiv l d * d - l)) d ltac:(lia)) as CS. set (a := cdiv l d) in *. set (b := cdiv _ d) in *. nia.
Qed.
Lemma glob_iff g l n d j : ok1 g l n d -> 0 <= j < g_dwn (ideal g l n d) <-> 0 <= j * d < g.
Proof. intros (H1 & H2 & H3 & H4 & H5). cbn. pose proof (cdiv_spec g d ltac:(lia)) as C. nia. Qed.

(** ** All dimensions *)
Inductive okL : list Z -> list Z -> list Z -> list Z -> Prop :=
| okL_nil : okL [] [] [] []
| okL_cons g l n d gs ls ns ds : ok1 g l n d -> okL gs ls ns ds -> okL (g :: gs) (l :: ls) (n :: ns) (d :: ds).
Fixpoint ideals (g l n d : list Z) : list lay :=
  match g, l, n, d with
  | g1 :: g', l1 :: l', n1 :: n', d1 :: d' => ideal g1 l1 n1 d1 :: ideals g' l' n' d'
  | _, _, _, _ => []
  end.
Lemma layouts_ok g l n d : okL g l n d -> layouts false g l n d = Ok (ideals g l n d).
Proof. induction 1; cbn [layouts ideals]; auto. rewrite layout1_ok, IHokL by auto. auto. Qed.

Lemma in_boxb_iff i s : in_boxb i s = true <-> in_box i s.
Proof.
  unfold in_boxb, in_box. revert s. induction i as [|a i IH]; intros [|b s]; cbn [length combine forallb Nat.eqb]; try (split; [discriminate|inversion 1]).
  - split; intros; [constructor|reflexivity].
  - specialize (IH s). rewrite Bool.andb_true_iff in *. cbn [Nat.eqb forallb]. rewrite Bool.andb_true_iff, Bool.andb_true_iff, Z.leb_le, Z.ltb_lt. split.
    + intros [L [[A B] C]]. constructor; [lia|]. apply IH. auto.
    + inversion 1; subst. destruct IH as [_ IH]. destruct (IH ltac:(auto)). auto.
Qed.

Lemma blocks_iff g l n d : okL g l n d -> forall j, length j = length d ->
  (in_box (map2 Z.sub j (map corner_dwn (ideals g l n d))) (map shape_dwn (ideals g l n d)) <->
   in_box (map2 Z.sub (map2 Z.mul j d) l) n).
Proof.
  induction 1 as [|g l n d gs ls ns ds O OK IH]; intros [|j js] L; try discriminate; cbn [ideals map map2]; [split; constructor|].
  injection L as L. specialize (IH js L). pose proof (block_iff g l n d j O) as B. unfold in_box in *.
  split; inversion 1; subst; constructor; try (apply IH; auto).
  - assert (l <= j * d < l + n) by (apply B; cbn in *; auto). lia.
  - apply B. lia.
Qed.
Lemma globs_iff g l n d : okL g l n d -> forall j, length j = length d ->
  (in_box j (map g_dwn (ideals g l n d)) <-> in_box (map2 Z.mul j d) g).
Proof.
  induction 1 as [|g l n d gs ls ns ds O OK IH]; intros [|j js] L; try discriminate; cbn [ideals map map2]; [split; constructor|].
  injection L as L. specialize (IH js L). pose proof (glob_iff g l n d j O) as B. unfold in_box in *.
  split; inversion 1; subst; constructor; try (apply IH; auto); apply B; auto.
Qed.

(** What is written. *)
Lemma field_ok {V} w g l n d (F : list Z -> V) : okL g l n d ->
  let b := write_field w false n d (map l_first (ideals g l n d)) F in
  b_shape b = map shape_dwn (ideals g l n d) /\
  forall i, length i = length d -> b_data b i = F (map (fun a => a + w) (map2 Z.sub (map2 Z.mul (map2 Z.add i (map corner_dwn (ideals g l n d))) d) l)).
Proof.
  intros OK. unfold write_field. cbn [orb]. destruct (forallb (fun d => d =? 1) d) eqn:ALL; cbn [b_shape b_data]; split.
  - clear F. induction OK as [|g l n d gs ls ns ds O OK IH]; auto. cbn [forallb] in ALL. apply andb_prop in ALL as [A1 A2]. apply Z.eqb_eq in A1. subst d.
    cbn [ideals map]. f_equal; [|apply IH; auto]. cbn. rewrite (cdiv_unique l 1 l) by lia. symmetry. apply cdiv_unique; lia.
  - intros i L. f_equal. clear F. revert i L. induction OK as [|g l n d gs ls ns ds O OK IH]; intros [|a i] L; try discriminate; auto.
    cbn [forallb] in ALL. apply andb_prop in ALL as [A1 A2]. apply Z.eqb_eq in A1. subst d. injection L as L.
    cbn [ideals map map2]. f_equal; [|apply IH; auto]. cbn. rewrite (cdiv_unique l 1 l) by lia. lia.
  - clear F ALL. induction OK as [|g l n d gs ls ns ds O OK IH]; auto.
    cbn [ideals map map2 combine fst snd]. f_equal; [|apply IH; auto]. cbn. destruct O as (H1 & H2 & H3 & H4 & H5).
    pose proof (cdiv_spec l d ltac:(lia)). apply lay_size_exact; lia.
  - intros i L. f_equal. clear F ALL. revert i L. induction OK as [|g l n d gs ls ns ds O OK IH]; intros [|a i] L; try discriminate; auto.
    injection L as L. cbn [ideals map map2 combine fst snd]. f_equal; [|apply IH; auto]. cbn. lia.
Qed.

Section Run.
  Context {V : Type}.
  Variables (w : Z) (ls : list (list Z)) (dwn : list Z) (F : list Z -> list Z -> V) (G : list Z -> V).
  Hypothesis POS : Forall (Forall (fun a => 0 < a)) ls.
  Hypothesis SMALL : Forall (fun l => sumZ l < 2 ^ 32) ls.
  Hypothesis LD : length dwn = length ls.
  Hypothesis DW : Forall (fun d => 1 <= d < 2 ^ 32) dwn.
  Hypothesis HG : holds w ls F G.

  Lemma NN : Forall (Forall (fun a => 0 <= a)) ls.
  Proof. eapply Forall_impl; [|exact POS]. intros l H. eapply Forall_impl; [|exact H]. cbn. intros. lia. Qed.

  Lemma dom_ok s : In s (domains ls) -> okL (map sumZ ls) (sub_offset_ncells s) (sub_ncells s) dwn.
  Proof.
    intros H. destruct (dom_pos ls s H) as (B & E1 & E2). rewrite E1, E2. clear E1 E2 H HG.
    revert B. generalize (sub_offset_ndomains s) as o. clear s F G. revert dwn LD DW.
    induction ls as [|l ls' IH]; intros ds LD' DW' [|o os] B; unfold in_box in B; cbn [counts map] in B; inversion B; subst.
    - destruct ds; [constructor|discriminate].
    - destruct ds as [|d ds]; [discriminate|]. inversion POS; inversion SMALL; inversion DW'; subst. injection LD' as LD'.
      unfold offs, size. cbn [map map2]. constructor; [|apply IH; auto].
      assert (W : wide1 0 l) by (unfold wide1; eapply Forall_impl; [|eassumption]; cbn; intros; lia).
      match goal with H : 0 <= o < _ |- _ => pose proof (off_nonneg 0 l o W H); pose proof (off_end 0 l o W H); pose proof (blk_wide 0 l o W H) end.
      unfold ok1. unfold blk in *. lia.
  Qed.

  (** The file element [j] is written by the subdomain that owns cell [j * dwn]. *)
  Lemma write_ok s file : In s (domains ls) ->
    exists file', write_one w false (map sumZ ls) (counts ls) dwn F s file = Ok file' /\
    (forall j, length j = length dwn -> in_box (map2 Z.sub (map2 Z.mul j dwn) (sub_offset_ncells s)) (sub_ncells s) ->
       file' j = Some (G (map2 Z.mul j dwn))) /\
    (forall j, length j = length dwn -> ~ in_box (map2 Z.sub (map2 Z.mul j dwn) (sub_offset_ncells s)) (sub_ncells s) -> file' j = file j).
  Proof.
    intros Hs. pose proof (dom_ok s Hs) as OK. unfold write_one, init_layout. rewrite (layouts_ok _ _ _ _ OK). cbn [rbind].
    destruct (field_ok w _ _ _ _ (F (sub_offset_ndomains s)) OK) as [SH DA]. unfold put. rewrite SH.
    unfold list_eqb. destruct (list_eq_dec Z.eq_dec _ _) as [_|N]; [|congruence].
    eexists. split; [reflexivity|]. destruct (dom_lens ls s Hs) as (L1 & L2 & _).
    assert (LI : length (ideals (map sumZ ls) (sub_offset_ncells s) (sub_ncells s) dwn) = length dwn).
    { clear - OK. induction OK; cbn; auto. }
    split; intros j Lj B; cbv zeta.
    - assert (X : in_boxb (map2 Z.sub j (map corner_dwn (ideals (map sumZ ls) (sub_offset_ncells s) (sub_ncells s) dwn)))
         (map shape_dwn (ideals (map sumZ ls) (sub_offset_ncells s) (sub_ncells s) dwn)) = true) by (apply in_boxb_iff, blocks_iff; auto).
      rewrite X. f_equal. rewrite DA by (rewrite map2_length, map_length; lia).
      assert (E : map2 Z.add (map2 Z.sub j (map corner_dwn (ideals (map sumZ ls) (sub_offset_ncells s) (sub_ncells s) dwn)))
                    (map corner_dwn (ideals (map sumZ ls) (sub_offset_ncells s) (sub_ncells s) dwn)) = j).
      { rewrite <- Lj in LI. clear - LI. revert j LI. generalize (ideals (map sumZ ls) (sub_offset_ncells s) (sub_ncells s) dwn).
        intros L. induction L as [|a L IH]; intros [|j js] H2; try discriminate; auto. cbn. f_equal; [lia|]. apply IH. cbn in *; lia. }
      rewrite E. assert (Z := HG s _ Hs B). unfold loc in Z. rewrite Z. f_equal.
      assert (LM : length (map2 Z.mul j dwn) = length (sub_offset_ncells s)) by (rewrite map2_length; lia).
      clear - LM. revert LM. generalize (map2 Z.mul j dwn) as a, (sub_offset_ncells s) as b. induction a as [|x a IH]; intros [|y b] L; try discriminate; auto.
      cbn. f_equal; [lia|]. apply IH. cbn in L. lia.
    - assert (X : in_boxb (map2 Z.sub j (map corner_dwn (ideals (map sumZ ls) (sub_offset_ncells s) (sub_ncells s) dwn)))
         (map shape_dwn (ideals (map sumZ ls) (sub_offset_ncells s) (sub_ncells s) dwn)) = false).
      { apply not_true_iff_false. rewrite in_boxb_iff, blocks_iff by auto. auto. }
      rewrite X. auto.
  Qed.

  Lemma owned s j : In s (domains ls) -> length j = length dwn ->
    in_box (map2 Z.sub (map2 Z.mul j dwn) (sub_offset_ncells s)) (sub_ncells s) ->
    is_global_cell s (map2 Z.sub (map2 Z.mul j dwn) (sub_offset_ncells s)) (map2 Z.mul j dwn).
  Proof.
    intros Hs Lj B. split; auto. destruct (dom_lens ls s Hs) as (L1 & L2 & _).
    assert (LM : length (map2 Z.mul j dwn) = length (sub_offset_ncells s)) by (rewrite map2_length; lia).
    clear - LM. revert LM. generalize (map2 Z.mul j dwn) as a, (sub_offset_ncells s) as b. induction a as [|x a IH]; intros [|y b] L; try discriminate; auto.
    cbn. f_equal; [lia|]. apply IH. cbn in L. lia.
  Qed.
  Lemma owned_inv s x c : In s (domains ls) -> is_global_cell s x c -> x = map2 Z.sub c (sub_offset_ncells s).
  Proof.
    intros Hs [B ->]. destruct (dom_lens ls s Hs) as (L1 & L2 & _). apply in_box_length in B.
    assert (L : length x = length (sub_offset_ncells s)) by lia. clear - L. revert L. generalize (sub_offset_ncells s).
    induction x as [|a x IH]; intros [|y b] L; try discriminate; auto. cbn. f_equal; [lia|]. apply IH. cbn in L. lia.
  Qed.

  Theorem file_is_strided order : Permutation order (domains ls) ->
    exists file, write_var w false (map sumZ ls) (counts ls) dwn F order = Ok file /\
    (forall j, length j = length dwn -> in_box (map2 Z.mul j dwn) (map sumZ ls) -> file j = Some (G (map2 Z.mul j dwn))) /\
    (forall j, length j = length dwn -> ~ in_box (map2 Z.mul j dwn) (map sumZ ls) -> file j = None).
  Proof.
    intros PM.
    assert (STEP : forall l file0, (forall s, In s l -> In s (domains ls)) ->
      exists file, fold_left (fun acc s => rbind acc (write_one w false (map sumZ ls) (counts ls) dwn F s)) l (Ok file0) = Ok file /\
      forall j, length j = length dwn ->
        ((exists s, In s l /\ in_box (map2 Z.sub (map2 Z.mul j dwn) (sub_offset_ncells s)) (sub_ncells s)) /\ file j = Some (G (map2 Z.mul j dwn))) \/
        ((forall s, In s l -> ~ in_box (map2 Z.sub (map2 Z.mul j dwn) (sub_offset_ncells s)) (sub_ncells s)) /\ file j = file0 j)).
    { induction l as [|s l IH]; intros file0 IN; cbn [fold_left rbind].
      - exists file0. split; auto.
      - destruct (write_ok s file0 (IN s (or_introl eq_refl))) as (f1 & E & A & B). rewrite E.
        destruct (IH f1 (fun s' H => IN s' (or_intror H))) as (f2 & E2 & R). exists f2. split; auto. intros j Lj.
        destruct (R j Lj) as [[(s' & I1 & I2) V1]|[N V1]].
        + left. split; auto. exists s'. split; auto. right. auto.
        + destruct (in_boxb (map2 Z.sub (map2 Z.mul j dwn) (sub_offset_ncells s)) (sub_ncells s)) eqn:Q.
          * apply in_boxb_iff in Q. left. split; [exists s; split; auto; left; auto|]. rewrite V1. apply A; auto.
          * assert (Q' : ~ in_box (map2 Z.sub (map2 Z.mul j dwn) (sub_offset_ncells s)) (sub_ncells s)) by (rewrite <- in_boxb_iff; congruence).
            right. split; [intros s' [<- | I']; auto|]. rewrite V1. apply B; auto. }
    destruct (STEP order (fun _ => None)) as (file & E & R); [intros s H; eapply Permutation_in; eauto|].
    exists file. split; auto. split; intros j Lj B.
    - destruct (R j Lj) as [[_ V1]|[N _]]; auto. exfalso.
      destruct (tiles_cover ls _ eq_refl NN _ B) as ([idx x] & (s & S1 & S2) & _). cbn [fst snd] in *.
      assert (Hs : In s (domains ls)) by (eapply nth_error_In; exact S1).
      apply (N s); [eapply Permutation_in; [symmetry; exact PM|auto]|]. rewrite <- (owned_inv s x _ Hs S2). apply S2.
    - destruct (R j Lj) as [[(s & I1 & I2) _]|[_ V1]]; auto. exfalso. apply B.
      assert (Hs : In s (domains ls)) by (eapply Permutation_in; eauto).
      destruct (In_nth_error _ _ Hs) as [idx Hi].
      eapply (tiles_inside ls _ eq_refl NN idx s); [exact Hi|apply owned; auto].
  Qed.

  Theorem written_once j : length j = length dwn -> in_box (map2 Z.mul j dwn) (map sumZ ls) ->
    exists! p : nat * list Z, exists s L, nth_error (domains ls) (fst p) = Some s /\
      init_layout w false (map sumZ ls) (counts ls) dwn s = Ok L /\
      in_box (snd p) (map shape_dwn L) /\ j = map2 Z.add (map corner_dwn L) (snd p).
  Proof.
    intros Lj B. destruct (tiles_cover ls _ eq_refl NN _ B) as ([idx x] & (s & S1 & S2) & U). cbn [fst snd] in *.
    assert (Hs : In s (domains ls)) by (eapply nth_error_In; exact S1). pose proof (dom_ok s Hs) as OK.
    assert (CAN : forall L (i : list Z), length L = length dwn -> length i = length dwn -> map2 Z.add (map corner_dwn L) (map2 Z.sub i (map corner_dwn L)) = i /\
                    map2 Z.sub (map2 Z.add (map corner_dwn L) i) (map corner_dwn L) = i).
    { clear. intros L. revert dwn. induction L as [|a L IH]; intros [|d0 ds] [|y i] H1 H2; try discriminate; auto. cbn in *.
      destruct (IH ds i) as [A1 A2]; [lia..|]. split; f_equal; auto; lia. }
    assert (LI : forall s, In s (domains ls) -> length (ideals (map sumZ ls) (sub_offset_ncells s) (sub_ncells s) dwn) = length dwn).
    { intros s' H'. pose proof (dom_ok s' H') as OK'. clear - OK'. induction OK'; cbn; auto. }
    exists (idx, map2 Z.sub j (map corner_dwn (ideals (map sumZ ls) (sub_offset_ncells s) (sub_ncells s) dwn))). split.
    - exists s, (ideals (map sumZ ls) (sub_offset_ncells s) (sub_ncells s) dwn). cbn [fst snd]. split; auto. split; [apply layouts_ok; auto|]. split.
      + apply blocks_iff; auto. rewrite <- (owned_inv s x _ Hs S2). apply S2.
      + symmetry. apply CAN; auto.
    - intros [idx' i'] (s' & L' & S1' & IL & Bi & Ej). cbn [fst snd] in *.
      assert (Hs' : In s' (domains ls)) by (eapply nth_error_In; exact S1').
      pose proof (dom_ok s' Hs') as OK'. unfold init_layout in IL. rewrite (layouts_ok _ _ _ _ OK') in IL. injection IL as <-.
      assert (Ei : i' = map2 Z.sub j (map corner_dwn (ideals (map sumZ ls) (sub_offset_ncells s') (sub_ncells s') dwn))).
      { rewrite Ej. symmetry. apply CAN; auto. apply in_box_length in Bi. rewrite map_length, LI in Bi by auto. auto. }
      rewrite Ei in Bi. apply blocks_iff in Bi; auto.
      assert (X := U (idx', map2 Z.sub (map2 Z.mul j dwn) (sub_offset_ncells s')) (ex_intro _ s' (conj S1' (owned s' j Hs' Lj Bi)))).
      injection X as <- _. cbn [fst] in *. unfold domains in *. rewrite S1 in S1'. injection S1' as <-. congruence.
  Qed.

  Theorem shape_ok s L : In s (domains ls) -> init_layout w false (map sumZ ls) (counts ls) dwn s = Ok L ->
    forall j, length j = length dwn -> (in_box j (map g_dwn L) <-> in_box (map2 Z.mul j dwn) (map sumZ ls)).
  Proof.
    intros Hs E j Lj. pose proof (dom_ok s Hs) as OK. unfold init_layout in E. rewrite (layouts_ok _ _ _ _ OK) in E. injection E as <-.
    apply globs_iff; auto.
  Qed.
End Run.
