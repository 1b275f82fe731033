(** Fields and extents under a window move. *)
From Coq Require Import ZArith List Bool Lia Permutation Reals Lra.
From Verif Require Import Base ListLemmas DecompModel DecompSpec DecompProofs DirsModel DirsSpec DirsProofs TopoModel TopoSpec
  TopoProofs TopoTop HaloModel HaloSpec HaloProofs SyncProofs HaloTop PrtlModel PrtlSpec PrtlCommModel PrtlCommSpec
  WindowModel WindowSpec.
Import ListNotations.
Open Scope Z_scope.

Lemma at_dim_length {A} (f : A -> A) x : forall k, length (at_dim k f x) = length x.
Proof. induction x; intros [|k]; cbn; auto. Qed.
Lemma nth_at_dim {A} (f : A -> A) d x : forall k j, (k < length x)%nat ->
  nth j (at_dim k f x) d = if Nat.eqb j k then f (nth j x d) else nth j x d.
Proof.
  induction x as [|a x IH]; intros k j H; cbn [length] in H; [lia|].
  destruct k as [|k], j as [|j]; cbn [at_dim nth Nat.eqb]; auto. apply IH. lia.
Qed.
Lemma at_dim_ext {A} (f h : A -> A) x d : forall k, (k < length x)%nat -> f (nth k x d) = h (nth k x d) ->
  at_dim k f x = at_dim k h x.
Proof.
  induction x as [|a x IH]; intros k H E; cbn [length] in H; [lia|]. destruct k as [|k]; cbn [at_dim nth] in *; [congruence|].
  f_equal. apply IH; auto. lia.
Qed.
Lemma list_nth_ext (x y : list Z) : length x = length y -> (forall j, (j < length x)%nat -> nth j x 0 = nth j y 0) -> x = y.
Proof. intros L H. apply (nth_ext _ _ 0 0); auto. Qed.

Lemma slices_box m : forall x, in_slices x (map (pair 0) m) = true <-> in_box x m.
Proof.
  induction m as [|b m IH]; intros [|a x]; cbn [map in_slices]; split; intros H; try discriminate; try (inversion H; fail); try constructor; auto.
  - rewrite !andb_true_iff, Z.leb_le, Z.ltb_lt in H. lia.
  - rewrite !andb_true_iff in H. apply IH. tauto.
  - inversion H as [|? ? ? ? H1 H2]; subst. rewrite !andb_true_iff, Z.leb_le, Z.ltb_lt. split; [lia|]. apply IH. exact H2.
Qed.
Lemma in_box_iff x m : in_box x m <-> length x = length m /\ forall j, (j < length m)%nat -> 0 <= nth j x 0 < nth j m 0.
Proof.
  unfold in_box. split.
  - intros H. split; [eapply Forall2_length; eauto|]. induction H; intros [|j] Hj; cbn in *; try lia; auto. apply IHForall2. lia.
  - revert m. induction x as [|a x IH]; intros [|b m] [L H]; cbn in L; try discriminate; constructor.
    + apply (H 0%nat). cbn. lia.
    + apply IH. split; [lia|]. intros j Hj. apply (H (S j)). cbn. lia.
Qed.
Lemma in_extended_iff g x m : in_extended g x m <-> length x = length m /\ forall j, (j < length m)%nat -> - g <= nth j x 0 < nth j m 0 + g.
Proof.
  unfold in_extended. split.
  - intros H. split; [eapply Forall2_length; eauto|]. induction H; intros [|j] Hj; cbn in *; try lia; auto. apply IHForall2. lia.
  - revert m. induction x as [|a x IH]; intros [|b m] [L H]; cbn in L; try discriminate; constructor.
    + apply (H 0%nat). cbn. lia.
    + apply IH. split; [lia|]. intros j Hj. apply (H (S j)). cbn. lia.
Qed.
Lemma in_loop m x : In x (box (map (pair 0) m)) <-> in_box x m.
Proof.
  rewrite in_boxl. unfold in_box. split; intros H.
  - remember (map (pair 0) m) as bm eqn:E. revert m E. induction H; intros [|b m] E; cbn in E; try discriminate; constructor.
    + injection E as -> _. cbn in H. auto.
    + apply IHForall2. congruence.
  - induction H; cbn; constructor; auto.
Qed.

Section Shift.
  Context {V : Type}.
  Variables (g : Z) (k : nat) (s : Z) (n : list Z).
  Hypothesis Hk : (k < length n)%nat.

  Lemma all_length : length (n_all g n) = length n.
  Proof. unfold n_all. apply map_length. Qed.
  Lemma nth_all j : (j < length n)%nat -> nth j (n_all g n) 0 = nth j n 0 + 2 * g.
  Proof. intros H. unfold n_all. rewrite (nth_indep _ 0 (0 + 2 * g)) by (rewrite map_length; auto). apply (map_nth (fun a => a + 2 * g)). Qed.
  Lemma ends_length : length (ends g k s n) = length n.
  Proof. unfold ends. rewrite at_dim_length. apply all_length. Qed.
  Lemma nth_ends j : (j < length n)%nat ->
    nth j (ends g k s n) 0 = if Nat.eqb j k then w32 (nth j n 0 + 2 * g - s) else nth j n 0 + 2 * g.
  Proof. intros H. unfold ends. rewrite nth_at_dim by (rewrite all_length; auto). rewrite nth_all by auto. auto. Qed.

  Lemma shift_ub f order : fold_left (@shift_cell V g k s n f) order UB = UB.
  Proof. induction order; auto. Qed.

  Lemma shift_fold f order : (forall x, In x order -> inside g n x && inside g n (above k s x) = true) -> forall f0,
    exists F, fold_left (@shift_cell V g k s n f) order (Ok f0) = Ok F /\
      (forall y, In y order -> F y = f (above k s y)) /\ (forall y, ~ In y order -> F y = f0 y).
  Proof.
    induction order as [|x order IH]; intros H f0; cbn [fold_left].
    - exists f0. split; auto. split; [intros y []|auto].
    - unfold shift_cell at 2. cbn [rbind]. cbv zeta. fold (above k s x). rewrite (H x) by (left; auto).
      destruct (IH (fun y Hy => H y (or_intror Hy)) (fun y => if list_eqb y x then f (above k s x) else f0 y)) as [F [E [F1 F2]]].
      exists F. split; auto. split.
      + intros y Hy. destruct (in_dec (list_eq_dec Z.eq_dec) y order) as [I|I]; [auto|].
        rewrite F2 by auto. destruct Hy as [->|Hy]; [|contradiction]. unfold list_eqb. destruct (list_eq_dec Z.eq_dec y y); congruence.
      + intros y Hy. rewrite F2 by (intros C; apply Hy; right; auto). unfold list_eqb.
        destruct (list_eq_dec Z.eq_dec y x) as [->|]; auto. exfalso. apply Hy. left. auto.
  Qed.

  Lemma shift_fold_ub f order x : In x order -> inside g n x && inside g n (above k s x) = false -> forall f0,
    fold_left (@shift_cell V g k s n f) order (Ok f0) = UB.
  Proof.
    induction order as [|y order IH]; intros Hx E f0; [destruct Hx|]. cbn [fold_left]. unfold shift_cell at 2. cbn [rbind]. cbv zeta.
    fold (above k s y). destruct (inside g n y && inside g n (above k s y)) eqn:Ey; [|apply shift_ub].
    destruct Hx as [->|Hx]; [congruence|]. apply IH; auto.
  Qed.

  Lemma nth_above x j : length x = length n -> nth j (above k s x) 0 = if Nat.eqb j k then nth j x 0 + s else nth j x 0.
  Proof. intros L. unfold above. rewrite nth_at_dim by lia. reflexivity. Qed.

  Lemma inside_both x : in_box x (n_all g n) -> 0 <= nth k x 0 + s < nth k n 0 + 2 * g ->
    inside g n x && inside g n (above k s x) = true.
  Proof.
    intros B H. unfold inside. apply andb_true_iff. split; apply slices_box; auto.
    apply in_box_iff in B as [L B]. apply in_box_iff. unfold above at 1. rewrite at_dim_length. split; auto.
    intros j Hj. rewrite all_length in *. rewrite nth_above by auto. specialize (B j Hj). rewrite nth_all in * by auto.
    destruct (Nat.eqb_spec j k) as [e|]; [rewrite e in *|]; lia.
  Qed.

  Lemma loop_cells order x : 0 <= s <= nth k n 0 + 2 * g -> nth k n 0 + 2 * g < 2 ^ 32 -> full_loop g k s n order ->
    (In x order <-> in_box x (n_all g n) /\ nth k x 0 + s < nth k n 0 + 2 * g).
  Proof.
    intros Hs Hw P. assert (E : In x order <-> in_box x (ends g k s n)).
    { rewrite <- in_loop. split; apply Permutation_in; [exact P|symmetry; exact P]. }
    rewrite E, !in_box_iff, ends_length, all_length. split.
    - intros [L H]. split; [split; auto|].
      + intros j Hj. specialize (H j Hj). rewrite nth_ends in H by auto. rewrite nth_all by auto.
        destruct (Nat.eqb_spec j k) as [e|]; [rewrite e in *|lia]. unfold w32 in H. rewrite Z.mod_small in H by lia. lia.
      + specialize (H k Hk). rewrite nth_ends, Nat.eqb_refl in H by auto. unfold w32 in H. rewrite Z.mod_small in H by lia. lia.
    - intros [[L H] H2]. split; auto. intros j Hj. specialize (H j Hj). rewrite nth_ends by auto. rewrite nth_all in H by auto.
      destruct (Nat.eqb_spec j k) as [e|]; [rewrite e in *|lia]. unfold w32. rewrite Z.mod_small by lia. lia.
  Qed.

  Lemma loc_length z : length (loc g z) = length z.
  Proof. unfold loc. apply map_length. Qed.
  Lemma nth_loc z j : (j < length z)%nat -> nth j (loc g z) 0 = nth j z 0 + g.
  Proof. intros H. unfold loc. rewrite (nth_indep _ 0 (0 + g)) by (rewrite map_length; auto). apply (map_nth (fun a => a + g)). Qed.
  Lemma above_loc z : length z = length n -> above k s (loc g z) = loc g (above k s z).
  Proof.
    intros L. apply list_nth_ext; [rewrite loc_length; unfold above; rewrite !at_dim_length, loc_length; auto|].
    unfold above at 1. rewrite at_dim_length, loc_length. intros j Hj.
    rewrite nth_above by (rewrite loc_length; auto). rewrite !nth_loc by (auto; unfold above; rewrite ?at_dim_length; auto).
    rewrite nth_above by auto. destruct (Nat.eqb j k); lia.
  Qed.

  (** The shift is defined exactly for 0 <= s <= number of cells with ghosts. *)
  Theorem shift_defined order (f : list Z -> V) : 0 <= s <= nth k n 0 + 2 * g -> nth k n 0 + 2 * g < 2 ^ 32 ->
    full_loop g k s n order ->
    exists F, shift_fields g k s n order f = Ok F /\
      forall z, in_extended g z n ->
        F (loc g z) = if nth k z 0 + s <? nth k n 0 + g then f (loc g (above k s z)) else f (loc g z).
  Proof.
    intros Hs Hw P. unfold shift_fields. rewrite (proj2 (Nat.ltb_lt _ _) Hk).
    destruct (shift_fold f order) with (f0 := f) as [F [E [F1 F2]]].
    { intros x Hx. apply (loop_cells order x Hs Hw P) in Hx as [B H]. apply inside_both; auto.
      apply in_box_iff in B as [L B]. rewrite all_length in *. specialize (B k Hk). lia. }
    exists F. split; auto. intros z Hz. apply in_extended_iff in Hz as [L Hz].
    assert (B : in_box (loc g z) (n_all g n)).
    { apply in_box_iff. rewrite loc_length, all_length. split; auto. intros j Hj. rewrite nth_loc, nth_all by (auto; lia).
      specialize (Hz j Hj). lia. }
    destruct (Z.ltb_spec (nth k z 0 + s) (nth k n 0 + g)) as [C|C].
    - rewrite F1; [rewrite above_loc by auto; auto|]. apply (loop_cells order _ Hs Hw P). split; auto. rewrite nth_loc by lia. lia.
    - apply F2. intros I. apply (loop_cells order _ Hs Hw P) in I as [_ I]. rewrite nth_loc in I by lia. lia.
  Qed.

  Theorem shift_undefined order (f : list Z -> V) : 0 <= g -> Forall (fun a => 0 < a) n ->
    nth k n 0 + 2 * g < 2 ^ 31 -> - 2 ^ 31 <= s < 2 ^ 31 -> ~ 0 <= s <= nth k n 0 + 2 * g ->
    full_loop g k s n order -> shift_fields g k s n order f = UB.
  Proof.
    intros Hg Pn Hw Hi Hs P. unfold shift_fields. rewrite (proj2 (Nat.ltb_lt _ _) Hk).
    assert (PN : forall j, (j < length n)%nat -> 0 < nth j n 0).
    { intros j Hj. rewrite Forall_forall in Pn. apply Pn, nth_In. auto. }
    pose proof (PN k Hk) as Pk.
    (* the last cell of the loop along k *)
    assert (W : nth k n 0 + 2 * g < w32 (nth k n 0 + 2 * g - s)).
    { unfold w32. destruct (Z.lt_ge_cases s 0).
      - rewrite Z.mod_small by lia. lia.
      - rewrite <- (Z.mod_unique (nth k n 0 + 2 * g - s) (2 ^ 32) (-1) (nth k n 0 + 2 * g - s + 2 ^ 32)) by lia. lia. }
    set (x := at_dim k (fun _ => nth k n 0 + 2 * g) (repeat 0 (length n))).
    assert (LX : length x = length n) by (unfold x; rewrite at_dim_length, repeat_length; auto).
    assert (NX : forall j, (j < length n)%nat -> nth j x 0 = if Nat.eqb j k then nth k n 0 + 2 * g else 0).
    { intros j Hj. unfold x. rewrite nth_at_dim by (rewrite repeat_length; auto). rewrite nth_repeat. auto. }
    apply shift_fold_ub with (x := x).
    - eapply Permutation_in; [symmetry; exact P|]. apply in_loop. apply in_box_iff. rewrite ends_length. split; auto.
      intros j Hj. rewrite NX, nth_ends by auto. specialize (PN j Hj). destruct (Nat.eqb_spec j k) as [e|]; [rewrite e in *|]; lia.
    - apply andb_false_iff. left. unfold inside. destruct (in_slices _ _) eqn:E; auto. apply slices_box in E.
      apply in_box_iff in E as [_ E]. rewrite all_length in E. specialize (E k Hk). rewrite NX, Nat.eqb_refl, nth_all in E by auto. lia.
  Qed.
End Shift.

(** ** The faces in the direction of the window *)
Definition face (D k : nat) (s : Z) : list Z := at_dim k (fun _ => s) (repeat 0 D).
Lemma face_aligned D k s : (k < D)%nat -> s = -1 \/ s = 1 -> axis_aligned D (face D k s) k s.
Proof.
  intros Hk Hs. unfold face. assert (N : forall j, nth j (at_dim k (fun _ => s) (repeat 0 D)) 0 = if Nat.eqb j k then s else 0).
  { intros j. rewrite nth_at_dim by (rewrite repeat_length; auto). rewrite nth_repeat. auto. }
  split; [|split; [auto|split; [lia|intros j _; auto]]].
  split; [rewrite at_dim_length, repeat_length; auto|]. apply Forall_forall. intros a Ha.
  apply (In_nth _ _ 0) in Ha as [j [_ <-]]. rewrite N. destruct (Nat.eqb j k); lia.
Qed.
Lemma face_eq D k s dir : length dir = D -> (k < D)%nat ->
  (forall j, (j < D)%nat -> nth j dir 0 = if Nat.eqb j k then s else 0) -> dir = face D k s.
Proof.
  intros L Hk H. apply list_nth_ext; [unfold face; rewrite at_dim_length, repeat_length; auto|]. intros j Hj. rewrite L in Hj.
  unfold face. rewrite nth_at_dim by (rewrite repeat_length; auto). rewrite nth_repeat. auto.
Qed.
Lemma opp_face D k s : (k < D)%nat -> opp_dir (face D k s) = face D k (- s).
Proof.
  intros Hk. apply face_eq; auto.
  - unfold opp_dir, face. rewrite map_length, at_dim_length, repeat_length. auto.
  - intros j Hj. unfold opp_dir. change 0 with (- 0) at 1. rewrite (map_nth Z.opp). unfold face. rewrite nth_at_dim by (rewrite repeat_length; auto).
    rewrite nth_repeat. destruct (Nat.eqb j k); lia.
Qed.

Section Partner.
  Variables (ls : list (list Z)) (gbc : list (flds_bc * flds_bc)).
  Hypothesis L : length gbc = length ls.
  Hypothesis P : paired_flds gbc.

  Lemma paired_nth k : (k < length ls)%nat -> okbc (nth k gbc (F_INVALID, F_INVALID)).
  Proof. intros H. unfold paired_flds, paired in P. rewrite Forall_forall in P. apply P. apply nth_In. lia. Qed.

  Lemma face_send o k s : in_box o (counts ls) -> (k < length ls)%nat -> s = -1 \/ s = 1 ->
    (send_to (counts ls) gbc o (face (length ls) k s) = None <->
     on_global_boundary (counts ls) o k s /\ periodic_in gbc k = false).
  Proof.
    intros Ho Hk Hs. pose proof (face_aligned _ k s Hk Hs) as A.
    assert (LC : length (counts ls) = length ls) by (unfold counts; apply map_length).
    assert (NZ : nonzero_direction (length ls) (face (length ls) k s)) by (eapply axis_nonzero; eauto).
    pose proof (paired_nth k Hk) as [B1 [B2 [B3 [B4 B5]]]].
    assert (FS : Forall (fun b => fst b <> F_SYNC /\ snd b <> F_SYNC) gbc).
    { eapply Forall_impl; [|exact P]. cbn. tauto. }
    pose proof (face_condition flds_bc_eq_dec F_INVALID F_PERIODIC F_SYNC (counts ls) gbc o (face (length ls) k s) k s) as FC.
    rewrite LC in FC. specialize (FC L Ho A FS). cbv zeta in FC. fold flds_bc_in in FC. destruct FC as [FC1 FC2].
    assert (HK : (k < length (counts ls))%nat) by (rewrite LC; auto).
    pose proof (in_box_nth o (counts ls) k Ho HK) as Hr.
    unfold send_to. rewrite partners_ok; rewrite ?LC; auto using paired_okbc. cbn [fst].
    assert (U : (user_bc F_INVALID gbc k s = F_PERIODIC <-> periodic_in gbc k = true) /\
                user_bc F_INVALID gbc k s <> F_SYNC).
    { unfold user_bc, periodic_in. destruct (flds_bc_eq_dec _ F_PERIODIC) as [e|e]; destruct Hs as [->| ->]; cbn [Z.eqb Pos.eqb]; split; auto;
        split; intros; try congruence; try tauto; exfalso; apply e; tauto. }
    destruct U as [U1 U2].
    assert (DB : {on_global_boundary (counts ls) o k s} + {~ on_global_boundary (counts ls) o k s}).
    { unfold on_global_boundary. destruct (Z.eq_dec s (-1)), (Z.eq_dec s 1), (Z.eq_dec (nth k o 0) 0), (Z.eq_dec (nth k o 0) (nth k (counts ls) 0 - 1)); 
        try (left; lia); right; lia. }
    destruct DB as [B|B].
    - destruct (FC1 B) as [G1 [G2 G3]]. destruct (periodic_in gbc k) eqn:PI.
      + pose proof (proj2 U1 eq_refl) as UP. split; [|intros [_ X]; discriminate].
        destruct (Z.eq_dec (nth k (counts ls) 0) 1) as [e|e]; [rewrite (G2 UP e)|rewrite (G3 UP ltac:(lia))]; cbn [cl]; discriminate.
      + assert (UP : user_bc F_INVALID gbc k s <> F_PERIODIC) by (intros X; apply U1 in X; discriminate).
        rewrite (G1 UP). split; auto. intros _. destruct (user_bc F_INVALID gbc k s); cbn [cl]; congruence.
    - rewrite (FC2 B). cbn [cl]. split; [discriminate|]. intros [X _]. contradiction.
  Qed.

  Lemma face_recv o k s : in_box o (counts ls) -> (k < length ls)%nat -> s = -1 \/ s = 1 ->
    (recv_from (counts ls) gbc o (face (length ls) k (- s)) = None <->
     on_global_boundary (counts ls) o k s /\ periodic_in gbc k = false).
  Proof.
    intros Ho Hk Hs. rewrite <- face_send by auto.
    assert (LC : length (counts ls) = length ls) by (unfold counts; apply map_length).
    assert (NZ : nonzero_direction (length ls) (face (length ls) k s)) by (eapply axis_nonzero; apply face_aligned; auto).
    assert (NZ' : nonzero_direction (length ls) (face (length ls) k (- s))) by (eapply axis_nonzero; apply face_aligned; auto; lia).
    unfold send_to, recv_from. rewrite !partners_ok; rewrite ?LC; auto using paired_okbc. cbn [fst snd].
    rewrite opp_face by auto. rewrite Z.opp_involutive. destruct (cl _); split; congruence.
  Qed.
End Partner.
