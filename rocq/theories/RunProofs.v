From Coq Require Import String Ascii ZArith List Bool Reals Sorted Lia Lra.
From Verif Require Import Base RunModel RunSpec.
Import ListNotations.
Open Scope Z_scope.

(** * Files *)
Lemma file_write s b l : file s (write s b l) = Some b.
Proof. unfold file, write. simpl. rewrite Z.eqb_refl. auto. Qed.
Lemma file_erase_other s s' l : s <> s' -> file s (erase s' l) = file s l.
Proof.
  intros H. unfold file, erase. f_equal. induction l as [|[k b] l IH]; simpl; auto.
  destruct (Z.eqb_spec k s'); simpl.
  - destruct (Z.eqb_spec k s); [lia|]. auto.
  - destruct (k =? s); auto.
Qed.
Lemma file_erase s l : file s (erase s l) = None.
Proof.
  unfold file, erase. induction l as [|[k b] l IH]; simpl; auto.
  destruct (Z.eqb_spec k s); simpl; auto. destruct (Z.eqb_spec k s); [contradiction|]. auto.
Qed.
Lemma file_write_other s s' b l : s <> s' -> file s (write s' b l) = file s l.
Proof.
  intros H. unfold write. unfold file at 1. simpl. destruct (Z.eqb_spec s' s); [lia|].
  apply (file_erase_other s s' l H).
Qed.
Lemma present_file s l : present s l = match file s l with Some _ => true | None => false end.
Proof.
  unfold present, file. induction l as [|[k b] l IH]; simpl; auto. destruct (k =? s); simpl; auto.
Qed.

Definition op_step (o : op) : Z :=
  match o with OpenBp s | OpenMeta s | CloseMeta s | CloseBp s | TrashBp s | RemoveBp s | RemoveMeta s => s end.

Lemma unchanged_refl s d : unchanged s d d. Proof. split; auto. Qed.
Lemma unchanged_trans s d1 d2 d3 : unchanged s d1 d2 -> unchanged s d2 d3 -> unchanged s d1 d3.
Proof. unfold unchanged. intuition congruence. Qed.
Lemma apply_op_other o d s : op_step o <> s -> unchanged s (apply_op o d) d.
Proof.
  intros H. destruct o; simpl in *; split; simpl; auto; apply file_write_other || apply file_erase_other; auto.
Qed.
Lemma apply_ops_other l d s : (forall o, In o l -> op_step o <> s) -> unchanged s (apply_ops l d) d.
Proof.
  revert d; induction l as [|o l IH]; intros d H; [apply unchanged_refl|].
  unfold apply_ops in *. cbn [fold_left]. eapply unchanged_trans; [apply IH; intros; apply H; simpl; auto|].
  apply apply_op_other. apply H. simpl; auto.
Qed.
Lemma apply_ops_app l l' d : apply_ops (l ++ l') d = apply_ops l' (apply_ops l d).
Proof. unfold apply_ops. apply fold_left_app. Qed.

Lemma saved_complete s d : complete s (apply_ops (save_ops s) d).
Proof. split; cbn -[write file]; apply file_write. Qed.
Lemma saved_other s s' d : s <> s' -> unchanged s' (apply_ops (save_ops s) d) d.
Proof. intros H. apply apply_ops_other. cbn. intuition (subst; auto). Qed.
Lemma removed_absent s d : absent s (apply_ops [TrashBp s; RemoveBp s; RemoveMeta s] d).
Proof. split; cbn -[write erase file]; apply file_erase. Qed.

Lemma complete_unchanged s d d' : unchanged s d d' -> complete s d' -> complete s d.
Proof. unfold unchanged, complete. intuition congruence. Qed.
Lemma absent_unchanged s d d' : unchanged s d d' -> absent s d' -> absent s d.
Proof. unfold unchanged, absent. intuition congruence. Qed.

(** * Events one after the other *)
Lemma run_events_app keep a b st :
  run_events keep (a ++ b) st =
  let r := run_events keep a st in
  let r' := run_events keep b (snd r) in (fst r ++ fst r', snd r').
Proof.
  revert st; induction a as [|e a IH]; intros st; cbn [app run_events].
  - cbn. destruct (run_events keep b st); auto.
  - rewrite IH. cbn. rewrite app_assoc. auto.
Qed.

Lemma run_disk keep es st : snd (snd (run_events keep es st)) = apply_ops (fst (run_events keep es st)) (snd st).
Proof.
  revert st; induction es as [|e es IH]; intros st; cbn [run_events]; auto.
  cbn. rewrite IH, apply_ops_app. f_equal.
  destruct e as [s|s]; cbn [event_ops].
  - unfold save. destruct (keep =? 0); cbn [fst snd]; rewrite ?apply_ops_app; auto.
  - reflexivity.
Qed.

(** * Rotation *)
Definition kept (keep : Z) (steps : list Z) : list Z := if 0 <? keep then newest keep steps else steps.

Lemma newest_in {A} k (l : list A) x : In x (newest k l) -> In x l.
Proof.
  unfold newest. intros H. rewrite <- (firstn_skipn (length l - Z.to_nat k) l). apply in_or_app. auto.
Qed.
Lemma kept_in keep l x : In x (kept keep l) -> In x l.
Proof. unfold kept. destruct (0 <? keep); auto. apply newest_in. Qed.

Lemma newest_snoc {A} k (l : list A) x : 0 < k ->
  newest k (l ++ [x]) =
  if k <? Z.of_nat (length (newest k l ++ [x])) then tl (newest k l ++ [x]) else newest k l ++ [x].
Proof.
  intros Hk. unfold newest. rewrite !app_length, skipn_length. cbn [length].
  destruct (Z.ltb_spec k (Z.of_nat (length l - (length l - Z.to_nat k) + 1))) as [L|L].
  - assert (B : (Z.to_nat k <= length l)%nat) by lia.
    replace (length l + 1 - Z.to_nat k)%nat with (S (length l - Z.to_nat k)) by lia.
    assert (P : (length l - Z.to_nat k < length l)%nat) by lia.
    revert P. generalize (length l - Z.to_nat k)%nat as j. clear. intros j.
    revert j; induction l as [|a l IH]; intros [|j] P; simpl in P; try lia.
    + reflexivity.
    + change (skipn (S (S j)) ((a :: l) ++ [x])) with (skipn (S j) (l ++ [x])).
      rewrite IH by lia. reflexivity.
  - replace (length l + 1 - Z.to_nat k)%nat with 0%nat by lia.
    replace (length l - Z.to_nat k)%nat with 0%nat by lia. reflexivity.
Qed.

Record rot_inv (keep : Z) (d0 : disk) (done : list Z) (st : list Z * disk) : Prop := {
  ri_w : fst st = kept keep done;
  ri_kept : forall s, In s (kept keep done) -> complete s (snd st);
  ri_gone : forall s, In s done -> ~ In s (kept keep done) -> absent s (snd st);
  ri_rest : forall s, ~ In s done -> unchanged s (snd st) d0
}.

Lemma snoc_split {A} (w : list A) x : exists a w', w ++ [x] = a :: w' /\ (w = [] -> a = x /\ w' = []) /\
  (w <> [] -> In a w /\ exists w2, w' = w2 ++ [x] /\ w = a :: w2).
Proof.
  destruct w as [|a w]; [exists x, []; split; auto; split; [auto|congruence]|].
  exists a, (w ++ [x]). split; auto. split; [discriminate|]. intros _. simpl. split; auto. exists w. auto.
Qed.

Lemma nodup_newest {A} k (l : list A) : NoDup l -> NoDup (newest k l).
Proof.
  intros H. unfold newest. rewrite <- (firstn_skipn (length l - Z.to_nat k) l) in H.
  revert H. generalize (firstn (length l - Z.to_nat k) l) (skipn (length l - Z.to_nat k) l). clear.
  intros a b. induction a as [|x a IH]; simpl; auto. intros H. inversion H; auto.
Qed.

Lemma save_inv keep d0 done s st : keep <> 0 -> NoDup (done ++ [s]) -> rot_inv keep d0 done st ->
  rot_inv keep d0 (done ++ [s]) (snd (save keep s st)).
Proof.
  intros Hk ND [W K G R]. unfold save. destruct (Z.eqb_spec keep 0) as [|_]; [contradiction|]. cbn [snd].
  assert (Hs : ~ In s done).
  { intros H. apply NoDup_remove_2 in ND. rewrite app_nil_r in ND. auto. }
  assert (ND' : NoDup done) by (apply NoDup_remove_1 in ND; rewrite app_nil_r in ND; auto).
  set (d1 := apply_ops (save_ops s) (snd st)).
  assert (K1 : forall x, In x (kept keep done ++ [s]) -> complete x d1).
  { intros x Hx. apply in_app_or in Hx as [Hx|[<-|[]]]; [|apply saved_complete].
    eapply complete_unchanged; [apply saved_other|apply K; auto]. intros ->. apply Hs. eapply kept_in; eauto. }
  assert (G1 : forall x, In x done -> ~ In x (kept keep done) -> absent x d1).
  { intros x Hx Hn. eapply absent_unchanged; [apply saved_other|apply G; auto]. intros ->. auto. }
  assert (R1 : forall x, ~ In x (done ++ [s]) -> unchanged x d1 d0).
  { intros x Hx. eapply unchanged_trans; [apply saved_other|apply R].
    - intros ->. apply Hx. apply in_or_app. simpl; auto.
    - intros H. apply Hx. apply in_or_app. auto. }
  rewrite W. unfold rotate_ops.
  destruct (Z.ltb_spec 0 keep) as [P|P]; cbn [andb].
  - assert (EK : forall l, kept keep l = newest keep l) by (intros; unfold kept; destruct (Z.ltb_spec 0 keep); auto; lia).
    rewrite EK in *.
    destruct (Z.ltb_spec keep (Z.of_nat (length (newest keep done ++ [s])))) as [L|L].
    + pose proof (newest_snoc keep done s P) as E.
      destruct (Z.ltb_spec keep (Z.of_nat (length (newest keep done ++ [s])))) as [_|?]; [|lia].
      destruct (snoc_split (newest keep done) s) as [a [w' [E1 [S0 S1]]]].
      assert (NE : newest keep done <> []).
      { intros C. rewrite C in L. cbn in L. lia. }
      destruct (S1 NE) as [A1 [w2 [E2 E3]]]. rewrite E1 in *. cbn [tl] in E.
      assert (Da : In a done) by (eapply newest_in; eauto).
      assert (Ca : complete a d1) by (apply K1; simpl; auto).
      rewrite !present_file. destruct Ca as [Ca1 Ca2]. rewrite Ca1, Ca2. cbn [andb fst snd].
      assert (NA : ~ In a w').
      { pose proof (nodup_newest keep done ND') as N3. rewrite E3 in N3. apply NoDup_cons_iff in N3 as [N3 _].
        rewrite E2. intros C. apply in_app_or in C as [C|[C|[]]]; [contradiction|]. congruence. }
      assert (U : forall x, x <> a -> unchanged x (apply_ops [TrashBp a; RemoveBp a; RemoveMeta a] d1) d1).
      { intros x Hx. apply apply_ops_other. cbn. intuition (subst; auto). }
      constructor; cbn [fst snd]; rewrite ?EK.
      * rewrite E. auto.
      * rewrite E. intros x Hx. eapply complete_unchanged; [apply U|apply K1; simpl; auto]. intros ->. contradiction.
      * rewrite E. intros x Hx Hn. destruct (Z.eq_dec x a) as [->|Ne]; [apply removed_absent|].
        eapply absent_unchanged; [apply U; auto|]. apply in_app_or in Hx as [Hx|[Hx|[]]].
        -- apply G1; auto. rewrite E3. intros [C|C]; [congruence|]. apply Hn. rewrite E2. apply in_or_app. auto.
        -- exfalso. apply Hn. rewrite E2. apply in_or_app. simpl. auto.
      * intros x Hx. eapply unchanged_trans; [apply U|apply R1; auto]. intros ->. apply Hx. apply in_or_app. auto.
    + pose proof (newest_snoc keep done s P) as E.
      destruct (Z.ltb_spec keep (Z.of_nat (length (newest keep done ++ [s])))) as [?|_]; [lia|].
      cbn [fst snd]. constructor; cbn [fst snd]; rewrite ?EK, ?E; auto.
      intros x Hx Hn. apply in_app_or in Hx as [Hx|[Hx|[]]].
      * apply G1; auto. intros C. apply Hn. apply in_or_app. auto.
      * exfalso. apply Hn. apply in_or_app. simpl. auto.
  - assert (EK : forall l, kept keep l = l) by (intros; unfold kept; destruct (Z.ltb_spec 0 keep); auto; lia).
    rewrite EK in *. cbn [fst snd]. constructor; cbn [fst snd]; rewrite ?EK; auto.
    intros x Hx Hn. contradiction.
Qed.

Lemma saves_snoc keep steps s st :
  run_events keep (map Save (steps ++ [s])) st =
  let r := run_events keep (map Save steps) st in
  let r' := save keep s (snd r) in (fst r ++ fst r', snd r').
Proof.
  rewrite map_app, run_events_app. cbn. rewrite app_nil_r. auto.
Qed.

Lemma saves_inv keep d0 steps : keep <> 0 -> NoDup steps ->
  rot_inv keep d0 steps (snd (run_events keep (map Save steps) ([], d0))).
Proof.
  intros Hk. induction steps as [|s steps IH] using rev_ind; intros ND.
  - cbn. constructor; cbn [fst snd].
    + unfold kept, newest. destruct (0 <? keep); auto.
    + intros s H. apply kept_in in H. destruct H.
    + intros s [].
    + intros. apply unchanged_refl.
  - rewrite saves_snoc. cbn [snd]. apply save_inv; auto. apply IH.
    apply NoDup_remove_1 in ND. rewrite app_nil_r in ND. auto.
Qed.

Lemma rotation_ok keep steps d0 : 0 < keep -> NoDup steps ->
  let d := after_saves keep steps d0 in
  (forall s, In s (newest keep steps) -> complete s d) /\
  (forall s, In s steps -> ~ In s (newest keep steps) -> absent s d) /\
  (forall s, ~ In s steps -> unchanged s d d0).
Proof.
  intros Hk ND. cbv zeta. unfold after_saves.
  destruct (saves_inv keep d0 steps ltac:(lia) ND) as [W K G R].
  assert (EK : kept keep steps = newest keep steps) by (unfold kept; destruct (Z.ltb_spec 0 keep); auto; lia).
  rewrite EK in *. auto.
Qed.

Lemma keep_all_ok keep steps d0 : keep < 0 -> NoDup steps ->
  let d := after_saves keep steps d0 in
  (forall s, In s steps -> complete s d) /\ (forall s, ~ In s steps -> unchanged s d d0).
Proof.
  intros Hk ND. cbv zeta. unfold after_saves.
  destruct (saves_inv keep d0 steps ltac:(lia) ND) as [W K G R].
  assert (EK : kept keep steps = steps) by (unfold kept; destruct (Z.ltb_spec 0 keep); auto; lia).
  rewrite EK in *. auto.
Qed.

Lemma keep_none steps d0 : after_saves 0 steps d0 = d0 /\ effects 0 steps d0 = [].
Proof.
  unfold after_saves, effects. generalize (@nil Z) as w. induction steps as [|s steps IH]; intros w; [split; auto|]. apply IH.
Qed.

(** Once the files of the oldest checkpoint of the list are missing, nothing is removed any more. *)
Lemma stuck keep steps : 0 < keep -> forall w d oldest,
  ~ In oldest steps -> file oldest (bps d) = None ->
  forall r, r = run_events keep (map Save steps) (oldest :: w, d) ->
  (forall x, unchanged x (snd (snd r)) d \/ In x steps) /\ (NoDup steps -> forall x, In x steps -> complete x (snd (snd r))).
Proof.
  intros Hk. induction steps as [|s steps IH]; intros w d oldest Hn Hf r ->.
  - cbn. split; [intros; left; apply unchanged_refl|intros _ x []].
  - cbn [map run_events event_ops fst snd]. unfold save at 1 2. destruct (Z.eqb_spec keep 0); [lia|]. cbn [fst snd].
    set (d1 := apply_ops (save_ops s) d).
    assert (Os : s <> oldest) by (intros ->; apply Hn; simpl; auto).
    assert (F1 : file oldest (bps d1) = None) by (destruct (saved_other s oldest d Os) as [E _]; unfold d1; rewrite E; auto).
    assert (E : rotate_ops keep ((oldest :: w) ++ [s]) d1 = ([], (oldest :: w) ++ [s])).
    { unfold rotate_ops. destruct (_ && _); auto. cbn [app]. rewrite present_file, F1. auto. }
    rewrite E. cbn [fst snd app]. change (apply_ops [] d1) with d1.
    destruct (IH (w ++ [s]) d1 oldest ltac:(intros C; apply Hn; simpl; auto) F1 _ eq_refl) as [H1 H2].
    split.
    + intros x. destruct (H1 x) as [U|I]; [|right; simpl; auto].
      destruct (Z.eq_dec s x) as [->|Ne]; [right; simpl; auto|].
      left. eapply unchanged_trans; [exact U|apply saved_other; auto].
    + intros ND x Hx. inversion ND as [|? ? N1 N2]; subst. destruct Hx as [<-|Hx]; auto.
      destruct (H1 s) as [U|I]; [|contradiction]. eapply complete_unchanged; [exact U|apply saved_complete].
Qed.

(** * Crashes *)
Lemma save_effects keep s st : keep <> 0 -> (forall x, In x (fst st) -> x <> s) ->
  exists rot, fst (save keep s st) = save_ops s ++ rot /\ (forall o, In o rot -> op_step o <> s) /\
    (forall x, ~ In (CloseBp x) rot) /\ forall o, In o rot -> In (op_step o) (fst st).
Proof.
  intros Hk Hw. unfold save. destruct (Z.eqb_spec keep 0) as [|_]; [contradiction|]. cbn [fst].
  eexists; split; [reflexivity|]. unfold rotate_ops.
  destruct (Z.ltb_spec 0 keep) as [P|P]; cbn [andb]; [|cbn; tauto].
  destruct (Z.ltb_spec keep (Z.of_nat (length (fst st ++ [s])))) as [L|L]; [|cbn; tauto].
  destruct (snoc_split (fst st) s) as [a [w' [E1 [S0 S1]]]]. rewrite E1.
  assert (NE : fst st <> []). { intros C. rewrite C in L. cbn in L. lia. }
  destruct (S1 NE) as [A1 _].
  destruct (_ && _); [|cbn; tauto]. cbn.
  split; [|split].
  - intros o Ho. assert (op_step o = a) as -> by (intuition (subst; auto)). auto.
  - intros x H. intuition discriminate.
  - intros o Ho. assert (op_step o = a) as -> by (intuition (subst; auto)). auto.
Qed.

Lemma prefix_cases {A} (p q a b : list A) : p ++ q = a ++ b ->
  (exists q', a = p ++ q') \/ (exists p', p = a ++ p' /\ b = p' ++ q).
Proof.
  revert a; induction p as [|x p IH]; intros a E; [left; exists a; auto|].
  destruct a as [|y a].
  - right. exists (x :: p). split; auto.
  - injection E as -> E. destruct (IH a E) as [[q' ->]|[p' [-> ->]]].
    + left. exists q'. auto.
    + right. exists p'. auto.
Qed.

Lemma effects_snoc keep steps s d0 : effects keep (steps ++ [s]) d0 =
  effects keep steps d0 ++ fst (save keep s (snd (run_events keep (map Save steps) ([], d0)))).
Proof. unfold effects. rewrite saves_snoc. auto. Qed.

Lemma effects_disk keep steps d0 : after_saves keep steps d0 = apply_ops (effects keep steps d0) d0.
Proof. unfold after_saves, effects. rewrite run_disk. auto. Qed.

Lemma effects_steps keep steps d0 : keep <> 0 -> NoDup steps -> forall o, In o (effects keep steps d0) -> In (op_step o) steps.
Proof.
  intros Hk. induction steps as [|s steps IH] using rev_ind; intros ND o Ho.
  - destruct Ho.
  - rewrite effects_snoc in Ho. apply in_or_app.
    assert (ND' : NoDup steps) by (apply NoDup_remove_1 in ND; rewrite app_nil_r in ND; auto).
    apply in_app_or in Ho as [Ho|Ho]; auto.
    pose proof (saves_inv keep d0 steps Hk ND') as [W _ _ _].
    set (st := snd (run_events keep (map Save steps) ([], d0))) in *.
    destruct (save_effects keep s st Hk) as [rot [E [_ [_ R4]]]].
    { intros x Hx ->. rewrite W in Hx. apply kept_in in Hx. apply NoDup_remove_2 in ND. rewrite app_nil_r in ND. auto. }
    rewrite E in Ho. apply in_app_or in Ho as [Ho|Ho].
    + right. cbn in *. intuition (subst; cbn; auto).
    + left. specialize (R4 o Ho). rewrite W in R4. eapply kept_in; eauto.
Qed.

Lemma last_close {A} (f : A -> bool) (l p1 p2 : list A) x q1 q2 y :
  l = p1 ++ x :: p2 -> l = q1 ++ y :: q2 -> f x = true -> f y = true ->
  (forall z, In z p2 -> f z = false) -> (forall z, In z q2 -> f z = false) -> x = y.
Proof.
  intros E1 E2 Fx Fy P Q. rewrite E1 in E2. clear E1. revert q1 E2.
  induction p1 as [|a p1 IH]; intros [|b q1] E2; simpl in E2.
  - congruence.
  - injection E2 as -> E2. assert (In y p2) by (rewrite E2; apply in_or_app; simpl; auto).
    rewrite P in Fy; auto. discriminate.
  - injection E2 as -> E2. assert (In x q2) by (rewrite <- E2; apply in_or_app; simpl; auto).
    rewrite Q in Fx; auto. discriminate.
  - injection E2 as _ E2. eauto.
Qed.

Lemma crash_safe keep steps d0 : keep <> 0 -> NoDup steps ->
  forall p q, effects keep steps d0 = p ++ q ->
  forall p1 s p2, p = p1 ++ CloseBp s :: p2 -> (forall s', ~ In (CloseBp s') p2) ->
  complete s (apply_ops p d0).
Proof.
  intros Hk. induction steps as [|z steps IH] using rev_ind; intros ND p q E p1 s p2 Ep Hl.
  - cbn in E. destruct p; [|discriminate]. destruct p1; discriminate.
  - assert (ND' : NoDup steps) by (apply NoDup_remove_1 in ND; rewrite app_nil_r in ND; auto).
    assert (Hz : ~ In z steps) by (apply NoDup_remove_2 in ND; rewrite app_nil_r in ND; auto).
    rewrite effects_snoc in E. symmetry in E.
    destruct (prefix_cases _ _ _ _ E) as [[q' E1]|[p' [E1 E2]]].
    + eapply IH; eauto.
    + pose proof (saves_inv keep d0 steps Hk ND') as [W _ _ _].
      set (st := snd (run_events keep (map Save steps) ([], d0))) in *.
      destruct (save_effects keep z st Hk) as [rot [ES [R1 [R2 R3]]]].
      { intros x Hx ->. rewrite W in Hx. apply kept_in in Hx. auto. }
      rewrite ES in E2. symmetry in E2.
      (* does the prefix contain the close of z? *)
      destruct (prefix_cases _ _ _ _ E2) as [[q3 E3]|[p3 [E3 E4]]].
      * (* p' is a prefix of the four effects of the save *)
        destruct q3 as [|o3 q3].
        -- (* all four *)
           rewrite app_nil_r in E3. subst p'.
           assert (s = z).
           { assert (X : CloseBp s = CloseBp z); [|congruence].
             apply (last_close (fun o => match o with CloseBp _ => true | _ => false end) p p1 p2 _
                      (effects keep steps d0 ++ [OpenBp z; OpenMeta z; CloseMeta z]) []); auto.
             - rewrite E1. unfold save_ops. rewrite <- app_assoc. auto.
             - intros o Ho. destruct o; auto. exfalso. eapply Hl; eauto.
             - intros o []. }
           subst s. rewrite E1, apply_ops_app. apply saved_complete.
        -- (* proper prefix: no close inside *)
           assert (NC : forall x, ~ In (CloseBp x) p').
           { intros x Hx. unfold save_ops in E3. destruct p' as [|a1 [|a2 [|a3 [|a4 p']]]]; cbn in E3, Hx;
               inversion E3; subst; try (intuition discriminate).
             destruct p'; discriminate. }
           assert (PS : forall o, In o p' -> op_step o = z).
           { intros o Ho. assert (I : In o (save_ops z)) by (rewrite E3; apply in_or_app; auto).
             cbn in I. intuition (subst; auto). }
           (* the close of s is in the earlier effects *)
           assert (exists p2', effects keep steps d0 = p1 ++ CloseBp s :: p2' /\ p2 = p2' ++ p').
           { rewrite E1 in Ep. symmetry in Ep. destruct (prefix_cases _ _ _ _ Ep) as [[q4 Q]|[r [Q1 Q2]]].
             - destruct q4 as [|c q4].
               + rewrite app_nil_r in Q. subst p1. apply app_inv_head in Ep. exfalso. apply (NC s). rewrite <- Ep. simpl; auto.
               + rewrite Q in Ep. rewrite <- app_assoc in Ep. apply app_inv_head in Ep. cbn in Ep.
                 injection Ep as -> Ep. exists q4. split; auto.
             - exfalso. apply (NC s). rewrite Q2. apply in_or_app. simpl. auto. }
           destruct H as [p2' [Q1 Q2]].
           assert (C : complete s (apply_ops (effects keep steps d0) d0)).
           { apply (IH ND' (effects keep steps d0) [] ltac:(rewrite app_nil_r; auto) p1 s p2' Q1).
             intros s' Hs'. apply (Hl s'). rewrite Q2. apply in_or_app. auto. }
           rewrite E1, apply_ops_app. eapply complete_unchanged; [|exact C].
           apply apply_ops_other. intros o Ho. rewrite (PS o Ho). intros ->.
           apply Hz. apply (effects_steps keep steps d0 Hk ND' (CloseBp s)).
           rewrite Q1. apply in_or_app. simpl. auto.
      * (* the save is done, part of the rotation as well *)
        assert (s = z).
        { assert (X : CloseBp s = CloseBp z); [|congruence].
          apply (last_close (fun o => match o with CloseBp _ => true | _ => false end) p p1 p2 _
                   (effects keep steps d0 ++ [OpenBp z; OpenMeta z; CloseMeta z]) p3); auto.
          - rewrite E1, E3. unfold save_ops. rewrite <- !app_assoc. auto.
          - intros o Ho. destruct o; auto. exfalso. eapply Hl; eauto.
          - intros o Ho. destruct o; auto. exfalso. apply (R2 s0). rewrite E4. apply in_or_app. auto. }
        subst s. rewrite E1, E3, !apply_ops_app.
        eapply complete_unchanged; [|apply saved_complete].
        apply apply_ops_other. intros o Ho. apply R1. rewrite E4. apply in_or_app. auto.
Qed.
