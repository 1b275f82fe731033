From Coq Require Import String Ascii ZArith List Bool Reals Sorted Lia Lra Permutation.
From Flocq Require Import Core Relative.
From Verif Require Import Base RunModel RunSpec RunProofs.
Import ListNotations.
Open Scope string_scope.
Open Scope Z_scope.

(** * Names *)
Lemma str_app_assoc (a b c : string) : ((a ++ b) ++ c)%string = (a ++ (b ++ c))%string.
Proof. induction a; simpl; congruence. Qed.
Lemma str_app_length (a b : string) : String.length (a ++ b)%string = (String.length a + String.length b)%nat.
Proof. induction a; simpl; congruence. Qed.
Lemma substring_all (a b : string) : substring 0 (String.length a) (a ++ b)%string = a.
Proof. induction a; simpl; [destruct b; auto|congruence]. Qed.

Lemma digit_ok d : 0 <= d < 10 -> digit_value (digit d) = Some d.
Proof.
  intros H. assert (C : d = 0 \/ d = 1 \/ d = 2 \/ d = 3 \/ d = 4 \/ d = 5 \/ d = 6 \/ d = 7 \/ d = 8 \/ d = 9) by lia.
  destruct C as [->|[->|[->|[->|[->|[->|[->|[->|[->| ->]]]]]]]]]; reflexivity.
Qed.

Lemma number_digits f : forall n acc t, 0 <= n < 10 ^ Z.of_nat f -> (0 < f)%nat ->
  number acc (digits f n ++ t)%string = number (acc * 10 ^ Z.of_nat (String.length (digits f n)) + n) t.
Proof.
  induction f as [|f IH]; intros n acc t H F; [lia|]. cbn [digits].
  destruct (Z.ltb_spec n 10) as [L|L].
  - cbn [append number String.length]. rewrite digit_ok by lia. f_equal. change (10 ^ Z.of_nat 1) with 10. lia.
  - assert (F' : (0 < f)%nat). { destruct f; [cbn in H; lia|lia]. }
    assert (Hd : 0 <= n / 10 < 10 ^ Z.of_nat f).
    { rewrite Nat2Z.inj_succ, Z.pow_succ_r in H by lia. split; [apply Z.div_pos; lia|apply Z.div_lt_upper_bound; lia]. }
    rewrite str_app_assoc, IH; auto. cbn [append number].
    rewrite digit_ok by (apply Z.mod_pos_bound; lia).
    rewrite str_app_length. cbn [String.length]. f_equal.
    rewrite Nat2Z.inj_add, Z.pow_add_r by lia. change (10 ^ Z.of_nat 1) with 10.
    pose proof (Z.div_mod n 10). lia.
Qed.

Lemma digits_first f n : 0 <= n -> (0 < f)%nat -> n < 10 ^ Z.of_nat f ->
  exists c r v, digits f n = String c r /\ digit_value c = Some v.
Proof.
  revert n; induction f as [|f IH]; intros n H F L; [lia|]. cbn [digits].
  destruct (Z.ltb_spec n 10) as [L1|L1].
  - do 3 eexists; split; [reflexivity|apply digit_ok; lia].
  - assert (F' : (0 < f)%nat). { destruct f; [cbn in L; lia|lia]. }
    rewrite Nat2Z.inj_succ, Z.pow_succ_r in L by lia.
    destruct (IH (n / 10)) as [c [r [v [E D]]]]; auto.
    + apply Z.div_pos; lia.
    + apply Z.div_lt_upper_bound; lia.
    + rewrite E. cbn. do 3 eexists; split; [reflexivity|eauto].
Qed.

Lemma number_zeros k t : number 0 (zeros k ++ t)%string = number 0 t.
Proof. induction k; simpl; auto. Qed.

Lemma number_pad8 n t : 0 <= n < 10 ^ 20 -> number 0 (pad8 n ++ t)%string = number n t.
Proof.
  intros H. unfold pad8. rewrite str_app_assoc, number_zeros, number_digits; [f_equal; lia|exact H|lia].
Qed.

Lemma pad8_first n : 0 <= n < 10 ^ 20 -> exists c r v, pad8 n = String c r /\ digit_value c = Some v.
Proof.
  intros H. unfold pad8. destruct (8 - String.length (digits 20 n))%nat eqn:E; cbn [zeros append].
  - apply digits_first; auto; try lia.
  - do 3 eexists; split; [reflexivity|reflexivity].
Qed.

Lemma str_app_nil (s : string) : (s ++ "")%string = s.
Proof. induction s; simpl; congruence. Qed.

Lemma stoi_pad8 n : 0 <= n < 10 ^ 20 -> stoi (pad8 n) = if n <=? 2147483647 then Ok n else Err.
Proof.
  intros H. destruct (pad8_first n H) as [c [r [v [E D]]]].
  pose proof (number_pad8 n "" H) as N. rewrite str_app_nil in N. cbn [number] in N.
  unfold stoi. rewrite E in *. rewrite D. rewrite N. auto.
Qed.

Lemma prefix_self (a b : string) : prefix a (a ++ b)%string = true.
Proof. induction a as [|c a IH]; [destruct b; reflexivity|]. cbn [append prefix]. destruct (ascii_dec c c); [auto|congruence]. Qed.
Lemma bp_name_prefix n : prefix "step-" (bp_name n) = true.
Proof. apply prefix_self. Qed.

Lemma step_of_bp n : 0 <= n < 10 ^ 20 ->
  step_of_name (bp_name n) = Some (if n <? 2 ^ 31 then Ok n else Err).
Proof.
  intros H. unfold step_of_name, bp_name.
  assert (L : String.length ("step-" ++ pad8 n ++ ".bp") = (8 + String.length (pad8 n))%nat).
  { rewrite !str_app_length. cbn. lia. }
  pose proof (bp_name_prefix n) as P. unfold bp_name in P. rewrite P, L.
  replace (Nat.ltb (8 + String.length (pad8 n)) 8) with false by (symmetry; apply Nat.ltb_ge; lia).
  replace (8 + String.length (pad8 n) - 8)%nat with (String.length (pad8 n)) by lia.
  change (substring 5 (String.length (pad8 n)) ("step-" ++ pad8 n ++ ".bp")) with
    (substring 0 (String.length (pad8 n)) (pad8 n ++ ".bp")). rewrite substring_all, stoi_pad8 by auto.
  f_equal. destruct (Z.leb_spec n 2147483647), (Z.ltb_spec n (2 ^ 31)); auto; lia.
Qed.

Lemma step_of_meta n : step_of_name (meta_name n) = None.
Proof. reflexivity. Qed.

Lemma step_of_other n : prefix "step-" n = false -> step_of_name n = None.
Proof. intros H. unfold step_of_name. rewrite H. auto. Qed.

(** * The highest step *)
Definition small (d : disk) : Prop := forall s, file s (bps d) <> None -> 0 <= s < 2 ^ 31.

Lemma highest_ok names : forall best,
  (forall n, In n names -> prefix "step-" n = true -> exists s, n = bp_name s /\ 0 <= s < 2 ^ 31) ->
  exists m, highest best names = Ok m /\ best <= m /\ (m = best \/ In (bp_name m) names) /\
    forall s, 0 <= s < 2 ^ 31 -> In (bp_name s) names -> s <= m.
Proof.
  induction names as [|n names IH]; intros best H; cbn [highest].
  - exists best. split; [auto|split; [lia|split; [auto|intros s _ []]]].
  - destruct (prefix "step-" n) eqn:P.
    + destruct (H n ltac:(simpl; auto) P) as [s [-> Hs]].
      rewrite step_of_bp by lia. destruct (Z.ltb_spec s (2 ^ 31)) as [L|L]; [|lia]. cbn [rbind].
      destruct (IH (if best <? s then s else best)) as [m [E [B [C M]]]].
      { intros n Hn. apply H. simpl; auto. }
      exists m. split; auto.
      destruct (Z.ltb_spec best s) as [L2|L2].
      * split; [lia|]. split; [destruct C as [->|C]; simpl; auto|].
        intros s' Hs' [C'|C']; auto. assert (s' = s); [|lia].
        assert (X : step_of_name (bp_name s) = step_of_name (bp_name s')) by congruence.
        rewrite !step_of_bp in X by lia. destruct (Z.ltb_spec s (2 ^ 31)), (Z.ltb_spec s' (2 ^ 31)); try lia. congruence.
      * split; [lia|]. split; [destruct C as [->|C]; simpl; auto|].
        intros s' Hs' [C'|C']; auto. assert (s' = s); [|lia].
        assert (X : step_of_name (bp_name s) = step_of_name (bp_name s')) by congruence.
        rewrite !step_of_bp in X by lia. destruct (Z.ltb_spec s (2 ^ 31)), (Z.ltb_spec s' (2 ^ 31)); try lia. congruence.
    + rewrite (step_of_other n P).
      destruct (IH best) as [m [E [B [C M]]]]; [intros n' Hn; apply H; simpl; auto|].
      exists m. split; auto. split; auto. split; [destruct C; simpl; auto|].
      intros s Hs [Hi|Hi]; auto. rewrite Hi, bp_name_prefix in P. discriminate.
Qed.

Lemma highest_step names d z : listing_of names d -> small d -> 0 < z ->
  file z (bps d) <> None -> (forall s, file s (bps d) <> None -> s <= z) -> highest 0 names = Ok z.
Proof.
  intros [L1 L2] Sm Hz Fz Mz.
  destruct (highest_ok names 0) as [m [E [B [C M]]]].
  { intros n Hn P. destruct (L2 n Hn P) as [s [-> F]]. exists s. split; auto. }
  rewrite E. f_equal.
  assert (z <= m) by (apply M; [apply Sm; auto|apply L1; auto]).
  destruct C as [->|C]; [lia|].
  destruct (L2 _ C (bp_name_prefix m)) as [s [Es Fs]].
  assert (m <= z); [|lia].
  assert (s <= z) by (apply Mz; auto). pose proof (Sm s Fs) as Bs.
  destruct (Z_lt_le_dec m (10 ^ 20)) as [Hm|Hm].
  - assert (X : step_of_name (bp_name m) = step_of_name (bp_name s)) by congruence.
    rewrite !step_of_bp in X by lia. destruct (Z.ltb_spec s (2 ^ 31)) as [_|?]; [|lia].
    destruct (Z.ltb_spec m (2 ^ 31)); congruence.
  - exfalso. assert (X : In (bp_name z) names) by auto.
    (* m was obtained from some name in the list *)
    clear - E L2 Sm Hm. assert (G : forall names best, highest best names = Ok m -> best < 2 ^ 31 -> m < 2 ^ 31).
    { induction names0 as [|n ns IH]; intros best E0 Hb; cbn [highest] in E0; [injection E0 as <-; auto|].
      unfold step_of_name in E0. destruct (prefix "step-" n); [|eapply IH; eauto].
      set (q := substring 5 _ n) in E0. unfold stoi in E0. destruct q as [|c q']; cbn [rbind] in E0; [discriminate|].
      destruct (digit_value c); cbn [rbind] in E0; [|discriminate].
      destruct (Z.leb_spec (number 0 (String c q')) 2147483647); cbn [rbind] in E0; [|discriminate].
      eapply IH; [exact E0|]. destruct (best <? _); lia. }
    specialize (G names 0 E). lia.
Qed.

(** * Resuming *)
Close Scope string_scope.

Lemma sorted_last l x s : StronglySorted Z.lt (l ++ [x]) -> In s l -> s < x.
Proof.
  induction l as [|a l IH]; intros H Hi; [destruct Hi|]. cbn in H. inversion H as [|? ? S F]; subst.
  destruct Hi as [<-|Hi]; auto. rewrite Forall_forall in F. apply F. apply in_or_app. simpl; auto.
Qed.
Lemma sorted_nodup l : StronglySorted Z.lt l -> NoDup l.
Proof.
  induction 1 as [|a l S IH F]; constructor; auto. intros C. rewrite Forall_forall in F. specialize (F a C). lia.
Qed.
Lemma newest_last {A} k (l : list A) x : 0 < k -> In x (newest k (l ++ [x])).
Proof.
  intros Hk. rewrite newest_snoc by auto. destruct (Z.ltb_spec k (Z.of_nat (length (newest k l ++ [x])))) as [L|L].
  - destruct (newest k l) as [|a w]; [cbn in L; lia|]. cbn. apply in_or_app. simpl; auto.
  - apply in_or_app. simpl; auto.
Qed.

Lemma file_after_ops ops d s : file s (bps (apply_ops ops d)) <> None ->
  file s (bps d) <> None \/ exists o, In o ops /\ op_step o = s.
Proof.
  intros H. destruct (in_dec Z.eq_dec s (map op_step ops)) as [I|I].
  - right. apply in_map_iff in I as [o [E Ho]]. exists o; auto.
  - left. destruct (apply_ops_other ops d s) as [E _].
    + intros o Ho C. apply I. apply in_map_iff. exists o; auto.
    + congruence.
Qed.

(** Everything on disk after a crash has a step of this run or was there before. *)
Lemma resume_at z d names (ops : list op) d0 :
  d = apply_ops ops d0 -> (forall o, In o ops -> 0 < op_step o <= z) -> z < 2 ^ 31 ->
  (forall s, file s (bps d0) <> None -> 0 <= s < z) ->
  file z (bps d) <> None -> 0 < z ->
  listing_of names d -> highest 0 names = Ok z.
Proof.
  intros -> Ho Hz H0 Fz Pz L. apply highest_step with (d := apply_ops ops d0); auto.
  - intros s Fs. apply file_after_ops in Fs as [Fs|[o [Io <-]]]; [specialize (H0 s Fs); lia|].
    specialize (Ho o Io). lia.
  - intros s Fs. apply file_after_ops in Fs as [Fs|[o [Io <-]]]; [specialize (H0 s Fs); lia|].
    specialize (Ho o Io). lia.
Qed.

Lemma ops_below keep steps z d0 : keep <> 0 -> increasing (steps ++ [z]) ->
  forall o, In o (effects keep steps d0) -> 0 < op_step o <= z.
Proof.
  intros Hk [SS F] o Ho.
  assert (ND : NoDup steps).
  { apply sorted_nodup in SS. apply NoDup_remove_1 in SS. rewrite app_nil_r in SS. auto. }
  apply effects_steps in Ho; auto. pose proof (sorted_last _ _ _ SS Ho).
  rewrite Forall_forall in F. assert (In (op_step o) (steps ++ [z])) as I by (apply in_or_app; auto).
  specialize (F _ I). cbn in F. lia.
Qed.

Lemma last_close_exists z p : In (CloseBp z) p ->
  exists p1 s p2, p = p1 ++ CloseBp s :: p2 /\ forall s', ~ In (CloseBp s') p2.
Proof.
  induction p as [|o p IH]; intros H; [destruct H|].
  destruct (existsb (fun o => match o with CloseBp _ => true | _ => false end) p) eqn:X.
  - apply existsb_exists in X as [o' [Ho' Eo]]. destruct o'; try discriminate.
    assert (Y : exists p1 s p2, p = p1 ++ CloseBp s :: p2 /\ forall s', ~ In (CloseBp s') p2).
    { clear - Ho'. revert s Ho'. induction p as [|a p IH]; intros s Ho'; [destruct Ho'|].
      destruct (existsb (fun o => match o with CloseBp _ => true | _ => false end) p) eqn:X.
      - apply existsb_exists in X as [o2 [Ho2 Eo2]]. destruct o2; try discriminate.
        destruct (IH _ Ho2) as [p1 [s1 [p2 [-> Hl]]]]. exists (a :: p1), s1, p2. auto.
      - destruct Ho' as [->|Ho'].
        + exists [], s, p. split; auto. intros s' Hs'.
          assert (existsb (fun o => match o with CloseBp _ => true | _ => false end) p = true); [|congruence].
          apply existsb_exists. exists (CloseBp s'). auto.
        + assert (existsb (fun o => match o with CloseBp _ => true | _ => false end) p = true); [|congruence].
          apply existsb_exists. exists (CloseBp s). auto. }
    destruct Y as [p1 [s1 [p2 [-> Hl]]]]. exists (o :: p1), s1, p2. auto.
  - assert (N : forall s', ~ In (CloseBp s') p).
    { intros s' Hs'. assert (existsb (fun o => match o with CloseBp _ => true | _ => false end) p = true); [|congruence].
      apply existsb_exists. exists (CloseBp s'). auto. }
    destruct H as [->|H]; [|exfalso; eapply N; eauto]. exists [], z, p. auto.
Qed.

(** A crash outside the saving of a checkpoint (in particular during the removal of the oldest
    one) is followed by a restart from the newest checkpoint, which is complete. *)
Lemma resume_ok keep steps z d0 p q names :
  keep <> 0 -> increasing (steps ++ [z]) ->
  (forall s, file s (bps d0) <> None -> 0 <= s < z) ->
  effects keep (steps ++ [z]) d0 = p ++ q -> In (CloseBp z) p ->
  listing_of names (apply_ops p d0) ->
  resume_step names (apply_ops p d0) = Ok z /\ complete z (apply_ops p d0).
Proof.
  intros Hk Inc H0 E Cl L. pose proof Inc as [SS F].
  assert (ND : NoDup (steps ++ [z])) by (apply sorted_nodup; auto).
  assert (Hz : 0 < z < 2 ^ 31).
  { rewrite Forall_forall in F. apply F. apply in_or_app. simpl; auto. }
  assert (B : forall o, In o (effects keep (steps ++ [z]) d0) -> 0 < op_step o <= z).
  { intros o Ho. apply effects_steps in Ho; auto. rewrite Forall_forall in F. pose proof (F _ Ho) as P. cbn in P.
    apply in_app_or in Ho as [Ho|[Ho|[]]]; [|lia]. pose proof (sorted_last _ _ _ SS Ho). lia. }
  assert (C : complete z (apply_ops p d0)).
  { (* z is the step of the last close *)
    assert (exists p1 s p2, p = p1 ++ CloseBp s :: p2 /\ forall s', ~ In (CloseBp s') p2) as [p1 [s [p2 [Ep Hl]]]].
    { eapply last_close_exists; eauto. }
    assert (CS : complete s (apply_ops p d0)) by (eapply crash_safe; eauto).
    (* order of the closes is the order of the steps *)
    assert (s = z); [|subst; auto].
    rewrite effects_snoc in E.
    assert (NZ : ~ In (CloseBp z) (effects keep steps d0)).
    { intros X. apply effects_steps in X; auto.
      - pose proof (sorted_last _ _ _ SS X). cbn in *. lia.
      - apply NoDup_remove_1 in ND. rewrite app_nil_r in ND. auto. }
    symmetry in E. destruct (prefix_cases _ _ _ _ E) as [[q' E1]|[p' [E1 E2]]].
    { exfalso. apply NZ. rewrite E1. apply in_or_app. auto. }
    assert (ND' : NoDup steps) by (apply NoDup_remove_1 in ND; rewrite app_nil_r in ND; auto).
    pose proof (saves_inv keep d0 steps Hk ND') as [W _ _ _].
    destruct (save_effects keep z (snd (run_events keep (map Save steps) ([], d0))) Hk) as [rot [ES [R1 [R2 R3]]]].
    { intros x Hx ->. rewrite W in Hx. apply kept_in in Hx. apply NoDup_remove_2 in ND. rewrite app_nil_r in ND. auto. }
    assert (Hp : In (CloseBp z) p').
    { rewrite E1 in Cl. apply in_app_or in Cl as [Cl|Cl]; auto. contradiction. }
    rewrite ES in E2.
    (* every close in p' is of z *)
    assert (AllZ : forall x, In (CloseBp x) p' -> x = z).
    { intros x Hx. assert (I : In (CloseBp x) (save_ops z ++ rot)) by (rewrite E2; apply in_or_app; auto).
      apply in_app_or in I as [I|I]; [|exfalso; eapply R2; eauto].
      cbn in I. repeat (destruct I as [I|I]; [congruence|]). destruct I. }
    apply AllZ. rewrite E1 in Ep. symmetry in Ep.
    destruct (prefix_cases _ _ _ _ Ep) as [[q4 Q]|[r [Q1 Q2]]].
    - exfalso. destruct q4 as [|c q4].
      + rewrite app_nil_r in Q. rewrite Q in Ep. apply app_inv_head in Ep. 
        rewrite <- Ep in Hp. destruct Hp as [Hp|Hp]; [|eapply Hl; eauto].
        injection Hp as ->. (* contradiction is not available: close of s is the first of p' *)
        rewrite <- Ep in E2. cbn in E2. discriminate.
      + rewrite Q in Ep. rewrite <- app_assoc in Ep. apply app_inv_head in Ep. cbn in Ep.
        injection Ep as _ Ep. apply (Hl z). rewrite Ep. apply in_or_app. auto.
    - rewrite Q2. apply in_or_app. simpl. auto. }
  split; auto. unfold resume_step.
  assert (HH : highest 0 names = Ok z).
  { apply (resume_at z (apply_ops p d0) names p d0); auto; try lia.
    - intros o Ho. apply B. rewrite E. apply in_or_app. auto.
    - destruct C as [C1 _]. rewrite C1. discriminate. }
  rewrite HH. cbn [rbind].
  rewrite present_file. destruct C as [_ C2]. rewrite C2. auto.
Qed.

(** A crash while a checkpoint is being saved: the restart picks the incomplete one (or stops
    with an error), although an older complete one exists. *)
Lemma resume_bad keep steps z d0 p q names :
  keep <> 0 -> increasing (steps ++ [z]) ->
  (forall s, file s (bps d0) <> None -> 0 <= s < z) ->
  save_ops z = p ++ q -> p <> [] -> q <> [] ->
  let d := apply_ops p (after_saves keep steps d0) in
  listing_of names d ->
  ~ complete z d /\ (resume_step names d = Err \/ resume_step names d = Ok z) /\
  (steps <> [] -> complete (last steps 0) d).
Proof.
  intros Hk Inc H0 E Hp Hq d L. pose proof Inc as [SS F].
  assert (ND : NoDup (steps ++ [z])) by (apply sorted_nodup; auto).
  assert (ND' : NoDup steps) by (apply NoDup_remove_1 in ND; rewrite app_nil_r in ND; auto).
  assert (Hz : 0 < z < 2 ^ 31).
  { rewrite Forall_forall in F. apply F. apply in_or_app. simpl; auto. }
  assert (FZ : file z (bps d) = Some false).
  { unfold d. unfold save_ops in E. destruct p as [|a1 [|a2 [|a3 [|a4 p]]]]; [congruence| | | |].
    - inversion E; subst. apply file_write.
    - inversion E; subst. apply file_write.
    - inversion E; subst. apply file_write.
    - inversion E; subst. destruct p; [|discriminate]. cbn in *. subst q. congruence. }
  split; [|split].
  - intros [C _]. congruence.
  - assert (HH : highest 0 names = Ok z).
    { apply (resume_at z d names (effects keep steps d0 ++ p) d0); auto; try lia.
      - unfold d. rewrite apply_ops_app, effects_disk. auto.
      - intros o Ho. apply in_app_or in Ho as [Ho|Ho].
        + eapply ops_below; eauto.
        + assert (I : In o (save_ops z)) by (rewrite E; apply in_or_app; auto).
          assert (op_step o = z) as ->; [|lia]. cbn in I. intuition (subst; auto).
      - congruence. }
    unfold resume_step. rewrite HH. cbn [rbind]. destruct (present z (metas d)); auto.
  - intros NE. destruct (exists_last NE) as [l [x Ex]]. subst steps. rewrite last_last.
    eapply complete_unchanged.
    + unfold d. apply apply_ops_other. intros o Ho.
      assert (I : In o (save_ops z)) by (rewrite E; apply in_or_app; auto).
      assert (op_step o = z) as ->. { cbn in I. intuition (subst; auto). }
      intros ->. apply NoDup_remove_2 in ND. rewrite app_nil_r in ND. apply ND. apply in_or_app. simpl; auto.
    + pose proof (saves_inv keep d0 _ Hk ND') as [W K G R]. apply K. unfold kept.
      destruct (Z.ltb_spec 0 keep); [apply newest_last; auto|apply in_or_app; simpl; auto].
Qed.

(** * Time *)
Open Scope R_scope.
Lemma printed_error t : Rabs (printed t - t) <= 5 / 10000000.
Proof.
  unfold printed. pose proof (Znearest_half (fun x => negb (Z.even x)) (t * 1000000)) as H.
  change (Znearest (fun x => negb (Z.even x))) with ZnearestE in H.
  replace (IZR (ZnearestE (t * 1000000)) / 1000000 - t)
    with (- (t * 1000000 - IZR (ZnearestE (t * 1000000))) / 1000000) by field.
  unfold Rdiv. rewrite Rabs_mult, Rabs_Ropp.
  replace (Rabs (/ 1000000)) with (/ 1000000) by (symmetry; apply Rabs_pos_eq; lra). lra.
Qed.

#[local] Instance prec53 : Prec_gt_0 53. Proof. reflexivity. Qed.
Lemma to_double_error x : Rabs (to_double x - x) <= Rabs x * bpow radix2 (-53) + bpow radix2 (-1075).
Proof.
  unfold to_double.
  destruct (Rle_or_lt (bpow radix2 (-1074 + 53 - 1)) (Rabs x)) as [L|L].
  - pose proof (relative_error_N_FLT radix2 (-1074) 53 ltac:(lia) (fun x => negb (Z.even x)) x L) as H.
    assert (E : (/ 2 * bpow radix2 (- (53) + 1) = bpow radix2 (-53))%R).
    { change (/ 2)%R with (/ IZR (Zpower radix2 1))%R. change (/ IZR (Zpower radix2 1))%R with (bpow radix2 (-1)).
      rewrite <- bpow_plus. reflexivity. }
    assert (G : (0 <= bpow radix2 (-1075))%R) by apply bpow_ge_0.
    rewrite E in H. lra.
  - pose proof (error_le_half_ulp radix2 (FLT_exp (-1074) 53) (fun x => negb (Z.even x)) x) as H.
    rewrite (@ulp_FLT_small radix2 (-1074) 53 prec53) in H.
    + assert (E : (/ 2 * bpow radix2 (-1074) = bpow radix2 (-1075))%R).
      { change (/ 2)%R with (/ IZR (Zpower radix2 1))%R. change (/ IZR (Zpower radix2 1))%R with (bpow radix2 (-1)).
        rewrite <- bpow_plus. reflexivity. }
      rewrite E in H. pose proof (Rmult_le_pos _ _ (Rabs_pos x) (bpow_ge_0 radix2 (-53))). lra.
    + eapply Rlt_le_trans; [exact L|]. apply bpow_le. lia.
Qed.

Lemma restored_error t : 0 <= t -> Rabs (restored_time t - t) <= 5 / 10000000 + (t + 1) * bpow radix2 (-53).
Proof.
  intros Ht. unfold restored_time.
  pose proof (printed_error t) as P. pose proof (to_double_error (printed t)) as D.
  replace (to_double (printed t) - t) with ((to_double (printed t) - printed t) + (printed t - t)) by ring.
  eapply Rle_trans; [apply Rabs_triang|].
  assert (A : Rabs (printed t) <= t + 5 / 10000000).
  { replace (printed t) with ((printed t - t) + t) by ring. eapply Rle_trans; [apply Rabs_triang|].
    rewrite (Rabs_pos_eq t) by auto. lra. }
  assert (B0 : 0 < bpow radix2 (-53)) by apply bpow_gt_0.
  assert (B1 : bpow radix2 (-1075) <= 4 / 10 * bpow radix2 (-53)).
  { apply Rle_trans with (bpow radix2 (-53 + -2)); [apply bpow_le; lia|].
    rewrite bpow_plus. change (bpow radix2 (-2)) with (/ 4). lra. }
  assert (M : Rabs (printed t) * bpow radix2 (-53) <= (t + 5 / 10000000) * bpow radix2 (-53)).
  { apply Rmult_le_compat_r; lra. }
  lra.
Qed.

Lemma time_lost : restored_time (/ 4194304) = 0.
Proof.
  unfold restored_time, printed, to_double.
  replace (ZnearestE (/ 4194304 * 1000000)) with 0%Z.
  - unfold Rdiv. rewrite Rmult_0_l. apply round_0. apply valid_rnd_N.
  - symmetry. apply Znearest_imp. rewrite Rminus_0_r. rewrite Rabs_pos_eq; lra.
Qed.
Close Scope R_scope.

(** * Parameters *)
Lemma restarts_snoc {A B} (p : params A B) is i :
  restarts p (is ++ [i]) = resumed_run (saved_meta (restarts p is)) i.
Proof. revert p; induction is as [|j is IH]; intros p; simpl; auto. Qed.
Lemma restarts_raw {A B} (p : params A B) is i : raw_data (restarts p (is ++ [i])) = i.
Proof. rewrite restarts_snoc. auto. Qed.

Lemma effective_after {A B} (i0 : input A B) is :
  in_effect (restarts (fresh_run i0) is) = immutable (nth (length is - 2) (removelast is) i0) \/ (length is <= 1)%nat.
Proof.
  destruct (Nat.le_gt_cases (length is) 1) as [L|L]; [right; auto|left].
  destruct (@exists_last _ is) as [l [b ->]]; [intros ->; simpl in L; lia|].
  rewrite removelast_last, restarts_snoc. cbn [in_effect resumed_run saved_meta].
  rewrite app_length in *. simpl in L.
  destruct (@exists_last _ l) as [l' [a ->]]; [intros ->; simpl in L; lia|].
  unfold saved_meta. rewrite restarts_raw. f_equal. rewrite app_length. simpl.
  replace (length l' + 1 + 1 - 2)%nat with (length l') by lia. rewrite app_nth2, Nat.sub_diag by lia. auto.
Qed.

Lemma effective_last {A B} (i0 : input A B) is a b :
  in_effect (restarts (fresh_run i0) (is ++ [a; b])) = immutable a.
Proof.
  replace (is ++ [a; b]) with ((is ++ [a]) ++ [b]) by (rewrite <- app_assoc; auto).
  rewrite restarts_snoc. unfold saved_meta. cbn. rewrite restarts_raw. auto.
Qed.

(** * Main loop *)
Lemma from_to_cons a b : a < b -> from_to a b = a :: from_to (a + 1) b.
Proof.
  intros H. unfold from_to. replace (Z.to_nat (b - a)) with (S (Z.to_nat (b - (a + 1)))) by lia.
  cbn [seq map]. f_equal; [lia|]. rewrite <- seq_shift, map_map. apply map_ext. intros. lia.
Qed.
Lemma from_to_nil a b : b <= a -> from_to a b = [].
Proof. intros H. unfold from_to. replace (Z.to_nat (b - a)) with 0%nat by lia. auto. Qed.

Lemma loop_indices {S} (advance : Z -> S -> S) m k : forall a s, m - a <= Z.of_nat k ->
  fst (loop k advance m a s) = from_to a m.
Proof.
  induction k as [|k IH]; intros a s H; cbn [loop].
  - rewrite from_to_nil; auto. lia.
  - destruct (Z.ltb_spec a m) as [L|L]; cbn [fst]; [|rewrite from_to_nil; auto].
    rewrite from_to_cons, IH by lia. auto.
Qed.
Lemma loop_split {S} (advance : Z -> S -> S) m k j : forall a s,
  snd (loop (k + j) advance m a s) =
  let r := snd (loop k advance m a s) in snd (loop j advance m (fst r) (snd r)).
Proof.
  induction k as [|k IH]; intros a s; cbn [loop Nat.add]; auto.
  destruct (Z.ltb_spec a m) as [L|L]; cbn [fst snd]; auto.
  destruct j; cbn [loop]; auto. destruct (Z.ltb_spec a m); auto. lia.
Qed.
Lemma loop_enough {S} (advance : Z -> S -> S) m k j : forall a s, m - a <= Z.of_nat k -> m - a <= Z.of_nat j ->
  loop k advance m a s = loop j advance m a s.
Proof.
  revert j; induction k as [|k IH]; intros [|j] a s Hk Hj; cbn [loop]; auto.
  - destruct (Z.ltb_spec a m); auto. lia.
  - destruct (Z.ltb_spec a m); auto. lia.
  - destruct (Z.ltb_spec a m); auto. rewrite (IH j) by lia. auto.
Qed.
Lemma loop_bounds {S} (advance : Z -> S -> S) m k : forall a s, fst (snd (loop k advance m a s)) <= a + Z.of_nat k /\
  a <= fst (snd (loop k advance m a s)) <= Z.max a m.
Proof.
  induction k as [|k IH]; intros a s; cbn [loop]; [cbn; lia|].
  destruct (Z.ltb_spec a m) as [L|L]; cbn [fst snd]; [|lia]. specialize (IH (a + 1) (advance a s)). lia.
Qed.

Lemma interrupted_same {S} (advance : Z -> S -> S) m s0 a s : reached advance m s0 a s ->
  forall k j, m - a <= Z.of_nat k -> m <= Z.of_nat j ->
  fst (loop k advance m a s) = from_to a m /\ snd (loop k advance m a s) = snd (loop j advance m 0 s0).
Proof.
  intros R k j Hk Hj. split; [apply loop_indices; auto|]. revert k Hk.
  induction R as [|n a s a' s' R IH E]; intros k Hk.
  - rewrite (loop_enough advance m k j) by lia. auto.
  - rewrite <- (IH (n + k)%nat).
    + rewrite loop_split, E. auto.
    + pose proof (loop_bounds advance m n a s) as B. rewrite E in B. cbn in B. lia.
Qed.

(** * Tracker *)
Open Scope R_scope.
Lemma step_mode t qs : use_time t = false -> (0 < interval t)%Z -> pending t = false ->
  queries t qs = Ok (map (fun q => (fst (fst q) mod interval t =? 0)%Z) qs, t).
Proof.
  intros U Hi P. induction qs as [|[[s x] n] qs IH]; auto. cbn [queries].
  unfold should_write. rewrite U, P. cbn [andb].
  destruct (Z.eqb_spec (interval t) 0); [lia|]. cbn [rbind fst snd]. rewrite IH. auto.
Qed.

Lemma step_mode_before t qs : use_time t = false -> (0 < interval t)%Z ->
  (forall q, In q qs -> snd q <= end_walltime t) ->
  queries t qs = Ok (map (fun q => (fst (fst q) mod interval t =? 0)%Z) qs, t).
Proof.
  intros U Hi P. induction qs as [|[[s x] n] qs IH]; auto. cbn [queries].
  unfold should_write. rewrite U.
  assert (L : n <= end_walltime t) by (apply (P (s, x, n)); simpl; auto).
  destruct (Rlt_dec (end_walltime t) n) as [?|_]; [lra|]. rewrite andb_false_r.
  destruct (Z.eqb_spec (interval t) 0); [lia|]. cbn [rbind fst snd]. rewrite IH; auto.
  intros q Hq. apply P. simpl; auto.
Qed.

Lemma queries_app t a b : queries t (a ++ b) =
  rbind (queries t a) (fun r => rbind (queries (snd r) b) (fun r' => Ok ((fst r ++ fst r')%list, snd r'))).
Proof.
  revert t; induction a as [|[[s x] n] a IH]; intros t; cbn [app queries].
  - cbn [rbind fst snd app]. destruct (queries t b) as [[? ?]| |]; auto.
  - destruct (should_write t s x n) as [[w t']| |]; cbn [rbind fst snd]; auto. rewrite IH.
    destruct (queries t' a) as [[? ?]| |]; cbn [rbind fst snd]; auto.
    destruct (queries _ b) as [[? ?]| |]; cbn [rbind fst snd]; auto.
Qed.

Lemma walltime_once t a q b : use_time t = false -> (0 < interval t)%Z -> pending t = true ->
  (forall q', In q' a -> snd q' <= end_walltime t) -> end_walltime t < snd q ->
  queries t (a ++ q :: b) =
  Ok ((map (fun q => (fst (fst q) mod interval t =? 0)%Z) a ++ true ::
      map (fun q => (fst (fst q) mod interval t =? 0)%Z) b)%list, with_pending t false).
Proof.
  intros U Hi P Ha Hq. rewrite queries_app, step_mode_before by auto. cbn [rbind fst snd].
  destruct q as [[s x] n]. cbn [queries snd] in *. unfold should_write at 1. rewrite P. cbn [andb].
  destruct (Rlt_dec (end_walltime t) n) as [_|?]; [|contradiction]. cbn [rbind fst snd].
  rewrite step_mode by auto. auto.
Qed.

Lemma last_shift {A} (x : A) l d : last (x :: l) d = last l x.
Proof.
  assert (H : forall (l : list A) y d d', last (y :: l) d = last (y :: l) d').
  { clear. induction l as [|z l IH]; intros y d d'; auto. apply (IH z). }
  destruct l as [|y l]; auto. apply (H l y d x).
Qed.

(** Time mode, after the first output at [L]; [prev] is the time of the last query. *)
Lemma time_mode dt qs : forall t prev, use_time t = true -> pending t = false -> 0 < interval_time t ->
  0 <= last_output t <= prev -> prev - last_output t < interval_time t -> spaced dt prev qs ->
  exists bs t', queries t qs = Ok (bs, t') /\ length bs = length qs /\
    gaps (interval_time t) (interval_time t + dt) (last_output t :: answers qs bs) /\
    last (answers qs bs) (last_output t) = last_output t' /\
    last (map (fun q => snd (fst q)) qs) prev - last_output t' < interval_time t.
Proof.
  induction qs as [|[[s x] n] qs IH]; intros t prev U P It L0 Lp Sp.
  - exists [], t. cbn. repeat split; auto.
  - cbn [queries]. unfold should_write. rewrite P, U. cbn [andb spaced] in *. destruct Sp as [Sx Sp].
    destruct (Rlt_dec (last_output t) 0) as [?|_]; [lra|].
    destruct (Rle_dec (interval_time t) (x - last_output t)) as [F|F]; cbn [rbind fst snd].
    + destruct (IH (with_last t x) x) as [bs [t' [E [Ln [G [La Lq]]]]]]; cbn; auto; try lra.
      rewrite E. cbn [rbind fst snd]. exists (true :: bs), t'.
      cbn [with_last interval_time last_output] in *.
      split; auto. split; [cbn; congruence|].
      unfold answers. cbn [combine filter snd map fst]. fold (answers qs bs).
      split; [split; [lra|exact G]|].
      split; [rewrite last_shift; exact La|]. rewrite <- (last_shift x _ prev) in Lq. exact Lq.
    + destruct (IH t x) as [bs [t' [E [Ln [G [La Lq]]]]]]; auto; try lra.
      rewrite E. cbn [rbind fst snd]. exists (false :: bs), t'. split; auto. split; [cbn; congruence|].
      unfold answers. cbn [combine filter snd map fst]. fold (answers qs bs).
      split; auto. split; auto. rewrite <- (last_shift x _ prev) in Lq. exact Lq.
Qed.

Lemma time_mode_start t dt s0 x0 n0 qs : use_time t = true -> pending t = false -> 0 < interval_time t -> last_output t < 0 ->
  0 <= x0 -> spaced dt x0 qs ->
  exists bs t', queries t ((s0, x0, n0) :: qs) = Ok (true :: bs, t') /\ length bs = length qs /\
    gaps (interval_time t) (interval_time t + dt) (x0 :: answers qs bs) /\
    last (map (fun q => snd (fst q)) qs) x0 - last (answers qs bs) x0 < interval_time t.
Proof.
  intros U P Hi L H0 Sp. cbn [queries]. unfold should_write. rewrite P, U. cbn [andb].
  destruct (Rlt_dec (last_output t) 0) as [_|?]; [|contradiction]. cbn [rbind fst snd].
  destruct (time_mode dt qs (with_last t x0) x0) as [bs [t' [E [Ln [G [La Lq]]]]]];
    cbn [with_last use_time pending interval_time last_output] in *; auto; try lra.
  exists bs, t'. rewrite E. cbn [rbind fst snd]. rewrite La. auto.
Qed.

Lemma time_tracker i it : 0 < it ->
  let t := new_tracker i it None in
  use_time t = true /\ pending t = false /\ interval_time t = it /\ last_output t < 0.
Proof. intros H. cbn. destruct (Rlt_dec 0 it); [|contradiction]. repeat split; auto. lra. Qed.
Lemma step_tracker i it limit : it <= 0 ->
  let t := new_tracker i it limit in
  use_time t = false /\ interval t = i.
Proof. intros H. cbn. destruct (Rlt_dec 0 it); [lra|]. auto. Qed.

(** Without a wall-time limit the answers do not depend on the clock. *)
Lemma clock_free t qs qs' : pending t = false -> map fst qs = map fst qs' -> queries t qs = queries t qs'.
Proof.
  revert t qs'; induction qs as [|[[s x] n] qs IH]; intros t [|[[s' x'] n'] qs'] P E; try discriminate; auto.
  cbn in E. injection E as -> -> E. cbn [queries].
  unfold should_write. rewrite P. cbn [andb].
  destruct (use_time t).
  - destruct (Rlt_dec (last_output t) 0); [|destruct (Rle_dec (interval_time t) (x' - last_output t))];
      cbn [rbind fst snd]; rewrite (IH _ qs'); auto.
  - destruct (interval t =? 0)%Z; auto. cbn [rbind fst snd]. rewrite (IH _ qs'); auto.
Qed.
Close Scope R_scope.

(** * Steps that do not fit *)
Lemma highest_err names : forall best s, 2 ^ 31 <= s < 2 ^ 32 -> In (bp_name s) names -> highest best names = Err.
Proof.
  induction names as [|n names IH]; intros best s Hs Hi; [destruct Hi|]. cbn [highest].
  destruct Hi as [->|Hi].
  - rewrite step_of_bp by lia. destruct (Z.ltb_spec s (2 ^ 31)); [lia|]. auto.
  - destruct (step_of_name n) as [r|] eqn:E; [|eauto].
    assert (NU : r <> UB).
    { unfold step_of_name in E. destruct (prefix "step-" n); [|discriminate]. injection E as <-.
      unfold stoi. destruct (substring _ _ n); [discriminate|]. destruct (digit_value a); [|discriminate].
      destruct (_ <=? _); discriminate. }
    destruct r; cbn [rbind]; eauto. contradiction.
Qed.

Lemma same_immutables {A B} (i0 : input A B) is : Forall (fun i => immutable i = immutable i0) is ->
  in_effect (restarts (fresh_run i0) is) = immutable i0.
Proof.
  intros H.
  assert (G : forall (is : list (input A B)) (p : params A B), Forall (fun i => immutable i = immutable i0) is -> in_effect p = immutable i0 ->
    immutable (raw_data p) = immutable i0 -> in_effect (restarts p is) = immutable i0).
  { clear. induction is as [|i is IH]; intros p H E R; cbn; auto. inversion H; subst. apply IH; auto. }
  apply (G is (fresh_run i0)); auto.
Qed.

Lemma lost_trigger keep t step time now : keep <> 0 -> pending t = true -> (end_walltime t < now)%R -> step <= 1 ->
  checkpoint_due keep t step time now = Ok (false, with_pending t false).
Proof.
  intros Hk P L Hs. unfold checkpoint_due, should_write. destruct (Z.eqb_spec keep 0); [contradiction|].
  rewrite P. destruct (Rlt_dec (end_walltime t) now); [|contradiction]. cbn.
  destruct (Z.leb_spec step 1); auto. lia.
Qed.

Lemma walltime_checkpoint keep t step time now : keep <> 0 -> pending t = true -> (end_walltime t < now)%R -> 1 < step ->
  checkpoint_due keep t step time now = Ok (true, with_pending t false).
Proof.
  intros Hk P L Hs. unfold checkpoint_due, should_write. destruct (Z.eqb_spec keep 0); [contradiction|].
  rewrite P. destruct (Rlt_dec (end_walltime t) now); [|contradiction]. cbn.
  destruct (Z.leb_spec step 1); auto. lia.
Qed.
