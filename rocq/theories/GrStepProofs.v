From Coq Require Import ZArith List Bool Lia Reals Lra Permutation FunctionalExtensionality.
From Verif Require Import Base FieldModel FieldSpec FieldProofs MetModel KsModel GrStepModel GrStepSpec.
Import ListNotations.
Open Scope Z_scope.
Local Ltac Zify.zify_post_hook ::= Z.div_mod_to_equations.

(** ** Time levels *)
Lemma lev2_some ok r x y z : ok x y = true -> r x y = z -> lev2 ok r (Some x) (Some y) = Some z.
Proof. intros H E. cbn. rewrite H, E. reflexivity. Qed.

Ltac zb := repeat rewrite ?andb_true_iff, ?Z.eqb_eq, ?Z.leb_le; unfold midpoint, within; repeat rewrite ?andb_true_iff, ?Z.eqb_eq, ?Z.leb_le; lia.

Lemma lv_avg c a b z : 2 * z = a + b -> o_avg (levels c) (Some a) (Some b) = Some z.
Proof. intro H. apply lev2_some; [zb | lia]. Qed.
Lemma lv_E c a b o : a = b -> o_getE (levels c) (Some a) (Some b) o = Some a.
Proof. intro H. apply lev2_some; [zb | lia]. Qed.
Lemma lv_H c a b o : a = b -> o_getH (levels c) (Some a) (Some b) o = Some a.
Proof. intro H. apply lev2_some; [zb | lia]. Qed.
Lemma lv_far c k a b o z : c k a b = true -> z = a + k -> o_far (levels c) k (Some a) o (Some b) = Some z.
Proof. intros H E. apply lev2_some; [exact H | lia]. Qed.
Lemma lv_amp c k a b o z : c k a b = true -> z = a + k -> o_amp (levels c) k (Some a) o (Some b) = Some z.
Proof. intros H E. apply lev2_some; [exact H | lia]. Qed.
Lemma lv_J c a b : c 4 (a - 4) b = true -> o_addJ (levels c) (Some a) (Some b) = Some a.
Proof. intros H. apply lev2_some; [exact H | lia]. Qed.
Lemma lv_push c d b x u : d = x -> b = x -> u = x - 2 -> o_push (levels c) (Some d) (Some b) (Some (x, u)) = Some (x + 4, u + 4).
Proof.
  intros -> -> ->. cbn. rewrite !Z.eqb_refl. reflexivity.
Qed.
Lemma lv_dep c x u : u = x - 2 -> o_dep (levels c) (Some (x, u)) = Some u.
Proof. intros ->. cbn. rewrite Z.eqb_refl. reflexivity. Qed.


Definition mk {V} (d b d0 b0 e h j j0 : V) (k : slot) : V :=
  match k with SD => d | SB => b | SD0 => d0 | SB0 => b0 | SE => e | SH => h | SJ => j | SJ0 => j0 end.
Lemma mk_eta {V} (f : slot -> V) : f = mk (f SD) (f SB) (f SD0) (f SB0) (f SE) (f SH) (f SJ) (f SJ0).
Proof. extensionality k. destruct k; reflexivity. Qed.
Section Put.
  Context {V : Type} (d b d0 b0 e h j j0 v : V).
  Ltac t := let k := fresh in extensionality k; destruct k; reflexivity.
  Lemma pD : put (mk d b d0 b0 e h j j0) SD v = mk v b d0 b0 e h j j0. Proof. t. Qed.
  Lemma pB : put (mk d b d0 b0 e h j j0) SB v = mk d v d0 b0 e h j j0. Proof. t. Qed.
  Lemma pD0 : put (mk d b d0 b0 e h j j0) SD0 v = mk d b v b0 e h j j0. Proof. t. Qed.
  Lemma pB0 : put (mk d b d0 b0 e h j j0) SB0 v = mk d b d0 v e h j j0. Proof. t. Qed.
  Lemma pE : put (mk d b d0 b0 e h j j0) SE v = mk d b d0 b0 v h j j0. Proof. t. Qed.
  Lemma pH : put (mk d b d0 b0 e h j j0) SH v = mk d b d0 b0 e v j j0. Proof. t. Qed.
  Lemma pJ : put (mk d b d0 b0 e h j j0) SJ v = mk d b d0 b0 e h v j0. Proof. t. Qed.
  Lemma pJ0 : put (mk d b d0 b0 e h j j0) SJ0 v = mk d b d0 b0 e h j v. Proof. t. Qed.
End Put.

Lemma fold_cons {A B} (f : A -> B -> A) i l s : fold_left f (i :: l) s = fold_left f l (f s i).
Proof. reflexivity. Qed.
Ltac one c :=
  rewrite (fold_cons (exec (levels c)));
  match goal with |- context [exec (levels c) ?s ?i] =>
    let t := eval cbn [exec mk fold_left] in (exec (levels c) s i) in
    replace (exec (levels c) s i) with t by reflexivity end;
  try change (@o_ex lev (option (Z * Z)) (levels c)) with (fun (_ : slot) (v : lev) => v); cbv beta;
  repeat first [rewrite pD | rewrite pB | rewrite pD0 | rewrite pB0 | rewrite pE | rewrite pH | rewrite pJ | rewrite pJ0]; cbn [mk];
  try change (@o_prt lev (option (Z * Z)) (levels c)) with (fun (v : option (Z * Z)) => v); cbv beta.

Ltac lv :=
  repeat match goal with
  | |- context [o_getE (levels _) (Some ?a) (Some ?b) ?o] => rewrite (lv_E _ a b o) by lia
  | |- context [o_getH (levels _) (Some ?a) (Some ?b) ?o] => rewrite (lv_H _ a b o) by lia
  | |- context [o_far (levels ?c) ?k (Some ?a) ?o (Some ?b)] => rewrite (lv_far c k a b o (a + k)) by (try reflexivity; zb)
  | |- context [o_amp (levels ?c) ?k (Some ?a) ?o (Some ?b)] => rewrite (lv_amp c k a b o (a + k)) by (try reflexivity; zb)
  | |- context [o_addJ (levels ?c) (Some ?a) (Some ?b)] => rewrite (lv_J c a b) by zb
  | |- context [o_push (levels _) (Some ?d) (Some ?b) (Some (?x, ?u))] => rewrite (lv_push _ d b x u) by lia
  | |- context [o_dep (levels _) (Some (?x, ?u))] => rewrite (lv_dep _ x u) by lia
  end.


Ltac main_tac c f p dep n :=
  intros (hD & hB & hD0 & hB0 & hJ & hP); cbn [fst snd] in *; subst p;
  rewrite (mk_eta f); rewrite hD, hB, hD0, hB0; generalize (f SE), (f SH), (f SJ0); intros vE vH vJ0;
  unfold execs, gr_main, opt; destruct dep; cbn [app]; rewrite ?hJ; [|generalize (f SJ); clear hJ; intro vJ];
  (one c; rewrite (lv_avg _ (4 * n - 4) (4 * n) (4 * n - 2)) by lia;
   rewrite (lv_avg _ (4 * n - 6) (4 * n - 2) (4 * n - 4)) by lia;
   do 9 (one c; lv));
  [ one c; lv; rewrite (lv_avg _ (4 * n - 2) (4 * n - 2 + 4) (4 * n)) by lia | ];
  repeat (one c; lv);
  cbn [fold_left]; red; cbn [fst snd mk]; repeat split; f_equal; try lia; f_equal; lia.
Lemma main_level dep n s : at_level n dep s -> at_level (n + 1) dep (execs (levels midpoint) (gr_main true dep) s).
Proof. destruct s as [f p]. main_tac midpoint f p dep n. Qed.
Lemma main_level_w dep n s : at_level n dep s -> at_level (n + 1) dep (execs (levels within) (gr_main true dep) s).
Proof. destruct s as [f p]. main_tac within f p dep n. Qed.

(** Start-up. *)
Lemma start_level t p f : f SD = Some t -> f SB = Some t ->
  let s := execs (levels within) (gr_start true) (f, p) in
  fst s SD = Some (t + 6) /\ fst s SB = Some (t + 4) /\ fst s SD0 = Some (t + 2) /\ fst s SB0 = Some t /\
  fst s SJ = f SJ0 /\ fst s SJ0 = f SJ /\ snd s = p.
Proof.
  intros hD hB. cbv zeta. rewrite (mk_eta f). rewrite hD, hB.
  generalize (f SE), (f SH), (f SJ0), (f SJ), (f SD0), (f SB0). intros vE vH vJ0 vJ vD0 vB0.
  unfold execs, gr_start.
  repeat (one within; lv).
  cbn [fold_left fst snd mk]. repeat split; f_equal; lia.
Qed.

Lemma execs_app {V P} (o : gr_ops V P) l l' s : execs o (l ++ l') s = execs o l' (execs o l s).
Proof. apply fold_left_app. Qed.

Lemma run_level dep n f : f SD = Some (-2) -> f SB = Some (-2) -> (dep = true -> f SJ0 = Some 2) ->
  at_level (Z.of_nat n + 2) dep (gr_run (levels within) true dep (S n) (f, Some (4, 2))).
Proof.
  intros hD hB hJ. induction n as [|n IH].
  - cbn [gr_run]. unfold step_forward. rewrite execs_app.
    destruct (execs (levels within) (gr_start true) (f, Some (4, 2))) as [f' p'] eqn:E.
    pose proof (start_level (-2) (Some (4, 2)) f hD hB) as S. cbv zeta in S. rewrite E in S. cbn [fst snd] in S.
    destruct S as (s1 & s2 & s3 & s4 & s5 & s6 & s7).
    change (Z.of_nat 0 + 2) with (1 + 1). apply main_level_w.
    red. cbn [fst snd]. rewrite s1, s2, s3, s4, s7. repeat split; try reflexivity.
    destruct dep; [|exact I]. rewrite s5, hJ by reflexivity. reflexivity.
  - cbn [gr_run]. replace (Z.of_nat (S n) + 2) with (Z.of_nat n + 2 + 1) by lia.
    apply main_level_w. exact IH.
Qed.

(** Particles that are not where the fields are after the start-up are never pushed consistently. *)
Lemma none_stays c l s : snd s = None -> snd (execs (levels c) l s) = None.
Proof.
  revert s. induction l as [|i l IH]; intros s H; [exact H|]. cbn. apply IH.
  destruct s as [f p]. cbn in H. subst p. destruct i; try reflexivity.
  - destruct md; reflexivity. - destruct md; reflexivity. - destruct md; reflexivity. - destruct md; reflexivity.
  - destruct md; reflexivity.
  - cbn. destruct (f SD), (f SB0); reflexivity.
Qed.
Lemma none_at c x u p : (x, u) <> (4, 2) -> p = Some (x, u) -> o_push (levels c) (Some 4) (Some 4) p = None.
Proof.
  intros H ->. unfold levels, o_push.
  destruct (Z.eqb_spec 4 x) as [<-|N]; cbn [andb]; [|reflexivity]. destruct (Z.eqb_spec u (4 - 2)) as [->|N]; [|reflexivity].
  exfalso. apply H. reflexivity.
Qed.
Lemma run_none dep n f x u : f SD = Some (-2) -> f SB = Some (-2) -> (x, u) <> (4, 2) ->
  snd (gr_run (levels within) true dep (S n) (f, Some (x, u))) = None.
Proof.
  intros hD hB hx. induction n as [|n IH].
  - cbn [gr_run]. unfold step_forward. rewrite execs_app.
    destruct (execs (levels within) (gr_start true) (f, Some (x, u))) as [f' p'] eqn:E.
    pose proof (start_level (-2) (Some (x, u)) f hD hB) as S. cbv zeta in S. rewrite E in S. cbn [fst snd] in S.
    destruct S as (s1 & s2 & s3 & s4 & s5 & s6 & s7).
    unfold gr_main, opt. rewrite execs_app. cbn [app]. rewrite <- app_assoc || idtac.
    match goal with |- snd (execs _ (?i :: ?l) ?s) = None =>
      change (execs (levels within) (i :: l) s) with (execs (levels within) l (exec (levels within) s i)) end.
    apply none_stays.
    rewrite (mk_eta f'), s1, s2, s3, s4. generalize (f' SE), (f' SH), (f' SJ), (f' SJ0). intros vE vH vJ vJ0.
    change (-2 + 6) with 4. change (-2 + 4) with 2. change (-2 + 2) with 0.
    unfold execs. one within. rewrite (lv_avg within 0 4 2), (lv_avg within (-2) 2 0) by lia.
    repeat (one within; lv). cbn [fold_left exec mk snd].
    apply (none_at _ x u); [exact hx | exact s7].
  - cbn [gr_run]. apply none_stays. exact IH.
Qed.

(** ** Freshness *)
Definition all_fresh (s : (slot -> bool) * unit) : Prop :=
  fst s SD = true /\ fst s SB = true /\ fst s SD0 = true /\ fst s SB0 = true.
Lemma start_fresh s : all_fresh (execs fresh_ops (gr_start true) s).
Proof. destruct s as [f []]. repeat split; reflexivity. Qed.
Lemma start_reads s : stale_reads (gr_start true) s = [].
Proof. destruct s as [f []]. reflexivity. Qed.
Lemma main_fresh dep s : all_fresh s -> all_fresh (execs fresh_ops (gr_main true dep) s).
Proof. destruct s as [f []]. intros (h1 & h2 & h3 & h4). cbn [fst] in *. destruct dep; repeat split; reflexivity. Qed.
Lemma main_reads dep s : all_fresh s -> stale_reads (gr_main true dep) s = [ComputeAuxE E_D0_B].
Proof.
  destruct s as [f []]. intros (h1 & h2 & h3 & h4). cbn [fst] in *. rewrite (mk_eta f), h1, h2, h3, h4.
  destruct dep; reflexivity.
Qed.
Lemma stale_app l l' s : stale_reads (l ++ l') s = stale_reads l s ++ stale_reads l' (execs fresh_ops l s).
Proof.
  revert s. induction l as [|i l IH]; intro s; [reflexivity|]. cbn [app stale_reads]. rewrite IH, app_assoc. reflexivity.
Qed.
Lemma run_fresh dep n s : all_fresh (gr_run fresh_ops true dep (S n) s).
Proof.
  induction n as [|n IH]; cbn [gr_run]; unfold step_forward.
  - rewrite execs_app. apply main_fresh, start_fresh.
  - cbn [app]. apply main_fresh. exact IH.
Qed.
Lemma run_reads dep n s : stale_reads (step_forward true dep n) (gr_run fresh_ops true dep n s) = [ComputeAuxE E_D0_B].
Proof.
  destruct n as [|n]; unfold step_forward.
  - rewrite stale_app, start_reads. apply main_reads, start_fresh.
  - cbn [app]. apply main_reads, run_fresh.
Qed.
(** Test-particle runs. *)
Lemma nofs_D dep n s : fst (gr_run fresh_ops false dep n s) SD = fst s SD.
Proof.
  induction n as [|n IH]; [reflexivity|]. cbn [gr_run]. rewrite <- IH.
  destruct (gr_run fresh_ops false dep n s) as [f []]. destruct dep, n; reflexivity.
Qed.
Lemma nofs_reads dep n s : fst s SD = false ->
  stale_reads (step_forward false dep n) (gr_run fresh_ops false dep n s) = [ParticlePush].
Proof.
  intro H. rewrite <- (nofs_D dep n) in H. destruct (gr_run fresh_ops false dep n s) as [f []]. cbn [fst] in H.
  rewrite (mk_eta f), H. destruct dep, n; reflexivity.
Qed.
