(** Proofs about the parameter store. *)
From Coq Require Import ZArith List Bool String Lia Eqdep_dec.
From Verif Require Import Base ParamModel ParamSpec.
Import ListNotations.

Open Scope list_scope.
Section P.
  Context {base : Type} (base_eq : forall a b : base, {a = b} + {a <> b}) {bden : base -> Type}.
  Notation ty := (ty base). Notation any := (any bden). Notation store := (store bden). Notation call := (call bden).
  Notation tyeq := (ty_eq base_eq).

  Lemma cast_same t (v : den bden t) : any_cast base_eq bden t (mk bden t v) = Some v.
  Proof.
    unfold any_cast, mk. cbn [projT1 projT2]. destruct (tyeq t t) as [e|n]; [|congruence].
    rewrite (UIP_dec tyeq e eq_refl). auto.
  Qed.
  Lemma cast_other t t' (v : den bden t') : t' <> t -> any_cast base_eq bden t (mk bden t' v) = None.
  Proof. intros N. unfold any_cast, mk. cbn [projT1]. destruct (tyeq t' t); [congruence|auto]. Qed.
  Lemma mk_eta (a : any) : a = mk bden (projT1 a) (projT2 a).
  Proof. destruct a; auto. Qed.

  Lemma run_snoc cs c : run bden (cs ++ [c]) = step bden (run bden cs) c.
  Proof. unfold run. rewrite fold_left_app. auto. Qed.

  Lemma vars_run cs k : match vars bden (run bden cs) k with
    | Some a => last_set cs k a
    | None => never_set cs k end.
  Proof.
    induction cs as [|c cs IH] using rev_ind.
    - cbn. intros a [].
    - rewrite run_snoc. destruct c as [k' a'|k'].
      + cbn [step set vars]. destruct (String.eqb_spec k k') as [->|N].
        * exists cs, []. split; auto.
        * destruct (vars bden (run bden cs) k) as [a|].
          -- destruct IH as [b [e [-> H]]]. exists b, (e ++ [Set_ bden k' a']). rewrite <- app_assoc. split; auto.
             intros a2 I. apply in_app_iff in I as [I|[I|[]]]; [apply (H _ I)|congruence].
          -- intros a I. apply in_app_iff in I as [I|[I|[]]]; [apply (IH _ I)|congruence].
      + cbn [step]. assert (E : vars bden (promise bden (run bden cs) k') = vars bden (run bden cs)).
        { unfold promise. destruct (is_promised _ _ _); auto. }
        rewrite E. destruct (vars bden (run bden cs) k) as [a|].
        * destruct IH as [b [e [-> H]]]. exists b, (e ++ [Promise bden k']). rewrite <- app_assoc. split; auto.
          intros a2 I. apply in_app_iff in I as [I|[I|[]]]; [apply (H _ I)|discriminate].
        * intros a I. apply in_app_iff in I as [I|[I|[]]]; [apply (IH _ I)|discriminate].
  Qed.

  Lemma last_unique (cs : list call) k a a' : last_set cs k a -> last_set cs k a' -> a = a'.
  Proof.
    intros [b [e [E H]]] [b' [e' [E' H']]]. rewrite E in E'. clear E. revert b' E'.
    induction b as [|c b IH]; intros [|c' b'] E'; cbn in E'.
    - congruence.
    - injection E' as E1 E2. exfalso. apply (H a'). rewrite E2. apply in_app_iff. right. left. auto.
    - injection E' as E1 E2. exfalso. apply (H' a). rewrite <- E2. apply in_app_iff. right. left. auto.
    - injection E' as E1 E2. apply (IH b' E2).
  Qed.

  Lemma vars_last (cs : list call) k a : last_set cs k a -> vars bden (run bden cs) k = Some a.
  Proof.
    intros L. pose proof (vars_run cs k) as V. destruct (vars bden (run bden cs) k) as [a'|].
    - f_equal. eapply last_unique; eauto.
    - exfalso. destruct L as [b [e [-> _]]]. apply (V a). apply in_app_iff. right. left. auto.
  Qed.
  Lemma vars_never (cs : list call) k : never_set cs k -> vars bden (run bden cs) k = None.
  Proof.
    intros N. pose proof (vars_run cs k) as V. destruct (vars bden (run bden cs) k) as [a'|]; auto.
    exfalso. destruct V as [b [e [-> _]]]. apply (N a'). apply in_app_iff. right. left. auto.
  Qed.

  Theorem get_last (cs : list call) k t v def : last_set cs k (mk bden t v) -> get base_eq bden (run bden cs) t k def = Ok (v, false).
  Proof. intros L. unfold get. rewrite (vars_last _ _ _ L), cast_same. auto. Qed.
  Theorem get_wrong_type (cs : list call) k t t' v def : last_set cs k (mk bden t' v) -> t' <> t -> get base_eq bden (run bden cs) t k def = Err.
  Proof. intros L N. unfold get. rewrite (vars_last _ _ _ L), cast_other by auto. auto. Qed.
  Theorem get_never (cs : list call) k t : never_set cs k ->
    get base_eq bden (run bden cs) t k None = Err /\ forall v, get base_eq bden (run bden cs) t k (Some v) = Ok (v, true).
  Proof. intros N. unfold get. rewrite (vars_never _ _ N). auto. Qed.

  Lemma contains_run (cs : list call) k : contains bden (run bden cs) k = true <-> exists a, In (Set_ bden k a) cs.
  Proof.
    unfold contains. pose proof (vars_run cs k) as V. destruct (vars bden (run bden cs) k) as [a|].
    - split; auto. intros _. destruct V as [b [e [-> _]]]. exists a. apply in_app_iff. right. left. auto.
    - split; [discriminate|]. intros [a I]. destruct (V a I).
  Qed.
  Lemma promises_run (cs : list call) k : In k (promises bden (run bden cs)) <-> In (Promise bden k) cs.
  Proof.
    induction cs as [|c cs IH] using rev_ind; [cbn; tauto|]. rewrite run_snoc, in_app_iff. cbn [In]. destruct c as [k' a|k'].
    - cbn [step set promises]. rewrite IH. intuition discriminate.
    - cbn [step]. unfold promise. destruct (is_promised bden (run bden cs) k') eqn:P.
      + rewrite IH. split; auto. intros [H|[H|[]]]; auto. injection H as ->.
        unfold is_promised in P. apply existsb_exists in P as [x [I E]]. apply String.eqb_eq in E. subst x. apply IH. auto.
      + cbn [promises]. rewrite in_app_iff, IH. cbn [In]. split; intros [H|[H|[]]]; auto; right; left; congruence.
  Qed.
  Theorem promised_iff (cs : list call) k : is_promised bden (run bden cs) k = true <-> In (Promise bden k) cs.
  Proof.
    rewrite <- promises_run. unfold is_promised. rewrite existsb_exists. split.
    - intros [x [I E]]. apply String.eqb_eq in E. subst. auto.
    - intros I. exists k. split; auto. apply String.eqb_refl.
  Qed.
  Theorem check_iff (cs : list call) : check_promises bden (run bden cs) = Ok tt <-> all_kept cs.
  Proof.
    unfold check_promises, promises_fulfilled, all_kept. destruct (forallb _ _) eqn:F.
    - split; auto. intros _ k I. rewrite forallb_forall in F. apply contains_run, F, promises_run, I.
    - split; [discriminate|]. intros H. exfalso. assert (X : forallb (contains bden (run bden cs)) (promises bden (run bden cs)) = true).
      { apply forallb_forall. intros k I. apply contains_run, H, promises_run, I. } congruence.
  Qed.
  Theorem fulfilled_readable (cs : list call) k : check_promises bden (run bden cs) = Ok tt -> In (Promise bden k) cs ->
    exists t v, forall def, get base_eq bden (run bden cs) t k def = Ok (v, false).
  Proof.
    intros C I. apply check_iff in C. destruct (C k I) as [a A]. pose proof (proj2 (contains_run cs k) (ex_intro _ a A)) as X.
    unfold contains in X. pose proof (vars_run cs k) as V. destruct (vars bden (run bden cs) k) as [a'|]; [|discriminate X].
    rewrite (mk_eta a') in V. exists (projT1 a'), (projT2 a'). intros def. apply get_last. exact V.
  Qed.
End P.

(** ** Printing *)
Open Scope string_scope.
Lemma append_assoc a b c : (a ++ b) ++ c = a ++ b ++ c.
Proof. induction a; cbn; congruence. Qed.
Lemma append_nil a : a ++ "" = a.
Proof. induction a; cbn; congruence. Qed.
Lemma length_append a b : String.length (a ++ b) = (String.length a + String.length b)%nat.
Proof. induction a; cbn; congruence. Qed.
Lemma substring_all a : substring 0 (String.length a) a = a.
Proof. induction a; cbn; congruence. Qed.
Lemma substring_prefix a b : substring 0 (String.length a) (a ++ b) = a.
Proof. induction a; cbn; [destruct b; auto|congruence]. Qed.

Lemma remove_comma a : fits (a ++ ", ") -> remove_last 2 (a ++ ", ") = a.
Proof.
  unfold fits, remove_last. rewrite length_append. cbn [String.length]. intros F.
  rewrite Z.mod_small by lia. replace (Z.to_nat (Z.min _ _)) with (String.length a) by lia. apply substring_prefix.
Qed.
Lemma remove_short : remove_last 2 "[" = "[".
Proof. reflexivity. Qed.

Definition commas (l : list string) : string := fold_right (fun x r => x ++ ", " ++ r) "" l.
Lemma commas_listing l : l <> [] -> commas l = listing l ++ ", ".
Proof.
  induction l as [|x l IH]; [congruence|]. intros _. destruct l as [|y l]; [reflexivity|].
  change (commas (x :: y :: l)) with (x ++ ", " ++ commas (y :: l)). rewrite IH by discriminate.
  change (listing (x :: y :: l)) with (x ++ ", " ++ listing (y :: l)). rewrite !append_assoc. auto.
Qed.
Lemma emit_commas {A} (f : string -> A -> string) (g : A -> string) : (forall r i, f r i = r ++ g i) ->
  forall l r, emit f r l = r ++ commas (map g l).
Proof.
  intros F. unfold emit. induction l as [|i l IH]; intros r; cbn [fold_left map commas fold_right].
  - rewrite append_nil. auto.
  - rewrite IH, F, !append_assoc. auto.
Qed.
Lemma emit_listing {A} (f : string -> A -> string) (g : A -> string) l r : (forall r i, f r i = r ++ g i) -> l <> [] ->
  fits (r ++ listing (map g l) ++ ", ") -> remove_last 2 (emit f r l) = r ++ listing (map g l).
Proof.
  intros F N L. rewrite (emit_commas f g F), commas_listing by (destruct l; [congruence|discriminate]).
  rewrite <- append_assoc. apply remove_comma. rewrite append_assoc. auto.
Qed.

(** The nested printer only appends if the intermediate strings fit; so carry the bound. *)
Lemma fits_prefix a b : fits (a ++ b) -> fits a.
Proof. unfold fits. rewrite length_append. lia. Qed.
Lemma emit_nested {A} (sh : string -> A -> string) (g : A -> string) : (forall r i, sh r i = r ++ g i) ->
  forall vv r, Forall (fun v => v <> []) vv ->
  fits (r ++ commas (map (fun v => braced (map g v)) vv)) ->
  emit (fun r v => remove_last 2 (emit sh (r ++ "{") v) ++ "}") r vv = r ++ commas (map (fun v => braced (map g v)) vv).
Proof.
  intros F. unfold emit at 1. induction vv as [|v vv IH]; intros r N L; cbn [fold_left map commas fold_right].
  - rewrite append_nil. auto.
  - inversion N as [|? ? N1 N2]; subst.
    assert (E : remove_last 2 (emit sh (r ++ "{") v) = r ++ "{" ++ listing (map g v)).
    { rewrite (emit_listing sh g) by (auto; revert L; unfold fits; cbn [map commas fold_right]; unfold braced; rewrite !length_append; cbn [String.length]; lia).
      rewrite append_assoc. auto. }
    rewrite E. rewrite IH; [unfold braced; rewrite !append_assoc; auto|auto|].
    revert L. cbn [map commas fold_right]. fold (commas (map (fun v => braced (map g v)) vv)). unfold fits, braced. rewrite !length_append. cbn [String.length]. lia.
Qed.

Section Print.
  Context {base : Type} (base_eq : forall a b : base, {a = b} + {a <> b}) {bden : base -> Type} (show : forall b, bden b -> string).
  Notation T b := (TBase b).

  (** What the printer is expected to produce; [None] for a type it does not know. *)
  Lemma print_scalar (cs : list (call bden)) k b v : last_set cs k (mk bden (T b) v) ->
    stringize base_eq bden show (run bden cs) b k = Ok (show b v).
  Proof.
    intros L. unfold stringize. rewrite (vars_last _ _ _ L), !cast_other, cast_same by discriminate. auto.
  Qed.
  Lemma print_vector (cs : list (call bden)) k b v : last_set cs k (mk bden (TVec (T b)) v) -> fits (bracketed (map (show b) v) ++ ", ") ->
    stringize base_eq bden show (run bden cs) b k = Ok (bracketed (map (show b) v)).
  Proof.
    intros L F. unfold stringize. rewrite (vars_last _ _ _ L), cast_other, cast_same by congruence. f_equal.
    destruct v as [|x v]; [reflexivity|].
    rewrite (emit_listing _ (show b)); [unfold bracketed; cbn; auto|auto|discriminate|].
    revert F. unfold fits, bracketed. rewrite !length_append. cbn [String.length]. lia.
  Qed.
  Lemma print_pair (cs : list (call bden)) k b v : last_set cs k (mk bden (TPair (T b)) v) ->
    stringize base_eq bden show (run bden cs) b k = Ok (bracketed [show b (fst v); show b (snd v)]).
  Proof.
    intros L. unfold stringize. rewrite (vars_last _ _ _ L), !cast_other, cast_same by congruence. f_equal.
    unfold bracketed. cbn [listing]. rewrite !append_assoc. auto.
  Qed.
  Lemma print_pairs (cs : list (call bden)) k b v : last_set cs k (mk bden (TVec (TPair (T b))) v) ->
    fits (bracketed (map (fun p => braced [show b (fst p); show b (snd p)]) v) ++ ", ") ->
    stringize base_eq bden show (run bden cs) b k = Ok (bracketed (map (fun p => braced [show b (fst p); show b (snd p)]) v)).
  Proof.
    intros L F. unfold stringize. rewrite (vars_last _ _ _ L). rewrite (cast_other base_eq (TVec (TVec (T b)))) by congruence.
    rewrite (cast_other base_eq (TVec (T b))) by congruence. rewrite (cast_other base_eq (TPair (T b))) by congruence. rewrite cast_same. f_equal.
    destruct v as [|x v]; [reflexivity|].
    rewrite (emit_listing _ (fun p => braced [show b (fst p); show b (snd p)])); [unfold bracketed; cbn; auto| |discriminate|].
    - intros r p. unfold braced. cbn [listing]. rewrite !append_assoc. auto.
    - revert F. unfold fits, bracketed. rewrite !length_append. cbn [String.length]. lia.
  Qed.
  Lemma print_nested (cs : list (call bden)) k b v : last_set cs k (mk bden (TVec (TVec (T b))) v) -> Forall (fun w => w <> []) v ->
    fits (bracketed (map (fun w => braced (map (show b) w)) v) ++ ", ") ->
    stringize base_eq bden show (run bden cs) b k = Ok (bracketed (map (fun w => braced (map (show b) w)) v)).
  Proof.
    intros L N F. unfold stringize. rewrite (vars_last _ _ _ L), cast_same. f_equal.
    destruct v as [|x v]; [reflexivity|].
    assert (F' : fits ("[" ++ listing (map (fun w => braced (map (show b) w)) (x :: v)) ++ ", ")).
    { revert F. unfold fits, bracketed. rewrite !length_append. cbn [String.length]. lia. }
    assert (F2 : fits ("[" ++ commas (map (fun w => braced (map (show b) w)) (x :: v)))).
    { rewrite commas_listing by discriminate. revert F. unfold fits, bracketed. rewrite !length_append. cbn [String.length]. lia. }
    rewrite (emit_nested _ (show b)) by auto.
    rewrite commas_listing by discriminate. rewrite <- append_assoc, remove_comma by (rewrite append_assoc; auto).
    unfold bracketed. rewrite append_assoc. auto.
  Qed.
  Lemma print_empty_inner (cs : list (call bden)) k b : last_set cs k (mk bden (TVec (TVec (T b))) [[]]) ->
    stringize base_eq bden show (run bden cs) b k = Ok "}]".
  Proof. intros L. unfold stringize. rewrite (vars_last _ _ _ L), cast_same. reflexivity. Qed.
  Lemma print_missing (cs : list (call bden)) k b : never_set cs k -> stringize base_eq bden show (run bden cs) b k = Err.
  Proof. intros N. unfold stringize. rewrite (vars_never _ _ N). auto. Qed.
End Print.
