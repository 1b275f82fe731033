(** Proofs for the names of output quantities: the whole list of requests. *)
From Coq Require Import ZArith List Bool String Ascii Lia Permutation.
From Verif Require Import Base SpcsModel NmModel NmSpec NmProofs NmTop.
Import ListNotations.
Open Scope string_scope.

Theorem merge_perm a : forall b, Permutation (merge a b) (a ++ b)%list.
Proof.
  induction a as [|x a IH]; intros b; [reflexivity|]. induction b as [|y b IHb].
  - cbn. now rewrite app_nil_r.
  - cbn [merge]. destruct (str_lt y x).
    + change (Permutation (y :: merge (x :: a) b) ((x :: a) ++ y :: b)%list). rewrite IHb.
      apply (Permutation_middle (x :: a) b y).
    + cbn [app]. constructor. apply IH.
Qed.

Lemma all_outs_each S l : forall os, all_outs S l = Ok os <-> Forall2 (fun n o => OutputField S n = Ok o) l os.
Proof.
  induction l as [|n l IH]; intros os; cbn.
  - split; [intros H; injection H as <-; constructor|intros H; inversion H; reflexivity].
  - split.
    + intros H. destruct (OutputField S n) as [o| |] eqn:E; try discriminate. cbn in H.
      destruct (all_outs S l) as [os'| |] eqn:L; try discriminate. cbn in H. injection H as <-. constructor; [exact E|]. now apply IH.
    + intros H. inversion H as [|a o b os' H1 H2]; subst. rewrite H1. cbn. apply IH in H2. rewrite H2. reflexivity.
Qed.

Lemma exists_in n l : existsb (String.eqb n) l = true <-> In n l.
Proof.
  rewrite existsb_exists. split; [intros (x & I & E); apply String.eqb_eq in E; now subst|].
  intros I. exists n. split; [exact I|apply String.eqb_refl].
Qed.
Lemma define_ok l : forall have r, NoDup have -> (define have l = Ok r <-> r = (have ++ l)%list /\ NoDup (have ++ l)).
Proof.
  induction l as [|n l IH]; intros have r N; cbn.
  - rewrite app_nil_r. split; [intros H; injection H as <-; tauto|intros [-> _]; reflexivity].
  - destruct (existsb (String.eqb n) have) eqn:E.
    + apply exists_in in E. split; [discriminate|]. intros [_ H]. exfalso. apply NoDup_remove_2 in H. apply H, in_or_app. now left.
    + assert (E' : ~ In n have) by (rewrite <- exists_in; congruence).
      rewrite IH.
      * rewrite <- app_assoc. reflexivity.
      * apply (Permutation_NoDup (Permutation_cons_append have n)). now constructor.
Qed.

Lemma defined_all S l os : Forall2 (fun n o => OutputField S n = Ok o) l os ->
  flat_map defined os = map called (flat_map asks os) /\ Forall okw (flat_map asks os).
Proof.
  induction 1 as [|n o l os H _ [IH1 IH2]]; [split; constructor|]. cbn [flat_map]. rewrite map_app, IH1, (named S n o H).
  split; [reflexivity|]. apply Forall_app. split; [now apply (asks_ok S n)|exact IH2].
Qed.
Lemma nodup_called l : Forall okw l -> (NoDup (map called l) <-> NoDup l).
Proof.
  intros F. split; [apply NoDup_map_inv|]. induction l as [|w l IH]; intros N; [constructor|]. cbn [map].
  apply Forall_cons_iff in F. destruct F as [Fw F]. apply NoDup_cons_iff in N. destruct N as [Nw N]. constructor; [|now apply IH].
  intros I. apply in_map_iff in I. destruct I as (w' & E & I). rewrite Forall_forall in F.
  apply called_inj in E; [subst w'; tauto|now apply F|exact Fw].
Qed.

Theorem init_ok S q c os names : InitWriter S q c = Ok (os, names) <->
  Forall2 (fun n o => OutputField S n = Ok o) (merge q c) os /\ NoDup (flat_map asks os) /\ names = map called (flat_map asks os).
Proof.
  unfold InitWriter. split.
  - intros H. destruct (all_outs S (merge q c)) as [os'| |] eqn:A; try discriminate. cbn [rbind] in H.
    destruct (define [] (flat_map defined os')) as [ns| |] eqn:D; try discriminate. cbn [rbind] in H. injection H as -> ->.
    apply all_outs_each in A. apply define_ok in D; [|constructor]. destruct D as [-> D]. cbn [app] in *.
    destruct (defined_all _ _ _ A) as [E F]. rewrite E in *. split; [exact A|]. split; [|reflexivity]. now apply nodup_called.
  - intros (A & N & ->). destruct (defined_all _ _ _ A) as [E F]. apply all_outs_each in A. rewrite A. cbn [rbind].
    assert (D : define [] (flat_map defined os) = Ok (map called (flat_map asks os))).
    { apply define_ok; [constructor|]. cbn [app]. rewrite E. split; [reflexivity|]. now apply nodup_called. }
    rewrite D. reflexivity.
Qed.

(** A rejected list is one with a name that is not accepted, or with two requests for one thing. *)
Lemma all_outs_exists S l : (forall n, In n l -> exists o, OutputField S n = Ok o) -> exists os, all_outs S l = Ok os.
Proof.
  induction l as [|n l IH]; intros H; [now exists []|]. destruct (H n ltac:(now left)) as [o E]. destruct IH as [os L].
  - intros m I. apply H. now right.
  - exists (o :: os). cbn. now rewrite E, L.
Qed.

(** Written. *)
Lemma Tname S name o a b r : OutputField S name = Ok o -> o_id o = T_ -> o_name o = "T" ++ String a (String b r) ->
  name_all o = "f" ++ "T" ++ String a (String b "") ++ species_text (o_species o).
Proof.
  intros H HT E. destruct (accepted S name o H) as (_ & _ & _ & Hs & _). unfold name_all. rewrite HT, E, (suffix_is _ Hs).
  cbn [append substring]. rewrite substring0. reflexivity.
Qed.
Lemma comps_single a b c : In a index_chars -> In b index_chars -> InterpretComponents (String a "") (String b "") = Ok [c] ->
  In a digit_chars -> In b digit_chars -> digits_text c = String a (String b "").
Proof.
  intros Ia Ib H Da Db. cbn in Da, Db. repeat (destruct Da as [<-|Da]); try tauto; repeat (destruct Db as [<-|Db]); try tauto;
    vm_compute in H; injection H as <-; reflexivity.
Qed.
Lemma written_same S name o : OutputField S name = Ok o -> ~ one_by_letters o -> written o = defined o.
Proof.
  intros H N. assert (D := named S name o H). destruct (accepted S name o H) as (Hn & _ & _ & Hs & _ & HC & HK).
  unfold written, defined in *. destruct (o_comp o) as [|c [|c' cs]] eqn:C; [reflexivity| |reflexivity].
  cbn [map]. f_equal. unfold asks in D. rewrite C in D.
  destruct (o_id o) eqn:I; try (rewrite (HC eq_refl) in *; discriminate); unfold components in HK; cbn in HK; try discriminate HK; try (destruct S; discriminate HK).
  - injection HK as <-. unfold name_all, name_at. now rewrite I.
  - destruct (T_form S name o H I) as (a & b & r & E & _ & Ia & Ib & K). rewrite C in K. rewrite <- Hn in E.
    rewrite (Tname S name o a b r H I E). apply (f_equal (hd "")) in D. cbn [map called hd] in D. rewrite D. unfold dataset. cbn [title].
    assert (Q : In a digit_chars /\ In b digit_chars).
    { destruct (in_dec ascii_dec a digit_chars) as [Da|Da]; [destruct (in_dec ascii_dec b digit_chars) as [Db|Db]; [now split|]|];
        exfalso; apply N; (split; [exact I|]; split; [now rewrite C|]; exists a, b, r; split; [exact E|]; tauto). }
    destruct Q as [Da Db]. now rewrite (comps_single a b c Ia Ib K Da Db).
Qed.

Lemma letters_unknown S name o w : OutputField S name = Ok o -> one_by_letters o -> okw w -> name_all o <> called w.
Proof.
  intros H (HT & _ & a & b & r & E & ND) Hw Q. rewrite (Tname S name o a b r H HT E) in Q.
  destruct (accepted S name o H) as (Hn & _ & _ & Hs & _).
  destruct (T_form S name o H HT) as (a' & b' & r' & E' & _ & Ia & Ib & _). rewrite <- Hn, E in E'. cbn in E'. injection E' as <- <- <-.
  assert (NB : forall x, In x index_chars -> is_bar x = false).
  { intros x Hx. cbn in Hx. repeat (destruct Hx as [<-|Hx]); try reflexivity; tauto. }
  assert (FB : free is_bar (String a (String b ""))) by (repeat constructor; now apply NB).
  assert (R : field_id ("T" ++ String a (String b "") ++ species_text (o_species o)) = T_).
  { apply read_id; [now apply (title_spells T_)|]. right. split; [intros [X|X]; discriminate|]. split; [|split].
    - intros x Hx Hb. apply bar_in in Hb. unfold free in FB. rewrite Forall_forall in FB. apply FB in Hx. congruence.
    - now exists a, (String b "").
    - intros [X _]. discriminate. }
  destruct w as [n|f c sp]; cbn [okw called] in *.
  - apply app_inv_s in Q. subst n. congruence.
  - assert (F := dataset_id f c sp _ Hw Q). rewrite R in F. subst f. destruct Hw as (_ & _ & H3 & _). unfold dataset in Q. cbn [title] in Q.
    do 2 apply app_inv_s in Q. apply (f_equal (before is_bar)) in Q. rewrite !before_free in Q by (exact FB || now apply digits_free).
    rewrite !before_species, !app_nil_s in Q. apply ND.
    destruct c as [|m [|n [|k c]]]; cbn [digits_text] in Q; try discriminate.
    all: repeat match goal with H : Forall _ (_ :: _) |- _ => apply Forall_cons_iff in H; let X := fresh in destruct H as [X H] end.
    + destruct (digits_head [m]) as [X|(x & t & X & D)]; [repeat constructor; lia|discriminate|]. destruct (small_digit m) as (y & Y & _); [lia|].
      rewrite Y in Q. discriminate.
    + destruct (digits_head [m]) as [X|(x & t & X & D)]; [repeat constructor; lia|discriminate|].
      destruct (digits_head [n]) as [X'|(x' & t' & X' & D')]; [repeat constructor; lia|discriminate|]. cbn [digits_text] in X, X'.
      destruct (small_digit m) as (y & Y & _); [lia|]. destruct (small_digit n) as (z & Z & _); [lia|].
      rewrite Y in X, Q. rewrite Z in X', Q. cbn in X, X', Q. injection X as <- _. injection X' as <- _. injection Q as -> ->. now split.
    + destruct (small_digit m) as (y & Y & _); [lia|]. destruct (small_digit n) as (z & Z & _); [lia|]. destruct (small_digit k) as (u & U & _); [lia|].
      rewrite Y, Z, U in Q. discriminate.
Qed.

Theorem written_ok S q c os names : InitWriter S q c = Ok (os, names) ->
  (Forall (fun o => ~ one_by_letters o) os -> Write os names = Ok names)
  /\ (Exists one_by_letters os -> Write os names = Err).
Proof.
  intros H. apply init_ok in H. destruct H as (F & N & ->). destruct (defined_all _ _ _ F) as [E W]. split.
  - intros L. assert (Q : flat_map written os = flat_map defined os).
    { clear N E W. revert L. induction F as [|n o l os Ho F IH]; intros L; [reflexivity|]. apply Forall_cons_iff in L. destruct L as [L1 L2].
      cbn [flat_map]. now rewrite (written_same S n o Ho L1), IH. }
    unfold Write. rewrite Q, E. replace (forallb _ _) with true; [reflexivity|]. symmetry. apply forallb_forall.
    intros x I. now apply exists_in.
  - intros X. unfold Write. replace (forallb _ _) with false; [reflexivity|]. symmetry. apply not_true_is_false. intros A.
    rewrite forallb_forall in A. apply Exists_exists in X. destruct X as (o & Io & Lo).
    assert (Ho : exists n, OutputField S n = Ok o).
    { clear - F Io. induction F as [|n o' l os Ho F IH]; [destruct Io|]. destruct Io as [<-|Io]; [now exists n|now apply IH]. }
    destruct Ho as [n Ho].
    assert (I : In (name_all o) (flat_map written os)).
    { apply in_flat_map. exists o. split; [exact Io|]. unfold written. destruct Lo as (_ & Lo & _).
      destruct (o_comp o) as [|x [|]]; try discriminate. now left. }
    apply A in I. apply exists_in in I. apply in_map_iff in I. destruct I as (w & Ew & Iw). rewrite Forall_forall in W.
    exact (letters_unknown S n o w Ho Lo (W w Iw) (eq_sym Ew)).
Qed.

(** A name that is not custom begins with a quantity. *)
Lemma before_split p s : exists r, s = before p s ++ r /\ free p (before p s) /\ (r = "" \/ exists x t, r = String x t /\ p x = true).
Proof.
  induction s as [|c s (r & E & F & H)]; cbn; [exists ""; repeat split; [constructor|now left]|].
  destruct (p c) eqn:P.
  - exists (String c s). split; [reflexivity|]. split; [constructor|]. right. now exists c, s.
  - exists r. split; [cbn; now rewrite <- E|]. split; [now constructor|exact H].
Qed.
Theorem only_quantities S name o : OutputField S name = Ok o -> o_id o <> Custom_ ->
  exists base s r, name = base ++ s ++ r /\ spells (o_id o) base /\ without ["_"]%char s
    /\ (s = "" \/ exists c t, s = String c t /\ In c index_chars) /\ (r = "" \/ exists t, r = String "_" t).
Proof.
  intros H N. destruct (accepted S name o H) as (_ & E & _). rewrite E in *. clear H E. unfold field_id in *.
  destruct (before_split is_bar name) as (r & Er & Fr & Hr). set (raw := before is_bar name) in *.
  assert (Hr' : r = "" \/ exists t, r = String "_" t).
  { destruct Hr as [->|(x & t & -> & P)]; [now left|]. right. exists t. apply bar_in in P. destruct P as [<-|[]]. reflexivity. }
  assert (W : forall s, free is_bar s -> without ["_"]%char s).
  { intros s F c Hc Hb. apply bar_in in Hb. unfold free in F. rewrite Forall_forall in F. apply F in Hc. congruence. }
  destruct (String.eqb (toLower raw) "dive" || String.eqb (toLower raw) "divd")%bool eqn:D.
  - exists raw, "", r. split; [exact Er|].
    assert (Q : exists f, is_div f /\ toLower raw = lookup f).
    { apply orb_true_iff in D. destruct D as [D|D]; apply String.eqb_eq in D; [exists divE_|exists divD_]; split; try exact D; unfold is_div; tauto. }
    destruct Q as (f & Df & Q). rewrite Q, pick_lookup in *. split; [|split; [intros c []|split; [now left|exact Hr']]].
    split; [exact N|]. split; [exact Q|tauto].
  - destruct (before_split is_index raw) as (s & Es & Fs & Hs). set (base := before is_index raw) in *.
    destruct (pick (toLower base)) as [f|] eqn:P; [|tauto]. apply pick_inv in P.
    exists base, s, r. split; [rewrite <- app_assoc_s, <- Es; exact Er|]. split; [|split; [|split; [|exact Hr']]].
    + split; [exact N|]. split; [exact P|]. intros _ c Hc Hi. apply index_in in Hi. unfold free in Fs. rewrite Forall_forall in Fs. apply Fs in Hc. congruence.
    + apply W. unfold free in *. rewrite Es, chars_app in Fr. apply Forall_app in Fr. apply Fr.
    + destruct Hs as [->|(x & t & -> & X)]; [now left|]. right. exists x, t. split; [reflexivity|]. now apply index_in.
Qed.
Theorem custom_apart S name o f c sp : OutputField S name = Ok o -> o_id o = Custom_ -> good f c sp -> "f" ++ name <> dataset f c sp.
Proof.
  intros H E G Q. destruct (accepted S name o H) as (_ & I & _). apply (dataset_id f c sp name G) in Q. destruct G as [G _]. congruence.
Qed.
