(** Proofs for the names of output quantities: reading. *)
From Coq Require Import ZArith List Bool String Ascii DecimalString Lia Permutation.
From Verif Require Import Base SpcsModel NmModel NmSpec.
Import ListNotations.
Open Scope string_scope.

Lemma app_assoc_s (a b c : string) : (a ++ b) ++ c = a ++ (b ++ c).
Proof. induction a as [|x a IH]; cbn; [reflexivity|now rewrite IH]. Qed.
Lemma app_nil_s (a : string) : a ++ "" = a.
Proof. induction a as [|x a IH]; cbn; [reflexivity|now rewrite IH]. Qed.
Lemma lower_app a b : toLower (a ++ b) = toLower a ++ toLower b.
Proof. induction a as [|x a IH]; cbn; [reflexivity|now rewrite IH]. Qed.
Lemma chars_app a b : list_ascii_of_string (a ++ b) = (list_ascii_of_string a ++ list_ascii_of_string b)%list.
Proof. induction a as [|x a IH]; cbn; [reflexivity|now rewrite IH]. Qed.

(** Predicates on characters. *)
Definition free (p : ascii -> bool) (s : string) : Prop := Forall (fun c => p c = false) (list_ascii_of_string s).
Lemma bar_in c : is_bar c = true <-> In c ["_"]%char.
Proof. unfold is_bar. rewrite Ascii.eqb_eq. cbn. intuition. Qed.
Lemma index_in c : is_index c = true <-> In c index_chars.
Proof.
  unfold is_index, index_chars. rewrite existsb_exists. split.
  - intros (x & Hx & E). apply Ascii.eqb_eq in E. now subst.
  - intros H. exists c. split; [exact H|apply Ascii.eqb_refl].
Qed.
Lemma free_bar s : without ["_"]%char s -> free is_bar s.
Proof. intros H. apply Forall_forall. intros c Hc. apply H in Hc. rewrite <- bar_in in Hc. now apply not_true_is_false. Qed.
Lemma free_index s : without index_chars s -> free is_index s.
Proof. intros H. apply Forall_forall. intros c Hc. apply H in Hc. rewrite <- index_in in Hc. now apply not_true_is_false. Qed.
Lemma free_app p a b : free p a -> free p b -> free p (a ++ b).
Proof. intros A B. unfold free. rewrite chars_app. apply Forall_app. split; assumption. Qed.
Lemma before_free p a b : free p a -> before p (a ++ b) = a ++ before p b.
Proof.
  unfold free. induction a as [|c a IH]; cbn; [reflexivity|]. intros H. apply Forall_cons_iff in H. destruct H as [H1 H2].
  now rewrite H1, IH.
Qed.
Lemma before_all p a : free p a -> before p a = a.
Proof. intros H. rewrite <- (app_nil_s a) at 1. rewrite before_free by exact H. cbn. apply app_nil_s. Qed.
Lemma after_free p a b : free p a -> after p (a ++ b) = after p b.
Proof.
  unfold free. induction a as [|c a IH]; cbn; [reflexivity|]. intros H. apply Forall_cons_iff in H. destruct H as [H1 H2].
  now rewrite H1, IH.
Qed.
Lemma split_free a b : free is_bar a -> split (a ++ b) = (a ++ fst (split b), snd (split b)).
Proof.
  unfold free. induction a as [|c a IH]; cbn; [intros _; now destruct (split b)|]. intros H. apply Forall_cons_iff in H.
  destruct H as [H1 H2]. rewrite IH by exact H2. now rewrite H1.
Qed.

(** Numbers of one byte. *)
Definition byte_ok (n : nat) : bool :=
  let z := Z.of_nat n in
  (match stoi (decimal z) with Ok v => (v =? z)%Z | _ => false end)
  && String.eqb (to_string z) (decimal z) && negb (String.eqb (decimal z) "")
  && forallb (fun c => negb (is_bar c)) (list_ascii_of_string (decimal z)).
Lemma bytes_ok : forallb byte_ok (seq 0 256) = true.
Proof. vm_compute. reflexivity. Qed.
Lemma byte n : (0 <= n <= 255)%Z ->
  stoi (decimal n) = Ok n /\ to_string n = decimal n /\ decimal n <> "" /\ free is_bar (decimal n).
Proof.
  intros H. pose proof bytes_ok as B. rewrite forallb_forall in B. specialize (B (Z.to_nat n)).
  assert (I : In (Z.to_nat n) (seq 0 256)) by (apply in_seq; lia). specialize (B I). unfold byte_ok in B. cbv zeta in B.
  rewrite Z2Nat.id in B by lia. apply andb_true_iff in B. destruct B as [B B4]. apply andb_true_iff in B. destruct B as [B B3].
  apply andb_true_iff in B. destruct B as [B1 B2]. split; [|split; [|split]].
  - destruct (stoi (decimal n)); try discriminate. apply Z.eqb_eq in B1. now subst.
  - now apply String.eqb_eq.
  - apply negb_true_iff in B3. now apply String.eqb_neq in B3.
  - unfold free. rewrite forallb_forall in B4. apply Forall_forall. intros c Hc. apply B4 in Hc. now apply negb_true_iff.
Qed.
Lemma small_digit n : (0 <= n <= 3)%Z -> exists c, decimal n = String c "" /\ In c index_chars /\ decimal n = to_string n.
Proof.
  intros H. assert (C : (n = 0 \/ n = 1 \/ n = 2 \/ n = 3)%Z) by lia.
  destruct C as [E|[E|[E|E]]]; subst n; eexists; (split; [reflexivity|]; split; [cbn; tauto|reflexivity]).
Qed.

Lemma species_free_after sp : Forall (fun n => 0 <= n <= 255)%Z sp ->
  match sp with
  | [] => after is_bar (species_text sp) = None
  | n :: r => after is_bar (species_text sp) = Some (decimal n ++ species_text r)
  end.
Proof. destruct sp; reflexivity. Qed.
Lemma before_species sp : before is_bar (species_text sp) = "".
Proof. destruct sp; reflexivity. Qed.

Lemma split_species sp : Forall (fun n => 0 <= n <= 255)%Z sp -> forall n, (0 <= n <= 255)%Z ->
  split (decimal n ++ species_text sp) = (decimal n, map decimal sp).
Proof.
  induction sp as [|m sp IH]; intros Hs n Hn.
  - rewrite split_free by apply (byte n Hn). cbn. now rewrite app_nil_s.
  - apply Forall_cons_iff in Hs. destruct Hs as [Hm Hs]. rewrite split_free by apply (byte n Hn).
    change (species_text (m :: sp)) with (String "_" (decimal m ++ species_text sp)). cbn [split].
    rewrite (IH Hs m Hm). cbn. now rewrite app_nil_s.
Qed.
Lemma keep_all l : Forall (fun s => s <> "") l -> drop_empty_last l = l.
Proof.
  induction l as [|x l IH]; intros H; [reflexivity|]. apply Forall_cons_iff in H. destruct H as [Hx H].
  destruct l as [|y l]; [destruct x; [tauto|reflexivity]|]. change (x :: drop_empty_last (y :: l) = x :: y :: l). now rewrite IH.
Qed.
Lemma read_species_back sp : Forall (fun n => 0 <= n <= 255)%Z sp -> species_of (map decimal sp) = Ok sp.
Proof.
  induction sp as [|n sp IH]; intros H; [reflexivity|]. apply Forall_cons_iff in H. destruct H as [Hn H]. cbn [map species_of].
  destruct (byte n Hn) as (-> & _). cbn [rbind]. rewrite IH by exact H. cbn [rbind]. now rewrite Z.mod_small by lia.
Qed.
Lemma interpret_species a sp : free is_bar a -> Forall (fun n => 0 <= n <= 255)%Z sp ->
  InterpretSpecies (a ++ species_text sp) = Ok sp.
Proof.
  intros Ha Hs. unfold InterpretSpecies. rewrite after_free by exact Ha. destruct sp as [|n sp]; [reflexivity|].
  apply Forall_cons_iff in Hs. destruct Hs as [Hn Hs].
  change (after is_bar (species_text (n :: sp))) with (Some (decimal n ++ species_text sp)). unfold splitString.
  rewrite (split_species sp Hs n Hn). rewrite keep_all.
  - change (species_of (map decimal (n :: sp)) = Ok (n :: sp)). apply read_species_back. now constructor.
  - apply Forall_forall. intros s Hi. apply in_map_iff in Hi. destruct Hi as (m & <- & Hm). rewrite Forall_forall in Hs.
    apply Hs in Hm. apply (byte m Hm).
Qed.

Lemma pick_lookup f : pick (lookup f) = Some f.
Proof. destruct f; reflexivity. Qed.
Lemma fid_eqb_eq a b : fid_eqb a b = true <-> a = b.
Proof. split; [destruct a, b; vm_compute; congruence|intros ->; destruct b; reflexivity]. Qed.
Lemma moment_is f : is_moment f = of_species f.
Proof. destruct f; reflexivity. Qed.

(** A spelling has no bar in it. *)
Lemma lower_free_bar s : free is_bar (toLower s) -> free is_bar s.
Proof.
  unfold free. induction s as [|c s IH]; cbn; [constructor|]. intros H. apply Forall_cons_iff in H. destruct H as [H1 H2].
  constructor; [|now apply IH]. unfold is_bar in *. apply Ascii.eqb_neq in H1. apply Ascii.eqb_neq. intros ->. now apply H1.
Qed.
Lemma lookup_free f : free is_bar (lookup f).
Proof. destruct f; repeat constructor. Qed.
Lemma spells_free f base : spells f base -> free is_bar base.
Proof. intros (_ & E & _). apply lower_free_bar. rewrite E. apply lookup_free. Qed.

Lemma is_div_dec f : {is_div f} + {~ is_div f}.
Proof. destruct f; (left; unfold is_div; tauto) || (right; unfold is_div; intros [H|H]; discriminate). Qed.

(** The raw name is a divergence only if the quantity is one. *)
Lemma div_lookup f : (String.eqb (lookup f) "dive" || String.eqb (lookup f) "divd")%bool = true <-> is_div f.
Proof. unfold is_div. destruct f; vm_compute; intuition congruence. Qed.


(** No name of another quantity followed by an index spells a divergence. *)
Lemma not_div f s : ~ is_div f -> f <> Custom_ -> ~ (f = D_ /\ In (toLower s) ["ive"; "ivd"]) ->
  (String.eqb (lookup f ++ toLower s) "dive" || String.eqb (lookup f ++ toLower s) "divd")%bool = false.
Proof.
  intros Hd Hc Hn. apply not_true_is_false. intros H. apply orb_true_iff in H.
  assert (F : f = D_).
  { destruct f; try reflexivity; exfalso; try tauto; try (apply Hd; unfold is_div; tauto);
      destruct H as [H|H]; apply String.eqb_eq in H; discriminate H. }
  apply Hn. split; [exact F|]. subst f. destruct H as [H|H]; apply String.eqb_eq in H; injection H as H; rewrite H; cbn; tauto.
Qed.

Lemma read_id f base s sp : spells f base -> indices f s -> field_id (base ++ s ++ species_text sp) = f.
Proof.
  intros Hb Hs. pose proof (spells_free f base Hb) as Fb. destruct Hb as (Hc & E & Hi). unfold field_id.
  destruct Hs as [->|(Hd & Hbar & (c & r & -> & Hci) & Hn)].
  - change ("" ++ species_text sp) with (species_text sp). rewrite before_free by exact Fb. rewrite before_species, app_nil_s, E.
    destruct (is_div_dec f) as [D|D].
    + apply div_lookup in D. rewrite D, E, pick_lookup. reflexivity.
    + destruct (String.eqb (lookup f) "dive" || String.eqb (lookup f) "divd")%bool; [now rewrite E, pick_lookup|].
      rewrite before_all by (apply free_index, Hi, D). now rewrite E, pick_lookup.
  - set (s := String c r) in *.
    rewrite before_free by exact Fb. rewrite before_free by (apply free_bar, Hbar). rewrite before_species, app_nil_s.
    rewrite lower_app, E. rewrite not_div by assumption. rewrite before_free by (apply free_index, Hi, Hd).
    unfold s. cbn [before]. apply index_in in Hci. rewrite Hci. rewrite app_nil_s, E, pick_lookup. reflexivity.
Qed.

Lemma indices_free f s : indices f s -> free is_bar s.
Proof. intros [->|(_ & H & _)]; [constructor|now apply free_bar]. Qed.

Theorem recognised S f base s sp : spells f base -> indices f s -> Forall a_species sp -> f <> T_ -> (f = A_ -> S = GRPIC) ->
  OutputField S (base ++ s ++ species_text sp)
  = Ok (Out (base ++ s ++ species_text sp) f (standard_comps S f) (if of_species f then sp else [])).
Proof.
  intros Hb Hs Hsp HT HA. unfold OutputField. rewrite (read_id f base s sp Hb Hs). rewrite moment_is.
  assert (G : (fid_eqb f A_ && match S with GRPIC => false | SRPIC => true end)%bool = false).
  { destruct (fid_eqb f A_) eqn:E; [|reflexivity]. apply fid_eqb_eq in E. now rewrite (HA E). }
  rewrite G. cbn [guard].
  assert (HS : InterpretSpecies (base ++ s ++ species_text sp) = Ok sp).
  { rewrite <- app_assoc_s. apply interpret_species.
    - apply free_app; [now apply (spells_free f)|now apply (indices_free f)].
    - eapply Forall_impl; [|exact Hsp]. unfold a_species. intros n. lia. }
  rewrite HS. destruct Hb as (Hc & _). destruct f, S; try tauto; reflexivity.
Qed.

Lemma substring0 (s : string) : substring 0 0 s = "".
Proof. destruct s; reflexivity. Qed.

(** T *)
Lemma comps_spec a b : In a index_chars -> In b index_chars ->
  exists cs, InterpretComponents (String a "") (String b "") = Ok cs /\ NoDup cs
    /\ (forall c, In c cs <-> exists m n, c = [m; n] /\ tensor_index a b m n)
    /\ Forall (Forall (fun n => 0 <= n <= 3)%Z) cs.
Proof.
  intros Ha Hb. cbn in Ha, Hb.
  repeat (destruct Ha as [<-|Ha]); try tauto; repeat (destruct Hb as [<-|Hb]); try tauto; eexists;
    (split; [vm_compute; reflexivity|]; split;
     [repeat (constructor; [cbn; intuition congruence|]); constructor|]; split; [|repeat constructor; lia]);
    intros c; unfold tensor_index, running; cbn [index_of]; (split;
      [intros H; cbn in H; repeat (destruct H as [<-|H]); try tauto; do 2 eexists; (split; [reflexivity|]); cbn;
       repeat split; try tauto; intuition (congruence || lia)
      |intros (m & n & -> & Hm & Hn & Hr); cbn in Hm, Hn;
       repeat (destruct Hm as [<-|Hm]); try tauto; repeat (destruct Hn as [<-|Hn]); try tauto; cbn; try tauto;
       exfalso; assert (Hr' := Hr ltac:(tauto) ltac:(tauto)); destruct Hr' as [H1 H2];
       try (specialize (H1 eq_refl); lia); try (assert (H2' := H2 ltac:(congruence)); lia)]).
Qed.

Theorem recognised_T S a b r sp : In a index_chars -> In b index_chars -> without ["_"]%char r -> Forall a_species sp ->
  exists cs, OutputField S ("T" ++ String a (String b r) ++ species_text sp)
             = Ok (Out ("T" ++ String a (String b r) ++ species_text sp) T_ cs sp) /\ NoDup cs
    /\ forall c, In c cs <-> exists m n, c = [m; n] /\ tensor_index a b m n.
Proof.
  intros Ha Hb Hr Hsp. destruct (comps_spec a b Ha Hb) as (cs & E & Hnd & Hin & _). exists cs. split; [|split; assumption].
  assert (Sp : spells T_ "T").
  { split; [discriminate|]. split; [reflexivity|]. intros _ c Hc. cbn in Hc. destruct Hc as [<-|[]]. cbn. intuition discriminate. }
  assert (NB : forall x, In x index_chars -> ~ In x ["_"]%char) by (intros x Hx; cbn in *; intuition; subst; discriminate).
  assert (Hw : without ["_"]%char (String a (String b r))).
  { intros c Hc. cbn in Hc. destruct Hc as [<-|[<-|Hc]]; [now apply NB|now apply NB|now apply Hr]. }
  assert (Ix : indices T_ (String a (String b r))).
  { right. split; [unfold is_div; intros [H|H]; discriminate|]. split; [exact Hw|]. split; [now exists a, (String b r)|]. intros [H _]. discriminate. }
  unfold OutputField. rewrite (read_id T_ "T" _ sp Sp Ix).
  change (guard (fid_eqb T_ A_ && match S with SRPIC => true | GRPIC => false end)) with (@guard out false). cbn [guard].
  change (is_moment T_) with true. cbv iota.
  rewrite <- app_assoc_s at 1. rewrite interpret_species.
  - cbn [rbind]. unfold components. change (is_field T_ || fid_eqb T_ J_)%bool with false. cbv iota.
    cbn [append]. unfold substr. cbn [String.length Nat.leb substring rbind].
    rewrite substring0. rewrite E. reflexivity.
  - apply (free_app is_bar "T"); [repeat constructor|]. now apply free_bar.
  - eapply Forall_impl; [|exact Hsp]. unfold a_species. intros n. lia.
Qed.
