(** Proofs for the names of output quantities: datasets. *)
From Coq Require Import ZArith List Bool String Ascii DecimalString Lia Permutation.
From Verif Require Import Base SpcsModel NmModel NmSpec NmProofs.
Import ListNotations.
Open Scope string_scope.

Lemma concat_cons x l : concat "" (x :: l) = x ++ concat "" l.
Proof. destruct l; cbn; [now rewrite app_nil_s|reflexivity]. Qed.
Lemma suffix_is sp : Forall (fun n => 0 <= n <= 255)%Z sp -> species_suffix sp = species_text sp.
Proof.
  unfold species_suffix. induction sp as [|n sp IH]; intros H; [reflexivity|]. apply Forall_cons_iff in H. destruct H as [Hn H].
  cbn [map]. rewrite concat_cons, IH by exact H. destruct (byte n Hn) as (_ & -> & _). cbn. now rewrite ?app_assoc_s.
Qed.
Lemma digits_is c : Forall (fun n => 0 <= n <= 3)%Z c -> concat "" (map to_string c) = digits_text c.
Proof.
  induction c as [|n c IH]; intros H; [reflexivity|]. apply Forall_cons_iff in H. destruct H as [Hn H].
  cbn [map]. rewrite concat_cons, IH by exact H. destruct (small_digit n Hn) as (x & _ & _ & E). now rewrite <- E.
Qed.
Lemma digits_head c : Forall (fun n => 0 <= n <= 3)%Z c -> c = [] \/ exists x r, digits_text c = String x r /\ In x digit_chars.
Proof.
  intros H. destruct c as [|n c]; [now left|right]. apply Forall_cons_iff in H. destruct H as [Hn _].
  assert (C : (n = 0 \/ n = 1 \/ n = 2 \/ n = 3)%Z) by lia.
  destruct C as [E|[E|[E|E]]]; subst n; do 2 eexists; (split; [reflexivity|cbn; tauto]).
Qed.
Lemma head_of_tail c sp : Forall (fun n => 0 <= n <= 3)%Z c ->
  digits_text c ++ species_text sp = "" \/ exists x r, digits_text c ++ species_text sp = String x r /\ In x ("_"%char :: digit_chars).
Proof.
  intros H. destruct (digits_head c H) as [->|(x & r & E & I)].
  - destruct sp as [|n sp]; [now left|right]. do 2 eexists. split; [reflexivity|]. now left.
  - right. exists x, (r ++ species_text sp). rewrite E. split; [reflexivity|now right].
Qed.

Lemma capitals_is f c sp : good f c sp -> capitals (lookup f ++ digits_text c ++ species_text sp) = title f ++ digits_text c ++ species_text sp.
Proof.
  intros (Hc & Hd & H3 & Hs & Hn).
  destruct (is_div_dec f) as [D|D].
  - rewrite (Hd D). rewrite Hn by (destruct D; subst f; reflexivity). destruct D; subst f; reflexivity.
  - unfold capitals. destruct (head_of_tail c sp H3) as [E|(x & r & E & I)]; rewrite E.
    + destruct f; try tauto; try reflexivity; exfalso; apply D; unfold is_div; tauto.
    + cbn in I. destruct f; try tauto; try (exfalso; apply D; unfold is_div; tauto);
        (repeat (destruct I as [<-|I]); try tauto; reflexivity).
Qed.

(** Reading back. *)
Definition digitb (c : ascii) : bool := existsb (Ascii.eqb c) digit_chars.
Lemma title_free f : free digitb (title f) /\ free is_bar (title f).
Proof. destruct f; split; repeat constructor. Qed.
Lemma title_inj f g : f <> Custom_ -> g <> Custom_ -> title f = title g -> f = g.
Proof. destruct f, g; try tauto; discriminate. Qed.
Lemma digits_free c : Forall (fun n => 0 <= n <= 3)%Z c -> free is_bar (digits_text c).
Proof.
  induction c as [|n c IH]; intros H; [constructor|]. apply Forall_cons_iff in H. destruct H as [Hn H]. cbn [digits_text].
  apply free_app; [|now apply IH]. apply (byte n). lia.
Qed.
Lemma digits_inj c : forall c', Forall (fun n => 0 <= n <= 3)%Z c -> Forall (fun n => 0 <= n <= 3)%Z c' ->
  digits_text c = digits_text c' -> c = c'.
Proof.
  induction c as [|n c IH]; intros [|m c'] H H' E; [reflexivity| | |].
  - apply Forall_cons_iff in H'. destruct H' as [Hm _]. destruct (small_digit m Hm) as (x & X & _). cbn in E. rewrite X in E. discriminate.
  - apply Forall_cons_iff in H. destruct H as [Hm _]. destruct (small_digit n Hm) as (x & X & _). cbn in E. rewrite X in E. discriminate.
  - apply Forall_cons_iff in H, H'. destruct H as [Hn H], H' as [Hm H']. cbn [digits_text] in E.
    destruct (small_digit n Hn) as (x & X & _), (small_digit m Hm) as (y & Y & _).
    rewrite X, Y in E. cbn in E. injection E as E1 E2. subst y. f_equal; [|now apply IH].
    destruct (byte n) as (Sn & _); [lia|]. destruct (byte m) as (Sm & _); [lia|]. rewrite X in Sn. rewrite Y in Sm. congruence.
Qed.
Lemma species_inj sp sp' : Forall (fun n => 0 <= n <= 255)%Z sp -> Forall (fun n => 0 <= n <= 255)%Z sp' ->
  species_text sp = species_text sp' -> sp = sp'.
Proof.
  intros H H' E. assert (A := interpret_species "" sp). assert (B := interpret_species "" sp').
  cbn [append] in A, B. rewrite E in A. rewrite A in B by (constructor || assumption).
  specialize (B ltac:(constructor) H'). congruence.
Qed.
Lemma app_inv_s a b c : a ++ b = a ++ c -> b = c.
Proof. induction a as [|x a IH]; cbn; [tauto|]. intros E. injection E as E. now apply IH. Qed.

Theorem dataset_inj f c sp f' c' sp' : good f c sp -> good f' c' sp' -> dataset f c sp = dataset f' c' sp' ->
  f = f' /\ c = c' /\ sp = sp'.
Proof.
  intros (H1 & _ & H3 & H4 & _) (H1' & _ & H3' & H4' & _) E. unfold dataset in E. apply app_inv_s in E.
  assert (B : title f ++ digits_text c = title f' ++ digits_text c').
  { apply (f_equal (before is_bar)) in E. rewrite !before_free in E by (apply title_free || now apply digits_free).
    now rewrite !before_species, !app_nil_s in E. }
  assert (T : title f = title f').
  { apply (f_equal (before digitb)) in B. rewrite !before_free in B by apply title_free.
    assert (D : forall l, Forall (fun n => 0 <= n <= 3)%Z l -> before digitb (digits_text l) = "").
    { intros l Hl. destruct (digits_head l Hl) as [->|(x & r & X & I)]; [reflexivity|]. rewrite X. cbn [before].
      assert (F : digitb x = true) by (unfold digitb; apply existsb_exists; exists x; split; [exact I|apply Ascii.eqb_refl]).
      now rewrite F. }
    now rewrite !D, !app_nil_s in B by assumption. }
  apply title_inj in T; [subst f'|assumption|assumption]. apply app_inv_s in B. apply digits_inj in B; [subst c'|assumption|assumption].
  apply app_inv_s, app_inv_s in E. apply species_inj in E; [subst sp'|assumption|assumption]. tauto.
Qed.

(** A name that reads as a dataset is not a custom one. *)
Lemma title_spells f : f <> Custom_ -> spells f (title f).
Proof.
  intros H. split; [exact H|]. split; [destruct f; tauto || reflexivity|]. intros D c I.
  destruct f; try tauto; try (exfalso; apply D; unfold is_div; tauto); cbn in I; repeat (destruct I as [<-|I]); try tauto;
    cbn; intuition discriminate.
Qed.
Lemma digit_index x : In x digit_chars -> In x index_chars.
Proof. cbn. tauto. Qed.
Lemma lower_digit_head x r : In x digit_chars -> ~ In (toLower (String x r)) ["ive"; "ivd"].
Proof. intros I J. cbn in I. repeat (destruct I as [<-|I]); try tauto; cbn in J; destruct J as [J|[J|[]]]; discriminate. Qed.
Lemma digits_indices f c : Forall (fun n => 0 <= n <= 3)%Z c -> (is_div f -> c = []) -> indices f (digits_text c).
Proof.
  intros H Hd. destruct (digits_head c H) as [->|(x & r & E & I)]; [now left|]. right. split; [|split; [|split]].
  - intros D. rewrite (Hd D) in E. discriminate.
  - intros y Hy Hb. apply bar_in in Hb. pose proof (digits_free c H) as F. unfold free in F. rewrite Forall_forall in F.
    apply F in Hy. congruence.
  - exists x, r. split; [exact E|now apply digit_index].
  - rewrite E. intros [_ J]. now apply lower_digit_head in J.
Qed.
Lemma dataset_id f c sp name : good f c sp -> "f" ++ name = dataset f c sp -> field_id name = f.
Proof.
  intros (H1 & H2 & H3 & H4 & _) E. unfold dataset in E. apply app_inv_s in E. subst name.
  apply read_id; [now apply title_spells|now apply digits_indices].
Qed.

(** What an accepted request holds. *)
Lemma species_bytes l : forall sp, species_of l = Ok sp -> Forall (fun n => 0 <= n <= 255)%Z sp.
Proof.
  induction l as [|s l IH]; cbn; intros sp E; [injection E as <-; constructor|].
  destruct (stoi s) as [v| |]; try discriminate. cbn in E. destruct (species_of l) as [vs| |]; try discriminate. cbn in E. injection E as <-.
  constructor; [|now apply IH]. pose proof (Z.mod_pos_bound v 256 eq_refl). lia.
Qed.
Lemma comp_int_char s v : comp_int s = Ok v -> exists x, s = String x "" /\ In x index_chars.
Proof.
  unfold comp_int. intros H.
  repeat match type of H with
         | context [String.eqb s ?t] => destruct (String.eqb_spec s t) as [->|_]; [eexists; split; [reflexivity|cbn; tauto]|]
         end. discriminate.
Qed.
Lemma before_nonidx p s x r : before p s = String x r -> exists t, s = String x t /\ before p t = r /\ p x = false.
Proof. destruct s as [|y s]; cbn; [discriminate|]. destruct (p y) eqn:E; [discriminate|]. intros H. injection H as -> H. now exists s. Qed.
Lemma pick_inv s f : pick s = Some f -> s = lookup f.
Proof. unfold pick. intros H. apply find_some in H. destruct H as [_ H]. now apply String.eqb_eq in H. Qed.
Lemma lower1_t c : lower1 c = "t"%char -> c = "t"%char \/ c = "T"%char.
Proof. destruct c as [[] [] [] [] [] [] [] []]; vm_compute; intros H; try discriminate H; tauto. Qed.

Lemma field_T name : field_id name = T_ -> exists r, name = String "T" r.
Proof.
  unfold field_id. set (raw := before is_bar name).
  destruct (String.eqb (toLower raw) "dive" || String.eqb (toLower raw) "divd")%bool eqn:E.
  - apply orb_true_iff in E. destruct E as [E|E]; apply String.eqb_eq in E; rewrite E; discriminate.
  - destruct (pick (toLower (before is_index raw))) as [f|] eqn:P; [|discriminate]. intros ->. apply pick_inv in P. cbn in P.
    destruct (before is_index raw) as [|x t] eqn:B; [discriminate|]. cbn in P. injection P as P1 P2.
    apply before_nonidx in B. destruct B as (u & U & _ & Hx). unfold raw in U. apply before_nonidx in U. destruct U as (v & -> & _ & _).
    apply lower1_t in P1. destruct P1 as [->| ->]; [discriminate|]. now exists v.
Qed.

Lemma substr1 s n x : substr s n 1 = Ok (String x "") -> exists p r, String.length p = n /\ s = p ++ String x r.
Proof.
  unfold substr. destruct (Nat.leb n (String.length s)); [|discriminate]. intros H. injection H as H. revert s H.
  induction n as [|n IH]; intros [|y s] H; cbn in H; try discriminate.
  - rewrite substring0 in H. injection H as ->. now exists "", s.
  - destruct (IH s H) as (p & r & Hp & ->). exists (String y p), r. cbn. now rewrite Hp.
Qed.

Lemma T_form S name o : OutputField S name = Ok o -> o_id o = T_ ->
  exists a b r, name = "T" ++ String a (String b r) /\ o_name o = name /\ In a index_chars /\ In b index_chars
    /\ InterpretComponents (String a "") (String b "") = Ok (o_comp o).
Proof.
  unfold OutputField. intros H HT.
  destruct (fid_eqb (field_id name) A_ && match S with GRPIC => false | SRPIC => true end)%bool; [discriminate|]. cbn [guard] in H.
  destruct (if is_moment (field_id name) then InterpretSpecies name else Ok []) as [sp| |]; try discriminate. cbn [rbind] in H.
  destruct (components S (field_id name) name) as [cs| |] eqn:C; try discriminate. cbn [rbind] in H. injection H as <-. cbn [o_id o_name o_comp] in *.
  rewrite HT in C. unfold components in C. change (is_field T_ || fid_eqb T_ J_)%bool with false in C. cbv iota in C.
  destruct (field_T name HT) as (u & ->).
  destruct (substr (String "T" u) 1 1) as [a| |] eqn:A; try discriminate. cbn [rbind] in C.
  destruct (substr (String "T" u) 2 1) as [b| |] eqn:B; try discriminate. cbn [rbind] in C.
  destruct (comp_int a) as [va| |] eqn:Ca; try (unfold InterpretComponents in C; rewrite Ca in C; discriminate).
  destruct (comp_int b) as [vb| |] eqn:Cb; try (unfold InterpretComponents in C; rewrite Ca, Cb in C; discriminate).
  apply comp_int_char in Ca, Cb. destruct Ca as (x & -> & Ix), Cb as (y & -> & Iy).
  apply substr1 in A, B. destruct A as (p & r & Hp & E), B as (q & r' & Hq & E').
  destruct p as [|p0 [|]]; try discriminate. destruct q as [|q0 [|q1 [|]]]; try discriminate. cbn in E, E'. injection E as <- ->. injection E' as <- <- ->.
  exists x, y, r'. split; [reflexivity|]. split; [reflexivity|]. split; [assumption|]. split; [assumption|]. exact C.
Qed.

Definition comps_ok (f : fid) (cs : list (list Z)) : Prop :=
  NoDup cs /\ Forall (Forall (fun n => 0 <= n <= 3)%Z) cs /\ (is_div f -> cs = []).
Lemma accepted S name o : OutputField S name = Ok o ->
  o_name o = name /\ o_id o = field_id name /\ comps_ok (o_id o) (o_comp o)
  /\ Forall (fun n => 0 <= n <= 255)%Z (o_species o) /\ (of_species (o_id o) = false -> o_species o = [])
  /\ (o_id o = Custom_ -> o_comp o = []) /\ components S (o_id o) name = Ok (o_comp o).
Proof.
  intros H. assert (HT := T_form S name o H). unfold OutputField in H.
  destruct (fid_eqb (field_id name) A_ && match S with GRPIC => false | SRPIC => true end)%bool; [discriminate|]. cbn [guard] in H.
  destruct (if is_moment (field_id name) then InterpretSpecies name else Ok []) as [sp| |] eqn:ES; try discriminate. cbn [rbind] in H.
  destruct (components S (field_id name) name) as [cs| |] eqn:C; try discriminate. cbn [rbind] in H. injection H as <-. cbn [o_id o_name o_comp o_species] in *.
  split; [reflexivity|]. split; [reflexivity|]. split; [|split; [|split; [|split]]].
  - destruct (fid_eqb (field_id name) T_) eqn:E.
    + apply fid_eqb_eq in E. destruct (HT E) as (a & b & r & _ & _ & Ia & Ib & K).
      destruct (comps_spec a b Ia Ib) as (cs' & K' & N & _ & F). rewrite K' in K. injection K as <-.
      split; [exact N|]. split; [exact F|]. rewrite E. intros [D|D]; discriminate.
    + unfold components in C. destruct (field_id name); cbn in C; try discriminate E; try injection C as <-; try destruct S;
        (split; [repeat (constructor; [cbn; intuition congruence|]); constructor|]; split; [repeat constructor; lia|intros [D|D]; try discriminate; reflexivity]).
  - destruct (is_moment (field_id name)); [|injection ES as <-; constructor]. unfold InterpretSpecies in ES.
    destruct (after is_bar name); [now apply species_bytes in ES|injection ES as <-; constructor].
  - rewrite moment_is in ES. intros E. rewrite E in ES. now injection ES as <-.
  - intros E. rewrite E in C. cbn in C. now injection C as <-.
  - exact C.
Qed.

Definition okw (w : what) : Prop :=
  match w with Field n => field_id n = Custom_ | Part f c sp => good f c sp end.
Lemma asks_ok S name o : OutputField S name = Ok o -> Forall okw (asks o).
Proof.
  intros H. destruct (accepted S name o H) as (Hn & Hi & (_ & H3 & Hd) & Hs & H0 & _ & _).
  assert (G : forall c, In c (o_comp o) \/ c = [] -> o_id o <> Custom_ -> good (o_id o) c (o_species o)).
  { intros c Hc HC. split; [exact HC|]. split; [|split; [|split; assumption]].
    - intros D. rewrite (Hd D) in Hc. destruct Hc as [[]|Hc]. exact Hc.
    - destruct Hc as [Hc| ->]; [|constructor]. rewrite Forall_forall in H3. now apply H3. }
  unfold asks. destruct (fid_eqb (o_id o) Custom_) eqn:E.
  - apply fid_eqb_eq in E. rewrite E. constructor; [|constructor]. cbn. congruence.
  - assert (N : o_id o <> Custom_) by (intros K; apply fid_eqb_eq in K; congruence).
    destruct (o_comp o) as [|c0 cs] eqn:C.
    + destruct (o_id o); try tauto; (constructor; [|constructor]; apply G; [now right|exact N]).
    + destruct (o_id o); try tauto; (apply Forall_forall; intros w Hw; apply in_map_iff in Hw; destruct Hw as (c & <- & Hc); apply G; [now left|exact N]).
Qed.

Theorem named S name o : OutputField S name = Ok o -> defined o = map called (asks o).
Proof.
  intros H. assert (A := asks_ok S name o H). destruct (accepted S name o H) as (Hn & Hi & (_ & H3 & Hd) & Hs & H0 & HC & HK).
  unfold defined, asks in *.
  destruct (o_comp o) as [|c0 cs] eqn:C.
  - unfold name_all. destruct (o_id o) eqn:I; try reflexivity;
      try (exfalso; destruct (T_form S name o H I) as (a & b & r & _ & _ & Ia & Ib & K);
           destruct (comps_spec a b Ia Ib) as (cs' & K' & _);
           clear - Ia Ib K C; rewrite C in K; cbn in Ia, Ib; repeat (destruct Ia as [<-|Ia]); try tauto; repeat (destruct Ib as [<-|Ib]); try tauto; vm_compute in K; discriminate K).
    all: cbn [map called]; f_equal; unfold dataset; f_equal.
    all: try (apply Forall_inv in A; cbn [okw] in A; rewrite suffix_is by exact Hs; rewrite <- (capitals_is _ [] (o_species o)) by exact A; reflexivity).
    all: exfalso; unfold components in HK; cbn in HK; try destruct S; discriminate HK.
  - assert (N : o_id o <> Custom_) by (intros K; specialize (HC K); discriminate).
    assert (E : map (name_at o) (c0 :: cs) = map called (map (fun c => Part (o_id o) c (o_species o)) (c0 :: cs))).
    { rewrite map_map. apply map_ext_in. intros c Hc. unfold name_at, called, dataset. f_equal.
      rewrite Forall_forall in H3. rewrite digits_is by now apply H3. rewrite suffix_is by exact Hs. apply capitals_is.
      rewrite Forall_forall in A. apply (A (Part (o_id o) c (o_species o))). destruct (o_id o); try tauto; now apply (in_map (fun c => Part _ c (o_species o))). }
    rewrite E. destruct (o_id o); tauto || reflexivity.
Qed.

Lemma called_inj w w' : okw w -> okw w' -> called w = called w' -> w = w'.
Proof.
  destruct w as [n|f c sp], w' as [n'|f' c' sp']; intros H H' E; cbn in H, H'.
  - cbn [called] in E. apply app_inv_s in E. now subst.
  - exfalso. apply (dataset_id f' c' sp' n H') in E. destruct H' as [H' _]. congruence.
  - exfalso. symmetry in E. apply (dataset_id f c sp n' H) in E. destruct H as [H _]. congruence.
  - destruct (dataset_inj _ _ _ _ _ _ H H' E) as (-> & -> & ->). reflexivity.
Qed.
