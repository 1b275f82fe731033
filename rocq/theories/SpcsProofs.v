(** Proofs for the species of the input file. *)
From Coq Require Import ZArith QArith Qround Qabs List Bool String Ascii Lia.
From Verif Require Import Base SpcsModel SpcsSpec.
Import ListNotations.
Open Scope string_scope.

Lemma pieces_cons a s : pieces (String a s) = (let (h, t) := pieces s in if Ascii.eqb a "," then ("", h :: t) else (String a h, t)).
Proof. reflexivity. Qed.

Lemma pieces_app x s : no_comma x = true ->
  pieces (x ++ String "," s) = (x, let (h, t) := pieces s in h :: t).
Proof.
  induction x as [|a x IH]; cbn [no_comma]; intros H.
  - change ("" ++ String "," s) with (String "," s). rewrite pieces_cons. destruct (pieces s). reflexivity.
  - apply andb_true_iff in H. destruct H as [Ha Hx].
    change (String a x ++ String "," s) with (String a (x ++ String "," s)).
    rewrite pieces_cons, IH by exact Hx. apply negb_true_iff in Ha. rewrite Ha. reflexivity.
Qed.

Lemma pieces_plain x : no_comma x = true -> pieces x = (x, []).
Proof.
  induction x as [|a x IH]; cbn [no_comma]; intros H; [reflexivity|].
  apply andb_true_iff in H. destruct H as [Ha Hx]. rewrite pieces_cons, IH by exact Hx.
  apply negb_true_iff in Ha. rewrite Ha. reflexivity.
Qed.

Lemma pieces_concat x l : no_comma x = true -> Forall (fun y => no_comma y = true) l ->
  pieces (String.concat "," (x :: l)) = (x, l).
Proof.
  revert x. induction l as [|y l IH]; intros x Hx Hl.
  - apply pieces_plain, Hx.
  - apply Forall_cons_iff in Hl. destruct Hl as [Hy Hl].
    change (String.concat "," (x :: y :: l)) with (x ++ "," ++ String.concat "," (y :: l)).
    change ("," ++ String.concat "," (y :: l)) with (String "," (String.concat "," (y :: l))).
    rewrite pieces_app by exact Hx. rewrite IH by assumption. reflexivity.
Qed.

Lemma drop_last_id l : last l "x" <> "" -> drop_empty_last l = l.
Proof.
  induction l as [|x [|y l] IH]; intros H; [reflexivity| |].
  - cbn in *. destruct x; [congruence|reflexivity].
  - change (drop_empty_last (x :: y :: l)) with (x :: drop_empty_last (y :: l)). rewrite IH; [reflexivity|exact H].
Qed.

Lemma tokens_concat l : l <> [] -> Forall (fun y => no_comma y = true) l -> last l "x" <> "" ->
  tokens (String.concat "," l) = l.
Proof.
  destruct l as [|x l]; intros Hn Hl HL; [congruence|]. apply Forall_cons_iff in Hl. destruct Hl as [Hx Hl].
  unfold tokens. rewrite pieces_concat by assumption. apply drop_last_id, HL.
Qed.

Lemma lower_app a b : toLower (a ++ b) = toLower a ++ toLower b.
Proof. induction a as [|c a IH]; [reflexivity|]. cbn. now rewrite IH. Qed.

Lemma lower_comma c : lower1 c = ","%char -> c = ","%char.
Proof.
  destruct c as [b0 b1 b2 b3 b4 b5 b6 b7].
  destruct b0, b1, b2, b3, b4, b5, b6, b7; intros H; vm_compute in H; try discriminate H; reflexivity.
Qed.
Lemma lower_of_comma : lower1 ","%char = ","%char.
Proof. reflexivity. Qed.

Lemma no_comma_lower s : no_comma (toLower s) = no_comma s.
Proof.
  induction s as [|c s IH]; [reflexivity|]. cbn [toLower no_comma]. rewrite IH. f_equal. f_equal.
  destruct (Ascii.eqb_spec c ",") as [->|N]; [reflexivity|].
  destruct (Ascii.eqb_spec (lower1 c) ",") as [E|]; [|reflexivity]. apply lower_comma in E. congruence.
Qed.

Lemma lower_concat l : toLower (String.concat "," l) = String.concat "," (map toLower l).
Proof.
  induction l as [|x [|y l] IH]; [reflexivity|reflexivity|].
  change (String.concat "," (x :: y :: l)) with (x ++ "," ++ String.concat "," (y :: l)).
  rewrite !lower_app, IH. reflexivity.
Qed.

Lemma word_clean V x : Forall (fun v => no_comma v = true /\ v <> "") V -> word V x -> no_comma x = true /\ x <> "".
Proof.
  intros HV Hw. rewrite Forall_forall in HV. destruct (HV _ Hw) as [H1 H2]. rewrite no_comma_lower in H1.
  split; [exact H1|]. intros ->. now apply H2.
Qed.

Lemma pusher_clean : Forall (fun v => no_comma v = true /\ v <> "") pusher_words.
Proof. repeat constructor; discriminate. Qed.
Lemma drag_clean : Forall (fun v => no_comma v = true /\ v <> "") drag_words.
Proof. repeat constructor; discriminate. Qed.

Lemma last_in {A} (l : list A) d : l <> [] -> In (last l d) l.
Proof.
  induction l as [|x [|y l] IH]; intros H; [congruence|now left|]. right. apply IH. discriminate.
Qed.

Lemma tokens_words V l : Forall (fun v => no_comma v = true /\ v <> "") V -> l <> [] -> Forall (word V) l ->
  tokens (String.concat "," l) = l.
Proof.
  intros HV Hn Hl. apply tokens_concat; [exact Hn| |].
  - eapply Forall_impl; [|exact Hl]. intros x Hx. now apply (word_clean V).
  - rewrite Forall_forall in Hl. apply (word_clean V); [exact HV|]. apply Hl, last_in, Hn.
Qed.

(** "none" is no word of the lists, alone or not. *)
Lemma concat_none V l : Forall (fun v => no_comma v = true /\ v <> "") V -> ~ In "none" V -> l <> [] -> Forall (word V) l ->
  String.eqb (toLower (String.concat "," l)) "none" = false.
Proof.
  intros HV HN Hn Hl. apply String.eqb_neq. intros E.
  assert (T : tokens (String.concat "," (map toLower l)) = map toLower l).
  { apply (tokens_words V); [exact HV|destruct l; [congruence|discriminate]|].
    rewrite Forall_map. eapply Forall_impl; [|exact Hl]. intros x Hx. unfold word in *.
    rewrite Forall_forall in HV.
    assert (Hid : forall s, toLower (toLower s) = toLower s).
    { intros s. induction s as [|c s IHs]; [reflexivity|]. cbn [toLower]. rewrite IHs. f_equal.
      destruct c as [b0 b1 b2 b3 b4 b5 b6 b7].
      destruct b0, b1, b2, b3, b4, b5, b6, b7; reflexivity. }
    now rewrite Hid. }
  rewrite <- lower_concat, E in T. change (tokens "none") with ["none"] in T.
  destruct l as [|x [|y l]]; try discriminate T. injection T as T.
  apply Forall_cons_iff in Hl. destruct Hl as [Hx _]. apply HN. rewrite T. exact Hx.
Qed.

Definition orp (f : pusher_flags) (l : list string) : pusher_flags :=
  PF (f_photon f || names "photon" l) (f_boris f || names "boris" l) (f_vay f || names "vay" l) (f_gca f || names "gca" l).

Lemma names_cons n x l : names n (x :: l) = String.eqb (toLower x) n || names n l.
Proof. reflexivity. Qed.

Lemma pusher_fold l f : Forall (word pusher_words) l ->
  fold_left (fun acc token =>
    rbind acc (fun f =>
      let t := toLower token in
      if String.eqb t "photon" then Ok (PF true (f_boris f) (f_vay f) (f_gca f))
      else if String.eqb t "boris" then Ok (PF (f_photon f) true (f_vay f) (f_gca f))
      else if String.eqb t "vay" then Ok (PF (f_photon f) (f_boris f) true (f_gca f))
      else if String.eqb t "gca" then Ok (PF (f_photon f) (f_boris f) (f_vay f) true)
      else Err)) l (Ok f) = Ok (orp f l).
Proof.
  revert f. induction l as [|x l IH]; intros f Hl.
  - destruct f; unfold orp; cbn; now rewrite !orb_false_r.
  - apply Forall_cons_iff in Hl. destruct Hl as [Hx Hl]. cbn [fold_left rbind].
    unfold word, pusher_words in Hx. cbn [In] in Hx.
    destruct Hx as [E|[E|[E|[E|[]]]]]; rewrite <- E; cbn [String.eqb Ascii.eqb Bool.eqb]; rewrite IH by exact Hl;
      unfold orp; rewrite !names_cons, <- E; destruct f as [[] [] [] []]; reflexivity.
Qed.

Lemma pusher_names l : l <> [] -> Forall (word pusher_words) l ->
  getPusherFlags (String.concat "," l) =
  if names "photon" l && names "gca" l then Err
  else Ok (PF (names "photon" l) (names "boris" l) (names "vay" l) (names "gca" l)).
Proof.
  intros Hn Hl. unfold getPusherFlags.
  rewrite (concat_none pusher_words) by (try exact pusher_clean; try assumption; cbn; intuition discriminate).
  rewrite (tokens_words pusher_words) by (try exact pusher_clean; assumption).
  rewrite pusher_fold by exact Hl. reflexivity.
Qed.

Lemma drag_fold l f : Forall (word drag_words) l ->
  fold_left (fun acc token =>
    rbind acc (fun f =>
      let t := toLower token in
      if String.eqb t "synchrotron" then Ok (DF true (f_compton f))
      else if String.eqb t "compton" then Ok (DF (f_synch f) true)
      else Err)) l (Ok f) = Ok (DF (f_synch f || names "synchrotron" l) (f_compton f || names "compton" l)).
Proof.
  revert f. induction l as [|x l IH]; intros f Hl.
  - destruct f; cbn; now rewrite !orb_false_r.
  - apply Forall_cons_iff in Hl. destruct Hl as [Hx Hl]. cbn [fold_left rbind].
    unfold word, drag_words in Hx. cbn [In] in Hx.
    destruct Hx as [E|[E|[]]]; rewrite <- E; cbn [String.eqb Ascii.eqb Bool.eqb]; rewrite IH by exact Hl;
      rewrite !names_cons, <- E; destruct f as [[] []]; reflexivity.
Qed.

Lemma drag_names l : l <> [] -> Forall (word drag_words) l ->
  getRadiativeDragFlags (String.concat "," l) = Ok (DF (names "synchrotron" l) (names "compton" l)).
Proof.
  intros Hn Hl. unfold getRadiativeDragFlags.
  rewrite (concat_none drag_words) by (try exact drag_clean; try assumption; cbn; intuition discriminate).
  rewrite (tokens_words drag_words) by (try exact drag_clean; assumption).
  rewrite drag_fold by exact Hl. reflexivity.
Qed.

(** Anything else is refused. *)
Lemma fold_err {A B} (F : A -> B -> res A) l :
  fold_left (fun acc x => rbind acc (fun a => F a x)) l Err = Err.
Proof. induction l as [|x l IH]; [reflexivity|exact IH]. Qed.

Lemma pusher_bad l f : ~ Forall (word pusher_words) l ->
  fold_left (fun acc token =>
    rbind acc (fun f =>
      let t := toLower token in
      if String.eqb t "photon" then Ok (PF true (f_boris f) (f_vay f) (f_gca f))
      else if String.eqb t "boris" then Ok (PF (f_photon f) true (f_vay f) (f_gca f))
      else if String.eqb t "vay" then Ok (PF (f_photon f) (f_boris f) true (f_gca f))
      else if String.eqb t "gca" then Ok (PF (f_photon f) (f_boris f) (f_vay f) true)
      else Err)) l (Ok f) = Err.
Proof.
  revert f. induction l as [|x l IH]; intros f Hl; [exfalso; apply Hl; constructor|].
  cbn [fold_left rbind].
  assert (D : In (toLower x) ["photon"; "boris"; "vay"; "gca"] -> ~ Forall (word pusher_words) l)
    by (intros Hx Hf; apply Hl; now constructor).
  cbn [In] in D. cbv zeta.
  destruct (String.eqb_spec (toLower x) "photon") as [E|N1]; [apply IH, D; auto|].
  destruct (String.eqb_spec (toLower x) "boris") as [E|N2]; [apply IH, D; auto|].
  destruct (String.eqb_spec (toLower x) "vay") as [E|N3]; [apply IH, D; auto|].
  destruct (String.eqb_spec (toLower x) "gca") as [E|N4]; [apply IH, D; auto 6|].
  apply (fold_err (fun f token => let t := toLower token in
      if String.eqb t "photon" then Ok (PF true (f_boris f) (f_vay f) (f_gca f))
      else if String.eqb t "boris" then Ok (PF (f_photon f) true (f_vay f) (f_gca f))
      else if String.eqb t "vay" then Ok (PF (f_photon f) (f_boris f) true (f_gca f))
      else if String.eqb t "gca" then Ok (PF (f_photon f) (f_boris f) (f_vay f) true)
      else Err)).
Qed.

Lemma pusher_refused l : l <> [] -> Forall (fun y => no_comma y = true) l -> last l "x" <> "" ->
  ~ Forall (word pusher_words) l -> toLower (String.concat "," l) <> "none" ->
  getPusherFlags (String.concat "," l) = Err.
Proof.
  intros Hn Hc HL Hb HN. unfold getPusherFlags. apply String.eqb_neq in HN. rewrite HN.
  rewrite tokens_concat by assumption. rewrite pusher_bad by exact Hb. reflexivity.
Qed.

Lemma npart_ok q : (0 <= q < inject_Z (2 ^ 32))%Q -> to_npart q = Ok (Qfloor q).
Proof.
  intros [H1 H2]. unfold to_npart. destruct q as [n d]. unfold Qle, Qlt in *. cbn [Qnum Qden inject_Z] in *.
  assert (Hn : (0 <= n)%Z) by lia. rewrite Z.quot_div_nonneg by lia. unfold Qfloor.
  assert (0 <= n / Z.pos d)%Z by (apply Z.div_pos; lia).
  assert (n / Z.pos d < 2 ^ 32)%Z by (apply Z.div_lt_upper_bound; lia).
  destruct (Z.leb_spec 0 (n / Z.pos d)), (Z.ltb_spec (n / Z.pos d) (2 ^ 32)); try lia. reflexivity.
Qed.

Lemma is0_iff q : is0 q = true <-> (q == 0)%Q.
Proof. apply Qeq_bool_iff. Qed.
Lemma is0_not q : is0 q = false <-> ~ (q == 0)%Q.
Proof. rewrite <- is0_iff. destruct (is0 q); intuition congruence. Qed.
