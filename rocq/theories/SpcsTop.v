(** Proofs for the species of the input file: what is accepted, and what then runs. *)
From Coq Require Import ZArith QArith Qround Qabs List Bool String Ascii Lia.
From Verif Require Import Base SpcsModel SpcsSpec SpcsProofs.
Import ListNotations.
Open Scope string_scope.

Lemma guard_ok {A} b (k : res A) r : guard b k = Ok r -> b = false /\ k = Ok r.
Proof. destruct b; cbn; [discriminate|auto]. Qed.
Lemma rbind_ok {A B} (m : res A) (k : A -> res B) r : rbind m k = Ok r -> exists a, m = Ok a /\ k a = Ok r.
Proof. destruct m; cbn; try discriminate. eauto. Qed.

Lemma pushers_gca s f : getPusherFlags s = Ok f -> f_gca f = true -> f_photon f = false.
Proof.
  unfold getPusherFlags. destruct (String.eqb _ _).
  - intros H. injection H as <-. discriminate.
  - intros H. apply rbind_ok in H. destruct H as (g & _ & H). destruct (f_photon g) eqn:E1, (f_gca g) eqn:E2;
    cbn in H; try discriminate H; injection H as <-; congruence.
Qed.

Lemma species_sound mpi e idx cl so t s p : GetParticleSpecies mpi e idx cl so t = Ok (s, p) ->
  sound mpi e s /\ sp_index s = idx /\ sp_mass s = t_mass t /\ sp_charge s = t_charge t
  /\ sp_clear s = or_else (t_clear t) cl /\ sp_sort s = or_else (t_sort t) so
  /\ sp_tracking s = or_else (t_tracking t) false.
Proof.
  unfold GetParticleSpecies. intros H. cbv zeta in H.
  apply guard_ok in H. destruct H as [H1 H]. apply rbind_ok in H. destruct H as (mx & Hmx & H).
  apply guard_ok in H. destruct H as [H2 H]. apply guard_ok in H. destruct H as [H3 H].
  apply rbind_ok in H. destruct H as (pf & Hpf & H). apply rbind_ok in H. destruct H as (df & Hdf & H).
  apply rbind_ok in H. destruct H as (ef & Hef & H). apply guard_ok in H. destruct H as [H4 H].
  apply guard_ok in H. destruct H as [H5 H]. apply guard_ok in H. destruct H as [H6 H].
  apply guard_ok in H. destruct H as [H7 H]. apply guard_ok in H. destruct H as [H8 H].
  injection H as <- _.
  assert (HM : (t_mass t == 0)%Q -> (t_charge t == 0)%Q /\ is0 (t_mass t) && is0 (t_charge t) = true).
  { intros Z0. apply is0_iff in Z0. rewrite Z0 in *. destruct (is0 (t_charge t)) eqn:Ec; cbn in H1; [|discriminate].
    split; [now apply is0_iff|reflexivity]. }
  split; [|repeat split; reflexivity].
  constructor; cbn [sp_mass sp_charge sp_drag sp_emission sp_pusher sp_maxnpart sp_tracking sp_npld_i].
  - intros Z0. apply HM, Z0.
  - intros Z0. destruct (HM Z0) as [_ HB]. rewrite HB in *.
    rewrite andb_true_r in H2. apply negb_false_iff in H2.
    unfold getRadiativeDragFlags in Hdf. rewrite H2 in Hdf. injection Hdf as <-.
    destruct ef; cbn in H4; try discriminate H4; now destruct (String.eqb _ "default").
  - intros Z0. destruct (HM Z0) as [_ HB]. rewrite HB in *. destruct ef; auto; discriminate H4.
  - intros HH. destruct e; [reflexivity|]. rewrite andb_true_r in H5, H6, H7.
    destruct HH as [HH|HH]; [|congruence]. exfalso. apply HH.
    match type of H5 with f_synch ?d = false => destruct d as [a b] end. cbn in H5, H6. now subst.
  - intros HG. now apply (pushers_gca _ _ Hpf).
  - unfold to_npart in Hmx. destruct (_ <=? _)%Z eqn:E1; [|discriminate Hmx].
    destruct (_ <? _)%Z eqn:E2; [|discriminate Hmx]. injection Hmx as <-.
    apply Z.leb_le in E1. apply Z.ltb_lt in E2. lia.
  - intros HT. rewrite HT in H8 |- *. cbn [andb] in H8. apply Z.ltb_ge in H8. split; [exact H8|].
    apply Z.mod_pos_bound. lia.
Qed.

Lemma read_nth mpi e cl so ts : forall idx ss ps i t, (0 <= idx)%Z -> (idx + Z.of_nat (List.length ts) <= 256)%Z ->
  read_species mpi e idx cl so ts = Ok (ss, ps) -> nth_error ts i = Some t ->
  exists s p, nth_error ss i = Some s /\ GetParticleSpecies mpi e (idx + Z.of_nat i) cl so t = Ok (s, p) /\ incl p ps.
Proof.
  induction ts as [|u ts IH]; intros idx ss ps i t H0 HL H Hn; [destruct i; discriminate Hn|].
  cbn [read_species] in H. apply rbind_ok in H. destruct H as ((s, p) & Hs & H).
  apply rbind_ok in H. destruct H as ((ss', ps') & Hr & H). injection H as <- <-.
  cbn [List.length] in HL. destruct i as [|i].
  - injection Hn as <-. exists s, p. rewrite Z.add_0_r. repeat split; [exact Hs|]. apply incl_appl, incl_refl.
  - cbn [nth_error] in Hn |- *. destruct ts as [|v ts]; [destruct i; discriminate Hn|].
    rewrite Z.mod_small in Hr by (cbn [List.length] in HL; lia).
    destruct (IH (idx + 1)%Z ss' ps' i t ltac:(lia) ltac:(lia) Hr Hn) as (s' & p' & E1 & E2 & E3).
    exists s', p'. split; [exact E1|]. split; [|now apply incl_appr].
    replace (idx + Z.of_nat (S i))%Z with (idx + 1 + Z.of_nat i)%Z by lia. exact E2.
Qed.

Lemma read_length mpi e cl so ts : forall idx ss ps,
  read_species mpi e idx cl so ts = Ok (ss, ps) -> List.length ss = List.length ts.
Proof.
  induction ts as [|u ts IH]; intros idx ss ps H; cbn [read_species] in H.
  - injection H as <- <-. reflexivity.
  - apply rbind_ok in H. destruct H as ((s, p) & Hs & H).
    apply rbind_ok in H. destruct H as ((ss', ps') & Hr & H). injection H as <- <-. cbn. f_equal. eapply IH, Hr.
Qed.

Lemma accepted mpi e cl so ts ss ps i t : (List.length ts <= 255)%nat ->
  read_species mpi e 1 cl so ts = Ok (ss, ps) -> nth_error ts i = Some t ->
  exists s, nth_error ss i = Some s /\ sound mpi e s /\ sp_index s = (Z.of_nat i + 1)%Z
    /\ sp_mass s = t_mass t /\ sp_charge s = t_charge t
    /\ sp_clear s = or_else (t_clear t) cl /\ sp_sort s = or_else (t_sort t) so
    /\ sp_tracking s = or_else (t_tracking t) false.
Proof.
  intros HL H Hn. destruct (read_nth mpi e cl so ts 1 ss ps i t ltac:(lia) ltac:(lia) H Hn) as (s & p & E1 & E2 & _).
  exists s. split; [exact E1|]. apply species_sound in E2. rewrite (Z.add_comm 1) in E2. exact E2.
Qed.

(** Promises. *)
Lemma promised_in ps k : promised ps k = true <-> In k ps.
Proof.
  unfold promised. rewrite existsb_exists. split.
  - intros (x & Hx & E). apply String.eqb_eq in E. now subst.
  - intros H. exists k. split; [exact H|]. apply String.eqb_refl.
Qed.

Definition known : list string := [k_sync; k_comp; k_gca1; k_gca2; k_esync; k_ecomp].

Lemma species_promises mpi e idx cl so t s p : GetParticleSpecies mpi e idx cl so t = Ok (s, p) ->
  p = ((if f_synch (sp_drag s) then [k_sync] else []) ++ (if f_compton (sp_drag s) then [k_comp] else [])
    ++ (if f_gca (sp_pusher s) then [k_gca1; k_gca2] else [])
    ++ match sp_emission s with ESynchrotron => [k_esync; k_sync] | ECompton => [k_ecomp; k_comp] | _ => [] end)%list.
Proof.
  unfold GetParticleSpecies. intros H. cbv zeta in H.
  apply guard_ok in H. destruct H as [_ H]. apply rbind_ok in H. destruct H as (mx & _ & H).
  apply guard_ok in H. destruct H as [_ H]. apply guard_ok in H. destruct H as [_ H].
  apply rbind_ok in H. destruct H as (pf & _ & H). apply rbind_ok in H. destruct H as (df & _ & H).
  apply rbind_ok in H. destruct H as (ef & _ & H). do 5 (apply guard_ok in H; destruct H as [_ H]).
  injection H as <- <-. reflexivity.
Qed.

Lemma read_promises mpi e cl so ts : forall idx ss ps k,
  read_species mpi e idx cl so ts = Ok (ss, ps) -> In k ps ->
  exists t s p j, In t ts /\ In s ss /\ GetParticleSpecies mpi e j cl so t = Ok (s, p) /\ In k p.
Proof.
  induction ts as [|u ts IH]; intros idx ss ps k H Hk; cbn [read_species] in H.
  - injection H as <- <-. destruct Hk.
  - apply rbind_ok in H. destruct H as ((s, p) & Hs & H).
    apply rbind_ok in H. destruct H as ((ss', ps') & Hr & H). injection H as <- <-.
    apply in_app_iff in Hk. destruct Hk as [Hk|Hk].
    + exists u, s, p, idx. repeat split; auto; now left.
    + destruct (IH _ _ _ _ Hr Hk) as (t & s' & p' & j & A & B & C & D). exists t, s', p', j.
      repeat split; auto; now right.
Qed.

Lemma read_known mpi e cl so ts idx ss ps k : read_species mpi e idx cl so ts = Ok (ss, ps) -> In k ps ->
  In k known /\ (k = k_gca2 -> In k_gca1 ps).
Proof.
  revert idx ss ps. induction ts as [|u ts IH]; intros idx ss ps H Hk; cbn [read_species] in H.
  - injection H as <- <-. destruct Hk.
  - apply rbind_ok in H. destruct H as ((s, p) & Hs & H).
    apply rbind_ok in H. destruct H as ((ss', ps') & Hr & H). injection H as <- <-.
    apply in_app_iff in Hk. destruct Hk as [Hk|Hk].
    + apply species_promises in Hs. subst p. revert Hk.
      destruct (f_synch _), (f_compton _), (f_gca _), (sp_emission s); cbn; intuition (subst; cbn; auto; try discriminate).
    + destruct (IH _ _ _ Hr Hk) as [A B]. split; [exact A|]. intros E. apply in_app_iff. right. now apply B.
Qed.

Lemma keys_cover e ps x keys : set_keys e ps x = Ok keys -> (forall k, In k ps -> In k known /\ (k = k_gca2 -> In k_gca1 ps)) ->
  forall k, In k ps -> In k keys.
Proof.
  unfold set_keys. intros H HK k Hk. apply guard_ok in H. destruct H as [_ H]. apply guard_ok in H. destruct H as [_ H].
  injection H as <-. destruct (HK k Hk) as [HN H2]. rewrite !in_app_iff. right.
  cbn [known In] in HN. destruct HN as [<-|[<-|[<-|[<-|[<-|[<-|[]]]]]]].
  - right. left. apply promised_in in Hk. rewrite Hk. now left.
  - right. right. left. apply promised_in in Hk. rewrite Hk. now left.
  - left. apply promised_in in Hk. rewrite Hk. now left.
  - left. specialize (H2 eq_refl). apply promised_in in H2. rewrite H2. right. now left.
  - right. right. right. left. apply promised_in in Hk. rewrite Hk. right. cbn. auto 10.
  - right. right. right. right. apply promised_in in Hk. rewrite Hk. right. cbn. auto 10.
Qed.

Lemma promises_kept mpi e cl so ts ss ps x keys : read_species mpi e 1 cl so ts = Ok (ss, ps) ->
  set_keys e ps x = Ok keys -> incl ps keys.
Proof.
  intros H1 H2 k Hk. apply (keys_cover e ps x); [exact H2| |exact Hk].
  intros k' Hk'. now apply (read_known mpi e cl so ts 1 ss).
Qed.

(** Meaningful descriptions. *)
Definition pf_of (d : desc) : pusher_flags :=
  match d_pushers d with
  | None => if is0 (d_mass d) then PF true false false false else PF false true false false
  | Some l => PF (names "photon" l) (names "boris" l) (names "vay" l) (names "gca" l)
  end.
Definition ef_of (d : desc) : emission_flag :=
  match d_emission d with
  | None => ENone
  | Some s => if String.eqb (toLower s) "none" then ENone else if String.eqb (toLower s) "synchrotron" then ESynchrotron
              else if String.eqb (toLower s) "compton" then ECompton else ECustom
  end.
Definition df_of (d : desc) : drag_flags :=
  match d_drags d with
  | None => match ef_of d with ESynchrotron => DF true false | ECompton => DF false true | _ => no_drag end
  | Some l => DF (names "synchrotron" l) (names "compton" l)
  end.

Lemma photon_only l : Forall (word ["photon"]) l ->
  names "boris" l = false /\ names "vay" l = false /\ names "gca" l = false /\ (l <> [] -> names "photon" l = true).
Proof.
  induction l as [|x l IH]; intros H; [repeat split; congruence|].
  apply Forall_cons_iff in H. destruct H as [Hx H]. destruct (IH H) as (A & B & C & D).
  destruct Hx as [E|[]]. rewrite !names_cons, <- E, A, B, C. repeat split.
Qed.

Lemma desc_pushers e d : meaningful e d ->
  getPusherFlags (or_else (written (d_pushers d)) (if is0 (d_mass d) then "Photon" else "Boris")) = Ok (pf_of d).
Proof.
  intros M. unfold pf_of. destruct (d_pushers d) as [[|x l]|] eqn:E; cbn [written or_else].
  - reflexivity.
  - rewrite pusher_names; [|discriminate|apply (m_words e d M _ E)].
    destruct (is0 (d_mass d)) eqn:E0.
    + apply is0_iff in E0. destruct (photon_only (x :: l)) as (_ & _ & A & _); [apply (m_photon e d M _ E), E0|].
      now rewrite A, andb_false_r.
    + apply is0_not in E0. destruct (m_conv e d M _ E E0) as [A _]; [discriminate|]. now rewrite A.
  - now destruct (is0 (d_mass d)).
Qed.

Lemma desc_emission e d : meaningful e d -> getEmissionPolicyFlag (or_else (d_emission d) "none") = Ok (ef_of d).
Proof.
  intros M. unfold ef_of. destruct (d_emission d) as [s|] eqn:E; [|reflexivity]. cbn [or_else].
  pose proof (m_emission e d M s E) as W. unfold getEmissionPolicyFlag. cbv zeta.
  unfold word, emission_words in W. cbn [In] in W. destruct W as [W|[W|[W|[W|[]]]]]; rewrite <- W; reflexivity.
Qed.

Lemma ef_spec d n : (n = "synchrotron" /\ ef_of d = ESynchrotron) \/ (n = "compton" /\ ef_of d = ECompton) -> emission_is d n.
Proof.
  unfold ef_of, emission_is. destruct (d_emission d) as [s|]; [|intuition discriminate].
  destruct (String.eqb_spec (toLower s) "none"), (String.eqb_spec (toLower s) "synchrotron"), (String.eqb_spec (toLower s) "compton");
    intros [[-> H]|[-> H]]; try discriminate H; eauto.
Qed.

Lemma concat_not (n : string) l V : Forall (fun v => no_comma v = true /\ v <> "") V -> ~ In n V -> no_comma n = true ->
  l <> [] -> Forall (word V) l -> String.eqb (toLower (String.concat "," l)) n = false.
Proof.
  intros HV HN Hc Hn Hl. apply String.eqb_neq. intros E.
  assert (P : pieces (toLower (String.concat "," l)) = (n, [])) by (rewrite E; now apply pieces_plain).
  rewrite lower_concat in P. destruct l as [|x l]; [congruence|]. cbn [map] in P.
  apply Forall_cons_iff in Hl. destruct Hl as [Hx Hl].
  rewrite pieces_concat in P.
  - injection P as P _. apply HN. rewrite <- P. exact Hx.
  - rewrite no_comma_lower. now apply (word_clean V).
  - rewrite Forall_map. eapply Forall_impl; [|exact Hl]. intros y Hy. cbn. rewrite no_comma_lower. now apply (word_clean V).
Qed.

Lemma concat_photon l : l <> [] -> Forall (word pusher_words) l -> names "photon" l = false ->
  String.eqb (toLower (String.concat "," l)) "photon" = false.
Proof.
  intros Hn Hl HP.
  apply (concat_not "photon" l ["boris"; "vay"; "gca"]); try (repeat constructor; discriminate); try assumption; try reflexivity.
  - cbn. intuition discriminate.
  - rewrite Forall_forall in *. intros x Hx. specialize (Hl x Hx). unfold word, pusher_words in *. cbn [In] in *.
    destruct Hl as [E|Hl]; [|exact Hl]. exfalso.
    assert (names "photon" l = true); [|congruence]. unfold names. apply existsb_exists. exists x. split; [exact Hx|].
    rewrite <- E. reflexivity.
Qed.

Definition nint_of (mpi : bool) (d : desc) : Z :=
  (or_else (d_nint d) 0 + (if or_else (d_tracking d) false then if mpi then 2 else 1 else 0))%Z.

Definition species_of (mpi : bool) (idx cl so : Z) (d : desc) : species :=
  Spc idx (d_mass d) (d_charge d) (Qfloor (d_max d)) (or_else (d_clear d) cl) (or_else (d_sort d) so) (pf_of d)
    (or_else (d_tracking d) false) (df_of d) (ef_of d) ((or_else (d_nreal d) 0) mod 2 ^ 16) (nint_of mpi d).
Definition promises_of (d : desc) : list string :=
  ((if f_synch (df_of d) then [k_sync] else []) ++ (if f_compton (df_of d) then [k_comp] else [])
    ++ (if f_gca (pf_of d) then [k_gca1; k_gca2] else [])
    ++ match ef_of d with ESynchrotron => [k_esync; k_sync] | ECompton => [k_ecomp; k_comp] | _ => [] end)%list.

Lemma desc_species mpi e idx cl so d : meaningful e d ->
  GetParticleSpecies mpi e idx cl so (write d) = Ok (species_of mpi idx cl so d, promises_of d).
Proof.
  intros M. unfold GetParticleSpecies, write.
  cbn [t_mass t_charge t_maxnpart t_clear t_sort t_pusher t_nreal t_tracking t_nint t_drag t_emission]. cbv zeta.
  assert (HM : is0 (d_mass d) && is0 (d_charge d) = is0 (d_mass d)).
  { destruct (is0 (d_mass d)) eqn:E; [|reflexivity]. cbn. apply is0_iff. apply (m_charge e d M). now apply is0_iff. }
  assert (H1 : negb (is0 (d_charge d)) && is0 (d_mass d) = false).
  { destruct (is0 (d_mass d)); [|apply andb_false_r]. cbn in HM. now rewrite HM. }
  rewrite H1, HM. cbn [guard]. rewrite npart_ok by apply (m_max e d M). cbn [rbind].
  rewrite (desc_pushers e d M), (desc_emission e d M). cbn [rbind].
  (* drag string *)
  set (ds := if String.eqb (toLower (or_else (written (d_drags d)) "default")) "default" then "none" else _).
  assert (HD : exists df0 b, String.eqb (toLower (or_else (written (d_drags d)) "default")) "default" = b
            /\ getRadiativeDragFlags ds = Ok df0 /\ (is0 (d_mass d) = true -> String.eqb (toLower ds) "none" = true)
            /\ (if b then match ef_of d with ESynchrotron => DF true (f_compton df0) | ECompton => DF (f_synch df0) true | _ => df0 end else df0) = df_of d).
  { unfold ds, df_of. destruct (d_drags d) as [[|x l]|] eqn:E; cbn [written or_else].
    - exists no_drag, false. repeat split.
    - destruct (m_drags e d M _ E) as [W0 W1].
      assert (ND : String.eqb (toLower (String.concat "," (x :: l))) "default" = false).
      { apply (concat_not "default" _ drag_words); [apply drag_clean|cbn; intuition discriminate|reflexivity|discriminate|exact W0]. }
      rewrite ND. eexists _, false. split; [reflexivity|]. split; [apply drag_names; [discriminate|exact W0]|].
      split; [|reflexivity]. intros Z0. apply is0_iff in Z0. specialize (W1 Z0). discriminate W1.
    - exists no_drag, true. repeat split. }
  destruct HD as (df0 & b & Hb & Hdf & Hno & HDF). rewrite Hb.
  assert (HP : String.eqb (toLower (or_else (written (d_pushers d)) (if is0 (d_mass d) then "Photon" else "Boris"))) "photon" && negb (is0 (d_mass d)) = false).
  { destruct (is0 (d_mass d)) eqn:E0; [apply andb_false_r|]. rewrite andb_true_r. apply is0_not in E0.
    destruct (d_pushers d) as [[|x l]|] eqn:E; cbn [written or_else]; [reflexivity| |reflexivity].
    apply concat_photon; [discriminate|apply (m_words e d M _ E)|]. apply (m_conv e d M _ E E0). discriminate. }
  rewrite HP. cbn [guard].
  replace (negb (String.eqb (toLower ds) "none") && is0 (d_mass d)) with false
    by (destruct (is0 (d_mass d)); [now rewrite (Hno eq_refl)|now rewrite andb_false_r]). cbn [guard].
  rewrite Hdf. cbn [rbind].
  assert (HE : match ef_of d with ESynchrotron | ECompton => is0 (d_mass d) | _ => false end = false).
  { destruct (ef_of d) eqn:E; try reflexivity; apply is0_not, (m_emits e d M).
    - left. apply ef_spec. auto.
    - right. apply ef_spec. auto. }
  rewrite HE. cbn [guard]. rewrite HDF.
  assert (HG : e = GRPIC -> f_synch (df_of d) = false /\ f_compton (df_of d) = false /\ f_gca (pf_of d) = false).
  { intros ->. destruct (m_gr _ d M eq_refl) as (G1 & G2 & G3 & G4). split; [|split].
    - unfold df_of. destruct (d_drags d) as [l|] eqn:E; [now rewrite (G2 l eq_refl)|].
      destruct (ef_of d) eqn:E1; try reflexivity. exfalso. apply G3, ef_spec. auto.
    - unfold df_of. destruct (d_drags d) as [l|] eqn:E; [now rewrite (G2 l eq_refl)|].
      destruct (ef_of d) eqn:E1; try reflexivity. exfalso. apply G4, ef_spec. auto.
    - unfold pf_of. destruct (d_pushers d) as [l|] eqn:E; [|now destruct (is0 _)]. cbn [f_gca].
      destruct (is0 (d_mass d)) eqn:E0.
      + apply is0_iff in E0. apply photon_only, (m_photon _ d M _ E), E0.
      + apply is0_not in E0. destruct l as [|x l]; [reflexivity|]. apply (G1 _ eq_refl E0). discriminate. }
  replace (f_synch (df_of d) && match e with SRPIC => false | GRPIC => true end) with false
    by (destruct e; [now rewrite andb_false_r|destruct (HG eq_refl) as (-> & _); reflexivity]).
  replace (f_compton (df_of d) && match e with SRPIC => false | GRPIC => true end) with false
    by (destruct e; [now rewrite andb_false_r|destruct (HG eq_refl) as (_ & -> & _); reflexivity]).
  replace (f_gca (pf_of d) && match e with SRPIC => false | GRPIC => true end) with false
    by (destruct e; [now rewrite andb_false_r|destruct (HG eq_refl) as (_ & _ & ->); reflexivity]).
  cbn [guard].
  assert (HI : (0 <= or_else (d_nint d) 0 < 2 ^ 16 - 2)%Z)
    by (destruct (d_nint d) as [n|] eqn:E; [apply (m_int e d M), E|cbn; lia]).
  rewrite (Z.mod_small (or_else (d_nint d) 0)) by lia.
  rewrite (Z.mod_small (or_else (d_nint d) 0 + _)) by (destruct mpi; lia).
  replace (or_else (d_tracking d) false && _) with false.
  - cbn [guard]. unfold species_of, promises_of, nint_of. f_equal. f_equal. f_equal.
    destruct (or_else (d_tracking d) false); lia.
  - symmetry. destruct (or_else (d_tracking d) false); [|reflexivity]. apply Z.ltb_ge. destruct mpi; lia.
Qed.

Lemma desc_read mpi e cl so ds : Forall (meaningful e) ds -> forall idx,
  exists ss, read_species mpi e idx cl so (map write ds) = Ok (ss, flat_map promises_of ds)
    /\ List.length ss = List.length ds
    /\ forall i d, nth_error ds i = Some d -> exists j, nth_error ss i = Some (species_of mpi j cl so d).
Proof.
  induction 1 as [|d ds Hd Hds IH]; intros idx.
  - exists []. repeat split. intros [|i] d H; discriminate H.
  - destruct (IH ((idx + 1) mod 256)%Z) as (ss & E & HL & HN). exists (species_of mpi idx cl so d :: ss).
    cbn [map read_species flat_map]. rewrite (desc_species mpi e idx cl so d Hd). cbn [rbind]. rewrite E. cbn [rbind].
    split; [reflexivity|]. split; [cbn; now rewrite HL|].
    intros [|i] d' H; [injection H as <-; exists idx; reflexivity|]. apply HN, H.
Qed.

Lemma esync_promise ds : In k_esync (flat_map promises_of ds) -> exists d, In d ds /\ emission_is d "synchrotron".
Proof.
  rewrite in_flat_map. intros (d & Hd & H). exists d. split; [exact Hd|]. apply ef_spec. left. split; [reflexivity|].
  unfold promises_of in H. destruct (ef_of d); [exfalso|reflexivity|exfalso|exfalso];
    destruct (f_synch _), (f_compton _), (f_gca _); cbn in H; intuition discriminate.
Qed.
Lemma ecomp_promise ds : In k_ecomp (flat_map promises_of ds) -> exists d, In d ds /\ emission_is d "compton".
Proof.
  rewrite in_flat_map. intros (d & Hd & H). exists d. split; [exact Hd|]. apply ef_spec. right. split; [reflexivity|].
  unfold promises_of in H. destruct (ef_of d); [exfalso|exfalso|reflexivity|exfalso];
    destruct (f_synch _), (f_compton _), (f_gca _); cbn in H; intuition discriminate.
Qed.

Lemma guards_off {A} b (k : res A) : b = false -> guard b k = k.
Proof. intros ->. reflexivity. Qed.

Lemma desc_keys e ds x : photons_given ds x -> exists keys, set_keys e (flat_map promises_of ds) x = Ok keys.
Proof.
  intros [P1 P2]. unfold set_keys. rewrite !guards_off; [eauto| |].
  - destruct (promised _ k_ecomp) eqn:E; [|reflexivity]. apply promised_in, ecomp_promise in E.
    destruct (P2 E) as (k & -> & _). reflexivity.
  - destruct (promised _ k_esync) eqn:E; [|reflexivity]. apply promised_in, esync_promise in E.
    destruct (P1 E) as (k & -> & _). reflexivity.
Qed.

Lemma keys_emission e ps x keys : set_keys e ps x = Ok keys ->
  (In k_esync ps -> incl (emission_keys "synchrotron") keys) /\ (In k_ecomp ps -> incl (emission_keys "compton") keys)
  /\ (e = GRPIC -> In "algorithms.gr.pusher_eps" keys /\ In "algorithms.gr.pusher_niter" keys).
Proof.
  unfold set_keys. intros H. apply guard_ok in H. destruct H as [_ H]. apply guard_ok in H. destruct H as [_ H].
  injection H as <-. split; [|split].
  - intros Hp. apply promised_in in Hp. rewrite Hp. do 4 apply incl_appr. apply incl_appl. apply incl_tl, incl_refl.
  - intros Hp. apply promised_in in Hp. rewrite Hp. do 5 apply incl_appr. apply incl_tl, incl_refl.
  - intros ->. split; apply in_app_iff; left; cbn; auto.
Qed.

Lemma need_ok {A} keys ks (k : res A) : incl ks keys -> need keys ks k = k.
Proof.
  intros H. unfold need. apply guards_off. apply negb_false_iff, forallb_forall. intros y Hy. apply promised_in, H, Hy.
Qed.

Lemma tiny0 q : (q == 0)%Q -> tiny q = true.
Proof. intros H. unfold tiny. apply Qle_bool_iff. rewrite H. cbn. discriminate. Qed.

Lemma desc_policy mpi cl so ds ss keys p k : List.length ds = List.length ss ->
  (forall i d, nth_error ds i = Some d -> exists j, nth_error ss i = Some (species_of mpi j cl so d)) ->
  incl (emission_keys p) keys -> photons ds k -> emission_policy ss keys p (Some k) = Ok [k].
Proof.
  intros HL HN HK ((K1 & K2) & d & Hd & Hm & Hq). unfold emission_policy. cbn [or_else].
  assert (M : (k mod 256 = k)%Z) by (apply Z.mod_small; lia).
  assert (Hlen : (Z.to_nat (k - 1) < List.length ds)%nat) by (apply nth_error_Some; congruence).
  rewrite need_ok by (intros y [<-|[]]; apply HK; unfold emission_keys; cbn [map In]; auto 10).
  cbv zeta. rewrite M. rewrite guards_off by (apply Z.ltb_ge; lia).
  destruct (Z.eqb_spec k 0) as [|_]; [lia|].
  destruct (HN _ _ Hd) as (j & ->). cbn [species_of sp_mass sp_charge].
  rewrite !guards_off by (rewrite tiny0 by assumption; reflexivity).
  rewrite need_ok; [reflexivity|]. intros y Hy. apply HK. unfold emission_keys. cbn [map In] in *. intuition.
Qed.

Lemma ef_back e d : meaningful e d ->
  (emission_is d "synchrotron" <-> ef_of d = ESynchrotron) /\ (emission_is d "compton" <-> ef_of d = ECompton)
  /\ (emission_is d "custom" <-> ef_of d = ECustom) /\ (d_emission d = None \/ emission_is d "none" <-> ef_of d = ENone).
Proof.
  intros M. unfold emission_is, ef_of. destruct (d_emission d) as [s|] eqn:E.
  - pose proof (m_emission e d M s E) as W. unfold word, emission_words in W. cbn [In] in W.
    destruct W as [W|[W|[W|[W|[]]]]]; rewrite <- W; cbn [String.eqb Ascii.eqb Bool.eqb];
      repeat split; intros H; try discriminate H; try (destruct H as [H|H]; try discriminate H);
      try (destruct H as (s' & H1 & H2); injection H1 as <-; congruence); try (now eauto); try (now right; eauto).
  - repeat split; intros H; try discriminate H; try (destruct H as (s & H & _); discriminate H); auto.
Qed.

Lemma desc_motion e d : meaningful e d -> d_pushers d <> Some [] ->
  is_none (pf_of d) = false /\ forall b, sr_motion (pf_of d) b = Ok (intended d b).
Proof.
  intros M HN. unfold pf_of, intended. fold (is0 (d_mass d)). destruct (d_pushers d) as [l|] eqn:E.
  - assert (Hl : l <> []) by congruence. destruct (is0 (d_mass d)) eqn:E0.
    + apply is0_iff in E0. destruct (photon_only l (m_photon e d M l E E0)) as (A & B & C & D).
      rewrite A, B, C, (D Hl). split; [reflexivity|]. intros b. reflexivity.
    + apply is0_not in E0. destruct (m_conv e d M l E E0 Hl) as [A B]. rewrite A.
      unfold is_none, sr_motion, is_photon. cbn [f_photon f_boris f_vay f_gca].
      destruct (names "boris" l), (names "vay" l), (names "gca" l); try discriminate B; split; try reflexivity; intros []; reflexivity.
  - destruct (is0 (d_mass d)); split; try reflexivity; intros []; reflexivity.
Qed.

Lemma promise_incl d ds : In d ds -> incl (promises_of d) (flat_map promises_of ds).
Proof. intros H k Hk. apply in_flat_map. eauto. Qed.

Lemma promises_known_of ds k : In k (flat_map promises_of ds) -> In k known /\ (k = k_gca2 -> In k_gca1 (flat_map promises_of ds)).
Proof.
  intros H. apply in_flat_map in H. destruct H as (d & Hd & H).
  assert (A : In k known /\ (k = k_gca2 -> In k_gca1 (promises_of d))).
  { revert H. unfold promises_of. destruct (f_synch _), (f_compton _), (f_gca _), (ef_of d); cbn;
      intuition (subst; cbn; auto; try discriminate). }
  split; [apply A|]. intros E. apply (promise_incl d ds Hd). now apply A.
Qed.

Theorem sr_runs mpi cl so ds x pgen i d npart : Forall (meaningful SRPIC) ds -> photons_given ds x ->
  nth_error ds i = Some d -> (emission_is d "custom" -> pgen <> None) -> (0 < npart)%Z -> d_pushers d <> Some [] ->
  exists how ratio l, run mpi SRPIC cl so (map write ds) x pgen i npart = Ok (Pushed how ratio l)
    /\ (forall b, how b = Ok (intended d b))
    /\ (~ massless d -> ratio = Some (d_charge d / d_mass d)%Q)
    /\ receives d x pgen l.
Proof.
  intros HM HP Hi HC Hn Hpu. assert (Hin : In d ds) by (eapply nth_error_In, Hi).
  assert (M : meaningful SRPIC d) by (rewrite Forall_forall in HM; now apply HM).
  destruct (desc_read mpi SRPIC cl so ds HM 1%Z) as (ss & Er & HL & HN).
  destruct (desc_keys SRPIC ds x HP) as (keys & Ek).
  assert (HK : incl (promises_of d) keys).
  { intros k Hk. apply (keys_cover SRPIC _ x keys Ek (promises_known_of ds)), (promise_incl d ds Hin), Hk. }
  destruct (keys_emission _ _ _ _ Ek) as (KE1 & KE2 & _).
  destruct (desc_motion SRPIC d M Hpu) as [Hnn Hmo].
  destruct (ef_back SRPIC d M) as (B1 & B2 & B3 & B4).
  assert (HPol : exists l, match ef_of d with
           | ESynchrotron => emission_policy ss keys "synchrotron" (x_sync x)
           | ECompton => emission_policy ss keys "compton" (x_comp x)
           | ECustom => match pgen with Some l => Ok l | None => Err end
           | ENone => Ok []
           end = Ok l /\ receives d x pgen l).
  { destruct HP as [P1 P2]. unfold receives. setoid_rewrite B1. setoid_rewrite B2. setoid_rewrite B3. setoid_rewrite B4. destruct (ef_of d) eqn:Ee.
    - exists []. repeat split; intros; congruence.
    - destruct P1 as (k & Ex & Hph); [exists d; split; [exact Hin|now apply B1]|]. rewrite Ex. exists [k]. split.
      + apply (desc_policy mpi cl so ds); [now rewrite HL|exact HN| |exact Hph]. apply KE1, (promise_incl d ds Hin).
        unfold promises_of. rewrite Ee. rewrite !in_app_iff. right. right. right. now left.
      + repeat split; intros; try congruence. exists k. auto.
    - destruct P2 as (k & Ex & Hph); [exists d; split; [exact Hin|now apply B2]|]. rewrite Ex. exists [k]. split.
      + apply (desc_policy mpi cl so ds); [now rewrite HL|exact HN| |exact Hph]. apply KE2, (promise_incl d ds Hin).
        unfold promises_of. rewrite Ee. rewrite !in_app_iff. right. right. right. now left.
      + repeat split; intros; try congruence. exists k. auto.
    - destruct pgen as [l|]; [|exfalso; apply HC; [now apply B3|reflexivity]].
      exists l. repeat split; intros; congruence. }
  destruct HPol as (l & EP & HR).
  exists (sr_motion (pf_of d)), (ratio_of (species_of mpi 0 cl so d)), l. split.
  - unfold run. rewrite Er. cbn [rbind]. rewrite Ek. cbn [rbind]. destruct (HN i d Hi) as (j & ->).
    unfold sr_push. cbn [sp_pusher sp_drag sp_emission species_of]. rewrite Hnn. cbn [orb].
    destruct (Z.eqb_spec npart 0) as [|_]; [lia|].
    rewrite need_ok; [rewrite need_ok; [rewrite need_ok; [rewrite EP; reflexivity|]|]|];
      intros k Hk; apply HK; unfold promises_of; rewrite !in_app_iff.
    + destruct (f_compton (df_of d)); [|destruct Hk]. right. left. exact Hk.
    + destruct (f_synch (df_of d)); [|destruct Hk]. left. exact Hk.
    + destruct (f_gca (pf_of d)); [|destruct Hk]. right. right. left. cbn in *. intuition.
  - split; [exact Hmo|]. split; [|exact HR]. intros Hm. unfold ratio_of. cbn [sp_mass sp_charge species_of].
    apply is0_not in Hm. now rewrite Hm.
Qed.

Theorem gr_runs mpi cl so ds x pgen i d npart : Forall (meaningful GRPIC) ds ->
  nth_error ds i = Some d -> (0 < npart)%Z -> d_pushers d <> Some [] ->
  exists how ratio, run mpi GRPIC cl so (map write ds) x pgen i npart = Ok (Pushed how ratio [])
    /\ (forall b, how b = Ok (intended d b))
    /\ (~ massless d -> ratio = Some (d_charge d / d_mass d)%Q).
Proof.
  intros HM Hi Hn Hpu. assert (Hin : In d ds) by (eapply nth_error_In, Hi).
  assert (M : meaningful GRPIC d) by (rewrite Forall_forall in HM; now apply HM).
  destruct (desc_read mpi GRPIC cl so ds HM 1%Z) as (ss & Er & HL & HN).
  assert (HP : photons_given ds x).
  { rewrite Forall_forall in HM. split; intros (d' & Hd' & He); exfalso;
      destruct (m_gr _ d' (HM d' Hd') eq_refl) as (_ & _ & G3 & G4); tauto. }
  destruct (desc_keys GRPIC ds x HP) as (keys & Ek).
  destruct (keys_emission _ _ _ _ Ek) as (_ & _ & KG). destruct (KG eq_refl) as [KG1 KG2].
  assert (HF : (is0 (d_mass d) = true /\ pf_of d = PF true false false false)
               \/ (is0 (d_mass d) = false /\ pf_of d = PF false true false false /\ forall b, intended d b = Boris)).
  { unfold pf_of, intended. fold (is0 (d_mass d)). destruct (is0 (d_mass d)) eqn:E0; [left|right]; (split; [reflexivity|]);
      destruct (d_pushers d) as [l|] eqn:E; try (split; reflexivity); try reflexivity.
    - apply is0_iff in E0. destruct (photon_only l (m_photon _ d M l E E0)) as (A & B & C & D).
      rewrite A, B, C, D by congruence. reflexivity.
    - apply is0_not in E0. destruct (m_conv _ d M l E E0) as [A B]; [congruence|].
      destruct (m_gr _ d M eq_refl) as (G1 & _). destruct (G1 l E E0) as [G3 G4]; [congruence|].
      rewrite G3, orb_false_r in B. rewrite A, B, G3, G4. split; reflexivity. }
  assert (HR : ~ massless d -> ratio_of (species_of mpi 0 cl so d) = Some (d_charge d / d_mass d)%Q).
  { intros Hm. unfold ratio_of. cbn [sp_mass sp_charge species_of]. apply is0_not in Hm. now rewrite Hm. }
  destruct HF as [[E0 EF]|(E0 & EF & HB)]; [exists (fun _ => Ok Free)|exists (fun _ => Ok Boris)];
    exists (ratio_of (species_of mpi 0 cl so d)); (split; [|split; [|exact HR]]).
  1, 3: unfold run; rewrite Er; cbn [rbind]; rewrite Ek; cbn [rbind]; destruct (HN i d Hi) as (j & ->);
    unfold gr_push; cbn [sp_pusher species_of]; destruct (Z.eqb_spec npart 0) as [|_]; [lia|];
    rewrite EF; cbn [is_none is_photon is_boris f_photon f_boris f_vay f_gca orb andb negb];
    rewrite need_ok by (intros y [<-|[<-|[]]]; assumption); reflexivity.
  - intros b. unfold intended. fold (is0 (d_mass d)). now rewrite E0.
  - intros b. now rewrite HB.
Qed.

Theorem none_skipped mpi e cl so ds x pgen i d npart : Forall (meaningful e) ds -> photons_given ds x ->
  nth_error ds i = Some d -> npart = 0%Z \/ d_pushers d = Some [] ->
  run mpi e cl so (map write ds) x pgen i npart = Ok Skipped.
Proof.
  intros HM HP Hi HS.
  destruct (desc_read mpi e cl so ds HM 1%Z) as (ss & Er & HL & HN). destruct (desc_keys e ds x HP) as (keys & Ek).
  unfold run. rewrite Er. cbn [rbind]. rewrite Ek. cbn [rbind]. destruct (HN i d Hi) as (j & ->).
  assert (HH : (is_none (pf_of d) || (npart =? 0)%Z)%bool = true).
  { destruct HS as [->|E]; [apply orb_true_r|]. unfold pf_of. rewrite E. reflexivity. }
  destruct e.
  - unfold sr_push. cbn [sp_pusher species_of]. now rewrite HH.
  - unfold gr_push. cbn [sp_pusher species_of]. rewrite orb_comm. now rewrite HH.
Qed.

Lemma max_ub mpi e idx cl so t : ~ (t_mass t == 0)%Q ->
  (t_maxnpart t <= -1 \/ inject_Z (2 ^ 32) <= t_maxnpart t)%Q -> GetParticleSpecies mpi e idx cl so t = UB.
Proof.
  intros Hm HB. unfold GetParticleSpecies. cbv zeta. apply is0_not in Hm. rewrite Hm, andb_false_r. cbn [guard].
  assert (E : to_npart (t_maxnpart t) = UB).
  { unfold to_npart. destruct (t_maxnpart t) as [n d]. unfold Qle in HB. cbn [Qnum Qden inject_Z Qopp] in *.
    destruct HB as [HB|HB].
    - assert (Hq : (Z.quot n (Z.pos d) < 0)%Z).
      { replace n with (- (- n))%Z by lia. rewrite Z.quot_opp_l by lia. rewrite Z.quot_div_nonneg by lia.
        assert (1 <= - n / Z.pos d)%Z by (apply Z.div_le_lower_bound; lia). lia. }
      destruct (Z.leb_spec 0 (Z.quot n (Z.pos d))); [lia|]. reflexivity.
    - assert (Hq : (2 ^ 32 <= Z.quot n (Z.pos d))%Z).
      { rewrite Z.quot_div_nonneg by lia. apply Z.div_le_lower_bound; lia. }
      destruct (Z.ltb_spec (Z.quot n (Z.pos d)) (2 ^ 32)); [lia|]. now rewrite andb_false_r. }
  now rewrite E.
Qed.

Theorem desc_fields mpi e cl so ds i d : Forall (meaningful e) ds -> nth_error ds i = Some d ->
  exists ss ps s, read_species mpi e 1 cl so (map write ds) = Ok (ss, ps) /\ nth_error ss i = Some s
    /\ (f_synch (sp_drag s) = true <-> dragged d "synchrotron") /\ (f_compton (sp_drag s) = true <-> dragged d "compton")
    /\ sp_maxnpart s = Qfloor (d_max d)
    /\ sp_npld_i s = (or_else (d_nint d) 0 + if or_else (d_tracking d) false then (if mpi then 2 else 1) else 0)%Z.
Proof.
  intros HM Hi. destruct (desc_read mpi e cl so ds HM 1%Z) as (ss & Er & _ & HN). destruct (HN i d Hi) as (j & E).
  exists ss, (flat_map promises_of ds), (species_of mpi j cl so d). split; [exact Er|]. split; [exact E|].
  assert (M : meaningful e d) by (rewrite Forall_forall in HM; eapply HM, nth_error_In, Hi).
  destruct (ef_back e d M) as (B1 & B2 & _ & _).
  cbn [species_of sp_drag sp_maxnpart sp_npld_i]. unfold df_of, dragged.
  destruct (d_drags d) as [l|]; [repeat split; auto|]. rewrite B1, B2.
  destruct (ef_of d); cbn; repeat split; intros; try congruence; reflexivity.
Qed.
