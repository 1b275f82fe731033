From Coq Require Import ZArith List Reals Lra Lia Permutation Bool FunctionalExtensionality.
From Verif Require Import Base ListLemmas DecompModel DecompSpec DirsSpec TopoModel TopoSpec FieldModel FieldProofs
  InterpSpec HaloSpec HaloModel HaloProofs HaloTop SyncProofs DepositModel FilterModel StepModel StepSpec StepProofs.
Import ListNotations.
Open Scope R_scope.

Section Top.
  Variables (g : Z) (ls : list (list Z)) (gbc : list (flds_bc * flds_bc)).
  Hypothesis W : wide g ls.
  Hypothesis L : length gbc = length ls.
  Hypothesis AP : all_periodic gbc.
  Let N := map sumZ ls.

  Lemma dom_len d : In d (domains ls) ->
    length (sub_offset_ncells d) = length (sub_ncells d) /\ length (sub_ncells d) = length ls /\
    size ls (sub_offset_ndomains d) = sub_ncells d.
  Proof.
    intro Hd. destruct (dom_pos ls d Hd) as [Bo [E1 E2]].
    rewrite E1, E2, (size_length ls _ Bo). repeat split; auto.
    clear -Bo. revert Bo. generalize (sub_offset_ndomains d). intro o. unfold offs.
    intro Bo. rewrite map2_length. pose proof (in_box_length _ _ Bo) as H. unfold counts in H. rewrite map_length in H. lia.
  Qed.

  Lemma comm_agree {K} (sel : K -> bool) es st st' F : periodic N F -> complete ls es ->
    agree_active g ls st F ->
    (forall d c y, sel c = false -> In d (domains ls) -> in_extended g y (sub_ncells d) ->
       st (sub_offset_ndomains d) c (loc g y) = F c (map2 Z.add (sub_offset_ncells d) y)) ->
    communicate g ls gbc sel es st = Some st' -> agree g ls st' F.
  Proof.
    intros HP [He1 He2] HA HU HC d c y Hd Hy. unfold communicate in HC.
    destruct (hexec g ls gbc _ es) as [s|] eqn:EX; [|discriminate]. injection HC as <-.
    destruct (sel c) eqn:Sc; [|apply HU; auto].
    assert (Q : fld s (sub_offset_ndomains d) (loc g y) = fun c => F c (wrapped ls d y)).
    { apply (periodic_exchange g ls gbc {| fld := fun o x c => st o c x; msg := fun _ _ => None |} s (fun x c => F c x) es W L AP); auto.
      - intros o dir. reflexivity.
      - intros d' z Hd' Hz. cbn [fld]. apply functional_extensionality. intro c'. apply HA; auto. }
    rewrite Q.
    destruct (dom_len d Hd) as [L1 [L2 _]]. pose proof (Forall2_length _ _ _ Hy) as L3.
    assert (L4 : length (map2 Z.add (sub_offset_ncells d) y) = length N)
      by (unfold N; rewrite map2_length, map_length; lia).
    apply HP; auto.
    - unfold wrapped. fold N. rewrite map2_length. lia.
    - unfold wrapped. fold N. apply mod_mod. assumption.
  Qed.

  Variables (p : solver) .
  Let D := length ls.
  Let h := sdx p.
  Hypothesis Hh : h <> 0.
  Hypothesis Hg : (2 <= g)%Z.
  Hypothesis HD : dimension D.

  Definition ph (em : list Z -> fields) : list Z -> fields := fun o => phys D h (em o).
  Definition unphys (F : fields) : fields := fun c x => F c x / unit_of D h (axis_of c).
  Lemma unit_nz a : unit_of D h a <> 0.
  Proof. unfold unit_of. destruct (Nat.ltb a D); auto. Qed.
  Lemma per_unphys F : periodic N F -> periodic N (unphys F).
  Proof. intros H c x y Hx Hy Hm. unfold unphys. rewrite (H c x y); auto. Qed.
  Lemma agree_unphys em F : agree g ls (ph em) F <-> agree g ls em (unphys F).
  Proof.
    unfold agree, ph, phys, unphys. split; intros H d c y Hd Hy; specialize (H d c y Hd Hy).
    - rewrite <- H. field. apply unit_nz.
    - rewrite H. field. apply unit_nz.
  Qed.
  Lemma comm_phys sel es em em' F : periodic N F -> complete ls es ->
    agree_active g ls (ph em) F ->
    (forall d c y, sel c = false -> In d (domains ls) -> in_extended g y (sub_ncells d) ->
       ph em (sub_offset_ndomains d) c (loc g y) = F c (map2 Z.add (sub_offset_ncells d) y)) ->
    communicate g ls gbc sel es em = Some em' -> agree g ls (ph em') F.
  Proof.
    intros HP He HA HU HC. apply agree_unphys.
    refine (comm_agree sel es em em' (unphys F) (per_unphys F HP) He _ _ HC).
    - intros d c y Hd Hy. specialize (HA d c y Hd Hy). unfold ph, phys in HA. unfold unphys. rewrite <- HA.
      field. apply unit_nz.
    - intros d c y Sc Hd Hy. specialize (HU d c y Sc Hd Hy). unfold ph, phys in HU. unfold unphys. rewrite <- HU.
      field. apply unit_nz.
  Qed.

  Lemma loc_len d y : In d (domains ls) -> in_box y (sub_ncells d) -> length (loc g y) = D.
  Proof.
    intros Hd Hy. destruct (dom_len d Hd) as [_ [L2 _]]. unfold loc. rewrite map_length.
    unfold D. rewrite <- L2. apply in_box_length. assumption.
  Qed.

  (** Faraday: active magnetic components are advanced, electric ones keep all values. *)
  Lemma faraday_agree fr thr em F : any_order thr -> agree g ls (ph em) F ->
    let F' := ref_faraday (tune p) (fr * sdt p) h F in
    agree_active g ls (ph (faraday g ls p fr thr em)) F' /\
    (forall d c y, comm_B c = false -> In d (domains ls) -> in_extended g y (sub_ncells d) ->
       ph (faraday g ls p fr thr em) (sub_offset_ndomains d) c (loc g y) = F' c (map2 Z.add (sub_offset_ncells d) y)).
  Proof.
    intros HT HA F'. split.
    - intros d c y Hd Hy. destruct (dom_len d Hd) as [L1 [L2 L3]].
      pose proof (loc_len d y Hd Hy) as LL.
      transitivity (ref_faraday (tune p) (fr * sdt p) h (ph em (sub_offset_ndomains d)) c (loc g y)).
      + unfold ph at 1, phys at 1, faraday.
        rewrite (launch_active g ls isB) by
          (auto using faraday_mink_frames, faraday_mink_local; rewrite L3; assumption).
        transitivity (phys (length (loc g y)) h (faraday_mink (faraday_args ls p fr) (em (sub_offset_ndomains d)) (loc g y)) c (loc g y)).
        { unfold phys. rewrite LL. reflexivity. }
        rewrite faraday_is_curl with (dT := fr * sdt p); auto.
        * unfold ph. rewrite LL. reflexivity.
        * rewrite LL. exact HD.
        * rewrite LL. reflexivity.
        * rewrite LL. reflexivity.
      + apply (at_faraday g (sub_ncells d)); auto.
    - intros d c y Hc Hd Hy. unfold ph, phys, faraday. rewrite (launch_frame g ls isB).
      + specialize (HA d c y Hd Hy). unfold ph, phys in HA. rewrite HA.
        unfold F', ref_faraday. destruct c; try discriminate; reflexivity.
      + apply faraday_mink_frames.
      + destruct c; try discriminate; reflexivity.
  Qed.
  (** Ampere and the currents: active electric components are advanced. *)
  Lemma ampere_agree thr thr' cur Jr em F : any_order thr -> any_order thr' -> agree g ls (ph em) F ->
    agree_active g ls (fun o => phys_j D h (cur o)) Jr ->
    let F' := ref_currents (scur p) Jr (ref_ampere (sdt p) h F) in
    let em' := currents_ampere g ls p thr' cur (ampere g ls p 1 thr em) in
    agree_active g ls (ph em') F' /\
    (forall d c y, comm_E c = false -> In d (domains ls) -> in_extended g y (sub_ncells d) ->
       ph em' (sub_offset_ndomains d) c (loc g y) = F' c (map2 Z.add (sub_offset_ncells d) y)).
  Proof.
    intros HT HT' HA HJ F' em'. split.
    - intros d c y Hd Hy. destruct (dom_len d Hd) as [L1 [L2 L3]].
      pose proof (loc_len d y Hd Hy) as LL.
      set (o := sub_offset_ndomains d) in *.
      assert (A1 : forall c, ph (ampere g ls p 1 thr em) o c (loc g y) = ref_ampere (sdt p) h F c (map2 Z.add (sub_offset_ncells d) y)).
      { intro c0. transitivity (ref_ampere (sdt p) h (ph em o) c0 (loc g y)).
        - unfold ph at 1, phys at 1, ampere.
          rewrite (launch_active g ls isE) by
            (auto using ampere_mink_frames, ampere_mink_local; rewrite L3; assumption).
          replace (1 * sdt p) with (sdt p) by ring.
          transitivity (phys (length (loc g y)) h (ampere_mink (solver_c1 (length (loc g y)) (sdt p) h) (solver_c2 (length (loc g y)) (sdt p)) (em o) (loc g y)) c0 (loc g y)).
          { unfold phys. rewrite LL. reflexivity. }
          rewrite ampere_is_curl; auto.
          + unfold ph. rewrite LL. reflexivity.
          + rewrite LL. exact HD.
        - apply (at_ampere g (sub_ncells d)); auto. intros c' z Hz. apply (HA d c' z Hd Hz). }
      transitivity (ref_currents (scur p) (phys_j D h (cur o)) (ph (ampere g ls p 1 thr em) o) c (loc g y)).
      + unfold ph at 1, phys at 1, em', currents_ampere.
        rewrite (launch_active g ls isE) by
          (auto using currents_mink_frames, currents_mink_local; rewrite L3; assumption).
        unfold ph. rewrite <- currents_is_ref. reflexivity.
      + unfold F', ref_currents. rewrite A1. rewrite (HJ d _ y Hd Hy). reflexivity.
    - intros d c y Hc Hd Hy. unfold ph, phys, em', currents_ampere. rewrite (launch_frame g ls isE).
      + unfold ampere. rewrite (launch_frame g ls isE).
        * specialize (HA d c y Hd Hy). unfold ph, phys in HA. rewrite HA.
          unfold F', ref_currents, ref_ampere. destruct c; try discriminate; reflexivity.
        * apply ampere_mink_frames.
        * destruct c; try discriminate; reflexivity.
      + apply currents_mink_frames.
      + destruct c; try discriminate; reflexivity.
  Qed.

  Lemma field_step_agree s cur Jr em em' F : good_sched ls s -> periodic N F -> periodic N Jr ->
    agree g ls (ph em) F -> agree_active g ls (fun o => phys_j D h (cur o)) Jr ->
    field_step g ls gbc p s cur em = Some em' -> agree g ls (ph em') (ref_step p Jr F).
  Proof.
    intros (T1 & T2 & T3 & T4 & C1 & C2 & C3) PF PJ HA HJ. unfold field_step, obind.
    destruct (communicate g ls gbc comm_B (e_b1 s) _) as [em1|] eqn:X1; [|discriminate].
    destruct (communicate g ls gbc comm_B (e_b2 s) _) as [em2|] eqn:X2; [|discriminate].
    intro X3.
    destruct (faraday_agree (/ 2) (t_far1 s) em F T1 HA) as [A1 U1].
    pose proof (per_faraday N (tune p) (/ 2 * sdt p) h F PF) as P1.
    pose proof (comm_phys _ _ _ _ _ P1 C1 A1 U1 X1) as HA1.
    destruct (faraday_agree (/ 2) (t_far2 s) em1 _ T2 HA1) as [A2 U2].
    pose proof (per_faraday N (tune p) (/ 2 * sdt p) h _ P1) as P2.
    pose proof (comm_phys _ _ _ _ _ P2 C2 A2 U2 X2) as HA2.
    destruct (ampere_agree (t_amp s) (t_cur s) cur Jr em2 _ T3 T4 HA2 HJ) as [A3 U3].
    exact (comm_phys _ _ _ _ _ (per_currents N _ _ _ PJ (per_ampere N _ _ _ P2)) C3 A3 U3 X3).
  Qed.

  (** Any number of steps. *)
  Lemma field_run_agree l : forall Js em em' F,
    Forall2 (fun sc Jr => good_sched ls (fst sc) /\ periodic N Jr /\ agree_active g ls (fun o => phys_j D h (snd sc o)) Jr) l Js ->
    periodic N F -> agree g ls (ph em) F -> field_run g ls gbc p l em = Some em' ->
    agree g ls (ph em') (ref_run p Js F).
  Proof.
    induction l as [|[s cur] l IH]; intros Js em em' F HF PF HA; inversion HF as [|? Jr ? Js' [G1 [G2 G3]] HF']; subst; cbn [field_run ref_run].
    - intro X. injection X as <-. exact HA.
    - unfold obind. destruct (field_step g ls gbc p s cur em) as [em1|] eqn:X; [|discriminate].
      intro Y. eapply (IH Js' em1 em'); eauto.
      + apply per_step; auto.
      + eapply field_step_agree; eauto.
  Qed.

  (** The exchange before the first step. *)
  Lemma first_agree eE eB em em' F : complete ls eE -> complete ls eB -> periodic N F ->
    agree_active g ls (ph em) F -> first_exchange g ls gbc eE eB em = Some em' -> agree g ls (ph em') F.
  Proof.
    intros CE CB PF HA. unfold first_exchange, obind.
    destruct (communicate g ls gbc comm_B eB em) as [em1|] eqn:X1; [|discriminate]. intro X2.
    assert (A1 : agree_active g ls (ph em1) F /\ forall d c y, comm_E c = false -> In d (domains ls) -> in_extended g y (sub_ncells d) ->
       ph em1 (sub_offset_ndomains d) c (loc g y) = F c (map2 Z.add (sub_offset_ncells d) y)).
    { unfold communicate in X1.
      destruct (hexec g ls gbc _ eB) as [s1|] eqn:EX; [|discriminate]. injection X1 as <-.
      assert (Q : forall d c y, In d (domains ls) -> in_extended g y (sub_ncells d) ->
                fld s1 (sub_offset_ndomains d) (loc g y) c = unphys F c (map2 Z.add (sub_offset_ncells d) y)).
      { intros d c y Hd Hy.
        apply (comm_agree (fun _ => true) eB em (fun o c x => fld s1 o x c) (unphys F) (per_unphys F PF) CB); auto.
        - intros d' c' y' Hd' Hy'. specialize (HA d' c' y' Hd' Hy'). unfold ph, phys in HA. unfold unphys. rewrite <- HA.
          field. apply unit_nz.
        - discriminate.
        - unfold communicate. rewrite EX. reflexivity. }
      split.
      - intros d c y Hd Hy. unfold ph, phys. destruct (comm_B c); [|apply HA; auto].
        rewrite Q; auto. + unfold unphys. field. apply unit_nz.
        + eapply Forall2_impl; [|apply (box_ext _ _ Hy)]. cbn; lia.
      - intros d c y Hc Hd Hy. unfold ph, phys. replace (comm_B c) with true by (destruct c; try discriminate; reflexivity).
        rewrite Q; auto. unfold unphys. field. apply unit_nz. }
    destruct A1 as [A1 U1]. exact (comm_phys _ _ _ _ _ PF CE A1 U1 X2).
  Qed.
End Top.

(** From the initial conditions to the end of the run. *)
Lemma run_is_reference g ls gbc p l Js eE eB em em1 em' F :
  wide g ls -> length gbc = length ls -> all_periodic gbc -> dimension (length ls) -> (2 <= g)%Z -> sdx p <> 0 ->
  periodic (map sumZ ls) F -> agree_active g ls (fun o => phys (length ls) (sdx p) (em o)) F ->
  complete ls eE -> complete ls eB -> first_exchange g ls gbc eE eB em = Some em1 ->
  Forall2 (fun sc Jr => good_sched ls (fst sc) /\ periodic (map sumZ ls) Jr /\
    agree_active g ls (fun o => phys_j (length ls) (sdx p) (snd sc o)) Jr) l Js ->
  field_run g ls gbc p l em1 = Some em' ->
  agree g ls (fun o => phys (length ls) (sdx p) (em' o)) (ref_run p Js F).
Proof.
  intros W L AP HD Hg Hh PF HA CE CB X1 HF X2.
  assert (A1 : agree g ls (ph ls p em1) F)
    by (exact (first_agree g ls gbc W L AP p Hh Hg eE eB em em1 F CE CB PF HA X1)).
  exact (field_run_agree g ls gbc W L AP p Hh Hg HD l Js em1 em' F HF PF A1 X2).
Qed.

(** Two decompositions of the same box. *)
Lemma decompositions_agree p Js F :
  forall g ls gbc l eE eB em em1 em' g' ls' gbc' l' eE' eB' fm fm1 fm',
  wide g ls -> length gbc = length ls -> all_periodic gbc -> dimension (length ls) -> (2 <= g)%Z -> sdx p <> 0 ->
  wide g' ls' -> length gbc' = length ls' -> all_periodic gbc' -> (2 <= g')%Z ->
  map sumZ ls = map sumZ ls' ->
  periodic (map sumZ ls) F ->
  agree_active g ls (fun o => phys (length ls) (sdx p) (em o)) F ->
  agree_active g' ls' (fun o => phys (length ls') (sdx p) (fm o)) F ->
  complete ls eE -> complete ls eB -> first_exchange g ls gbc eE eB em = Some em1 ->
  complete ls' eE' -> complete ls' eB' -> first_exchange g' ls' gbc' eE' eB' fm = Some fm1 ->
  Forall2 (fun sc Jr => good_sched ls (fst sc) /\ periodic (map sumZ ls) Jr /\
    agree_active g ls (fun o => phys_j (length ls) (sdx p) (snd sc o)) Jr) l Js ->
  Forall2 (fun sc Jr => good_sched ls' (fst sc) /\ periodic (map sumZ ls') Jr /\
    agree_active g' ls' (fun o => phys_j (length ls') (sdx p) (snd sc o)) Jr) l' Js ->
  field_run g ls gbc p l em1 = Some em' -> field_run g' ls' gbc' p l' fm1 = Some fm' ->
  forall c d y d' y', In d (domains ls) -> in_extended g y (sub_ncells d) ->
    In d' (domains ls') -> in_extended g' y' (sub_ncells d') ->
    map2 Z.add (sub_offset_ncells d) y = map2 Z.add (sub_offset_ncells d') y' ->
    em' (sub_offset_ndomains d) c (loc g y) = fm' (sub_offset_ndomains d') c (loc g' y').
Proof.
  intros g ls gbc l eE eB em em1 em' g' ls' gbc' l' eE' eB' fm fm1 fm' W L AP HD Hg Hh W' L' AP' Hg' EN PF HA HA'
    CE CB X1 CE' CB' X1' HF HF' X2 X2' c d y d' y' Hd Hy Hd' Hy' EQ.
  assert (LL : length ls = length ls') by (rewrite <- (map_length sumZ ls), EN, map_length; reflexivity).
  assert (HD' : dimension (length ls')) by (rewrite <- LL; assumption).
  pose proof (run_is_reference g ls gbc p l Js eE eB em em1 em' F W L AP HD Hg Hh PF HA CE CB X1 HF X2 d c y Hd Hy) as A.
  rewrite EN in PF.
  pose proof (run_is_reference g' ls' gbc' p l' Js eE' eB' fm fm1 fm' F W' L' AP' HD' Hg' Hh PF HA' CE' CB' X1' HF' X2' d' c y' Hd' Hy') as A'.
  cbv beta in A, A'. unfold phys in A, A'. rewrite <- EQ, <- A, LL in A'.
  apply Rmult_eq_reg_l in A'; [congruence|].
  unfold unit_of. destruct (Nat.ltb _ _); auto.
Qed.

(** Schedules that complete exist. *)
Lemma communicate_completes {K} g ls gbc (sel : K -> bool) st :
  length gbc = length ls -> paired_flds gbc -> dimension (length ls) ->
  exists es st', complete ls es /\ communicate g ls gbc sel es st = Some st'.
Proof.
  intros L P HD.
  destruct (exchange_completes g ls gbc L P HD {| fld := fun o x (c : K) => st o c x; msg := fun _ _ => None |}) as [es [s' [H1 [H2 H3]]]].
  exists es. eexists. split; [split; assumption|]. unfold communicate. rewrite H1. reflexivity.
Qed.
Lemma field_step_completes g ls gbc p cur em :
  length gbc = length ls -> paired_flds gbc -> dimension (length ls) ->
  exists s em', good_sched ls s /\ field_step g ls gbc p s cur em = Some em'.
Proof.
  intros L P HD. set (id := fun (_ : list Z) (l : list (list Z)) => l).
  assert (I : any_order id) by (intros o l; apply Permutation_refl).
  destruct (communicate_completes g ls gbc comm_B (faraday g ls p (/ 2) id em) L P HD) as [e1 [em1 [C1 X1]]].
  destruct (communicate_completes g ls gbc comm_B (faraday g ls p (/ 2) id em1) L P HD) as [e2 [em2 [C2 X2]]].
  destruct (communicate_completes g ls gbc comm_E (currents_ampere g ls p id cur (ampere g ls p 1 id em2)) L P HD) as [e3 [em3 [C3 X3]]].
  exists {| t_far1 := id; e_b1 := e1; t_far2 := id; e_b2 := e2; t_amp := id; t_cur := id; e_e := e3 |}, em3.
  split; [repeat (split; [assumption|]); assumption|].
  unfold field_step; cbn [t_far1 e_b1 t_far2 e_b2 t_amp t_cur e_e]. unfold obind. rewrite X1, X2. exact X3.
Qed.
Lemma field_run_completes g ls gbc p curs : forall em,
  length gbc = length ls -> paired_flds gbc -> dimension (length ls) ->
  exists l em', map snd l = curs /\ Forall (fun sc => good_sched ls (fst sc)) l /\ field_run g ls gbc p l em = Some em'.
Proof.
  induction curs as [|cur curs IH]; intros em L P HD.
  - exists [], em. repeat split; constructor.
  - destruct (field_step_completes g ls gbc p cur em L P HD) as [s [em1 [G X]]].
    destruct (IH em1 L P HD) as [l [em' [E1 [G' X']]]].
    exists ((s, cur) :: l), em'. cbn. rewrite E1. repeat split; [constructor; auto|]. unfold obind. rewrite X. exact X'.
Qed.
