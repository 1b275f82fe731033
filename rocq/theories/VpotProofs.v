(** Proofs for [VpotProps]. *)
From Coq Require Import ZArith List Bool Reals Lra Lia.
From Verif Require Import Base ListLemmas DecompModel DecompSpec DecompProofs HaloSpec HaloModel HaloProofs SyncProofs VpotModel VpotSpec.
Import ListNotations.
Open Scope R_scope.

(** ** The subdomain of a rank *)
Lemma nth_blocks {A} (f : nat -> list A) n a b d i e : (forall k, length (f k) = n) -> (i < n)%nat -> (e < b)%nat ->
  nth (e * n + i) (flat_map f (seq a b)) d = nth i (f (a + e)%nat) d.
Proof.
  intros Hl Hi. revert a e. induction b as [|b IH]; intros a e He; [lia|]. cbn [seq flat_map].
  destruct e as [|e].
  - rewrite Nat.add_0_r, app_nth1 by (rewrite Hl; lia). f_equal; lia.
  - rewrite app_nth2 by (rewrite Hl; lia). rewrite Hl. replace (S e * n + i - n)%nat with (e * n + i)%nat by lia.
    rewrite IH by lia. f_equal. f_equal. lia.
Qed.
Lemma indices2 a b : indices [a; b] = flat_map (fun e => map (fun i => [i; e]) (seq 0 a)) (seq 0 b).
Proof.
  unfold indices, tensor_product. cbn [map fold_left].
  apply flat_map_ext. intro e. clear b. induction (seq 0 a) as [|i l IH]; [reflexivity|]. cbn [flat_map map app] in *. f_equal. exact IH.
Qed.
Lemma sub_of_2d l1 l2 r : (0 < len l1)%Z -> (0 <= r < len l1 * len l2)%Z ->
  let o1 := (r mod len l1)%Z in let o2 := (r / len l1)%Z in
  sub_of [l1; l2] r = {| sub_offset_ndomains := [o1; o2]; sub_offset_ncells := [off l1 o1; off l2 o2]; sub_ncells := [blk l1 o1; blk l2 o2] |}.
Proof.
  intros H1 Hr o1 o2. unfold len in *.
  assert (B1 : (0 <= o1 < Z.of_nat (length l1))%Z) by (apply Z.mod_pos_bound; assumption).
  assert (B2 : (0 <= o2 < Z.of_nat (length l2))%Z).
  { split; [apply Z.div_pos; lia|]. apply Z.div_lt_upper_bound; lia. }
  assert (E : r = (Z.of_nat (length l1) * o2 + o1)%Z) by (apply Z.div_mod; lia).
  unfold sub_of, domains. rewrite create_domains_indices by reflexivity. cbn [map]. rewrite indices2.
  rewrite (nth_indep _ _ (sub_at [l1; l2] [])).
  2:{ rewrite map_length. rewrite <- indices2. apply Nat2Z.inj_lt. rewrite length_indices. cbn [map prodZ fold_right]. unfold prodZ. cbn. lia. }
  rewrite map_nth.
  replace (Z.to_nat r) with (Z.to_nat o2 * length l1 + Z.to_nat o1)%nat by nia.
  rewrite (nth_blocks _ (length l1)); [|intro; rewrite map_length, seq_length; reflexivity|lia|lia].
  rewrite (nth_indep _ _ [0%nat; (0 + Z.to_nat o2)%nat]) by (rewrite map_length, seq_length; lia).
  rewrite (map_nth (fun i => [i; (0 + Z.to_nat o2)%nat])), seq_nth by lia.
  unfold sub_at, off, blk. cbn [map map2 Nat.add]. rewrite !Z2Nat.id by lia. reflexivity.
Qed.

(** ** Programs *)
Lemma zrange_empty lo hi : (hi <= lo)%Z -> zrange lo hi = [].
Proof. intro H. unfold zrange. replace (Z.to_nat (hi - lo)) with 0%nat by lia. reflexivity. Qed.
Lemma zrange_cons lo hi : (lo < hi)%Z -> zrange lo hi = lo :: zrange (lo + 1) hi.
Proof.
  intro H. unfold zrange. replace (Z.to_nat (hi - lo)) with (S (Z.to_nat (hi - (lo + 1)))) by lia. cbn [seq map].
  f_equal; [lia|]. rewrite <- seq_shift, map_map. apply map_ext. intro. lia.
Qed.
Lemma zrange_split lo mid hi : (lo <= mid <= hi)%Z -> zrange lo hi = zrange lo mid ++ zrange mid hi.
Proof.
  intros H. remember (Z.to_nat (mid - lo)) as n eqn:En. revert lo En H. induction n as [|n IH]; intros lo En H.
  - replace mid with lo by lia. rewrite (zrange_empty lo lo) by lia. reflexivity.
  - rewrite (zrange_cons lo hi), (zrange_cons lo mid) by lia. cbn [app]. f_equal. apply IH; lia.
Qed.
Lemma zrange_move lo hi s : zrange (lo + s) (hi + s) = map (fun k => k + s)%Z (zrange lo hi).
Proof. unfold zrange. rewrite map_map. replace (hi + s - (lo + s))%Z with (hi - lo)%Z by lia. apply map_ext. intro. lia. Qed.
(** At most one iteration does something. *)
Lemma flat_map_none {A B} (f : A -> list B) l : (forall x, In x l -> f x = []) -> flat_map f l = [].
Proof. induction l as [|a l IH]; intro H; [reflexivity|]. cbn. rewrite (H a (or_introl eq_refl)), IH; [reflexivity|]. intros x Hx. apply H. right. exact Hx. Qed.
Lemma flat_map_one {B} (f : Z -> list B) lo hi a : (lo <= a < hi)%Z -> (forall x, (lo <= x < hi)%Z -> x <> a -> f x = []) ->
  flat_map f (zrange lo hi) = f a.
Proof.
  intros Ha H. rewrite (zrange_split lo a hi), flat_map_app by lia.
  rewrite flat_map_none by (intros x Hx; apply in_zrange in Hx; apply H; lia).
  rewrite zrange_cons by lia. cbn [flat_map app].
  rewrite flat_map_none by (intros x Hx; apply in_zrange in Hx; apply H; lia). apply app_nil_r.
Qed.

Section Ranks.
  Variables n1 n2 : Z.
  Hypothesis P1 : (0 < n1)%Z.
  Definition c1 (r : Z) := (r mod n1)%Z.
  Definition c2 (r : Z) := (r / n1)%Z.
  Definition sends (r : Z) : list vop := if (c2 r + 1 <? n2)%Z then [VSend (r + n1)%Z] else [].
  Definition prog (r : Z) : list vop := if (0 <? c2 r)%Z then VRecv (r - n1)%Z :: sends r else sends r.
  Lemma c_eq r : r = (n1 * c2 r + c1 r)%Z. Proof. apply Z.div_mod. lia. Qed.
  Lemma c1_lt r : (0 <= c1 r < n1)%Z. Proof. apply Z.mod_pos_bound. assumption. Qed.
  Lemma c2_up r : c2 (r + n1) = (c2 r + 1)%Z.
  Proof. unfold c2. replace (r + n1)%Z with (r + 1 * n1)%Z by lia. apply Z.div_add. lia. Qed.
  Lemma c2_dn r : c2 (r - n1) = (c2 r - 1)%Z.
  Proof. pose proof (c2_up (r - n1)) as H. replace (r - n1 + n1)%Z with r in H by lia. lia. Qed.
  Lemma c1_up r : c1 (r + n1) = c1 r.
  Proof. unfold c1. replace (r + n1)%Z with (r + 1 * n1)%Z by lia. apply Z.mod_add. lia. Qed.
  Lemma c1_dn r : c1 (r - n1) = c1 r.
  Proof. pose proof (c1_up (r - n1)) as H. replace (r - n1 + n1)%Z with r in H by lia. congruence. Qed.
  Lemma c2_range r : (0 <= r < n1 * n2)%Z -> (0 <= c2 r < n2)%Z.
  Proof. intro H. unfold c2. split; [apply Z.div_pos; lia|]. apply Z.div_lt_upper_bound; lia. Qed.

  Lemma inner r nr2 :
    flat_map (fun nr1 => let s := ((nr2 - 1) * n1 + nr1)%Z in let d := (nr2 * n1 + nr1)%Z in
        if (r =? s)%Z then [VSend d] else if (r =? d)%Z then [VRecv s] else []) (zrange 0 n1) =
    if (nr2 =? c2 r + 1)%Z then [VSend (r + n1)%Z] else if (nr2 =? c2 r)%Z then [VRecv (r - n1)%Z] else [].
  Proof.
    pose proof (c_eq r) as E. pose proof (c1_lt r) as L.
    destruct (Z.eqb_spec nr2 (c2 r + 1)) as [->|N1]; [|destruct (Z.eqb_spec nr2 (c2 r)) as [->|N2]].
    - rewrite (flat_map_one _ 0 n1 (c1 r)) by (first [lia|intros x Hx Nx; cbv zeta;
        destruct (Z.eqb_spec r ((c2 r + 1 - 1) * n1 + x)); [nia|]; destruct (Z.eqb_spec r ((c2 r + 1) * n1 + x)); [nia|reflexivity]]).
      cbv zeta. destruct (Z.eqb_spec r ((c2 r + 1 - 1) * n1 + c1 r)); [|nia]. apply (f_equal (fun x => [VSend x])). nia.
    - rewrite (flat_map_one _ 0 n1 (c1 r)) by (first [lia|intros x Hx Nx; cbv zeta;
        destruct (Z.eqb_spec r ((c2 r - 1) * n1 + x)); [nia|]; destruct (Z.eqb_spec r (c2 r * n1 + x)); [nia|reflexivity]]).
      cbv zeta. destruct (Z.eqb_spec r ((c2 r - 1) * n1 + c1 r)); [nia|]. destruct (Z.eqb_spec r (c2 r * n1 + c1 r)); [|nia].
      apply (f_equal (fun x => [VRecv x])). nia.
    - apply flat_map_none. intros x Hx. apply in_zrange in Hx. cbv zeta.
      destruct (Z.eqb_spec r ((nr2 - 1) * n1 + x)) as [Q|_]; [exfalso; apply N1; nia|].
      destruct (Z.eqb_spec r (nr2 * n1 + x)) as [Q|_]; [exfalso; apply N2; nia|]. reflexivity.
  Qed.
  Lemma program_is r : (0 <= r < n1 * n2)%Z -> program n1 n2 r = prog r.
  Proof.
    intro Hr. pose proof (c2_range r Hr) as C. unfold program.
    rewrite (flat_map_ext _ (fun nr2 => if (nr2 =? c2 r + 1)%Z then [VSend (r + n1)%Z] else if (nr2 =? c2 r)%Z then [VRecv (r - n1)%Z] else []))
      by (intro; apply inner).
    unfold prog, sends.
    destruct (Z.ltb_spec 0 (c2 r)) as [L0|L0].
    - rewrite (zrange_split 1 (c2 r + 1) n2), flat_map_app by lia.
      rewrite (flat_map_one _ 1 (c2 r + 1) (c2 r)).
      2: lia. 2:{ intros x Hx Nx. destruct (Z.eqb_spec x (c2 r + 1)); [lia|]. destruct (Z.eqb_spec x (c2 r)); [lia|reflexivity]. }
      destruct (Z.eqb_spec (c2 r) (c2 r + 1)); [lia|]. rewrite Z.eqb_refl. cbn [app]. f_equal.
      destruct (Z.ltb_spec (c2 r + 1) n2) as [L|L].
      + rewrite (flat_map_one _ _ _ (c2 r + 1)%Z) by (first [lia|intros x Hx Nx;
          destruct (Z.eqb_spec x (c2 r + 1)); [lia|]; destruct (Z.eqb_spec x (c2 r)); [lia|reflexivity]]).
        rewrite Z.eqb_refl. reflexivity.
      + rewrite zrange_empty by lia. reflexivity.
    - destruct (Z.ltb_spec (c2 r + 1) n2) as [L|L].
      + rewrite (flat_map_one _ _ _ (c2 r + 1)%Z) by (first [lia|intros x Hx Nx;
          destruct (Z.eqb_spec x (c2 r + 1)); [lia|]; destruct (Z.eqb_spec x (c2 r)); [lia|reflexivity]]).
        rewrite Z.eqb_refl. reflexivity.
      + rewrite zrange_empty by lia. reflexivity.
  Qed.
End Ranks.

(** ** The exchange *)
Section Exchange.
  Variables (nx1 nx2 : Z -> Z) (sd : Z -> R -> R -> R) (B1 : Z -> Z -> Z -> R) (n1 n2 : Z) (fin : Z -> Z -> Z -> R).
  Hypothesis P1 : (0 < n1)%Z.
  Definition rank (r : Z) : Prop := (0 <= r < n1 * n2)%Z.
  Definition act (r i j : Z) : Prop := (0 <= i < nx1 r)%Z /\ (0 <= j < nx2 r)%Z.
  Hypothesis same1 : forall r, rank r -> rank (r - n1)%Z -> nx1 (r - n1)%Z = nx1 r.
  Hypothesis pos2 : forall r, rank r -> (0 < nx2 r)%Z.
  Hypothesis fin_first : forall r i j, rank r -> c2 n1 r = 0%Z -> act r i j -> compute sd B1 r i j = fin r i j.
  Hypothesis fin_next : forall r i j, rank r -> (0 < c2 n1 r)%Z -> act r i j ->
    compute sd B1 r i j + fin (r - n1)%Z i (nx2 (r - n1) - 1)%Z = fin r i j.

  Notation st0 := (vstart nx1 nx2 sd B1 n1 n2).
  Notation step := (vstep nx1 nx2).
  Notation exec := (vexec nx1 nx2).
  Notation prg := (prog n1 n2).
  Notation snd' := (sends n1 n2).

  Lemma active_act r i j : active nx1 nx2 r i j = true <-> act r i j.
  Proof. unfold active, act. rewrite !andb_true_iff, !Z.leb_le, !Z.ltb_lt. lia. Qed.
  Lemma below r : rank r -> (0 < c2 n1 r)%Z -> rank (r - n1)%Z.
  Proof using P1. clear - P1. intros Hr Hc. pose proof (c_eq n1 P1 r). pose proof (c1_lt n1 P1 r). unfold rank in *. nia. Qed.

  Inductive phase (st : vstate) (r : Z) : Prop :=
  | PhA : (0 < c2 n1 r)%Z -> vtodo st r = prg r -> (forall i j, act r i j -> vbuf st r i j = compute sd B1 r i j) -> phase st r
  | PhB : vtodo st r = snd' r -> (forall i j, act r i j -> vbuf st r i j = fin r i j) -> phase st r
  | PhC : vtodo st r = [] -> (forall i j, act r i j -> vbuf st r i j = fin r i j) -> phase st r.
  Record inv (st : vstate) : Prop := {
    iph : forall r, rank r -> phase st r;
    ich : forall r m, rank r -> vchan st r (r + n1)%Z = Some m -> forall i, (0 <= i < nx1 r)%Z -> m i = fin r i (nx2 r - 1)%Z;
    ipr : forall r, rank r -> rank (r + n1)%Z -> vtodo st r = [] -> vtodo st (r + n1)%Z = prg (r + n1)%Z -> vchan st r (r + n1)%Z <> None
  }.

  Lemma prg_recv r : (0 < c2 n1 r)%Z -> prg r = VRecv (r - n1)%Z :: snd' r.
  Proof. intro H. unfold prog. destruct (Z.ltb_spec 0 (c2 n1 r)); [reflexivity|lia]. Qed.
  Lemma prg_first r : c2 n1 r = 0%Z -> prg r = snd' r.
  Proof. intro H. unfold prog. destruct (Z.ltb_spec 0 (c2 n1 r)); [lia|reflexivity]. Qed.
  Lemma snd_cases r : snd' r = [] \/ snd' r = [VSend (r + n1)%Z].
  Proof. unfold sends. destruct (c2 n1 r + 1 <? n2)%Z; auto. Qed.
  Lemma snd_up r : rank (r + n1)%Z -> snd' r = [VSend (r + n1)%Z].
  Proof.
    intro H. unfold sends. pose proof (c2_range n1 n2 P1 _ H) as C. rewrite c2_up in C by assumption.
    destruct (Z.ltb_spec (c2 n1 r + 1) n2); [reflexivity|lia].
  Qed.
  Lemma upd_same {A} (f : Z -> A) r v : upd_at f r v r = v. Proof. unfold upd_at. rewrite Z.eqb_refl. reflexivity. Qed.
  Lemma upd_other {A} (f : Z -> A) r v q : q <> r -> upd_at f r v q = f q.
  Proof. intro H. unfold upd_at. destruct (Z.eqb_spec q r); [contradiction|reflexivity]. Qed.

  Lemma inv_start : inv st0.
  Proof.
    split.
    - intros r Hr. pose proof (c2_range n1 n2 P1 r Hr) as C.
      assert (T : vtodo st0 r = prg r) by (cbn; apply program_is; assumption).
      assert (Bf : forall i j, act r i j -> vbuf st0 r i j = compute sd B1 r i j).
      { intros i j H. cbn. rewrite (proj2 (active_act r i j) H). reflexivity. }
      destruct (Z.eq_dec (c2 n1 r) 0) as [E|N].
      + apply PhB; [rewrite T; apply prg_first; assumption|]. intros i j H. rewrite Bf by assumption. apply fin_first; assumption.
      + apply PhA; [lia|assumption|assumption].
    - intros r m _ H. discriminate H.
    - intros r Hr Hu T _. cbn in T. rewrite program_is in T by assumption. unfold prog in T. rewrite snd_up in T by assumption.
      destruct (0 <? c2 n1 r)%Z; discriminate T.
  Qed.

  Lemma inv_send st r t : inv st -> rank r -> vtodo st r = VSend (r + n1)%Z :: t -> snd' r = [VSend (r + n1)%Z] -> t = [] ->
    (forall i j, act r i j -> vbuf st r i j = fin r i j) -> inv (step st r).
  Proof.
    intros I Hr T S Et Bf. subst t. unfold vstep. rewrite T. split; cbn.
    - intros q Hq. destruct (Z.eq_dec q r) as [->|N].
      + apply PhC; cbn; [apply upd_same|assumption].
      + destruct (iph st I q Hq) as [C E F|E F|E F]; [apply PhA|apply PhB|apply PhC]; cbn; rewrite ?upd_other by assumption; assumption.
    - intros q m Hq H i Hi. destruct (Z.eq_dec q r) as [->|N].
      + rewrite upd_same, upd_same in H. inversion H; subst m. unfold last_row. apply Bf. split; [assumption|]. pose proof (pos2 r Hr). lia.
      + rewrite upd_other in H by assumption. eapply ich; eassumption.
    - intros q Hq Hu Tq Tu. destruct (Z.eq_dec q r) as [->|N].
      + rewrite upd_same, upd_same. discriminate.
      + rewrite upd_other by assumption. rewrite upd_other in Tq by assumption.
        apply ipr; try assumption. destruct (Z.eq_dec (q + n1) r) as [Er|Nr].
        * rewrite Er, upd_same in Tu. rewrite <- Er in Tu. rewrite prg_recv in Tu; [discriminate Tu|].
          rewrite c2_up by assumption. pose proof (c2_range n1 n2 P1 q Hq). lia.
        * rewrite upd_other in Tu by assumption. assumption.
  Qed.

  Lemma inv_recv st r m : inv st -> rank r -> (0 < c2 n1 r)%Z -> vtodo st r = prg r ->
    (forall i j, act r i j -> vbuf st r i j = compute sd B1 r i j) ->
    vchan st (r - n1)%Z r = Some m -> inv (step st r).
  Proof.
    intros I Hr C T Bf M. pose proof (below r Hr C) as Hb.
    assert (Mf : forall i, (0 <= i < nx1 r)%Z -> m i = fin (r - n1)%Z i (nx2 (r - n1) - 1)%Z).
    { intros i Hi. apply (ich st I); [assumption| |rewrite same1 by assumption; assumption].
      replace (r - n1 + n1)%Z with r by lia. assumption. }
    unfold vstep. rewrite T, prg_recv by assumption. rewrite M. split; cbn.
    - intros q Hq. destruct (Z.eq_dec q r) as [->|N].
      + apply PhB; cbn; [apply upd_same|]. intros i j H. rewrite upd_same, (proj2 (active_act r i j) H).
        rewrite Bf, Mf by (try assumption; apply H). apply fin_next; assumption.
      + destruct (iph st I q Hq) as [C' E F|E F|E F]; [apply PhA|apply PhB|apply PhC]; cbn; rewrite ?upd_other by assumption; assumption.
    - intros q m' Hq H i Hi. destruct (Z.eq_dec q (r - n1)) as [->|N].
      + replace (r - n1 + n1)%Z with r in H by lia. rewrite upd_same, upd_same in H. discriminate H.
      + rewrite upd_other in H by assumption. eapply ich; eassumption.
    - intros q Hq Hu Tq Tu.
      destruct (Z.eq_dec (q + n1) r) as [Er|Nr].
      + rewrite Er, upd_same in Tu. rewrite prg_recv in Tu by assumption. exfalso.
        destruct (snd_cases r) as [S|S]; rewrite S in Tu; discriminate Tu.
      + rewrite upd_other by lia. rewrite upd_other in Tu by assumption.
        destruct (Z.eq_dec q r) as [->|N].
        * exfalso. rewrite upd_same in Tq. rewrite snd_up in Tq by assumption. discriminate Tq.
        * rewrite upd_other in Tq by assumption. apply ipr; assumption.
  Qed.

  Lemma inv_step st r : inv st -> rank r -> inv (step st r).
  Proof.
    intros I Hr. destruct (iph st I r Hr) as [C T Bf|T Bf|T Bf].
    - destruct (vchan st (r - n1) r) as [m|] eqn:M.
      + apply (inv_recv st r m); assumption.
      + unfold vstep. rewrite T, prg_recv by assumption. rewrite M. assumption.
    - destruct (snd_cases r) as [S|S].
      + unfold vstep. rewrite T, S. assumption.
      + apply (inv_send st r []); try assumption; [rewrite T, S; reflexivity|reflexivity].
    - unfold vstep. rewrite T. assumption.
  Qed.
  Lemma inv_exec sched : forall st, inv st -> Forall rank sched -> inv (exec sched st).
  Proof. induction sched as [|r l IH]; intros st I H; [exact I|]. inversion H; subst. cbn. apply IH; [apply inv_step|]; assumption. Qed.

  Lemma inv_done st r i j : inv st -> vdone n1 n2 st -> rank r -> act r i j -> vbuf st r i j = fin r i j.
  Proof.
    intros I D Hr H. destruct (iph st I r Hr) as [C T _|T Bf|T Bf]; [|apply Bf; assumption|apply Bf; assumption].
    rewrite (D r Hr), prg_recv in T by assumption. discriminate T.
  Qed.

  (** Somebody can move. *)
  Lemma progress st : inv st -> (forall r, rank r -> vtodo st r <> [] ->
    exists q, rank q /\ (length (vtodo (step st q) q) < length (vtodo st q))%nat).
  Proof.
    intro I. intros r Hr. unfold rank in Hr.
    assert (G : forall n r, rank r -> (c2 n1 r <= Z.of_nat n)%Z -> vtodo st r <> [] ->
      exists q, rank q /\ (length (vtodo (step st q) q) < length (vtodo st q))%nat).
    { clear r Hr. induction n as [|n IH]; intros r Hr Hn N.
      - destruct (iph st I r Hr) as [C T Bf|T Bf|T Bf]; [lia| |contradiction].
        exists r. split; [assumption|]. destruct (snd_cases r) as [S|S]; [congruence|].
        unfold vstep. rewrite T, S. cbn. rewrite upd_same. cbn. lia.
      - destruct (iph st I r Hr) as [C T Bf|T Bf|T Bf]; [| |contradiction].
        + pose proof (below r Hr C) as Hb. destruct (vtodo st (r - n1)) as [|o l] eqn:Tb.
          * exists r. split; [assumption|].
            destruct (vchan st (r - n1) r) as [m|] eqn:M.
            -- unfold vstep. rewrite T, prg_recv by assumption. rewrite M. cbn. rewrite upd_same. lia.
            -- exfalso. apply (ipr st I (r - n1)%Z Hb); replace (r - n1 + n1)%Z with r by lia; assumption.
          * apply (IH (r - n1)%Z Hb); [rewrite c2_dn by assumption; lia|congruence].
        + exists r. split; [assumption|]. destruct (snd_cases r) as [S|S]; [congruence|].
          unfold vstep. rewrite T, S. cbn. rewrite upd_same. cbn. lia. }
    apply (G (Z.to_nat (c2 n1 r))); [exact Hr|].
    pose proof (c2_range n1 n2 P1 r Hr). lia.
  Qed.

  Lemma step_other st r q : q <> r -> vtodo (step st r) q = vtodo st q.
  Proof.
    intro N. unfold vstep. destruct (vtodo st r) as [|[d|s] t]; [reflexivity|cbn; apply upd_other; assumption|].
    destruct (vchan st s r); [cbn; apply upd_other; assumption|reflexivity].
  Qed.
  Definition left (st : vstate) (l : list Z) : nat := list_sum (map (fun r => length (vtodo st r)) l).
  Lemma left_step st q l : NoDup l -> In q l -> (length (vtodo (step st q) q) < length (vtodo st q))%nat -> (left (step st q) l < left st l)%nat.
  Proof.
    intros Nd Hq Hl. unfold left.
    assert (E : forall l', ~ In q l' -> map (fun r => length (vtodo (step st q) r)) l' = map (fun r => length (vtodo st r)) l').
    { intros l' H. apply map_ext_in. intros a Ha. rewrite step_other; [reflexivity|]. intros ->. contradiction. }
    induction l as [|a l IH]; [destruct Hq|]. inversion Nd; subst. cbn [map list_sum fold_right].
    change (fold_right Init.Nat.add 0%nat) with list_sum.
    destruct Hq as [->|Hq].
    - rewrite E by assumption. lia.
    - rewrite (step_other st q a) by (intros ->; contradiction). specialize (IH H2 Hq). lia.
  Qed.
  Lemma completes n : forall st, inv st -> (left st (zrange 0 (n1 * n2)) <= n)%nat ->
    exists more, Forall rank more /\ vdone n1 n2 (exec more st).
  Proof.
    assert (All : forall st, (forall r, rank r -> vtodo st r = []) \/ exists r, rank r /\ vtodo st r <> []).
    { intro st. destruct (Exists_dec (fun r => vtodo st r <> []) (zrange 0 (n1 * n2))) as [E|N].
      - intro x. destruct (vtodo st x); [right; congruence|left; discriminate].
      - right. apply Exists_exists in E. destruct E as (r & Hr & H). apply in_zrange in Hr. exists r. split; assumption.
      - left. intros r Hr. destruct (vtodo st r) eqn:T; [reflexivity|]. exfalso. apply N. apply Exists_exists. exists r.
        split; [apply in_zrange; exact Hr|congruence]. }
    induction n as [|n IH]; intros st I Hn.
    - destruct (All st) as [D|(r & Hr & N)]; [exists []; split; [constructor|exact D]|].
      destruct (progress st I r Hr N) as (q & Hq & L).
      pose proof (left_step st q (zrange 0 (n1 * n2)) (nodup_zrange _ _) (proj2 (in_zrange _ _ _) Hq) L). lia.
    - destruct (All st) as [D|(r & Hr & N)]; [exists []; split; [constructor|exact D]|].
      destruct (progress st I r Hr N) as (q & Hq & L).
      pose proof (left_step st q (zrange 0 (n1 * n2)) (nodup_zrange _ _) (proj2 (in_zrange _ _ _) Hq) L) as Lt.
      destruct (IH (step st q) (inv_step st q I Hq)) as (more & F & D); [lia|].
      exists (q :: more). split; [constructor; assumption|exact D].
  Qed.
End Exchange.

(** ** The whole grid *)
Lemma potential_split w i J K : (0 <= J + 1 <= K + 1)%Z ->
  potential w i K = potential w i J + rsum (zrange (J + 1) (K + 1)) (fun k => (w i (k - 1)%Z + w i k) / 2).
Proof. intro H. unfold potential. rewrite (zrange_split 0 (J + 1) (K + 1)), rsum_app by lia. reflexivity. Qed.

Section Whole.
  Variables (l1 l2 : list Z) (sdG : R -> R -> R) (BG : Z -> Z -> R) (sd : Z -> R -> R -> R) (B1 : Z -> Z -> Z -> R).
  Hypothesis W1 : Forall (fun n => 0 < n)%Z l1.
  Hypothesis W2 : Forall (fun n => 0 < n)%Z l2.
  Definition m1 (r : Z) : Z := nth 0 (sub_ncells (sub_of [l1; l2] r)) 0%Z.
  Definition m2 (r : Z) : Z := nth 1 (sub_ncells (sub_of [l1; l2] r)) 0%Z.
  Definition a1 (r : Z) : Z := nth 0 (sub_offset_ncells (sub_of [l1; l2] r)) 0%Z.
  Definition a2 (r : Z) : Z := nth 1 (sub_offset_ncells (sub_of [l1; l2] r)) 0%Z.
  Notation n1 := (len l1).
  Notation n2 := (len l2).
  Hypothesis Hsd : forall r x y, rank n1 n2 r -> sd r x y = sdG (IZR (a1 r) + x) (IZR (a2 r) + y).
  Hypothesis HB : forall r i j, rank n1 n2 r -> (0 <= i < m1 r)%Z -> (-1 <= j < m2 r)%Z -> B1 r i j = BG (a1 r + i)%Z (a2 r + j)%Z.
  Definition wG (i k : Z) : R := sdG (IZR i) (IZR k + / 2) * BG i k.
  Definition finG (r i j : Z) : R := potential wG (a1 r + i)%Z (a2 r + j)%Z.

  Lemma n1_pos r : rank n1 n2 r -> (0 < n1)%Z.
  Proof using. clear. unfold rank, len. intro H. destruct (length l1); lia. Qed.
  Lemma posl l a : Forall (fun n => 0 < n)%Z l -> (0 <= a < len l)%Z -> (0 < blk l a)%Z.
  Proof using. clear. unfold blk, len. intros H Ha. rewrite Forall_forall in H. apply H. apply nth_In. lia. Qed.
  Lemma geom r : rank n1 n2 r -> m1 r = blk l1 (c1 n1 r) /\ m2 r = blk l2 (c2 n1 r) /\ a1 r = off l1 (c1 n1 r) /\ a2 r = off l2 (c2 n1 r).
  Proof using.
    clear. intro H. pose proof (n1_pos r H) as P. unfold m1, m2, a1, a2. rewrite (sub_of_2d l1 l2 r P H). cbn. repeat split; reflexivity.
  Qed.
  Lemma wide0 l : Forall (fun n => 0 < n)%Z l -> wide1 0 l.
  Proof using. clear. intro H. eapply Forall_impl; [|exact H]. cbn. intros. lia. Qed.
  Lemma compute_is r i j : rank n1 n2 r -> act m1 m2 r i j ->
    compute sd B1 r i j = rsum (zrange (a2 r) (a2 r + j + 1)) (fun k => (wG (a1 r + i)%Z (k - 1)%Z + wG (a1 r + i)%Z k) / 2).
  Proof.
    intros Hr [Hi Hj]. unfold compute.
    replace (zrange (a2 r) (a2 r + j + 1)) with (zrange (0 + a2 r) (j + 1 + a2 r)) by (f_equal; lia).
    rewrite zrange_move, rsum_map. apply rsum_ext. intros k Hk. apply in_zrange in Hk.
    rewrite !Hsd, !HB by (assumption || lia). unfold wG.
    replace (a2 r + (k - 1))%Z with (k + a2 r - 1)%Z by lia. replace (a2 r + k)%Z with (k + a2 r)%Z by lia.
    rewrite !minus_IZR, !plus_IZR.
    replace (IZR (a2 r) + (IZR k - / 2)) with (IZR k + IZR (a2 r) - 1 + / 2) by field.
    replace (IZR (a2 r) + (IZR k + / 2)) with (IZR k + IZR (a2 r) + / 2) by ring. field.
  Qed.
  Lemma whole_grid sched : Forall (rank n1 n2) sched ->
    let st := vexec m1 m2 sched (vstart m1 m2 sd B1 n1 n2) in
    (forall r i j, vdone n1 n2 st -> rank n1 n2 r -> (0 <= i < m1 r)%Z -> (0 <= j < m2 r)%Z -> vbuf st r i j = finG r i j) /\
    exists more, Forall (rank n1 n2) more /\ vdone n1 n2 (vexec m1 m2 more st).
  Proof.
    intros Hs st.
    destruct (Z_lt_le_dec 0 n1) as [P|P0].
    2:{ split.
        - intros r i j _ Hr. pose proof (n1_pos r Hr). lia.
        - exists []. split; [constructor|]. intros r Hr. exfalso. unfold len in *. nia. }
    assert (A1 : forall r, rank n1 n2 r -> rank n1 n2 (r - n1)%Z -> m1 (r - n1)%Z = m1 r).
    { intros r Hr Hb. destruct (geom r Hr) as (E & _). destruct (geom _ Hb) as (E' & _). rewrite E, E', c1_dn by assumption. reflexivity. }
    assert (A2 : forall r, rank n1 n2 r -> (0 < m2 r)%Z).
    { intros r Hr. destruct (geom r Hr) as (_ & E & _). rewrite E. apply posl; [assumption|]. apply c2_range; assumption. }
    assert (A3 : forall r i j, rank n1 n2 r -> c2 n1 r = 0%Z -> act m1 m2 r i j -> compute sd B1 r i j = finG r i j).
    { intros r i j Hr C H. rewrite compute_is by assumption. destruct (geom r Hr) as (_ & _ & _ & E). rewrite E, C.
      pose proof (c2_range n1 n2 P r Hr). rewrite off_0 by lia. unfold finG, potential. rewrite E, C, off_0 by lia. reflexivity. }
    assert (A4 : forall r i j, rank n1 n2 r -> (0 < c2 n1 r)%Z -> act m1 m2 r i j ->
      compute sd B1 r i j + finG (r - n1)%Z i (m2 (r - n1) - 1)%Z = finG r i j).
    { intros r i j Hr C H. pose proof (below n1 n2 P r Hr C) as Hb. pose proof (c2_range n1 n2 P r Hr) as Cr.
      rewrite compute_is by assumption. unfold finG.
      destruct (geom r Hr) as (_ & _ & E1 & E2). destruct (geom _ Hb) as (_ & F2 & G1 & G2).
      rewrite c2_dn in F2, G2 by assumption. rewrite c1_dn in G1 by assumption.
      assert (Q : (a2 (r - n1) + (m2 (r - n1) - 1) + 1 = a2 r)%Z).
      { rewrite F2, G2, E2. pose proof (off_next l2 (c2 n1 r - 1)) as O. replace (c2 n1 r - 1 + 1)%Z with (c2 n1 r) in O by lia. rewrite O by lia. lia. }
      assert (a1 (r - n1)%Z = a1 r) as -> by congruence.
      rewrite (potential_split wG (a1 r + i) (a2 (r - n1) + (m2 (r - n1) - 1)) (a2 r + j)).
      - rewrite Q. ring.
      - pose proof (off_nonneg 0 l2 (c2 n1 r) (wide0 l2 W2) Cr). destruct H. lia. }
    assert (I : inv m1 m2 sd B1 n1 n2 finG st).
    { apply inv_exec; try assumption. apply inv_start; assumption. }
    split.
    - intros r i j D Hr Hi Hj. eapply inv_done; try eassumption. split; assumption.
    - eapply completes; try eassumption; apply le_n.
  Qed.
End Whole.

(** ** What is integrated *)
Lemma rsum_zrange_S (f : Z -> R) n : rsum (zrange 0 (Z.of_nat (S n))) f = rsum (zrange 0 (Z.of_nat n)) f + f (Z.of_nat n).
Proof.
  rewrite (zrange_split 0 (Z.of_nat n)), rsum_app by lia. rewrite (zrange_cons (Z.of_nat n)), (zrange_empty (Z.of_nat n + 1)) by lia. cbn. ring.
Qed.
Lemma potential_quadratic w i c0 c1 c2 J : (-1 <= J)%Z ->
  (forall k, (-1 <= k <= J)%Z -> w i k = c1 + 2 * c2 * (IZR k + / 2)) ->
  let A y := c0 + c1 * y + c2 * (y * y) in potential w i J = A (IZR J + / 2) - A (- / 2).
Proof.
  intros HJ Hw A. unfold potential.
  rewrite (rsum_ext _ _ (fun k => c1 + 2 * c2 * IZR k)).
  2:{ intros k Hk. apply in_zrange in Hk. rewrite !Hw by lia. rewrite minus_IZR. field. }
  unfold A. clear Hw A. replace (J + 1)%Z with (Z.of_nat (Z.to_nat (J + 1))) by lia. replace (IZR J) with (INR (Z.to_nat (J + 1)) - 1).
  2:{ rewrite INR_IZR_INZ, Z2Nat.id, plus_IZR by lia. ring. }
  induction (Z.to_nat (J + 1)) as [|n IH].
  - cbn. field.
  - rewrite rsum_zrange_S, IH, S_INR, <- INR_IZR_INZ. field.
Qed.
Lemma potential_step w i J : (0 <= J)%Z -> potential w i J - potential w i (J - 1) = (w i (J - 1)%Z + w i J) / 2.
Proof.
  intro H. rewrite (potential_split w i (J - 1) J) by lia. replace (J - 1 + 1)%Z with J by lia.
  rewrite (zrange_cons J), (zrange_empty (J + 1)) by lia. cbn. ring.
Qed.
Lemma potential_first w i : w i (-1)%Z = - w i 0%Z -> potential w i 0 = 0.
Proof. intro H. unfold potential. change (zrange 0 (0 + 1)) with [0%Z]. cbn [rsum fold_right]. change (0 - 1)%Z with (-1)%Z. rewrite H. field. Qed.
Lemma no_deadlock : forall (l1 l2 : list Z) (sd : Z -> R -> R -> R) (B1 : Z -> Z -> Z -> R) sched,
  let n1 := Z.of_nat (length l1) in let n2 := Z.of_nat (length l2) in
  let size k r := nth k (sub_ncells (sub_of [l1; l2] r)) 0%Z in
  let is_rank r := (0 <= r < n1 * n2)%Z in
  Forall (fun n => 0 < n)%Z l1 -> Forall (fun n => 0 < n)%Z l2 -> Forall is_rank sched ->
  let run l st := vexec (size 0%nat) (size 1%nat) l st in
  exists more, Forall is_rank more /\ vdone n1 n2 (run more (run sched (vstart (size 0%nat) (size 1%nat) sd B1 n1 n2))).
Proof.
  intros l1 l2 sd B1 sched n1 n2 size is_rank W1 W2 F run.
  set (N := m2 l1 l2).
  (* the values do not matter here: the invariant with the values of the exchange itself *)
  set (fin := fun r i j => rsum (zrange 0 (c2 (len l1) r)) (fun k =>
     compute sd B1 (k * len l1 + c1 (len l1) r)%Z i (N (k * len l1 + c1 (len l1) r) - 1)%Z) + compute sd B1 r i j).
  destruct (Z_lt_le_dec 0 (len l1)) as [P|P0].
  2:{ exists []. split; [constructor|]. intros r Hr. exfalso. unfold len in *. nia. }
  assert (A1 : forall r, rank (len l1) (len l2) r -> rank (len l1) (len l2) (r - len l1)%Z -> m1 l1 l2 (r - len l1)%Z = m1 l1 l2 r).
  { intros r Hr Hb. destruct (geom l1 l2 r Hr) as (E & _). destruct (geom l1 l2 _ Hb) as (E' & _). rewrite E, E', c1_dn by assumption. reflexivity. }
  assert (A2 : forall r, rank (len l1) (len l2) r -> (0 < m2 l1 l2 r)%Z).
  { intros r Hr. destruct (geom l1 l2 r Hr) as (_ & E & _). rewrite E. apply posl; [assumption|]. apply c2_range; assumption. }
  assert (A3 : forall r i j, rank (len l1) (len l2) r -> c2 (len l1) r = 0%Z -> act (m1 l1 l2) (m2 l1 l2) r i j -> compute sd B1 r i j = fin r i j).
  { intros r i j Hr C H. unfold fin. rewrite C. cbn. ring. }
  assert (A4 : forall r i j, rank (len l1) (len l2) r -> (0 < c2 (len l1) r)%Z -> act (m1 l1 l2) (m2 l1 l2) r i j ->
    compute sd B1 r i j + fin (r - len l1)%Z i (N (r - len l1) - 1)%Z = fin r i j).
  { intros r i j Hr C H. unfold fin. rewrite c2_dn, c1_dn by assumption.
    assert (E : zrange 0 (c2 (len l1) r) = zrange 0 (c2 (len l1) r - 1) ++ [(c2 (len l1) r - 1)%Z]).
    { rewrite (zrange_split 0 (c2 (len l1) r - 1) (c2 (len l1) r)) by lia. f_equal.
      rewrite zrange_cons, zrange_empty by lia. reflexivity. }
    rewrite E, rsum_app. cbn [rsum fold_right].
    replace ((c2 (len l1) r - 1) * len l1 + c1 (len l1) r)%Z with (r - len l1)%Z.
    - unfold rsum. ring.
    - pose proof (c_eq (len l1) P r). nia. }
  assert (I : inv (m1 l1 l2) (m2 l1 l2) sd B1 (len l1) (len l2) fin (run sched (vstart (size 0%nat) (size 1%nat) sd B1 n1 n2))).
  { apply inv_exec; try assumption. apply inv_start; assumption. }
  eapply completes; try eassumption; apply le_n.
Qed.
Lemma axis_refuted : exists (w : Z -> Z -> R) (A : R -> R),
  (forall i k, w i k = 2 * (IZR k + / 2)) /\ (forall y, A y = y * y) /\
  forall i, potential w i 0 <> A (/ 2) - A 0.
Proof.
  exists (fun _ k => 2 * (IZR k + / 2)), (fun y => y * y). split; [reflexivity|]. split; [reflexivity|]. intro i.
  rewrite potential_first by (cbn; lra). lra.
Qed.
