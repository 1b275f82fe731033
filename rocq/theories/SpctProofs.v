(** Proofs about energy spectra. *)
From Coq Require Import Reals ZArith List Bool Lia Lra Permutation.
From Verif Require Import Base MetModel MetSpec KsModel KsSpec PoutModel SpctModel SpctSpec.
Import ListNotations.
Open Scope R_scope.

(** ** The index *)
Lemma nfloor v n : 0 <= v -> v < INR n -> (Z.to_nat (Int_part v) < n)%nat /\ forall b, b = Z.to_nat (Int_part v) <-> INR b <= v < INR (S b).
Proof.
  intros Hv Hn. destruct (base_Int_part v) as [B1 B2].
  assert (P : (0 <= Int_part v)%Z).
  { apply Z.lt_succ_r. apply lt_IZR. rewrite succ_IZR. lra. }
  assert (E : INR (Z.to_nat (Int_part v)) = IZR (Int_part v)) by (rewrite INR_IZR_INZ, Z2Nat.id by exact P; reflexivity).
  split.
  - apply INR_lt. rewrite E. lra.
  - intro b. split.
    + intros ->. rewrite S_INR, E. lra.
    + rewrite S_INR. intros [C1 C2]. destruct (lt_eq_lt_dec b (Z.to_nat (Int_part v))) as [[L|L]|L]; [exfalso|exact L|exfalso]; apply le_INR in L; rewrite S_INR in L; lra.
Qed.
Lemma bin_linear n lo hi v : (0 < n)%nat -> lo < hi -> v < hi -> exists b, bin_of n (Fin lo) (Fin hi) (Fin v) = Ok b /\ (b < n)%nat /\
  forall b', (b' < n)%nat -> (b' = b <-> in_bin (even_edge lo hi n) b' v).
Proof.
  intros Hn Hlh Hv. unfold bin_of, ext_le. assert (Pn : 0 < INR n) by (apply lt_0_INR; exact Hn).
  assert (Pw : 0 < (hi - lo) / INR n) by (apply Rdiv_lt_0_compat; lra).
  destruct (Rle_dec v lo) as [L|L].
  - exists O. split; [reflexivity|]. split; [exact Hn|]. intros b' Hb. unfold in_bin, even_edge. split.
    + intros ->. split; [left; reflexivity|]. cbn [INR]. lra.
    + intros [[C|C] _]; [exact C|]. destruct b' as [|b']; [reflexivity|exfalso]. rewrite S_INR in C. pose proof (pos_INR b') as Q. 
      pose proof (Rmult_le_pos _ _ Q (Rlt_le _ _ Pw)). lra.
  - destruct (Rle_dec hi v) as [C|C]; [lra|].
    set (r := INR n * (v - lo) / (hi - lo)).
    assert (R0 : 0 <= r) by (unfold r; apply Rlt_le, Rdiv_lt_0_compat; [apply Rmult_lt_0_compat; lra|lra]).
    assert (R1 : r < INR n).
    { unfold r. apply Rmult_lt_reg_r with (hi - lo); [lra|]. unfold Rdiv. rewrite Rmult_assoc, Rinv_l by lra. rewrite Rmult_1_r. apply Rmult_lt_compat_l; lra. }
    destruct (nfloor r n R0 R1) as [F1 F2]. exists (Z.to_nat (Int_part r)). split; [reflexivity|]. split; [exact F1|]. intros b' Hb. rewrite F2. unfold in_bin, even_edge.
    assert (Ev : v = lo + r * ((hi - lo) / INR n)) by (unfold r; field; lra).
    split.
    + intros [G1 G2]. split; [right|]; rewrite Ev.
      * apply Rplus_le_compat_l, Rmult_le_compat_r; lra.
      * apply Rplus_lt_compat_l, Rmult_lt_compat_r; lra.
    + intros [G1 G2]. split.
      * destruct G1 as [->|G1]; [exact R0|]. rewrite Ev in G1. apply Rmult_le_reg_r with ((hi - lo) / INR n); lra.
      * rewrite Ev in G2. apply Rmult_lt_reg_r with ((hi - lo) / INR n); lra.
Qed.
Lemma ln10 : 0 < ln 10.
Proof. rewrite <- ln_1. apply ln_increasing; lra. Qed.
Lemma ratio_ln lo hi n k : 0 < lo -> lo < hi -> (0 < n)%nat ->
  ratio_edge lo hi n k = exp (ln 10 * even_edge (ln lo / ln 10) (ln hi / ln 10) n k).
Proof.
  intros Hl Hh Hn. pose proof ln10 as T. assert (Pn : 0 < INR n) by (apply lt_0_INR; exact Hn). unfold ratio_edge, even_edge, Rpower.
  rewrite <- (exp_ln lo) at 1 by exact Hl. rewrite <- exp_plus. f_equal. unfold Rdiv at 2. rewrite ln_mult by (try apply Rinv_0_lt_compat; lra). rewrite ln_Rinv by exact Hl. field. lra.
Qed.
Lemma ratio_pos lo hi n k : 0 < lo -> lo < hi -> (0 < n)%nat -> 0 < ratio_edge lo hi n k.
Proof. intros. rewrite ratio_ln by assumption. apply exp_pos. Qed.
Lemma bin_ok lg n lo hi v : usable lg lo hi n -> (lg = true -> 0 <= v) -> v < hi -> exists b, bin_of n (scale lg lo) (scale lg hi) (scale lg v) = Ok b /\ (b < n)%nat /\
  forall b', (b' < n)%nat -> (b' = b <-> in_bin (true_edge lg lo hi n) b' v).
Proof.
  intros (Hn & Hlh & Hl) Hv Hh. destruct lg; [|apply bin_linear; assumption].
  specialize (Hl eq_refl). specialize (Hv eq_refl). pose proof ln10 as T. unfold scale, log10.
  destruct (Rlt_dec 0 lo) as [_|]; [|lra]. destruct (Rlt_dec 0 hi) as [_|]; [|lra].
  destruct (Rlt_dec 0 v) as [Pv|Zv].
  - assert (M : forall x y, 0 < x -> x < y -> ln x / ln 10 < ln y / ln 10).
    { intros x y Hx Hxy. apply Rmult_lt_compat_r; [apply Rinv_0_lt_compat; exact T|]. apply ln_increasing; assumption. }
    destruct (bin_linear n (ln lo / ln 10) (ln hi / ln 10) (ln v / ln 10) Hn (M _ _ Hl Hlh) (M _ _ Pv Hh)) as (b & E & B & H).
    exists b. split; [exact E|]. split; [exact B|]. intros b' Hb. rewrite (H b' Hb). unfold in_bin, true_edge.
    assert (Ev : v = exp (ln 10 * (ln v / ln 10))) by (replace (ln 10 * (ln v / ln 10)) with (ln v) by (field; lra); rewrite exp_ln by exact Pv; reflexivity).
    assert (L1 : forall k, even_edge (ln lo / ln 10) (ln hi / ln 10) n k <= ln v / ln 10 <-> ratio_edge lo hi n k <= v).
    { intro k. rewrite (ratio_ln lo hi n k) by assumption. rewrite Ev at 2. split; intro Q.
      - destruct Q as [Q|Q]; [left; apply exp_increasing, Rmult_lt_compat_l; assumption|right; rewrite Q; reflexivity].
      - apply Rmult_le_reg_l with (ln 10); [exact T|]. destruct Q as [Q|Q]; [left; apply exp_lt_inv; exact Q|right; apply exp_inv; exact Q]. }
    assert (L2 : forall k, ln v / ln 10 < even_edge (ln lo / ln 10) (ln hi / ln 10) n k <-> v < ratio_edge lo hi n k).
    { intro k. split; intro Q; apply Rnot_le_lt; intro C; apply (Rlt_not_le _ _ Q); apply L1; exact C. }
    rewrite L1, L2. reflexivity.
  - destruct (Req_EM_T v 0) as [->|]; [|lra]. exists O. split; [reflexivity|]. split; [exact Hn|]. intros b' Hb. unfold in_bin, true_edge. split.
    + intros ->. split; [left; reflexivity|]. apply ratio_pos; assumption.
    + intros [[C|C] _]; [exact C|]. pose proof (ratio_pos lo hi n b' Hl Hlh Hn). lra.
Qed.
Lemma bin_over lg n lo hi v : usable lg lo hi n -> hi <= v -> bin_of n (scale lg lo) (scale lg hi) (scale lg v) = Ok n.
Proof.
  intros (Hn & Hlh & Hl) Hh. assert (G : forall a b c, a < b -> b <= c -> bin_of n (Fin a) (Fin b) (Fin c) = Ok n).
  { intros a b c H1 H2. unfold bin_of, ext_le. destruct (Rle_dec c a); [lra|]. destruct (Rle_dec b c); [reflexivity|lra]. }
  destruct lg; [|apply G; assumption]. specialize (Hl eq_refl). pose proof ln10 as T. unfold scale, log10.
  destruct (Rlt_dec 0 lo); [|lra]. destruct (Rlt_dec 0 hi); [|lra]. destruct (Rlt_dec 0 v); [|lra].
  apply G.
  - apply Rmult_lt_compat_r; [apply Rinv_0_lt_compat; exact T|]. apply ln_increasing; assumption.
  - apply Rmult_le_compat_r; [apply Rlt_le, Rinv_0_lt_compat; exact T|]. destruct Hh as [Hh|<-]; [left; apply ln_increasing; lra|right; reflexivity].
Qed.
Lemma edge_ok lg lo hi n k : usable lg lo hi n -> edge lg n lo hi k = Some (true_edge lg lo hi n k).
Proof.
  intros (Hn & Hlh & Hl). unfold edge, scale, true_edge. assert (Pn : 0 < INR n) by (apply lt_0_INR; exact Hn).
  destruct (Nat.eqb_spec n 0) as [->|_]; [lia|]. destruct lg.
  - specialize (Hl eq_refl). unfold log10. destruct (Rlt_dec 0 lo); [|lra]. destruct (Rlt_dec 0 hi); [|lra]. f_equal. rewrite ratio_ln by assumption. unfold Rpower, even_edge. f_equal. field. pose proof ln10. lra.
  - f_equal. unfold even_edge. field. lra.
Qed.

(** ** Sums *)
Definition rs (l : list R) : R := fold_right Rplus 0 l.
Lemma rs_perm l l' : Permutation l l' -> rs l = rs l'.
Proof. unfold rs. induction 1; cbn in *; congruence || lra. Qed.
Lemma rs_app l l' : rs (l ++ l') = rs l + rs l'.
Proof. unfold rs. induction l; cbn in *; lra. Qed.
Lemma weighs_rs (P : prt -> Prop) (f : prt -> bool) l : (forall p, In p l -> (f p = true <-> P p)) -> weighs P l (rs (map (fun p => if f p then p_w p else 0) l)).
Proof.
  induction l as [|p l IH]; intro H; [constructor|]. cbn. destruct (f p) eqn:E.
  - apply weighs_in; [apply H; [now left|exact E]|apply IH; intros q Hq; apply H; now right].
  - replace (0 + _) with (rs (map (fun p => if f p then p_w p else 0) l)) by (unfold rs; lra). apply weighs_out; [|apply IH; intros q Hq; apply H; now right].
    intro Q. apply H in Q; [congruence|now left].
Qed.
Lemma weighs_unique P l w w' : weighs P l w -> weighs P l w' -> w = w'.
Proof. intro W. revert w'. induction W; intros w' W'; inversion W'; subst; try contradiction; try reflexivity; [f_equal|]; auto. Qed.

Section Spectrum.
  Variables (en : prt -> R) (lg : bool) (n : nat) (lo hi : R).
  Hypothesis HU : usable lg lo hi n.
  Definition isalive p := Z.eqb (p_tag p) 1.
  Definition idx p := match bin_of n (scale lg lo) (scale lg hi) (scale lg (en p)) with Ok b => b | _ => O end.
  Definition good p := alive p -> (lg = true -> 0 <= en p) /\ en p < hi.
  Lemma tally_ok p dn : good p -> exists dn', tally en lg n lo hi dn p = Ok dn' /\ forall b, dn' b = dn b + (if isalive p && Nat.eqb b (idx p) then p_w p else 0).
  Proof.
    intro G. unfold tally, isalive. destruct (Z.eqb_spec (p_tag p) 1) as [E|E].
    - destruct (G E) as [G1 G2]. destruct (bin_ok lg n lo hi (en p) HU G1 G2) as (b & Eb & B & _). unfold idx. rewrite Eb. cbn [rbind].
      rewrite (proj2 (Nat.ltb_lt _ _) B). eexists. split; [reflexivity|]. intro b'. cbn. destruct Nat.eqb; lra.
    - eexists. split; [reflexivity|]. intro b. cbn. lra.
  Qed.
  Lemma tallies_ok : forall ps dn, (forall p, In p ps -> good p) -> exists dn', tallies en lg n lo hi ps dn = Ok dn' /\
    forall b, dn' b = dn b + rs (map (fun p => if isalive p && Nat.eqb b (idx p) then p_w p else 0) ps).
  Proof.
    induction ps as [|p ps IH]; intros dn H; [eexists; split; [reflexivity|intro b; cbn; lra]|].
    destruct (tally_ok p dn (H p (or_introl eq_refl))) as (d1 & E1 & V1). destruct (IH d1) as (d2 & E2 & V2); [intros q Hq; apply H; now right|].
    exists d2. cbn [tallies]. rewrite E1. cbn [rbind]. split; [exact E2|]. intro b. rewrite V2, V1. cbn [map rs fold_right]. unfold rs. lra.
  Qed.
  Lemma fold_plus {A} (f : A -> R) l : forall s, fold_left (fun s a => s + f a) l s = s + rs (map f l).
  Proof. induction l as [|a l IH]; intro s; cbn; [lra|]. rewrite IH. unfold rs. lra. Qed.
  Lemma spectrum_ok order ranks : (forall l, Permutation (order l) l) -> (forall p, In p (concat ranks) -> good p) ->
    exists dn, spectrum en lg n lo hi order ranks = Ok dn /\ forall b, dn b = rs (map (fun p => if isalive p && Nat.eqb b (idx p) then p_w p else 0) (concat ranks)).
  Proof.
    intros HO HG. unfold spectrum.
    assert (A : exists all, mapM (fun ps => tallies en lg n lo hi (order ps) (fun _ => 0)) ranks = Ok all /\
      forall b, rs (map (fun dn => dn b) all) = rs (map (fun p => if isalive p && Nat.eqb b (idx p) then p_w p else 0) (concat ranks))).
    { induction ranks as [|ps ranks IH]; [exists []; split; reflexivity|].
      destruct IH as (all & E & V); [intros p Hp; apply HG; cbn; apply in_or_app; right; exact Hp|].
      destruct (tallies_ok (order ps) (fun _ => 0)) as (dn & E1 & V1).
      { intros p Hp. apply HG. cbn. apply in_or_app. left. eapply Permutation_in; [apply HO|exact Hp]. }
      exists (dn :: all). cbn [mapM]. rewrite E1. cbn [rbind]. rewrite E. cbn [rbind]. split; [reflexivity|]. intro b. cbn [map concat]. rewrite map_app, rs_app, <- V.
      cbn [rs fold_right]. fold (rs (map (fun dn => dn b) all)). rewrite V1. rewrite (rs_perm _ _ (Permutation_map _ (HO ps))). lra. }
    destruct A as (all & E & V). rewrite E. cbn [rbind]. eexists. split; [reflexivity|]. intro b. cbn beta. rewrite (fold_plus (fun dn : nat -> R => dn b)). rewrite V. lra.
  Qed.
  Lemma rs_swap {A} (f : A -> nat -> R) (l : list A) : forall m, rs (map (fun b => rs (map (fun p => f p b) l)) m) = rs (map (fun p => rs (map (f p) m)) l).
  Proof.
    induction m as [|b m IH]; [unfold rs; cbn; induction l; cbn in *; lra|]. cbn [map rs fold_right]. fold (rs (map (fun b => rs (map (fun p => f p b) l)) m)). rewrite IH. clear IH. unfold rs. induction l; cbn in *; lra.
  Qed.
  Lemma rs_one (k : nat) w : forall m s, rs (map (fun b => if Nat.eqb b k then w else 0) (seq s m)) = if (Nat.leb s k && Nat.ltb k (s + m))%bool then w else 0.
  Proof.
    induction m as [|m IH]; intro s.
    - cbn [seq map]. unfold rs. cbn [fold_right]. destruct (Nat.leb_spec s k), (Nat.ltb_spec k (s + 0)); cbn; try lra; lia.
    - cbn [seq map rs fold_right]. fold (rs (map (fun b => if Nat.eqb b k then w else 0) (seq (S s) m))). rewrite IH.
      destruct (Nat.eqb_spec s k), (Nat.leb_spec (S s) k), (Nat.ltb_spec k (S s + m)), (Nat.leb_spec s k), (Nat.ltb_spec k (s + S m)); cbn; try lra; lia.
  Qed.
  Theorem spectrum_spec order ranks : (forall l, Permutation (order l) l) -> (forall p, In p (concat ranks) -> good p) ->
    exists dn, spectrum en lg n lo hi order ranks = Ok dn /\
      (forall b, (b < n)%nat -> weighs (fun p => alive p /\ in_bin (true_edge lg lo hi n) b (en p)) (concat ranks) (dn b)) /\
      weighs alive (concat ranks) (fold_right Rplus 0 (map dn (seq 0 n))).
  Proof.
    intros HO HG. destruct (spectrum_ok order ranks HO HG) as (dn & E & V). exists dn. split; [exact E|]. split.
    - intros b Hb. rewrite V. apply weighs_rs. intros p Hp. rewrite andb_true_iff, Nat.eqb_eq. unfold isalive. rewrite Z.eqb_eq. fold (alive p).
      assert (K : alive p -> (b = idx p <-> in_bin (true_edge lg lo hi n) b (en p))).
      { intro A. destruct (HG p Hp A) as [G1 G2]. destruct (bin_ok lg n lo hi (en p) HU G1 G2) as (b0 & Eb & B & H). unfold idx. rewrite Eb. apply H. exact Hb. }
      tauto.
    - fold (rs (map dn (seq 0 n))). rewrite (map_ext _ _ V). rewrite rs_swap.
      rewrite (map_ext_in _ (fun p => if isalive p then p_w p else 0)).
      + apply weighs_rs. intros p _. unfold isalive, alive. apply Z.eqb_eq.
      + intros p Hp. unfold isalive. destruct (Z.eqb_spec (p_tag p) 1) as [A|A]; cbn [andb].
        * rewrite (rs_one (idx p) (p_w p) n 0). cbn [Nat.leb andb Nat.add]. destruct (HG p Hp A) as [G1 G2]. destruct (bin_ok lg n lo hi (en p) HU G1 G2) as (b0 & Eb & B & _). unfold idx. rewrite Eb.
          rewrite (proj2 (Nat.ltb_lt _ _) B). reflexivity.
        * generalize (seq 0 n). induction l as [|x l IH]; cbn in *; [reflexivity|]. unfold rs in IH. rewrite IH. lra.
  Qed.
  (** Past the last edge. *)
  Lemma tallies_over : forall ps dn, (forall p, In p ps -> alive p -> (lg = true -> 0 <= en p)) -> (exists p, In p ps /\ alive p /\ hi <= en p) -> tallies en lg n lo hi ps dn = UB.
  Proof.
    induction ps as [|p ps IH]; intros dn HP (q & Hq & Aq & Lq); [contradiction|]. cbn [tallies].
    destruct (Z.eq_dec (p_tag p) 1) as [A|A].
    - destruct (Rle_lt_dec hi (en p)) as [L|L].
      + unfold tally. rewrite (proj2 (Z.eqb_eq _ _) A), bin_over by assumption. cbn [rbind]. rewrite Nat.ltb_irrefl. reflexivity.
      + destruct (tally_ok p dn) as (d1 & E & _). { intros _. split; [apply HP; [now left|exact A]|exact L]. }
        rewrite E. cbn [rbind]. apply IH; [intros x Hx; apply HP; now right|]. exists q. destruct Hq as [<-|Hq]; [lra|auto].
    - destruct (tally_ok p dn) as (d1 & E & _); [intro C; contradiction|]. rewrite E. cbn [rbind]. apply IH; [intros x Hx; apply HP; now right|].
      exists q. destruct Hq as [<-|Hq]; [contradiction|auto].
  Qed.
  Theorem spectrum_over order ranks : (forall l, Permutation (order l) l) -> (forall p, In p (concat ranks) -> alive p -> (lg = true -> 0 <= en p)) ->
    (exists p, In p (concat ranks) /\ alive p /\ hi <= en p) -> spectrum en lg n lo hi order ranks = UB.
  Proof.
    intros HO HP (q & Hq & Aq & Lq). unfold spectrum.
    assert (A : mapM (fun ps => tallies en lg n lo hi (order ps) (fun _ => 0)) ranks = UB); [|rewrite A; reflexivity].
    induction ranks as [|ps ranks IH]; [contradiction|]. cbn [mapM]. cbn [concat] in Hq, HP.
    assert (D : (exists p, In p ps /\ alive p /\ hi <= en p) \/ (forall p, In p ps -> good p)).
    { clear IH Hq. assert (HP' : forall p, In p ps -> alive p -> lg = true -> 0 <= en p) by (intros p Hp; apply HP; apply in_or_app; left; exact Hp). clear HP.
      induction ps as [|p ps IH]; [right; contradiction|]. destruct IH as [(x & X)|G]; [intros x Hx; apply HP'; now right|left; exists x; intuition auto; now right|].
      destruct (Z.eq_dec (p_tag p) 1) as [A|A]; [destruct (Rle_lt_dec hi (en p)) as [L|L]|].
      - left. exists p. split; [now left|split; assumption].
      - right. intros x [<-|Hx]; [intros _; split; [apply HP'; [now left|exact A]|exact L]|apply G; exact Hx].
      - right. intros x [<-|Hx]; [intro C; contradiction|apply G; exact Hx]. }
    destruct D as [D|D].
    - rewrite tallies_over; [reflexivity| |].
      + intros p Hp. apply HP. apply in_or_app. left. eapply Permutation_in; [apply HO|exact Hp].
      + destruct D as (x & X1 & X2). exists x. split; [eapply Permutation_in; [apply Permutation_sym, HO|exact X1]|exact X2].
    - destruct (tallies_ok (order ps) (fun _ => 0)) as (dn & E & _). { intros p Hp. apply D. eapply Permutation_in; [apply HO|exact Hp]. }
      rewrite E. cbn [rbind]. rewrite IH; [reflexivity| |].
      + intros p Hp. apply HP. apply in_or_app. right. exact Hp.
      + apply in_app_or in Hq as [Hq|Hq]; [|exact Hq]. destruct (D q Hq Aq) as [_ D2]. lra.
  Qed.
End Spectrum.
