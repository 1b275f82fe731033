From Coq Require Import ZArith List Bool Arith Lia Permutation.
From Verif Require Import Base ListLemmas PrtlModel PrtlSpec CkptModel CkptSpec.
Import ListNotations.
Open Scope Z_scope.

(** * A list of blocks written one after the other *)
Record block := { bname : pvar; bsize : Z; bfirst : Z; bvals : list Z }.
Definition blen (b : block) : Z := Z.of_nat (length (bvals b)).
Definition bfits (b : block) : Prop := 0 <= bfirst b /\ bfirst b + blen b <= bsize b.
Definition bput (b : block) : pfile -> res pfile := pput (bname b) (bsize b) (bfirst b) (bvals b).
Definition apart (b b' : block) : Prop :=
  bname b <> bname b' \/ bfirst b + blen b <= bfirst b' \/ bfirst b' + blen b' <= bfirst b.
Definition has (f : pfile) (b : block) : Prop :=
  forall k, (k < length (bvals b))%nat -> f (bname b) (bfirst b + Z.of_nat k) = nth_error (bvals b) k.

Fixpoint bputs (l : list block) (f : pfile) : res pfile :=
  match l with [] => Ok f | b :: l' => rbind (bput b f) (bputs l') end.

Lemma bputs_app l l' f : bputs (l ++ l') f = rbind (bputs l f) (bputs l').
Proof. revert f; induction l as [|b l IH]; intros f; simpl; auto. destruct (bput b f); simpl; auto. Qed.

Lemma bput_ok b f : bfits b -> exists f', bput b f = Ok f' /\ has f' b /\ (forall b', has f b' -> apart b b' -> has f' b').
Proof.
  intros [F1 F2]. unfold bput, pput, blen in *.
  assert (E : (0 <=? bfirst b) && (bfirst b + Z.of_nat (length (bvals b)) <=? bsize b) = true)
    by (apply andb_true_intro; split; lia).
  rewrite E. eexists; split; [reflexivity|]. split.
  - intros k Hk. destruct (pvar_eq_dec _ _); [|congruence].
    assert (X : (bfirst b <=? bfirst b + Z.of_nat k) && (bfirst b + Z.of_nat k <? bfirst b + Z.of_nat (length (bvals b))) = true)
      by (apply andb_true_intro; split; lia).
    rewrite X. f_equal. lia.
  - intros b' H A k Hk. destruct (pvar_eq_dec _ _); [|apply H; auto].
    destruct ((bfirst b <=? bfirst b' + Z.of_nat k) &&
      (bfirst b' + Z.of_nat k <? bfirst b + Z.of_nat (length (bvals b)))) eqn:X; [|apply H; auto].
    apply andb_prop in X as [X1 X2]. destruct A as [A|A]; [congruence|].
    unfold blen in A. lia.
Qed.

Lemma bputs_ok l f : Forall bfits l -> ForallOrdPairs apart l ->
  exists f', bputs l f = Ok f' /\ (forall b, In b l -> has f' b) /\
    (forall b', has f b' -> Forall (fun b => apart b b') l -> has f' b').
Proof.
  revert f; induction l as [|b l IH]; intros f F O.
  - exists f. split; [reflexivity|]. split; [intros ? []|auto].
  - inversion F as [|? ? F1 F2]; subst. inversion O as [|? ? O1 O2]; subst.
    destruct (bput_ok b f F1) as [f1 [E1 [H1 K1]]]. destruct (IH f1 F2 O2) as [f2 [E2 [H2 K2]]].
    exists f2. split; [simpl; rewrite E1; exact E2|]. split.
    + intros b' [<-|Hb]; auto. apply K2; auto.
      eapply Forall_impl; [|exact O1]. intros b' A. unfold apart in *. intuition auto.
    + intros b' H A. inversion A; subst. apply K2; auto.
Qed.

Lemma pget_has f b n : has f b -> length (bvals b) = n -> pget (bname b) (bfirst b) n f = Ok (bvals b).
Proof.
  intros H <-. unfold pget.
  assert (E : map (fun k => f (bname b) (bfirst b + Z.of_nat k)) (seq 0 (length (bvals b))) = map Some (bvals b)).
  { transitivity (map (nth_error (bvals b)) (seq 0 (length (bvals b)))).
    - apply map_ext_in. intros k Hk. apply in_seq in Hk. apply H. lia.
    - generalize (bvals b). clear. induction l as [|a l IH]; simpl; auto. f_equal.
      rewrite <- seq_shift, map_map. simpl. exact IH. }
  rewrite E. generalize (bvals b). clear. induction l as [|a l IH]; simpl; auto. rewrite IH. auto.
Qed.

Lemma fop_app {A} (P : A -> A -> Prop) l l' : ForallOrdPairs P l -> ForallOrdPairs P l' ->
  (forall a b, In a l -> In b l' -> P a b) -> ForallOrdPairs P (l ++ l').
Proof.
  induction 1 as [|a l H H' IH]; simpl; intros F C; auto. constructor.
  - apply Forall_app. split; auto. apply Forall_forall. intros b Hb. apply C; auto.
  - apply IH; auto.
Qed.
Lemma fop_flat_map {A B} (P : B -> B -> Prop) (f : A -> list B) l : NoDup l ->
  (forall a, In a l -> ForallOrdPairs P (f a)) ->
  (forall a a', In a l -> In a' l -> a <> a' -> forall b b', In b (f a) -> In b' (f a') -> P b b') ->
  ForallOrdPairs P (flat_map f l).
Proof.
  induction 1 as [|a l Hn N IH]; simpl; intros F C; [constructor|].
  apply fop_app.
  - apply F. auto.
  - apply IH; [auto|]. intros a1 a2 H1 H2. apply C; auto.
  - intros b b' Hb Hb'. apply in_flat_map in Hb' as [a' [Ha' Hb']].
    apply (C a a'); auto. intros ->. contradiction.
Qed.

(** * Blocks of a rank *)
Section Species.
  Variables (c : cfg) (by_rows : bool).

  Definition aname (a : parr) : pvar :=
    match a with Tag => Vtag | One b => Varr b | TwoR => VpldR | TwoI => VpldI end.
  Definition awidth (a : parr) : nat :=
    match a with TwoR => npld_r c | TwoI => npld_i c | _ => 1 end.
  Definition avals (s : parts) (a : parr) : list Z :=
    match a with
    | Tag => map (tg s) (seq 0 (np s))
    | One b => map (ar s b) (seq 0 (np s))
    | TwoR => raw by_rows (np s) (npld_r c) (fun q l => ar s (PldR l) q)
    | TwoI => raw by_rows (np s) (npld_i c) (fun q l => ar s (PldI l) q)
    end.
  Definition ablock (total first : Z) (s : parts) (a : parr) : block :=
    {| bname := aname a; bsize := total * Z.of_nat (awidth a);
       bfirst := first * Z.of_nat (awidth a); bvals := avals s a |}.

  Lemma avals_length s a : length (avals s a) = (np s * awidth a)%nat.
  Proof. destruct a; unfold avals, raw; rewrite map_length, seq_length; simpl; lia. Qed.

  Lemma write_arrs_blocks total first s l f :
    write_arrs c by_rows total first s l f = bputs (map (ablock total first s) l) f.
  Proof.
    revert f; induction l as [|a l IH]; intros f; simpl; auto.
    assert (E : write_arr c by_rows total first s a f = bput (ablock total first s a) f).
    { destruct a; unfold bput, ablock; cbn [bname bsize bfirst bvals aname awidth avals];
        rewrite ?Z.mul_1_r; reflexivity. }
    rewrite E. destruct (bput _ f); simpl; auto.
  Qed.

  Definition rank_blocks (nparts : list Z) (ss : nat -> pstate) (r : nat) : list block :=
    {| bname := Vnpart; bsize := Z.of_nat (length nparts); bfirst := Z.of_nat r;
       bvals := [Z.of_nat (np (cont (ss r)))] |} ::
    {| bname := Vcounter; bsize := Z.of_nat (length nparts); bfirst := Z.of_nat r; bvals := [counter (ss r)] |} ::
    map (ablock (sumZ nparts) (before r nparts) (cont (ss r))) (written c).

  Lemma write_ranks_blocks nparts ss order f :
    write_ranks c by_rows nparts ss order f = bputs (flat_map (rank_blocks nparts ss) order) f.
  Proof.
    revert f; induction order as [|r order IH]; intros f; auto.
    cbn [write_ranks flat_map]. rewrite bputs_app.
    assert (E : write_species c by_rows nparts r (ss r) f = bputs (rank_blocks nparts ss r) f).
    { unfold write_species, rank_blocks. cbn [bputs]. unfold bput at 1. cbn [bname bsize bfirst bvals].
      destruct (pput Vnpart _ _ _ f) as [f1| |]; cbn [rbind]; auto.
      unfold bput at 1. cbn [bname bsize bfirst bvals].
      destruct (pput Vcounter _ _ _ f1) as [f2| |]; cbn [rbind]; auto. apply write_arrs_blocks. }
    rewrite E. destruct (bputs (rank_blocks nparts ss r) f); simpl; auto.
  Qed.

  Lemma nodup_written : NoDup (map aname (written c)).
  Proof.
    unfold written, when. destruct (ge_dim c 1), (ge_dim c 2), (ge_dim c 3), (has_phi c), (Nat.ltb 0 (npld_r c)), (Nat.ltb 0 (npld_i c));
      cbn [app map aname]; repeat (constructor; [cbn [In]; intuition discriminate|]); constructor.
  Qed.

  Variables (N : nat) (ss : nat -> pstate).
  Definition nps : list Z := map (fun r => Z.of_nat (np (cont (ss r)))) (seq 0 N).

  Lemma nps_nonneg : Forall (fun n => 0 <= n) nps.
  Proof. unfold nps. rewrite Forall_map. apply Forall_forall. intros. lia. Qed.
  Lemma nps_nth r : (r < N)%nat -> nth r nps 0 = Z.of_nat (np (cont (ss r))).
  Proof.
    intros H. unfold nps. rewrite (nth_indep _ 0 ((fun r => Z.of_nat (np (cont (ss r)))) O)) by (rewrite map_length, seq_length; auto).
    rewrite (map_nth (fun r => Z.of_nat (np (cont (ss r))))), seq_nth by auto. auto.
  Qed.
  Lemma nps_length : length nps = N.
  Proof. unfold nps. rewrite map_length, seq_length. auto. Qed.

  Lemma before_S l r : (r < length l)%nat -> before (S r) l = before r l + nth r l 0.
  Proof.
    unfold before. revert r; induction l as [|a l IH]; intros [|r] H; simpl in *; try lia.
    specialize (IH r ltac:(lia)). simpl in IH. lia.
  Qed.
  Lemma before_mono l r r' : Forall (fun n => 0 <= n) l -> (r <= r')%nat -> before r l <= before r' l.
  Proof.
    intros P. unfold before. revert r r'; induction P as [|a l Pa P IH]; intros [|r] [|r'] H; simpl; try lia.
    - specialize (IH O r' ltac:(lia)). simpl in IH. lia.
    - specialize (IH r r' ltac:(lia)). lia.
  Qed.
  Lemma before_all l r : (length l <= r)%nat -> before r l = sumZ l.
  Proof. intros H. unfold before. rewrite firstn_all2; auto. Qed.

  Lemma before_gap r r' : (r < r')%nat -> (r' <= N)%nat ->
    before r nps + Z.of_nat (np (cont (ss r))) <= before r' nps /\ 0 <= before r nps.
  Proof.
    intros H H'. split.
    - rewrite <- nps_nth by lia. rewrite <- before_S by (rewrite nps_length; lia).
      apply before_mono; [apply nps_nonneg|lia].
    - change 0 with (before 0 nps). apply before_mono; [apply nps_nonneg|lia].
  Qed.

  Lemma rank_blocks_ok order f : Permutation order (seq 0 N) ->
    exists f', write_ranks c by_rows nps ss order f = Ok f' /\
      forall r, (r < N)%nat -> forall b, In b (rank_blocks nps ss r) -> has f' b.
  Proof.
    intros Pm.
    assert (Hin : forall r, In r order <-> (r < N)%nat).
    { intros r. split; intros H.
      - apply (Permutation_in _ Pm) in H. apply in_seq in H. lia.
      - apply (Permutation_in _ (Permutation_sym Pm)). apply in_seq. lia. }
    destruct (bputs_ok (flat_map (rank_blocks nps ss) order) f) as [f' [E [H _]]].
    - apply Forall_forall. intros b Hb. apply in_flat_map in Hb as [r [Hr Hb]]. apply Hin in Hr.
      unfold bfits, blen. destruct Hb as [<-|[<-|Hb]]; cbn [bname bsize bfirst bvals length].
      + rewrite nps_length. lia.
      + rewrite nps_length. lia.
      + apply in_map_iff in Hb as [a [<- Ha]]. cbn [bname bsize bfirst bvals ablock].
        rewrite avals_length, Nat2Z.inj_mul.
        destruct (before_gap r N Hr ltac:(lia)) as [G1 G2].
        rewrite (before_all nps N) in G1 by (rewrite nps_length; lia). nia.
    - apply fop_flat_map.
      + eapply Permutation_NoDup; [apply Permutation_sym; exact Pm|apply seq_NoDup].
      + intros r _. unfold rank_blocks. constructor; [|constructor].
        * constructor; [left; discriminate|]. rewrite Forall_map. apply Forall_forall. intros a _. left. destruct a; discriminate.
        * rewrite Forall_map. apply Forall_forall. intros a _. left. destruct a; discriminate.
        * pose proof nodup_written as ND. revert ND. generalize (written c) as l.
          induction l as [|a l IH]; cbn [map]; intros ND; inversion ND as [|? ? N1 N2]; subst; constructor; auto.
          rewrite Forall_map. apply Forall_forall. intros a' Ha'. left. cbn [bname ablock].
          intros Q. apply N1. rewrite Q. apply in_map. auto.
      + intros r r' Hr Hr' Hne b b' Hb Hb'. apply Hin in Hr, Hr'.
        unfold apart, blen.
        destruct Hb as [<-|[<-|Hb]]; destruct Hb' as [<-|[<-|Hb']]; cbn [bname bsize bfirst bvals length];
          try (left; discriminate); try (right; lia);
          try (apply in_map_iff in Hb as [a [<- Ha]]); try (apply in_map_iff in Hb' as [a' [<- Ha']]);
          cbn [bname bsize bfirst bvals ablock];
          try (left; destruct a; discriminate); try (left; destruct a'; discriminate).
        destruct (pvar_eq_dec (aname a) (aname a')) as [Q|Q]; [|left; auto].
        right. assert (W : awidth a = awidth a') by (destruct a, a'; simpl in *; congruence).
        rewrite !avals_length, W, !Nat2Z.inj_mul.
        assert (C : (r < r' \/ r' < r)%nat) by lia. destruct C as [C|C].
        * left. destruct (before_gap r r' C ltac:(lia)). nia.
        * right. destruct (before_gap r' r C ltac:(lia)). nia.
    - exists f'. split; [rewrite write_ranks_blocks; auto|].
      intros r Hr b Hb. apply H. apply in_flat_map. exists r. split; auto. apply Hin. auto.
  Qed.

  (** ** Reading *)
  Definition holds_arr (n : nat) (o s : parts) (a : parr) : Prop :=
    match a with
    | Tag => forall q, (q < n)%nat -> tg s q = tg o q
    | One b => forall q, (q < n)%nat -> ar s b q = ar o b q
    | TwoR => forall q l, (q < n)%nat -> (l < npld_r c)%nat -> ar s (PldR l) q = ar o (PldR l) q
    | TwoI => forall q l, (q < n)%nat -> (l < npld_i c)%nat -> ar s (PldI l) q = ar o (PldI l) q
    end.

  Lemma nth_map_seq (g : nat -> Z) n q : (q < n)%nat -> nth q (map g (seq 0 n)) 0 = g q.
  Proof.
    intros H. rewrite (nth_indep _ 0 (g O)) by (rewrite map_length, seq_length; auto).
    rewrite map_nth, seq_nth by auto. auto.
  Qed.

  Lemma unraw_raw n w x q l : (q < n)%nat -> (l < w)%nat -> unraw by_rows n w (raw by_rows n w x) q l = x q l.
  Proof.
    intros Hq Hl. unfold unraw, raw. destruct by_rows.
    - rewrite nth_map_seq by nia. f_equal.
      + rewrite Nat.div_add_l by lia. rewrite Nat.div_small by auto. lia.
      + rewrite Nat.add_comm, Nat.mod_add by lia. apply Nat.mod_small. auto.
    - rewrite nth_map_seq by nia. f_equal.
      + rewrite Nat.mod_add by lia. apply Nat.mod_small. auto.
      + rewrite Nat.div_add by lia. rewrite Nat.div_small by auto. lia.
  Qed.

  Lemma overwrite_same n (new old o : nat -> Z) : (forall q, (q < n)%nat -> new q = o q) ->
    forall q, (q < n)%nat -> overwrite n new old q = o q.
  Proof. intros H q Hq. unfold overwrite. apply Nat.ltb_lt in Hq as E. rewrite E. auto. Qed.

  Lemma overwrite_attr_keeps n o (f : attr -> nat -> Z) pick :
    (forall a new, pick a = Some new -> forall q, (q < n)%nat -> new q = ar o a q) ->
    forall a q, (q < n)%nat -> (f a q = ar o a q \/ pick a <> None) -> overwrite_attr f pick n a q = ar o a q.
  Proof.
    intros H a q Hq D. unfold overwrite_attr. destruct (pick a) as [new|] eqn:E.
    - apply (overwrite_same n new (f a) (ar o a)); auto.
    - destruct D; congruence.
  Qed.

  Lemma read_arr_ok first f o s a : np s = np o ->
    (forall total, has f (ablock total first o a)) ->
    exists s', read_arr c by_rows first f s a = Ok s' /\ np s' = np s /\ maxp s' = maxp s /\
      holds_arr (np o) o s' a /\ forall b, holds_arr (np o) o s b -> holds_arr (np o) o s' b.
  Proof.
    intros En H. specialize (H 0).
    destruct a as [|b| |]; unfold read_arr.
    - pose proof (pget_has f _ (np s) H) as G. cbn [ablock bname bfirst bvals aname awidth avals] in G.
      rewrite Z.mul_1_r in G. rewrite G by (rewrite map_length, seq_length; auto). cbn [rbind].
      eexists; split; [reflexivity|]. split; auto. split; auto. rewrite En.
      assert (K : forall q, (q < np o)%nat -> overwrite (np o) (fun q => nth q (map (tg o) (seq 0 (np o))) 0) (tg s) q = tg o q).
      { apply overwrite_same. intros. apply nth_map_seq. auto. }
      split; [exact K|]. intros b Hb. destruct b; simpl in *; auto.
    - pose proof (pget_has f _ (np s) H) as G. cbn [ablock bname bfirst bvals aname awidth avals] in G.
      rewrite Z.mul_1_r in G. rewrite G by (rewrite map_length, seq_length; auto). cbn [rbind].
      eexists; split; [reflexivity|]. split; auto. split; auto. rewrite En.
      set (pick := fun a => if attr_eq_dec a b then Some (fun q => nth q (map (ar o b) (seq 0 (np o))) 0) else None).
      assert (K : forall a new, pick a = Some new -> forall q, (q < np o)%nat -> new q = ar o a q).
      { unfold pick. intros a new E q Hq. destruct (attr_eq_dec a b); [|discriminate]. injection E as <-. subst.
        apply nth_map_seq. auto. }
      split.
      + intros q Hq. cbn [ar with_ar]. apply overwrite_attr_keeps; auto. right. unfold pick. destruct (attr_eq_dec b b); congruence.
      + intros b' Hb. destruct b'; cbn [holds_arr ar with_ar tg] in *; auto;
          intros; apply overwrite_attr_keeps; auto.
    - pose proof (pget_has f _ (np s * npld_r c)%nat H) as G. cbn [ablock bname bfirst bvals aname awidth avals] in G.
      rewrite G by (unfold raw; rewrite map_length, seq_length, En; auto). cbn [rbind].
      eexists; split; [reflexivity|]. split; auto. split; auto. rewrite En.
      set (pick := fun a => match a with PldR l => if Nat.ltb l (npld_r c)
        then Some (fun q => unraw by_rows (np o) (npld_r c) (raw by_rows (np o) (npld_r c) (fun q l => ar o (PldR l) q)) q l)
        else None | _ => None end).
      assert (K : forall a new, pick a = Some new -> forall q, (q < np o)%nat -> new q = ar o a q).
      { unfold pick. intros a new E q Hq. destruct a; try discriminate.
        destruct (Nat.ltb_spec l (npld_r c)) as [L|L]; [|discriminate]. injection E as <-.
        rewrite unraw_raw by auto. auto. }
      split.
      + intros q l Hq Hl. cbn [ar with_ar]. apply overwrite_attr_keeps; auto. right. unfold pick.
        apply Nat.ltb_lt in Hl. rewrite Hl. discriminate.
      + intros b' Hb. destruct b'; cbn [holds_arr ar with_ar tg] in *; auto;
          intros; apply overwrite_attr_keeps; auto.
    - pose proof (pget_has f _ (np s * npld_i c)%nat H) as G. cbn [ablock bname bfirst bvals aname awidth avals] in G.
      rewrite G by (unfold raw; rewrite map_length, seq_length, En; auto). cbn [rbind].
      eexists; split; [reflexivity|]. split; auto. split; auto. rewrite En.
      set (pick := fun a => match a with PldI l => if Nat.ltb l (npld_i c)
        then Some (fun q => unraw by_rows (np o) (npld_i c) (raw by_rows (np o) (npld_i c) (fun q l => ar o (PldI l) q)) q l)
        else None | _ => None end).
      assert (K : forall a new, pick a = Some new -> forall q, (q < np o)%nat -> new q = ar o a q).
      { unfold pick. intros a new E q Hq. destruct a; try discriminate.
        destruct (Nat.ltb_spec l (npld_i c)) as [L|L]; [|discriminate]. injection E as <-.
        rewrite unraw_raw by auto. auto. }
      split.
      + intros q l Hq Hl. cbn [ar with_ar]. apply overwrite_attr_keeps; auto. right. unfold pick.
        apply Nat.ltb_lt in Hl. rewrite Hl. discriminate.
      + intros b' Hb. destruct b'; cbn [holds_arr ar with_ar tg] in *; auto;
          intros; apply overwrite_attr_keeps; auto.
  Qed.

  Lemma read_arrs_ok first f o l s : np s = np o ->
    (forall a, In a l -> forall total, has f (ablock total first o a)) ->
    exists s', read_arrs c by_rows first f l s = Ok s' /\ np s' = np s /\ maxp s' = maxp s /\
      (forall a, In a l -> holds_arr (np o) o s' a) /\ forall b, holds_arr (np o) o s b -> holds_arr (np o) o s' b.
  Proof.
    revert s; induction l as [|a l IH]; intros s En H.
    - exists s. split; [reflexivity|]. split; auto. split; auto. split; [intros ? []|auto].
    - destruct (read_arr_ok first f o s a En) as [s1 [E1 [N1 [M1 [H1 K1]]]]]; [intros; apply H; simpl; auto|].
      destruct (IH s1) as [s2 [E2 [N2 [M2 [H2 K2]]]]]; [congruence|intros; apply H; simpl; auto|].
      exists s2. split; [simpl; rewrite E1; exact E2|]. split; [congruence|]. split; [congruence|]. split.
      + intros b [<-|Hb]; auto.
      + auto.
  Qed.

  Lemma attrs_read a : In a (attrs c) ->
    In (One a) (read_back c) \/ (exists l, a = PldR l /\ (l < npld_r c)%nat /\ In TwoR (read_back c)) \/
    (exists l, a = PldI l /\ (l < npld_i c)%nat /\ In TwoI (read_back c)).
  Proof.
    unfold attrs, read_back. rewrite !in_app_iff. intros H.
    destruct H as [H|[H|[H|[H|[H|[H|H]]]]]].
    - left. unfold when in *. destruct (ge_dim c 1); simpl in *; intuition (subst; auto 20).
    - left. unfold when in *. destruct (ge_dim c 2); simpl in *; intuition (subst; auto 20).
    - left. unfold when in *. destruct (ge_dim c 3); simpl in *; intuition (subst; auto 20).
    - left. simpl in *. intuition (subst; auto 20).
    - right; left. apply in_map_iff in H as [l [<- Hl]]. apply in_seq in Hl. exists l. split; auto. split; [lia|].
      rewrite !in_app_iff. do 5 right. left. destruct (Nat.ltb_spec 0 (npld_r c)); [simpl; auto|lia].
    - right; right. apply in_map_iff in H as [l [<- Hl]]. apply in_seq in Hl. exists l. split; auto. split; [lia|].
      rewrite !in_app_iff. do 6 right. destruct (Nat.ltb_spec 0 (npld_i c)); [simpl; auto|lia].
    - left. unfold when in *. destruct (has_phi c); simpl in *; intuition (subst; auto 20).
  Qed.

  Lemma read_written a : In a (read_back c) -> In a (written c).
  Proof. auto. Qed.
  Lemma tag_read : In Tag (read_back c).
  Proof. unfold read_back. rewrite !in_app_iff. simpl. auto 20. Qed.

  Lemma read_npart_ok f r : (forall r, (r < N)%nat -> forall b, In b (rank_blocks nps ss r) -> has f b) ->
    (r < N)%nat -> read_npart f r = Ok (Z.of_nat (np (cont (ss r)))).
  Proof.
    intros H Hr. unfold read_npart.
    pose proof (pget_has f _ 1%nat (H r Hr _ (or_introl eq_refl)) eq_refl) as G.
    cbn [bname bfirst bvals] in G. rewrite G. reflexivity.
  Qed.

  Lemma read_species_ok f r s0 :
    (forall r, (r < N)%nat -> forall b, In b (rank_blocks nps ss r) -> has f b) ->
    (r < N)%nat -> np (cont s0) = O -> (np (cont (ss r)) <= maxp (cont s0))%nat ->
    exists s', read_species c by_rows N r f s0 = Ok s' /\ same_particles c (cont s') (cont (ss r)) /\
      counter s' = counter (ss r) /\ maxp (cont s') = maxp (cont s0).
  Proof.
    intros H Hr E0 Hm. unfold read_species. rewrite E0. cbn [Nat.ltb Nat.leb].
    rewrite read_npart_ok by auto. cbn [rbind]. rewrite Nat2Z.id. unfold set_npart.
    destruct (Nat.ltb_spec (maxp (cont s0)) (np (cont (ss r)))) as [L|_]; [lia|]. cbn [rbind].
    assert (EN : read_nparts f (seq 0 N) = Ok nps).
    { unfold nps. assert (X : forall l, (forall r, In r l -> (r < N)%nat) ->
        read_nparts f l = Ok (map (fun r => Z.of_nat (np (cont (ss r)))) l)).
      { induction l as [|a l IH]; intros Hl; simpl; auto.
        rewrite read_npart_ok by (auto; apply Hl; simpl; auto). simpl.
        rewrite IH by (intros; apply Hl; simpl; auto). auto. }
      apply X. intros a Ha. apply in_seq in Ha. lia. }
    rewrite EN. cbn [rbind].
    pose proof (pget_has f _ 1%nat (H r Hr _ (or_intror (or_introl eq_refl))) eq_refl) as GC.
    cbn [bname bfirst bvals] in GC. rewrite GC. cbn [rbind].
    match goal with |- context [read_arrs _ _ _ _ _ ?s] => set (s1 := s) end.
    destruct (read_arrs_ok (before r nps) f (cont (ss r)) (read_back c) s1) as [s2 [E2 [N2 [M2 [H2 _]]]]].
    { reflexivity. }
    { intros a Ha total. pose proof (H r Hr (ablock (sumZ nps) (before r nps) (cont (ss r)) a)) as K.
      assert (I : In (ablock (sumZ nps) (before r nps) (cont (ss r)) a) (rank_blocks nps ss r)).
      { unfold rank_blocks. right. right. apply in_map. apply read_written. auto. }
      intros k Hk. apply (K I k Hk). }
    rewrite E2. cbn [rbind]. eexists; split; [reflexivity|]. cbn [cont counter nth].
    split; [|split; [reflexivity|exact M2]].
    split; [rewrite N2; reflexivity|]. intros p Hp. rewrite N2 in Hp. cbn [np s1] in Hp.
    unfold tagged_view, view. f_equal.
    - apply (H2 Tag); auto. apply tag_read.
    - apply map_ext_in. intros a Ha. destruct (attrs_read a Ha) as [I|[[l [-> [L I]]]|[l [-> [L I]]]]].
      + apply (H2 _ I). auto.
      + apply (H2 _ I); auto.
      + apply (H2 _ I); auto.
  Qed.

  Lemma species_roundtrip order f0 : Permutation order (seq 0 N) ->
    exists f, write_ranks c by_rows nps ss order f0 = Ok f /\
      forall r s0, (r < N)%nat -> np (cont s0) = O -> (np (cont (ss r)) <= maxp (cont s0))%nat ->
      exists s', read_species c by_rows N r f s0 = Ok s' /\ same_particles c (cont s') (cont (ss r)) /\
        counter s' = counter (ss r) /\ maxp (cont s') = maxp (cont s0).
  Proof.
    intros Pm. destruct (rank_blocks_ok order f0 Pm) as [f [E H]]. exists f. split; auto.
    intros. apply read_species_ok; auto.
  Qed.
End Species.
