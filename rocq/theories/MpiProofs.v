From Coq Require Import List Arith Lia Bool Sorted.
From Verif Require Import MpiModel.
Import ListNotations.

Section Proofs.
  Context {rank : Type} (rank_eq_dec : forall a b : rank, {a = b} + {a <> b}).
  Variables (ranks : list rank) (K : nat).
  Variables (dst src : rank -> nat -> option rank).
  Variable eager : rank -> nat -> Prop.

  Hypothesis matching : forall a b k, k < K -> In a ranks -> In b ranks ->
    (dst a k = Some b <-> src b k = Some a).
  Hypothesis dst_rank : forall a b k, k < K -> In a ranks -> dst a k = Some b -> In b ranks.
  Hypothesis src_rank : forall a b k, k < K -> In b ranks -> src b k = Some a -> In a ranks.

  Notation state := (@state rank).
  Notation step := (step rank_eq_dec ranks K dst src eager).
  Notation steps := (steps rank_eq_dec ranks K dst src eager).
  Notation upd := (upd rank_eq_dec).
  Notation upd2 := (upd2 rank_eq_dec).

  Definition was_posted (s : state) (a : rank) (k : nat) : Prop :=
    k < rnd s a \/ (k = rnd s a /\ posted s a = true).
  Definition was_recvd (s : state) (b : rank) (k : nat) : Prop :=
    k < rnd s b \/ (k = rnd s b /\ recvd s b = true).

  Record inv (s : state) : Prop := {
    i_bound : forall a, In a ranks -> rnd s a <= K;
    i_sent : forall a, In a ranks -> sent s a = true -> posted s a = true;
    i_posted : forall a, In a ranks -> posted s a = true -> rnd s a < K;
    i_recvd : forall b, In b ranks -> recvd s b = true -> rnd s b < K;
    i_sorted : forall a b, In a ranks -> In b ranks -> StronglySorted lt (chan s a b);
    i_causal : forall a b k, In a ranks -> In b ranks -> k < K -> dst a k = Some b ->
       was_recvd s b k -> was_posted s a k;
    i_chan : forall a b, In a ranks -> In b ranks -> forall k, In k (chan s a b) <->
       (k < K /\ dst a k = Some b /\ was_posted s a k /\ ~ was_recvd s b k)
  }.

  Lemma inv_init : inv init.
  Proof.
    constructor; unfold was_posted, was_recvd; cbn; try discriminate; intros.
    - lia.
    - constructor.
    - destruct H3 as [|[_ ?]]; [lia|discriminate].
    - split; [tauto|]. intros (_ & _ & [H2|[_ H2]] & _); [lia|discriminate].
  Qed.

  Lemma upd_same {V} (f : rank -> V) a v : upd f a v a = v.
  Proof. unfold MpiModel.upd. destruct (rank_eq_dec a a); congruence. Qed.
  Lemma upd_other {V} (f : rank -> V) a v x : x <> a -> upd f a v x = f x.
  Proof. unfold MpiModel.upd. destruct (rank_eq_dec x a); congruence. Qed.

  Lemma sorted_snoc l m : StronglySorted lt l -> (forall k, In k l -> k < m) ->
    StronglySorted lt (l ++ [m]).
  Proof.
    induction 1 as [|x l H IH HF]; intros Hm; simpl.
    - repeat constructor.
    - constructor.
      + apply IH. intros; apply Hm; simpl; auto.
      + apply Forall_app. split; auto. constructor; auto. apply Hm; simpl; auto.
  Qed.

  (** A received message belongs to the round in which it is received. *)
  Lemma deliver_round s a b m ms : inv s -> In b ranks -> rnd s b < K ->
    src b (rnd s b) = Some a -> recvd s b = false -> chan s a b = m :: ms -> m = rnd s b.
  Proof.
    intros I Hb Hk Hs Hr Hc.
    assert (Ha : In a ranks) by (eapply src_rank; eauto).
    assert (Hd : dst a (rnd s b) = Some b) by (apply matching; auto).
    assert (Hm : In m (chan s a b)) by (rewrite Hc; simpl; auto).
    apply (i_chan s I a b Ha Hb) in Hm. destruct Hm as (H1 & H2 & H3 & H4).
    destruct (Nat.lt_trichotomy m (rnd s b)) as [L|[E|G]]; auto.
    - exfalso. apply H4. left; auto.
    - exfalso. assert (In (rnd s b) (chan s a b)).
      { apply (i_chan s I a b Ha Hb). repeat split; auto.
        - left. destruct H3 as [H3|[H3 _]]; lia.
        - intros [C|[_ C]]; [lia|congruence]. }
      pose proof (i_sorted s I a b Ha Hb) as S. rewrite Hc in *.
      inversion S as [|? ? S1 S2]; subst.
      destruct H as [->|H]; [lia|]. rewrite Forall_forall in S2. apply S2 in H. lia.
  Qed.

  Lemma sorted_head_notin m ms : StronglySorted lt (m :: ms) -> ~ In m ms.
  Proof.
    intros S C. inversion S as [|? ? S1 S2]; subst. rewrite Forall_forall in S2. apply S2 in C. lia.
  Qed.

  Lemma inv_step s e s' : inv s -> step s e s' -> inv s'.
  Proof.
    intros I H. inversion H; subst; clear H.
    - (* post *)
      set (s' := {| rnd := rnd s; posted := upd (posted s) a true; sent := sent s;
             recvd := recvd s; chan := upd2 (chan s) a b (chan s a b ++ [rnd s a]) |}).
      rename H0 into Ha, H1 into Hk, H2 into Hd, H3 into Hp.
      assert (Hb : In b ranks) by (eapply dst_rank; eauto).
      assert (W : forall x k, was_posted s' x k <-> was_posted s x k \/ (x = a /\ k = rnd s a)).
      { intros x k. unfold was_posted, s'; cbn. destruct (rank_eq_dec x a) as [->|N].
        - rewrite upd_same. intuition.
        - rewrite upd_other by auto. intuition. }
      assert (W' : forall x k, was_recvd s' x k <-> was_recvd s x k) by (intros; reflexivity).
      constructor.
      + apply (i_bound s I).
      + intros x Hx. cbn. destruct (rank_eq_dec x a) as [->|N]; [intros; apply upd_same|].
        rewrite upd_other by auto. apply (i_sent s I); auto.
      + intros x Hx. cbn. destruct (rank_eq_dec x a) as [->|N]; [auto|].
        rewrite upd_other by auto. apply (i_posted s I); auto.
      + apply (i_recvd s I).
      + intros x y Hx Hy. cbn.
        unfold MpiModel.upd2. destruct (rank_eq_dec x a) as [->|N]; [|apply (i_sorted s I); auto].
        destruct (rank_eq_dec y b) as [->|N]; [|apply (i_sorted s I); auto].
        apply sorted_snoc; [apply (i_sorted s I); auto|].
        intros k H. apply (i_chan s I) in H; auto.
        destruct H as (_ & _ & [H|[_ H]] & _); [auto|congruence].
      + intros x y k Hx Hy Hk' Hd' Hr. rewrite W. left.
        apply (i_causal s I x y k); auto.
      + intros x y Hx Hy k. rewrite W, W'. cbn. unfold MpiModel.upd2.
        destruct (rank_eq_dec x a) as [->|N].
        * destruct (rank_eq_dec y b) as [->|N].
          -- rewrite in_app_iff, (i_chan s I a b) by auto. cbn. split.
             ++ intros [H|[<-|[]]]; [tauto|]. repeat split; auto.
                intros C. apply (i_causal s I a b) in C; auto.
                destruct C as [C|[_ C]]; [lia|congruence].
             ++ intros (H1 & H2 & [H3|[_ H3]] & H4); auto.
          -- rewrite (i_chan s I a y) by auto. split; [tauto|].
             intros (H1 & H2 & [H3|[_ H3]] & H4); auto. subst k. congruence.
        * rewrite (i_chan s I x y) by auto. intuition.
    - (* deliver *)
      rename H0 into Hb, H1 into Hk, H2 into Hs, H3 into Hr, H4 into Hc.
      assert (Em : m = rnd s b) by (eapply deliver_round; eauto). subst m.
      assert (Ha : In a ranks) by (eapply src_rank; eauto).
      assert (Hd : dst a (rnd s b) = Some b) by (apply matching; auto).
      set (s' := {| rnd := rnd s; posted := posted s; sent := sent s;
             recvd := upd (recvd s) b true; chan := upd2 (chan s) a b ms |}).
      assert (W : forall x k, was_recvd s' x k <-> was_recvd s x k \/ (x = b /\ k = rnd s b)).
      { intros x k. unfold was_recvd, s'; cbn. destruct (rank_eq_dec x b) as [->|N].
        - rewrite upd_same. intuition.
        - rewrite upd_other by auto. intuition. }
      assert (W' : forall x k, was_posted s' x k <-> was_posted s x k) by (intros; reflexivity).
      pose proof (i_sorted s I a b Ha Hb) as S. rewrite Hc in S.
      constructor.
      + apply (i_bound s I).
      + apply (i_sent s I).
      + apply (i_posted s I).
      + intros x Hx. cbn. destruct (rank_eq_dec x b) as [->|N]; [auto|].
        rewrite upd_other by auto. apply (i_recvd s I); auto.
      + intros x y Hx Hy. cbn.
        unfold MpiModel.upd2. destruct (rank_eq_dec x a) as [->|N]; [|apply (i_sorted s I); auto].
        destruct (rank_eq_dec y b) as [->|N]; [|apply (i_sorted s I); auto].
        inversion S; auto.
      + intros x y k Hx Hy Hk' Hd'. rewrite W, W'. intros [H|[-> ->]].
        * apply (i_causal s I x y k); auto.
        * assert (x = a).
          { apply matching in Hd'; auto. congruence. }
          subst x. assert (H : In (rnd s b) (chan s a b)) by (rewrite Hc; simpl; auto).
          apply (i_chan s I a b) in H; tauto.
      + intros x y Hx Hy k. rewrite W, W'. cbn. unfold MpiModel.upd2.
        destruct (rank_eq_dec x a) as [->|N].
        * destruct (rank_eq_dec y b) as [->|N].
          -- pose proof (i_chan s I a b Ha Hb k) as IC. rewrite Hc in IC. cbn in IC.
             pose proof (sorted_head_notin _ _ S) as Hn.
             split.
             ++ intros H. assert (k <> rnd s b) by congruence. tauto.
             ++ intros (H1 & H2 & H3 & H4). destruct IC as [_ IC].
                destruct IC as [IC|IC]; auto; [tauto|]. exfalso. apply H4. auto.
          -- rewrite (i_chan s I a y) by auto. split; [|tauto].
             intros (H1 & H2 & H3 & H4). repeat split; auto. intros [C|[C _]]; auto.
        * rewrite (i_chan s I x y) by auto. split; [|tauto].
          intros (H1 & H2 & H3 & H4). repeat split; auto. intros [C|[-> ->]]; auto.
          apply matching in H2; auto. congruence.
    - (* complete *)
      rename H0 into Ha, H1 into Hk, H2 into Hd, H3 into Hp, H4 into Hs, H5 into He.
      destruct I. constructor; auto.
      intros x Hx. cbn. destruct (rank_eq_dec x a) as [->|N]; [auto|].
      rewrite upd_other by auto. auto.
    - (* advance *)
      rename H0 into Ha, H1 into Hk, H2 into Hd, H3 into Hs.
      set (s' := {| rnd := upd (rnd s) a (S (rnd s a)); posted := upd (posted s) a false;
         sent := upd (sent s) a false; recvd := upd (recvd s) a false; chan := chan s |}).
      assert (W1 : forall x k, was_posted s x k -> was_posted s' x k).
      { intros x k. unfold was_posted, s'; cbn. destruct (rank_eq_dec x a) as [->|N].
        - rewrite !upd_same. lia.
        - rewrite !upd_other by auto. auto. }
      assert (W2 : forall x y k, dst x k = Some y -> In x ranks -> was_posted s' x k -> was_posted s x k).
      { intros x y k Hxy Hx. unfold was_posted, s'; cbn. destruct (rank_eq_dec x a) as [->|N].
        - rewrite !upd_same. intros [H|[_ H]]; [|discriminate].
          destruct (Nat.eq_dec k (rnd s a)) as [->|]; [|lia].
          right. split; auto. apply (i_sent s I); auto. destruct Hd; [congruence|auto].
        - rewrite !upd_other by auto. auto. }
      assert (W3 : forall x k, was_recvd s x k -> was_recvd s' x k).
      { intros x k. unfold was_recvd, s'; cbn. destruct (rank_eq_dec x a) as [->|N].
        - rewrite !upd_same. lia.
        - rewrite !upd_other by auto. auto. }
      assert (W4 : forall x y k, src y k = Some x -> was_recvd s' y k -> was_recvd s y k).
      { intros x y k Hxy. unfold was_recvd, s'; cbn. destruct (rank_eq_dec y a) as [->|N].
        - rewrite !upd_same. intros [H|[_ H]]; [|discriminate].
          destruct (Nat.eq_dec k (rnd s a)) as [->|]; [|lia].
          right. split; auto. destruct Hs; [congruence|auto].
        - rewrite !upd_other by auto. auto. }
      constructor.
      + intros x Hx. cbn. destruct (rank_eq_dec x a) as [->|N]; [rewrite upd_same; lia|].
        rewrite upd_other by auto. apply (i_bound s I); auto.
      + intros x Hx. cbn. destruct (rank_eq_dec x a) as [->|N]; [rewrite upd_same; discriminate|].
        rewrite !upd_other by auto. apply (i_sent s I); auto.
      + intros x Hx. cbn. destruct (rank_eq_dec x a) as [->|N]; [rewrite upd_same; discriminate|].
        rewrite !upd_other by auto. apply (i_posted s I); auto.
      + intros x Hx. cbn. destruct (rank_eq_dec x a) as [->|N]; [rewrite upd_same; discriminate|].
        rewrite !upd_other by auto. apply (i_recvd s I); auto.
      + apply (i_sorted s I).
      + intros x y k Hx Hy Hk' Hd' Hr. apply W1. apply (i_causal s I x y k); auto.
        apply W4 with x; auto. apply matching; auto.
      + intros x y Hx Hy k. cbn. rewrite (i_chan s I x y) by auto. split.
        * intros (H1 & H2 & H3 & H4). repeat split; auto. intros C. apply H4.
          apply W4 with x; auto. apply matching; auto.
        * intros (H1 & H2 & H3 & H4). repeat split; auto. apply W2 with y; auto.
  Qed.

  Lemma inv_steps s es s' : inv s -> steps s es s' -> inv s'.
  Proof. intros I H. induction H; auto. apply IHsteps. eapply inv_step; eauto. Qed.

  (** Progress: as long as some rank has not finished, some rank can act. *)
  Lemma min_round s : (exists a, In a ranks /\ rnd s a < K) ->
    exists a, In a ranks /\ rnd s a < K /\ forall b, In b ranks -> rnd s a <= rnd s b.
  Proof.
    clear. induction ranks as [|r rs IH]; intros [a [Ha Hk]]; [destruct Ha|].
    assert (D : (exists x, In x rs /\ rnd s x < K) \/ (forall x, In x rs -> K <= rnd s x)).
    { clear. induction rs as [|q rs IH]; [right; intros ? []|].
      destruct IH as [[x [H1 H2]]|IH]; [left; exists x; simpl; auto|].
      destruct (Nat.lt_ge_cases (rnd s q) K); [left; exists q; simpl; auto|].
      right. intros x [->|Hx]; auto. }
    destruct D as [D|D].
    - destruct (IH D) as [m [Hm [Hk' Hmin]]].
      destruct (Nat.le_gt_cases (rnd s m) (rnd s r)).
      + exists m. simpl. split; auto. split; auto. intros b [->|Hb]; auto.
      + exists r. simpl. split; auto. split; [lia|]. intros b [->|Hb]; auto.
        specialize (Hmin b Hb). lia.
    - exists r. simpl. destruct Ha as [->|Ha]; [|specialize (D a Ha); lia].
      split; auto. split; auto. intros b [->|Hb]; auto. specialize (D b Hb). lia.
  Qed.

  Lemma progress s : inv s -> ~ finished ranks K s -> exists e s', step s e s'.
  Proof.
    intros I NF.
    assert (E : exists a, In a ranks /\ rnd s a < K).
    { destruct (Forall_dec (fun a => rnd s a = K) (fun a => Nat.eq_dec (rnd s a) K) ranks) as [F|F].
      - exfalso. apply NF. intros a Ha. rewrite Forall_forall in F. auto.
      - apply Exists_Forall_neg in F; [|intros; lia]. apply Exists_exists in F.
        destruct F as [a [Ha Hn]]. exists a. split; auto. pose proof (i_bound s I a Ha). lia. }
    destruct (min_round s E) as [r [Hr [Hk Hmin]]]. clear E NF.
    set (k := rnd s r) in *.
    (* receive side of r *)
    assert (RecvSide : forall a, src r k = Some a -> recvd s r = false -> exists e s', step s e s').
    { intros a Hs Hrv. assert (Ha : In a ranks) by (eapply src_rank; eauto).
      assert (Hd : dst a k = Some r) by (apply matching; auto).
      destruct (Nat.eq_dec (rnd s a) k) as [Ek|Nk].
      - destruct (posted s a) eqn:Hp.
        + assert (Hin : In k (chan s a r)).
          { apply (i_chan s I); auto. repeat split; auto; [right; auto|].
            intros [C|[_ C]]; [unfold k in C; lia|congruence]. }
          destruct (chan s a r) as [|m ms] eqn:Hc; [destruct Hin|].
          do 2 eexists. apply step_deliver with (a := a) (b := r) (m := m) (ms := ms); auto.
        + do 2 eexists. apply step_post with (a := a) (b := r); auto; rewrite ?Ek; auto.
      - assert (k < rnd s a) by (specialize (Hmin a Ha); lia).
        assert (Hin : In k (chan s a r)).
        { apply (i_chan s I); auto. repeat split; auto; [left; auto|].
          intros [C|[_ C]]; [unfold k in C; lia|congruence]. }
        destruct (chan s a r) as [|m ms] eqn:Hc; [destruct Hin|].
        do 2 eexists. apply step_deliver with (a := a) (b := r) (m := m) (ms := ms); auto. }
    destruct (src r k) as [a|] eqn:Hs.
    { destruct (recvd s r) eqn:Hrv; [|apply (RecvSide a); auto]. clear RecvSide.
      destruct (dst r k) as [b|] eqn:Hd.
      2:{ do 2 eexists. apply step_advance with (a := r); auto. }
      destruct (sent s r) eqn:Hst; [do 2 eexists; apply step_advance with (a := r); auto|].
      destruct (posted s r) eqn:Hp.
      2:{ do 2 eexists. apply step_post with (a := r) (b := b); auto. }
      destruct (in_dec Nat.eq_dec k (chan s r b)) as [Hin|Hin].
      2:{ do 2 eexists. apply step_complete with (a := r) (b := b); auto. }
      assert (Hb : In b ranks) by (eapply dst_rank; eauto).
      apply (i_chan s I) in Hin as HIN; auto. destruct HIN as (_ & _ & _ & Hnr).
      assert (Ek : rnd s b = k).
      { specialize (Hmin b Hb). destruct (Nat.eq_dec (rnd s b) k); auto.
        exfalso. apply Hnr. left. lia. }
      assert (Hsb : src b k = Some r) by (apply matching; auto).
      assert (Hrb : recvd s b = false).
      { destruct (recvd s b) eqn:E; auto. exfalso. apply Hnr. right. auto. }
      destruct (chan s r b) as [|m ms] eqn:Hc; [destruct Hin|].
      do 2 eexists. apply step_deliver with (a := r) (b := b) (m := m) (ms := ms); rewrite ?Ek; auto. }
    { clear RecvSide.
      destruct (dst r k) as [b|] eqn:Hd.
      2:{ do 2 eexists. apply step_advance with (a := r); auto. }
      destruct (sent s r) eqn:Hst; [do 2 eexists; apply step_advance with (a := r); auto|].
      destruct (posted s r) eqn:Hp.
      2:{ do 2 eexists. apply step_post with (a := r) (b := b); auto. }
      destruct (in_dec Nat.eq_dec k (chan s r b)) as [Hin|Hin].
      2:{ do 2 eexists. apply step_complete with (a := r) (b := b); auto. }
      assert (Hb : In b ranks) by (eapply dst_rank; eauto).
      apply (i_chan s I) in Hin as HIN; auto. destruct HIN as (_ & _ & _ & Hnr).
      assert (Ek : rnd s b = k).
      { specialize (Hmin b Hb). destruct (Nat.eq_dec (rnd s b) k); auto.
        exfalso. apply Hnr. left. lia. }
      assert (Hsb : src b k = Some r) by (apply matching; auto).
      assert (Hrb : recvd s b = false).
      { destruct (recvd s b) eqn:E; auto. exfalso. apply Hnr. right. auto. }
      destruct (chan s r b) as [|m ms] eqn:Hc; [destruct Hin|].
      do 2 eexists. apply step_deliver with (a := r) (b := b) (m := m) (ms := ms); rewrite ?Ek; auto. }
  Qed.

  (** Every event makes a bounded measure grow. *)
  Definition b2n (b : bool) : nat := if b then 1 else 0.
  Definition weight (s : state) (a : rank) : nat :=
    4 * rnd s a + b2n (posted s a) + b2n (sent s a) + b2n (recvd s a).
  Definition total (s : state) : nat := list_sum (map (weight s) ranks).

  Lemma total_grow s s' a : NoDup ranks -> In a ranks ->
    (forall x, x <> a -> weight s' x = weight s x) -> weight s a < weight s' a ->
    total s < total s'.
  Proof.
    unfold total. clear -rank_eq_dec. induction ranks as [|r rs IH]; intros ND Ha Hx Hw; [destruct Ha|].
    inversion ND; subst. simpl. destruct (rank_eq_dec r a) as [->|N].
    - assert (map (weight s') rs = map (weight s) rs).
      { apply map_ext_in. intros x Hin. apply Hx. intros ->. contradiction. }
      rewrite H. lia.
    - destruct Ha as [Ha|Ha]; [contradiction|]. rewrite (Hx r) by auto.
      specialize (IH H2 Ha Hx Hw). lia.
  Qed.

  Lemma step_grow s e s' : NoDup ranks -> step s e s' -> total s < total s'.
  Proof.
    intros ND H. inversion H; subst.
    - apply (total_grow _ _ a); auto; unfold weight; cbn.
      + intros x N. rewrite upd_other; auto.
      + rewrite upd_same. rewrite H3. cbn. lia.
    - apply (total_grow _ _ b); auto; unfold weight; cbn.
      + intros x N. rewrite upd_other; auto.
      + rewrite upd_same. rewrite H3. cbn. lia.
    - apply (total_grow _ _ a); auto; unfold weight; cbn.
      + intros x N. rewrite upd_other; auto.
      + rewrite upd_same. rewrite H4. cbn. lia.
    - apply (total_grow _ _ a); auto; unfold weight; cbn.
      + intros x N. rewrite !upd_other; auto.
      + rewrite !upd_same. destruct (posted s a), (sent s a), (recvd s a); cbn; lia.
  Qed.

  Lemma total_bound s : inv s -> total s <= 4 * K * length ranks.
  Proof.
    intros I. unfold total.
    assert (B : forall a, In a ranks -> weight s a <= 4 * K).
    { intros a Ha. unfold weight. pose proof (i_bound s I a Ha).
      pose proof (i_posted s I a Ha). pose proof (i_sent s I a Ha). pose proof (i_recvd s I a Ha).
      destruct (posted s a), (sent s a), (recvd s a); cbn; lia. }
    clear -B. induction ranks as [|r rs IH]; simpl; [lia|].
    pose proof (B r (or_introl eq_refl)).
    assert (list_sum (map (weight s) rs) <= 4 * K * length rs) by (apply IH; intros; apply B; simpl; auto).
    lia.
  Qed.

  Lemma steps_length s es s' : NoDup ranks -> steps s es s' -> total s + length es <= total s'.
  Proof.
    intros ND H. induction H; simpl; [lia|]. apply step_grow in H; auto. lia.
  Qed.

  Lemma exchange_terminates es s : NoDup ranks -> steps init es s ->
    length es <= 4 * K * length ranks /\
    (~ finished ranks K s -> exists e s', step s e s').
  Proof.
    intros ND H. pose proof (inv_steps _ _ _ inv_init H) as I. split.
    - pose proof (steps_length _ _ _ ND H). pose proof (total_bound _ I). lia.
    - apply progress; auto.
  Qed.

  Lemma deliveries_match es s a b m k : steps init es s -> In (Deliver a b m k) es ->
    m = k /\ k < K /\ dst a k = Some b /\ src b k = Some a.
  Proof.
    intros H. assert (I : inv init) by apply inv_init. revert I.
    induction H as [|s e s' es s'' H1 H2 IH]; intros I Hin; [destruct Hin|].
    destruct Hin as [->|Hin]; [|apply IH; auto; eapply inv_step; eauto].
    inversion H1; subst. assert (m = rnd s b) by (eapply deliver_round; eauto).
    subst. repeat split; auto. apply matching; auto. eapply src_rank; eauto.
  Qed.

  Lemma finished_quiet es s : steps init es s -> finished ranks K s ->
    forall a b, In a ranks -> In b ranks -> chan s a b = [].
  Proof.
    intros H F a b Ha Hb. pose proof (inv_steps _ _ _ inv_init H) as I.
    destruct (chan s a b) as [|m ms] eqn:E; auto. exfalso.
    assert (Hm : In m (chan s a b)) by (rewrite E; simpl; auto).
    apply (i_chan s I) in Hm; auto. destruct Hm as (H1 & _ & _ & H4).
    apply H4. left. rewrite (F b Hb). auto.
  Qed.
End Proofs.
