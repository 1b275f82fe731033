From Coq Require Import ZArith List Bool Arith Lia Permutation.
From Verif Require Import Base ListLemmas DecompModel DecompSpec DecompProofs DirsModel DirsSpec DirsProofs
  TopoModel TopoSpec TopoProofs TopoTop HaloModel HaloSpec HaloProofs PrtlModel PrtlSpec PrtlProofs
  PrtlCommModel PrtlCommSpec PrtlCommProofs.
Import ListNotations.

Lemma tag_nat D dir : dimension D -> nonzero_direction D dir ->
  exists t, dir2tag dir = Ok (Z.of_nat t) /\ 2 <= t < 2 + length (all_dirs D).
Proof.
  intros HD H. destruct (tag_roundtrip D dir HD H) as [t [E [B _]]].
  assert (L : Z.of_nat (length (all_dirs D)) = (3 ^ Z.of_nat D - 1)%Z).
  { destruct (dims D HD) as [->|[->| ->]]; reflexivity. }
  exists (Z.to_nat t). rewrite Z2Nat.id by lia. split; auto. lia.
Qed.

Lemma tag_inj D d d' : dimension D -> nonzero_direction D d -> nonzero_direction D d' ->
  dir2tag d = dir2tag d' -> d = d'.
Proof.
  intros HD H H' E. destruct (tag_roundtrip D d HD H) as [t [E1 [_ R1]]].
  destruct (tag_roundtrip D d' HD H') as [t' [E2 [_ R2]]].
  assert (t = t') by congruence. subst t'. congruence.
Qed.

Lemma lookup_ok (R : list Z -> message -> Prop) dirs : forall ms, NoDup dirs ->
  Forall2 (fun d x => fst x = d /\ R d (snd x)) dirs ms ->
  forall d, In d dirs -> exists m, lookup_msg ms d = Some m /\ R d m.
Proof.
  induction dirs as [|d0 dirs IH]; intros ms ND F d Hd; [destruct Hd|].
  inversion F as [|a1 x1 l1 ms' HH F' Q1 Q2]; clear F. subst. destruct x1 as [d1 m1]. destruct HH as [E Rm]. cbn in E, Rm. subst d1. inversion ND; subst.
  cbn [lookup_msg]. destruct (list_eqb d0 d) eqn:E.
  - apply list_eqb_true in E. subst. eauto.
  - apply IH; auto. destruct Hd as [->|]; auto.
    rewrite (proj2 (list_eqb_true d d) eq_refl) in E. discriminate.
Qed.

Section Shifts.
  Variables (f : list Z -> option nat) (g : list Z -> option Z).
  Let step (v : nat -> Z) (dir : list Z) : nat -> Z :=
    match f dir, g dir with Some t, Some x => upd v t x | _, _ => v end.
  Lemma shifts_other dirs : forall v t, (forall d, In d dirs -> f d <> Some t) -> fold_left step dirs v t = v t.
  Proof.
    induction dirs as [|d dirs IH]; intros v t H; auto. cbn [fold_left]. rewrite IH by (intros; apply H; right; auto).
    unfold step. destruct (f d) as [t'|] eqn:E; auto. destruct (g d); auto. apply upd_neq.
    intros ->. apply (H d); [left; auto|auto].
  Qed.
  Lemma shifts_at dirs : forall v d t, NoDup dirs -> In d dirs -> f d = Some t ->
    (forall d', In d' dirs -> f d' = Some t -> d' = d) -> fold_left step dirs v t = match g d with Some x => x | None => v t end.
  Proof.
    induction dirs as [|d0 dirs IH]; intros v d t ND Hin E U; [destruct Hin|]. cbn [fold_left]. inversion ND; subst.
    destruct (list_eq_dec Z.eq_dec d0 d) as [->|N].
    - rewrite shifts_other.
      + unfold step. rewrite E. destruct (g d); auto. apply upd_eq.
      + intros d' Hd' Ed'. assert (d' = d) by (apply U; [right|]; auto). subst. auto.
    - destruct Hin as [->|Hin]; [congruence|]. rewrite (IH _ d t); [|auto|auto|auto|intros; apply U; simpl; auto].
      destruct (g d); auto. unfold step. destruct (f d0) as [t0|] eqn:E0; auto. destruct (g d0); auto. apply upd_neq.
      intros ->. apply N. apply U; simpl; auto.
  Qed.
End Shifts.

Section Comm.
  Variables (ls : list (list Z)) (gbc : list (flds_bc * flds_bc)) (c : cfg) (sc : sched) (st : list Z -> parts).
  Hypothesis L : length gbc = length ls.
  Hypothesis P : paired_flds gbc.
  Hypothesis HD : dimension (length ls).
  Hypothesis DC : dim c = length ls.
  Hypothesis PP : forall o n, Permutation (o_prep sc o n) (seq 0 n).
  Hypothesis PO : forall o dir n, Permutation (o_pop sc o dir n) (seq 0 n).
  Hypothesis PE : forall o n, Permutation (o_ext sc o n) (seq 0 n).
  Hypothesis RD : forall o, in_box o (counts ls) -> tagged_ok (length ls) (st o).
  Let ns := counts ls.
  Let T := ntags c.

  Lemma T3 : 3 <= T.
  Proof. unfold T, ntags. rewrite DC. destruct (dims _ HD) as [->|[->| ->]]; cbn; lia. Qed.

  Lemma dir_in dir : In dir (all_dirs (dim c)) <-> nonzero_direction (length ls) dir.
  Proof. rewrite DC. split; [apply all_direction|apply all_complete]; auto. Qed.

  Lemma dirs_in o dir : In dir (dirs_to_comm ls gbc c o) <-> nonzero_direction (length ls) dir /\
    (send_to ns gbc o dir <> None \/ recv_from ns gbc o dir <> None).
  Proof.
    unfold dirs_to_comm. rewrite filter_In, dir_in. apply and_iff_compat_l. fold (counts ls). fold ns.
    destruct (send_to ns gbc o dir), (recv_from ns gbc o dir); cbn; intuition congruence.
  Qed.

  Lemma shift_displacement o b dir t d : nonzero_direction (length ls) dir -> dir2tag dir = Ok (Z.of_nat t) ->
    2 <= t -> send_to ns gbc o dir = Some b ->
    shifts ls gbc c o d (t - 2) = displacement ls o b dir (d - 1).
  Proof.
    intros Hd Et Ht Es. unfold shifts. fold (counts ls). fold ns.
    set (f := fun dir => match dir2tag dir with Ok t => Some (Z.to_nat t - 2) | _ => None end).
    set (g := fun dir => match send_to ns gbc o dir with
      | Some b => if Z.eqb (nth (d - 1) dir 0%Z) (-1) then Some (nth (d - 1) (size ls b) 0%Z)
          else if Z.eqb (nth (d - 1) dir 0%Z) 1 then Some (- nth (d - 1) (size ls o) 0)%Z else None
      | None => None end).
    transitivity (fold_left (fun v dir => match f dir, g dir with Some t, Some x => upd v t x | _, _ => v end)
      (all_dirs (dim c)) (fun _ => 0%Z) (t - 2)).
    { assert (E : forall l v, fold_left (fun v dir =>
      match dir2tag dir, send_to ns gbc o dir with
      | Ok t, Some b =>
          if Z.eqb (nth (d - 1) dir 0%Z) (-1) then upd v (Z.to_nat t - 2) (nth (d - 1) (size ls b) 0%Z)
          else if Z.eqb (nth (d - 1) dir 0%Z) 1 then upd v (Z.to_nat t - 2) (- nth (d - 1) (size ls o) 0)%Z
          else v
      | _, _ => v
      end) l v = fold_left (fun v dir => match f dir, g dir with Some t, Some x => upd v t x | _, _ => v end) l v).
      { induction l as [|x l IH]; intros v; auto. cbn [fold_left]. rewrite IH. f_equal. unfold f, g.
        destruct (dir2tag x), (send_to ns gbc o x); auto.
        destruct (Z.eqb _ _); auto. destruct (Z.eqb _ _); auto. }
      exact (f_equal (fun h => h (t - 2)) (E _ _)). }
    rewrite (shifts_at f g _ _ dir (t - 2)).
    - unfold g, displacement. rewrite Es. destruct (Z.eqb _ _); auto. destruct (Z.eqb _ _); auto.
    - apply all_nodup.
    - apply dir_in. auto.
    - unfold f. rewrite Et, Nat2Z.id. auto.
    - intros d' Hd' E. apply dir_in in Hd'. unfold f in E.
      destruct (tag_nat _ d' HD Hd') as [t' [E' B']]. rewrite E', Nat2Z.id in E.
      apply (tag_inj (length ls)); auto. rewrite E', Et. repeat f_equal.
      assert (t' - 2 = t - 2) by congruence. lia.
  Qed.

  Lemma valid_of_ready o : in_box o ns -> valid_tags T (st o) = true.
  Proof.
    intros Ho. unfold valid_tags. apply forallb_forall. intros p Hp. apply in_seq in Hp.
    pose proof T3. destruct (RD o Ho p ltac:(lia)) as [E|[E|[dir [Hd E]]]].
    - rewrite E. apply andb_true_iff. split; [reflexivity|apply Z.ltb_lt; lia].
    - rewrite E. apply andb_true_iff. split; [reflexivity|apply Z.ltb_lt; lia].
    - destruct (tag_nat _ dir HD Hd) as [t [E' B]]. rewrite E' in E. injection E as E. rewrite <- E.
      unfold T, ntags. rewrite DC. apply andb_true_iff. split; [apply Z.leb_le|apply Z.ltb_lt]; lia.
  Qed.

  Let out o := layout_of (st o) (o_prep sc o (np (st o))) (0 :: seq 2 (T - 2)).

  Lemma rank_sends_ok o : in_box o ns -> exists s1 s2 ms,
    rank_sends ls gbc c sc st o = Ok (s2, out o, ms) /\ np s2 = np (st o) /\ maxp s2 = maxp (st o) /\
    ar s2 = ar s1 /\
    (forall q, q < np (st o) -> (tg s2 q = 0%Z /\ tg (st o) q <> 1%Z) \/
       (tg s2 q = tg (st o) q /\ (tg (st o) q = 1%Z \/ in_traffic ls gbc o (tg (st o) q) = false))) /\
    (forall q, q < np (st o) -> tg (st o) q = 1%Z -> forall a, ar s1 a q = ar (st o) a q) /\
    (forall q dir b, q < np (st o) -> nonzero_direction (length ls) dir -> dir2tag dir = Ok (tg (st o) q) ->
       send_to ns gbc o dir = Some b -> map (content s1 q) (attrs c) = arrived c (displacement ls o b dir) (st o) q) /\
    (forall dir, In dir (dirs_to_comm ls gbc c o) -> exists m t, lookup_msg ms dir = Some m /\
       dir2tag dir = Ok (Z.of_nat t) /\
       carries c m (map (content s1) (tagged (st o) t (o_prep sc o (np (st o)))))).
  Proof.
    intros Ho. set (order := o_prep sc o (np (st o))) in *.
    assert (PR : Permutation order (seq 0 (np (st o)))) by apply PP.
    destruct (prepare_ok c T (shifts ls gbc c o) order (st o) PR T3 (valid_of_ready o Ho)) as [s1 [E1 D1]].
    assert (ND : NoDup order) by (eapply Permutation_NoDup; [symmetry; exact PR|apply seq_NoDup]).
    pose proof (shift_all c (shifts ls gbc c o) order (st o) ND) as SA. cbv zeta in SA. rewrite <- D1 in SA.
    destruct SA as [A1 [A2 [A3 A4]]].
    assert (TD : Forall (tag_ok T) (dirs_to_comm ls gbc c o)).
    { apply Forall_forall. intros d Hd. apply dirs_in in Hd as [Hd _]. destruct (tag_nat _ d HD Hd) as [t [E B]].
      exists t. split; auto. unfold T, ntags. rewrite DC. auto. }
    destruct (send_ok c T order (o_pop sc o) (st o) s1 (dirs_to_comm ls gbc c o) PR TD (PO o) A1 A2 A3)
      as [s2 [ms [E2 [B1 [B2 [B3 [B4 B5]]]]]]].
    assert (IO : forall q, q < np (st o) -> In q order).
    { intros q Hq. eapply Permutation_in; [symmetry; exact PR|]. apply in_seq. lia. }
    exists s1, s2, ms. split.
    { unfold rank_sends, send_phase. fold T order. rewrite E1. cbn [rbind]. rewrite E2. reflexivity. }
    split; [auto|]. split; [auto|]. split; [auto|]. split; [|split; [|split]].
    - intros q Hq. rewrite B4. destruct (in_dec Nat.eq_dec q order) as [_|N]; [|destruct N; auto].
      assert (TT : forall d, In d (dirs_to_comm ls gbc c o) -> exists t, dir2tag d = Ok (Z.of_nat t) /\ 2 <= t).
      { intros d Hd. rewrite Forall_forall in TD. destruct (TD d Hd) as [t [? ?]]. exists t. split; auto. lia. }
      destruct (existsb _ _) eqn:X.
      + apply existsb_exists in X as [d [Hd X]]. destruct (TT d Hd) as [t [Et Ht]]. rewrite Et in X.
        apply Z.eqb_eq in X. rewrite X. left. split; [auto|lia].
      + right. split; auto. right. destruct (in_traffic ls gbc o (tg (st o) q)) eqn:HP; auto. unfold in_traffic in HP.
        apply existsb_exists in HP as [dir [Hd HP]]. apply all_direction in Hd; auto.
        destruct (dir2tag dir) as [t| |] eqn:E; try discriminate. apply andb_true_iff in HP as [HP S].
        apply Z.eqb_eq in HP. subst t.
        exfalso. assert (Y : existsb (fun d => match dir2tag d with Ok t => Z.eqb (tg (st o) q) t | _ => false end)
           (dirs_to_comm ls gbc c o) = true).
        { apply existsb_exists. exists dir. split; [|rewrite E; apply Z.eqb_refl].
          apply dirs_in; split; auto. unfold ns. apply orb_true_iff in S.
          destruct (send_to (counts ls) gbc o dir); [left; discriminate|].
          destruct (recv_from (counts ls) gbc o dir); [right; discriminate|]. destruct S; discriminate. }
        congruence.
    - intros q Hq Eq a. rewrite A4. destruct (in_dec Nat.eq_dec q order) as [_|N]; [|destruct N; auto].
      unfold is_tag at 1. rewrite Eq. cbn [alive_tag]. change (Z.eqb 1 alive_tag) with true. cbn [orb]. lia.
    - intros q dir b Hq Hd Et Es. unfold arrived. apply map_ext_in. intros a Ha. unfold content. rewrite A4.
      destruct (in_dec Nat.eq_dec q order) as [_|N]; [|destruct N; auto].
      destruct (tag_nat _ dir HD Hd) as [t [E' B]]. rewrite E' in Et. injection Et as Et.
      unfold is_tag. rewrite <- Et.
      destruct (Z.eqb_spec (Z.of_nat t) alive_tag) as [X|_]; [unfold alive_tag in X; lia|].
      destruct (Z.eqb_spec (Z.of_nat t) dead_tag) as [X|_]; [unfold dead_tag in X; lia|]. cbn [orb].
      rewrite Nat2Z.id. f_equal. unfold shift_of.
      assert (SD : forall d, shifts ls gbc c o d (t - 2) = displacement ls o b dir (d - 1)).
      { intros d. apply shift_displacement; auto. lia. }
      assert (R : forall d, (a = I d \/ a = Iprev d) -> ge_dim c d && Nat.leb 1 d && Nat.leb d 3 = true).
      { intros d Hd'. unfold attrs in Ha. rewrite !in_app_iff in Ha. unfold when in Ha.
        destruct (ge_dim c 1) eqn:G1, (ge_dim c 2) eqn:G2, (ge_dim c 3) eqn:G3, (has_phi c);
        repeat match goal with H : _ \/ _ |- _ => destruct H
          | H : In _ (map _ _) |- _ => apply in_map_iff in H as [? [? _]]
          | H : In _ [] |- _ => destruct H
          | H : In _ (_ :: _) |- _ => destruct H end;
        try congruence; try (subst; match goal with H : _ = _ :> attr |- _ => injection H as <- | H : False |- _ => destruct H end);
        rewrite ?G1, ?G2, ?G3; reflexivity. }
      destruct a as [d|d|d|d|d| | | |]; auto; rewrite (R d) by auto; apply SD.
    - intros dir Hdir.
      apply (lookup_ok (fun d m => exists t, dir2tag d = Ok (Z.of_nat t) /\ carries c m (map (content s1) (tagged (st o) t order))))
        with (d := dir) in B5; auto.
      + destruct B5 as [m [E [t [Et C]]]]. eauto 6.
      + apply NoDup_filter, all_nodup.
  Qed.

  Lemma out_in o q : in_box o ns -> (In q (out o) <-> q < np (st o) /\ tg (st o) q <> 1%Z).
  Proof.
    intros Ho. unfold out, layout_of. rewrite in_flat_map. unfold tagged. pose proof T3.
    pose proof (valid_of_ready o Ho) as V. unfold valid_tags in V. rewrite forallb_forall in V.
    split.
    - intros [t [Ht Hq]]. apply filter_In in Hq as [Hq E]. unfold is_tag in E. apply Z.eqb_eq in E.
      assert (Hn : q < np (st o)). { eapply Permutation_in in Hq; [|apply PP]. apply in_seq in Hq. lia. }
      split; auto. rewrite E. destruct Ht as [<-|Ht]; [lia|apply in_seq in Ht; lia].
    - intros [Hq Ht]. specialize (V q ltac:(apply in_seq; lia)). apply andb_true_iff in V as [V1 V2].
      apply Z.leb_le in V1. apply Z.ltb_lt in V2. exists (Z.to_nat (tg (st o) q)). split.
      + destruct (Nat.eq_dec (Z.to_nat (tg (st o) q)) 0) as [E|E]; [left; auto|right]. apply in_seq. lia.
      + apply filter_In. split; [eapply Permutation_in; [symmetry; apply PP|apply in_seq; lia]|].
        unfold is_tag. rewrite Z2Nat.id by lia. apply Z.eqb_refl.
  Qed.

  Lemma out_nodup o : NoDup (out o).
  Proof.
    assert (ND : NoDup (o_prep sc o (np (st o)))) by (eapply Permutation_NoDup; [symmetry; apply PP|apply seq_NoDup]).
    unfold out. assert (NT : NoDup (0 :: seq 2 (T - 2))).
    { constructor; [rewrite in_seq; lia|apply seq_NoDup]. }
    unfold layout_of. induction NT as [|t ts Hn NT IH]; [constructor|]. cbn [flat_map].
    apply NoDup_app_intro; [apply NoDup_filter; auto|exact IH|].
    intros q Hq Hq'. apply in_flat_map in Hq' as [t' [Ht' Hq']]. unfold tagged in *. apply filter_In in Hq as [_ E], Hq' as [_ E'].
    unfold is_tag in *. apply Z.eqb_eq in E, E'. assert (t = t') by lia. subst. auto.
  Qed.

  (** What arrives, by direction. *)
  Let vsd (b dir : list Z) (fs : list (attr -> Z)) : Prop :=
    Permutation (map (fun f => map f (attrs c)) fs)
      (match recv_from ns gbc b dir with
       | Some o => map (arrived c (displacement ls o b dir) (st o)) (movers (st o) dir)
       | None => []
       end).

  Lemma arriving_ok b dir : in_box b ns -> nonzero_direction (length ls) dir ->
    exists fs, vsd b dir fs /\
      match arriving ls gbc c sc st b dir with Some m => carries c m fs | None => fs = [] end.
  Proof.
    intros Hb Hd. unfold arriving, vsd. fold (counts ls). fold ns.
    destruct (recv_from ns gbc b dir) as [o|] eqn:E; [|exists []; split; auto].
    assert (Ho : in_box o ns) by (eapply recv_from_box; eauto).
    assert (ES : send_to ns gbc o dir = Some b) by (apply (match_partner ls gbc L P); auto).
    destruct (rank_sends_ok o Ho) as [s1 [s2 [ms [E1 [_ [_ [_ [_ [_ [C1 C2]]]]]]]]]].
    rewrite E1. destruct (C2 dir) as [m [t [EL [Et C]]]].
    { apply dirs_in. split; auto. left. congruence. }
    rewrite EL. exists (map (content s1) (tagged (st o) t (o_prep sc o (np (st o))))). split; [|exact C].
    rewrite map_map.
    assert (PM : Permutation (tagged (st o) t (o_prep sc o (np (st o)))) (movers (st o) dir)).
    { unfold tagged, movers. rewrite Et. apply (Permutation_filter (is_tag (st o) (Z.of_nat t)) _ (seq 0 (np (st o)))). apply PP. }
    etransitivity; [apply Permutation_map, PM|].
    apply Permutation_refl'. apply map_ext_in. intros q Hq. unfold movers in Hq. rewrite Et in Hq.
    apply filter_In in Hq as [Hq Eq]. apply in_seq in Hq. apply Z.eqb_eq in Eq.
    apply C1; auto; [lia|congruence].
  Qed.

  Lemma choice_list {A B} (R : A -> B -> Prop) (d : B) (eqd : forall x y : A, {x = y} + {x <> y}) l :
    (forall x, In x l -> exists y, R x y) -> exists f, forall x, In x l -> R x (f x).
  Proof.
    induction l as [|a l IH]; intros H.
    - exists (fun _ => d). intros x [].
    - destruct IH as [f Hf]; [intros; apply H; right; auto|]. destruct (H a) as [y Hy]; [left; auto|].
      exists (fun x => if eqd x a then y else f x). intros x Hx. destruct (eqd x a) as [->|N]; auto.
      apply Hf. destruct Hx; congruence.
  Qed.

  Lemma flat_map_perm {A B} (f g : A -> list B) l : (forall x, In x l -> Permutation (f x) (g x)) ->
    Permutation (flat_map f l) (flat_map g l).
  Proof.
    induction l as [|a l IH]; intros H; cbn [flat_map]; auto. apply Permutation_app; [apply H; left; auto|].
    apply IH. intros; apply H; right; auto.
  Qed.

  Lemma flat_map_filter {A B} (f : A -> list B) p l : (forall x, In x l -> p x = false -> f x = []) ->
    flat_map f (filter p l) = flat_map f l.
  Proof.
    induction l as [|a l IH]; intros H; cbn [flat_map filter]; auto.
    destruct (p a) eqn:E; cbn [flat_map]; rewrite IH by (intros; apply H; simpl; auto); auto.
    rewrite (H a) by (simpl; auto). auto.
  Qed.

  Lemma map_flat_map {A B C} (f : A -> list B) (h : B -> C) l : map h (flat_map f l) = flat_map (fun x => map h (f x)) l.
  Proof. induction l; cbn [flat_map map]; auto. rewrite map_app, IHl. auto. Qed.

  Lemma incoming_perm b (f : list Z -> list (attr -> Z)) : (forall dir, In dir (dirs_to_comm ls gbc c b) -> vsd b dir (f dir)) ->
    Permutation (map (fun f => map f (attrs c)) (flat_map f (dirs_to_comm ls gbc c b))) (incoming ls gbc c st b).
  Proof.
    intros H. rewrite map_flat_map. unfold incoming. fold ns.
    rewrite <- (flat_map_filter (fun dir => match recv_from ns gbc b dir with
      | Some o => map (arrived c (displacement ls o b dir) (st o)) (movers (st o) dir) | None => [] end)
      (fun d => is_some (send_to ns gbc b d) || is_some (recv_from ns gbc b d))).
    - apply flat_map_perm. exact H.
    - intros x _ E. apply orb_false_iff in E as [_ E]. destruct (recv_from ns gbc b x); [discriminate|auto].
  Qed.

  Lemma nodup_map_inj {A B} (f : A -> B) l : (forall x y, In x l -> In y l -> f x = f y -> x = y) -> NoDup l -> NoDup (map f l).
  Proof.
    intros H ND. induction ND as [|a l Ha ND IH]; cbn [map]; constructor.
    - rewrite in_map_iff. intros [x [E Hx]]. apply H in E; simpl; auto. subst. auto.
    - apply IH. intros; apply H; simpl; auto.
  Qed.

  Lemma count_targets n os R : NoDup os -> (forall q, In q os -> q < n) -> NoDup (map (target n os) (seq 0 R)).
  Proof.
    intros ND B. apply nodup_map_inj; [|apply seq_NoDup].
    intros x y _ _ E. unfold target in E.
    destruct (Nat.leb_spec (length os) x), (Nat.leb_spec (length os) y).
    - lia.
    - pose proof (B _ (nth_In os 0 ltac:(eassumption))). lia.
    - pose proof (B _ (nth_In os 0 ltac:(eassumption))). lia.
    - eapply (proj1 (NoDup_nth os 0)); eauto.
  Qed.

  Theorem exchange_rank_any b : in_box b ns ->
    np (st b) + length (incoming ls gbc c st b) < maxp (st b) ->
    exists s', comm_particles ls gbc c sc st b = Ok s' /\ maxp s' = maxp (st b) /\ np s' < maxp s' /\
      (forall p, p < np s' -> tg s' p = 0%Z \/ tg s' p = 1%Z \/
         (p < np (st b) /\ tg s' p = tg (st b) p /\ in_traffic ls gbc b (tg (st b) p) = false)) /\
      (forall p, In p (live (st b)) -> In p (live s') /\ tagged_view c s' p = tagged_view c (st b) p) /\
      Permutation (map (view c s') (live s')) (map (view c (st b)) (live (st b)) ++ incoming ls gbc c st b).
  Proof.
    intros Hb CAP. destruct (rank_sends_ok b Hb) as [s1 [s2 [ms [E1 [N2 [M2 [A2 [T2 [L1 [_ _]]]]]]]]]].
    destruct (choice_list (fun dir fs => vsd b dir fs /\
      match arriving ls gbc c sc st b dir with Some m => carries c m fs | None => fs = [] end) []
      (list_eq_dec Z.eq_dec) (dirs_to_comm ls gbc c b)) as [f Hf].
    { intros dir Hdir. apply arriving_ok; auto. apply dirs_in in Hdir. apply Hdir. }
    assert (IP := incoming_perm b f (fun d Hd => proj1 (Hf d Hd))).
    set (vs := flat_map f (dirs_to_comm ls gbc c b)) in *.
    assert (LV : length vs = length (incoming ls gbc c st b)).
    { rewrite <- (Permutation_length IP), map_length. auto. }
    assert (OB : forall q, In q (out b) -> q < np s2).
    { intros q Hq. rewrite N2. apply out_in in Hq; auto. apply Hq. }
    destruct (recv_ok c T (dirs_to_comm ls gbc c b) (arriving ls gbc c sc st b) f (o_ext sc b) (out b) s2)
      as [s' [E' [M' [N' [U' R']]]]].
    - apply NoDup_filter, all_nodup.
    - apply Forall_forall. intros d Hd. apply dirs_in in Hd as [Hd _]. apply opp_nonzero in Hd.
      destruct (tag_nat _ _ HD Hd) as [t [E B]]. exists t. split; auto. unfold T, ntags. rewrite DC. auto.
    - intros d d' Hd Hd' E. apply dirs_in in Hd as [Hd _], Hd' as [Hd' _].
      rewrite <- (opp_opp d), <- (opp_opp d'). f_equal. apply (tag_inj (length ls)); auto using opp_nonzero.
    - apply Forall_forall. intros d Hd. exact (proj2 (Hf d Hd)).
    - apply PE.
    - apply out_nodup.
    - exact OB.
    - fold vs. lia.
    - fold vs in N', U', R'. exists s'. split.
      { unfold comm_particles. rewrite E1. cbn [rbind]. exact E'. }
      split; [lia|]. split; [lia|].
      set (tgt := target (np s2) (out b)) in *.
      assert (TG : forall q, (exists p, p < length vs /\ q = tgt p) \/ (forall p, p < length vs -> q <> tgt p)).
      { intros q. destruct (in_dec Nat.eq_dec q (map tgt (seq 0 (length vs)))) as [H|H].
        - apply in_map_iff in H as [p [E H]]. apply in_seq in H. left. exists p. split; [lia|auto].
        - right. intros p Hp E. apply H. apply in_map_iff. exists p. split; auto. apply in_seq. lia. }
      assert (TA : forall p, p < length vs -> tg s' (tgt p) = 1%Z).
      { intros p Hp. destruct (nth_error vs p) as [g|] eqn:G; [|apply nth_error_None in G; lia]. apply (R' p g G). }
      assert (LOW : forall q, q < np s' -> (forall p, p < length vs -> q <> tgt p) -> q < np s2).
      { intros q Hq H. destruct (Nat.lt_ge_cases q (np s2)) as [|G]; auto. exfalso.
        apply (H (q - np s2 + length (out b))); [lia|]. unfold tgt, target.
        destruct (Nat.leb_spec (length (out b)) (q - np s2 + length (out b))); lia. }
      assert (NT : forall q, In q (live (st b)) -> forall p, p < length vs -> q <> tgt p).
      { intros q Hq p Hp ->. unfold live in Hq. apply filter_In in Hq as [Hq Eq]. apply in_seq in Hq.
        apply Z.eqb_eq in Eq. unfold tgt, target in *.
        destruct (Nat.leb_spec (length (out b)) p); [lia|].
        pose proof (nth_In (out b) 0 ltac:(eassumption)) as I. apply out_in in I; auto. tauto. }
      assert (SAME : forall q, In q (live (st b)) -> tg s' q = tg (st b) q /\ forall a, ar s' a q = ar (st b) a q).
      { intros q Hq. destruct (U' q (NT q Hq)) as [U1 U2]. unfold live in Hq. apply filter_In in Hq as [Hq Eq].
        apply in_seq in Hq. apply Z.eqb_eq in Eq. split.
        - rewrite U1. destruct (T2 q ltac:(lia)) as [[_ X]|[X _]]; [congruence|auto].
        - intros a. rewrite U2, A2. apply L1; auto. lia. }
      split.
      { intros p Hp. destruct (TG p) as [[k [Hk ->]]|H]; [right; left; auto|].
        destruct (U' p H) as [U1 _]. assert (Hp' : p < np (st b)) by (specialize (LOW p Hp H); lia). rewrite U1.
        destruct (T2 p Hp') as [[X _]|[X [Y|Y]]]; [left; auto|right; left; congruence|right; right; auto]. }
      split.
      { intros p Hp. destruct (SAME p Hp) as [S1 S2]. split.
        - unfold live in *. apply filter_In in Hp as [Hp Eq]. apply in_seq in Hp. apply filter_In.
          split; [apply in_seq; lia|]. rewrite S1. auto.
        - unfold tagged_view, view. rewrite S1. f_equal. apply map_ext. auto. }
      assert (PL : Permutation (live s') (live (st b) ++ map tgt (seq 0 (length vs)))).
      { apply NoDup_Permutation.
        - apply NoDup_filter, seq_NoDup.
        - apply NoDup_app_intro; [apply NoDup_filter, seq_NoDup|apply count_targets; auto using out_nodup|].
          intros q Hq Hq'. apply in_map_iff in Hq' as [p [<- Hp]]. apply in_seq in Hp. eapply NT; eauto. lia.
        - intros q. rewrite in_app_iff, in_map_iff. split.
          + intros Hq. unfold live in Hq. apply filter_In in Hq as [Hq Eq]. apply in_seq in Hq. apply Z.eqb_eq in Eq.
            destruct (TG q) as [[k [Hk ->]]|H]; [right; exists k; split; auto; apply in_seq; lia|].
            left. pose proof (LOW q ltac:(lia) H) as Hl. destruct (U' q H) as [U1 _]. rewrite U1 in Eq.
            destruct (T2 q ltac:(lia)) as [[X _]|[X _]]; [congruence|]. unfold live. apply filter_In.
            split; [apply in_seq; lia|apply Z.eqb_eq; congruence].
          + intros [Hq|[p [<- Hp]]].
            * destruct (SAME q Hq) as [S1 _]. unfold live in *. apply filter_In in Hq as [Hq Eq]. apply in_seq in Hq.
              apply filter_In. split; [apply in_seq; lia|]. rewrite S1. auto.
            * apply in_seq in Hp. unfold live. apply filter_In. split; [|rewrite TA by lia; reflexivity].
              apply in_seq. split; [lia|]. cbn [plus]. unfold tgt, target.
              destruct (Nat.leb_spec (length (out b)) p); [lia|]. pose proof (OB _ (nth_In (out b) 0 ltac:(eassumption))). lia. }
      etransitivity; [apply Permutation_map, PL|]. rewrite map_app. apply Permutation_app.
      + apply Permutation_refl'. apply map_ext_in. intros q Hq. unfold view. apply map_ext. intros a. apply (SAME q Hq).
      + etransitivity; [|exact IP]. rewrite map_map.
        match goal with |- Permutation ?x ?y => assert (E : x = y); [|rewrite E; reflexivity] end.
        apply nth_error_ext. intros i. rewrite !nth_error_map.
        destruct (nth_error vs i) as [g|] eqn:G.
        * assert (Hi : i < length vs) by (apply nth_error_Some; congruence).
          rewrite (nth_error_nth' _ 0) by (rewrite seq_length; auto). rewrite seq_nth by auto. cbn [option_map plus].
          f_equal. unfold view. apply map_ext_in. intros a Ha. apply (R' i g G); auto.
        * apply nth_error_None in G. rewrite (proj2 (nth_error_None _ _)); auto. rewrite seq_length. auto.
  Qed.

  (** ** Overflow *)
  Lemma recv_count_err inc s dirs : fold_left (recv_count s inc) dirs Err = Err.
  Proof. induction dirs; auto. Qed.

  Lemma recv_count_overflow inc s dirs : Forall (fun d => tag_ok T (opp_dir d)) dirs -> forall vec tot,
    maxp s <= np s + (tot + list_sum (map (nrecv_of inc) dirs)) -> (dirs <> [] \/ np s + tot < maxp s) ->
    fold_left (recv_count s inc) dirs (Ok (vec, tot)) = Err.
  Proof.
    induction 1 as [|d dirs [t [Et _]] F IH]; intros vec tot H C.
    - cbn in H. destruct C as [C|C]; [congruence|lia].
    - cbn [fold_left]. unfold recv_count at 2. cbn [rbind]. rewrite Et. cbn [rbind].
      destruct (Nat.leb_spec (maxp s) (np s + (tot + nrecv_of inc d))); [apply recv_count_err|].
      apply IH; [cbn [map] in H; change (list_sum (nrecv_of inc d :: map (nrecv_of inc) dirs)) with
        (nrecv_of inc d + list_sum (map (nrecv_of inc) dirs)) in H; lia|right; lia].
  Qed.

  Lemma length_flat_map {A B} (f : A -> list B) l : length (flat_map f l) = list_sum (map (fun x => length (f x)) l).
  Proof. induction l; cbn [flat_map map]; auto. rewrite app_length, IHl. reflexivity. Qed.

  Theorem exchange_overflow_any b : in_box b ns -> dirs_to_comm ls gbc c b <> [] ->
    maxp (st b) <= np (st b) + length (incoming ls gbc c st b) -> comm_particles ls gbc c sc st b = Err.
  Proof.
    intros Hb ND CAP. destruct (rank_sends_ok b Hb) as [s1 [s2 [ms [E1 [N2 [M2 _]]]]]].
    unfold comm_particles. rewrite E1. cbn [rbind].
    unfold recv_phase. rewrite recv_count_overflow; [reflexivity| | |left; auto].
    - apply Forall_forall. intros d Hd. apply dirs_in in Hd as [Hd _]. apply opp_nonzero in Hd.
      destruct (tag_nat _ _ HD Hd) as [t [E B]]. exists t. split; auto. unfold T, ntags. rewrite DC. auto.
    - destruct (choice_list (fun dir fs => vsd b dir fs /\
        match arriving ls gbc c sc st b dir with Some m => carries c m fs | None => fs = [] end) []
        (list_eq_dec Z.eq_dec) (dirs_to_comm ls gbc c b)) as [f Hf].
      { intros dir Hdir. apply arriving_ok; auto. apply dirs_in in Hdir. apply Hdir. }
      assert (IP := Permutation_length (incoming_perm b f (fun d Hd => proj1 (Hf d Hd)))).
      rewrite map_length, length_flat_map in IP.
      replace (map (nrecv_of (arriving ls gbc c sc st b)) (dirs_to_comm ls gbc c b))
        with (map (fun x => length (f x)) (dirs_to_comm ls gbc c b)); [cbn [plus]; lia|].
      apply map_ext_in. intros d Hd. destruct (Hf d Hd) as [_ H]. unfold nrecv_of.
      destruct (arriving ls gbc c sc st b d); [symmetry; apply H|rewrite H; auto].
  Qed.

  (** ** The whole machine *)
  Theorem exchange_all_full :
    (forall b, in_box b ns -> np (st b) + length (incoming ls gbc c st b) < maxp (st b)) ->
    exists st', forall b, in_box b ns -> comm_particles ls gbc c sc st b = Ok (st' b) /\
      maxp (st' b) = maxp (st b) /\ np (st' b) < maxp (st' b) /\
      (forall p, p < np (st' b) -> tg (st' b) p = 0%Z \/ tg (st' b) p = 1%Z \/
         (p < np (st b) /\ tg (st' b) p = tg (st b) p /\ in_traffic ls gbc b (tg (st b) p) = false)) /\
      Permutation (map (view c (st' b)) (live (st' b))) (map (view c (st b)) (live (st b)) ++ incoming ls gbc c st b).
  Proof.
    intros CAP.
    destruct (choice_list (fun b s' => comm_particles ls gbc c sc st b = Ok s' /\ maxp s' = maxp (st b) /\ np s' < maxp s' /\
      (forall p, p < np s' -> tg s' p = 0%Z \/ tg s' p = 1%Z \/
         (p < np (st b) /\ tg s' p = tg (st b) p /\ in_traffic ls gbc b (tg (st b) p) = false)) /\
      Permutation (map (view c s') (live s')) (map (view c (st b)) (live (st b)) ++ incoming ls gbc c st b))
      (st []) (list_eq_dec Z.eq_dec) (positions ls)) as [f Hf].
    - intros b Hb. apply in_positions in Hb. destruct (exchange_rank_any b Hb (CAP b Hb)) as [s' H]. exists s'. tauto.
    - exists f. intros b Hb. apply Hf. apply in_positions. auto.
  Qed.

  Theorem exchange_all_any :
    (forall b, in_box b ns -> np (st b) + length (incoming ls gbc c st b) < maxp (st b)) ->
    exists st', forall b, in_box b ns -> comm_particles ls gbc c sc st b = Ok (st' b) /\
      Permutation (map (view c (st' b)) (live (st' b))) (map (view c (st b)) (live (st b)) ++ incoming ls gbc c st b).
  Proof. intros CAP. destruct (exchange_all_full CAP) as [f Hf]. exists f. intros b Hb. specialize (Hf b Hb). tauto. Qed.
End Comm.

Lemma ready_tagged ls gbc o s : ready ls gbc o s -> tagged_ok (length ls) s.
Proof. intros R p Hp. destruct (R p Hp) as [E|[E|[dir [b [Hd [E _]]]]]]; eauto. Qed.

Lemma ready_partner ls gbc o s p : dimension (length ls) -> ready ls gbc o s -> p < np s ->
  tg s p = 0%Z \/ tg s p = 1%Z \/ has_partner ls gbc o (tg s p) = true.
Proof.
  intros HD R Hp. destruct (R p Hp) as [E|[E|[dir [b [Hd [E S]]]]]]; auto. right. right. unfold has_partner.
  apply existsb_exists. exists dir. split; [apply all_complete; auto|]. rewrite E, S. apply Z.eqb_refl.
Qed.

Lemma partner_traffic ls gbc o t : has_partner ls gbc o t = true -> in_traffic ls gbc o t = true.
Proof.
  unfold has_partner, in_traffic. intros H. apply existsb_exists in H as [dir [Hd H]]. apply existsb_exists. exists dir.
  split; auto. destruct (dir2tag dir); try discriminate. destruct (send_to (counts ls) gbc o dir); try discriminate.
  rewrite H. reflexivity.
Qed.

Section Ready.
  Variables (ls : list (list Z)) (gbc : list (flds_bc * flds_bc)) (c : cfg) (sc : sched) (st : list Z -> parts).
  Hypothesis L : length gbc = length ls.
  Hypothesis P : paired_flds gbc.
  Hypothesis HD : dimension (length ls).
  Hypothesis DC : dim c = length ls.
  Hypothesis PP : forall o n, Permutation (o_prep sc o n) (seq 0 n).
  Hypothesis PO : forall o dir n, Permutation (o_pop sc o dir n) (seq 0 n).
  Hypothesis PE : forall o n, Permutation (o_ext sc o n) (seq 0 n).
  Hypothesis RD : forall o, in_box o (counts ls) -> ready ls gbc o (st o).

  Lemma RD' : forall o, in_box o (counts ls) -> tagged_ok (length ls) (st o).
  Proof. intros o Ho. eapply ready_tagged. eauto. Qed.

  Theorem exchange_rank b : in_box b (counts ls) ->
    np (st b) + length (incoming ls gbc c st b) < maxp (st b) ->
    exists s', comm_particles ls gbc c sc st b = Ok s' /\ maxp s' = maxp (st b) /\ np s' < maxp s' /\
      (forall p, p < np s' -> tg s' p = 0%Z \/ tg s' p = 1%Z) /\
      (forall p, In p (live (st b)) -> In p (live s') /\ tagged_view c s' p = tagged_view c (st b) p) /\
      Permutation (map (view c s') (live s')) (map (view c (st b)) (live (st b)) ++ incoming ls gbc c st b).
  Proof.
    intros Hb CAP. destruct (exchange_rank_any ls gbc c sc st L P HD DC PP PO PE RD' b Hb CAP) as [s' [E [M [N [T [K V]]]]]].
    exists s'. split; [auto|]. split; [auto|]. split; [auto|]. split; [|auto].
    intros p Hp. destruct (T p Hp) as [X|[X|[Hq [X Y]]]]; auto.
    destruct (ready_partner ls gbc b (st b) p HD (RD b Hb) Hq) as [Z|[Z|Z]]; [left; congruence|right; congruence|].
    apply partner_traffic in Z. congruence.
  Qed.

  Theorem exchange_overflow b : in_box b (counts ls) -> dirs_to_comm ls gbc c b <> [] ->
    maxp (st b) <= np (st b) + length (incoming ls gbc c st b) -> comm_particles ls gbc c sc st b = Err.
  Proof. exact (exchange_overflow_any ls gbc c sc st L P HD DC PP PO PE RD' b). Qed.
End Ready.

(** ** Places *)
Open Scope Z_scope.
Lemma place1 l a d x : 0 <= a < len l -> -1 <= d <= 1 ->
  let b := neighbor1 (len l) a d in
  (off l b + (x + (if d =? -1 then blk l b else if d =? 1 then - blk l a else 0))) mod sumZ l = (off l a + x) mod sumZ l.
Proof.
  intros Ha Hd. cbv zeta. unfold neighbor1.
  pose proof (off_0 l ltac:(lia)) as O0. pose proof (off_last l ltac:(lia)) as OL.
  destruct (trit d Hd) as [->|[->| ->]]; cbn [Z.eqb Pos.eqb andb].
  - destruct (Z.eqb_spec a 0) as [E|E].
    + subst a. replace (off l (len l - 1) + (x + blk l (len l - 1))) with (off l 0 + x + 1 * sumZ l) by lia.
      apply Z_mod_plus_full.
    + pose proof (off_next l (a - 1) ltac:(lia) ltac:(lia)) as ON. replace (a - 1 + 1) with a in ON by lia.
      change (a + -1) with (a - 1). f_equal. lia.
  - replace (a + 0) with a by lia. f_equal. lia.
  - destruct (Z.eqb_spec a (len l - 1)) as [E|E].
    + rewrite E. rewrite <- (Z_mod_plus_full _ 1). f_equal. lia.
    + pose proof (off_next l a ltac:(lia) ltac:(lia)) as ON. f_equal. lia.
Qed.

Lemma place ls : forall o dir k x, in_box o (counts ls) -> Forall2 (fun a _ => -1 <= a <= 1) dir (counts ls) ->
  let b := neighbor_offset (counts ls) o dir in
  (nth k (offs ls b) 0 + (x + displacement ls o b dir k)) mod nth k (map sumZ ls) 1 =
  (nth k (offs ls o) 0 + x) mod nth k (map sumZ ls) 1.
Proof.
  induction ls as [|l ls IH]; intros o dir k x Ho Hd; cbv zeta.
  - inversion Ho; subst. inversion Hd; subst. destruct k; cbn; f_equal; lia.
  - rewrite counts_cons in *. inversion Ho as [|a n o' ns' Ha Ho']; subst. inversion Hd as [|e n dir' ns' He Hd']; subst.
    destruct k as [|k].
    + exact (place1 l a e x Ha He).
    + exact (IH o' dir' k x Ho' Hd').
Qed.

Lemma send_to_neighbor ls gbc o b dir : length gbc = length ls -> paired_flds gbc -> in_box o (counts ls) ->
  nonzero_direction (length ls) dir -> send_to (counts ls) gbc o dir = Some b -> b = neighbor_offset (counts ls) o dir.
Proof.
  intros L P Ho Hd E. unfold send_to in E.
  rewrite partners_ok in E; rewrite ?LC; auto using paired_okbc.
  cbn [fst] in E. destruct (cl _); congruence.
Qed.

Lemma landing1 l a d x : 0 <= a < len l -> let b := neighbor1 (len l) a d in d = side x (blk l a) ->
  - blk l b <= x < blk l a + blk l b -> 0 <= x + (if d =? -1 then blk l b else if d =? 1 then - blk l a else 0) < blk l b.
Proof.
  intros Ha b Hd Hx. subst b. unfold side in Hd. destruct (Z.ltb_spec x 0); [|destruct (Z.leb_spec (blk l a) x)];
    subst d; cbn [Z.eqb Pos.eqb] in *.
  - lia.
  - lia.
  - unfold neighbor1 in *. cbn [Z.eqb Pos.eqb andb] in *. replace (a + 0) with a in * by lia. lia.
Qed.

Lemma landing ls : forall o dir x, in_box o (counts ls) -> let b := neighbor_offset (counts ls) o dir in
  dir = map2 side x (size ls o) -> length x = length ls ->
  Forall2 (fun a p => - snd p <= a < fst p + snd p) x (combine (size ls o) (size ls b)) ->
  in_box (map2 Z.add x (map (displacement ls o b dir) (seq 0 (length ls)))) (size ls b).
Proof.
  induction ls as [|l ls IH]; intros o dir x Ho; cbv zeta; intros Hd Lx F.
  - destruct x; [constructor|discriminate].
  - rewrite counts_cons in *. inversion Ho as [|a n o' ns' Ha Ho']; subst. destruct x as [|x xs]; [discriminate|].
    rewrite size_cons in *. cbn [map2] in *.
    change (neighbor_offset (len l :: counts ls) (a :: o') (side x (blk l a) :: map2 side xs (size ls o')))
      with (neighbor1 (len l) a (side x (blk l a)) :: neighbor_offset (counts ls) o' (map2 side xs (size ls o'))) in *.
    rewrite size_cons in *. cbn [combine] in F. inversion F as [|? ? ? ? F1 F2]; subst. cbn [fst snd] in F1.
    cbn [length seq map map2]. constructor.
    + exact (landing1 l a _ x Ha eq_refl F1).
    + rewrite <- seq_shift, map_map.
      exact (IH o' _ xs Ho' eq_refl ltac:(cbn in Lx; lia) F2).
Qed.
Close Scope Z_scope.

(** ** Conservation *)
Section Conserve.
  Context {K V : Type}.
  Variables (r s : K -> option K) (L : list K) (Y : K -> list V).
  Hypothesis ND : NoDup L.
  Hypothesis SR : forall o b, In o L -> In b L -> (s o = Some b <-> r b = Some o).
  Hypothesis RI : forall b o, In b L -> r b = Some o -> In o L.
  Hypothesis SI : forall o b, In o L -> s o = Some b -> In b L.
  Hypothesis YS : forall o, In o L -> s o = None -> Y o = [].
  Let rmap (l : list K) : list K := flat_map (fun b => match r b with Some o => [o] | None => [] end) l.

  Lemma rmap_flat l : flat_map (fun b => match r b with Some o => Y o | None => [] end) l = flat_map Y (rmap l).
  Proof. induction l as [|b l IH]; cbn; auto. rewrite IH. destruct (r b); cbn; auto. Qed.

  Lemma rmap_in l o : In o (rmap l) <-> exists b, In b l /\ r b = Some o.
  Proof.
    unfold rmap. rewrite in_flat_map. split; intros [b [Hb H]]; exists b; split; auto.
    - destruct (r b); destruct H; [subst; auto|destruct H].
    - rewrite H. left. auto.
  Qed.

  Lemma rmap_nodup l : incl l L -> NoDup l -> NoDup (rmap l).
  Proof.
    intros HI N. induction N as [|b l Hb N IH]; [constructor|]. cbn. destruct (r b) as [o|] eqn:E; [|apply IH; intros x Hx; apply HI; right; auto].
    cbn. constructor; [|apply IH; intros x Hx; apply HI; right; auto].
    intros H. apply rmap_in in H as [b' [Hb' E']]. assert (B : In b L) by (apply HI; left; auto). assert (B' : In b' L) by (apply HI; right; auto).
    pose proof (RI b o B E) as Io. apply SR in E; auto. apply SR in E'; auto. assert (b = b') by congruence. subst. auto.
  Qed.

  Lemma conserve : Permutation (flat_map (fun b => match r b with Some o => Y o | None => [] end) L) (flat_map Y L).
  Proof.
    rewrite rmap_flat. rewrite <- (flat_map_filter Y (fun o => is_some (s o)) L).
    2:{ intros o Ho E. apply YS; [exact Ho|]. destruct (s o); [discriminate|reflexivity]. }
    apply Permutation_flat_map. apply NoDup_Permutation.
    - apply rmap_nodup; auto. intros x; auto.
    - apply NoDup_filter; auto.
    - intros o. rewrite rmap_in, filter_In. split.
      + intros [b [Hb E]]. pose proof (RI b o Hb E). split; auto. apply SR in E; auto. rewrite E. auto.
      + intros [Ho E]. destruct (s o) as [b|] eqn:S; [|discriminate]. exists b. pose proof (SI o b Ho S). split; auto. apply SR; auto.
  Qed.
End Conserve.

Lemma flat_map_swap {A B C} (f : A -> B -> list C) (la : list A) (lb : list B) :
  Permutation (flat_map (fun a => flat_map (f a) lb) la) (flat_map (fun b => flat_map (fun a => f a b) la) lb).
Proof.
  induction la as [|a la IH]; cbn [flat_map].
  - induction lb; cbn [flat_map]; auto.
  - rewrite IH. clear IH. induction lb as [|b lb IH]; cbn [flat_map]; auto.
    rewrite <- !app_assoc. apply Permutation_app_head.
    rewrite Permutation_app_swap_app. apply Permutation_app_head. exact IH.
Qed.

Lemma flat_map_app_perm {A B} (f g : A -> list B) l :
  Permutation (flat_map (fun a => f a ++ g a) l) (flat_map f l ++ flat_map g l).
Proof.
  induction l as [|a l IH]; cbn [flat_map]; auto. rewrite IH. rewrite <- !app_assoc. apply Permutation_app_head.
  apply Permutation_app_swap_app.
Qed.

Lemma destined_split ls gbc o s : dimension (length ls) ->
  Permutation (destined ls gbc o s) (live s ++ flat_map (fun dir => match send_to (counts ls) gbc o dir with
     | Some _ => movers s dir | None => [] end) (all_dirs (length ls))).
Proof.
  intros HD. set (mv := fun dir => match send_to (counts ls) gbc o dir with Some _ => movers s dir | None => [] end).
  assert (MV : forall q d, In q (mv d) <-> In q (movers s d) /\ send_to (counts ls) gbc o d <> None).
  { intros q d. unfold mv. destruct (send_to (counts ls) gbc o d); cbn; intuition congruence. }
  apply NoDup_Permutation.
  - apply NoDup_filter, seq_NoDup.
  - apply NoDup_app_intro; [apply NoDup_filter, seq_NoDup| |].
    + pose proof (all_nodup (length ls)) as ND.
      assert (F : forall d, In d (all_dirs (length ls)) -> nonzero_direction (length ls) d) by (intros; apply all_direction; auto).
      induction ND as [|d dirs Hn ND IH]; [constructor|]. cbn [flat_map].
      apply NoDup_app_intro; [unfold mv; destruct (send_to _ _ _ _); [apply NoDup_filter, seq_NoDup|constructor]|apply IH; intros; apply F; right; auto|].
      intros q Hq Hq'. apply in_flat_map in Hq' as [d' [Hd' Hq']]. apply MV in Hq as [Hq _], Hq' as [Hq' _].
      unfold movers in *. apply filter_In in Hq as [_ E], Hq' as [_ E'].
      destruct (tag_nat _ d HD (F d (or_introl eq_refl))) as [t [Et _]]. destruct (tag_nat _ d' HD (F d' (or_intror Hd'))) as [t' [Et' _]].
      rewrite Et in E. rewrite Et' in E'. apply Z.eqb_eq in E, E'. apply Hn.
      rewrite (tag_inj (length ls) d d'); auto; [apply F; left; auto|apply F; right; auto|congruence].
    + intros q Hq Hq'. apply in_flat_map in Hq' as [d' [Hd' Hq']]. apply MV in Hq' as [Hq' _]. unfold live, movers in *. apply filter_In in Hq as [_ E], Hq' as [_ E'].
      destruct (tag_nat _ d' HD (all_direction _ _ HD Hd')) as [t' [Et' B]]. rewrite Et' in E'. apply Z.eqb_eq in E, E'. lia.
  - intros q. rewrite in_app_iff, in_flat_map. unfold destined, live. rewrite !filter_In, in_seq, orb_true_iff. split.
    + intros [Hq [E|E]]; [auto|]. right. unfold has_partner in E. apply existsb_exists in E as [dir [Hd E]].
      exists dir. split; auto. apply MV. destruct (dir2tag dir) as [t| |] eqn:Et; try discriminate.
      destruct (send_to (counts ls) gbc o dir); try discriminate. split; [|discriminate].
      unfold movers. rewrite Et. apply filter_In. split; [apply in_seq; lia|auto].
    + intros [[Hq E]|[d [Hd Hq]]]; [auto|]. apply MV in Hq as [Hq S]. unfold movers in Hq.
      apply filter_In in Hq as [Hq E]. apply in_seq in Hq. split; [lia|]. right. unfold has_partner. apply existsb_exists.
      exists d. split; auto. destruct (dir2tag d) as [t| |]; try discriminate. destruct (send_to (counts ls) gbc o d); [auto|congruence].
Qed.

Lemma destined_ready ls gbc o s : dimension (length ls) -> ready ls gbc o s -> destined ls gbc o s = not_dead s.
Proof.
  intros HD R. unfold destined, not_dead. apply filter_ext_in. intros p Hp. apply in_seq in Hp.
  destruct (ready_partner ls gbc o s p HD R ltac:(lia)) as [E|[E|E]].
  - rewrite E. cbn [Z.eqb orb negb]. destruct (has_partner ls gbc o 0) eqn:X; auto. unfold has_partner in X.
    apply existsb_exists in X as [dir [Hd X]]. apply all_direction in Hd; auto. destruct (tag_nat _ dir HD Hd) as [t [Et B]].
    rewrite Et in X. destruct (send_to (counts ls) gbc o dir); [apply Z.eqb_eq in X; lia|discriminate].
  - rewrite E. reflexivity.
  - rewrite E, orb_true_r. destruct (Z.eqb_spec (tg s p) 0) as [X|X]; auto. rewrite X in E. unfold has_partner in E.
    apply existsb_exists in E as [dir [Hd Y]]. apply all_direction in Hd; auto. destruct (tag_nat _ dir HD Hd) as [t [Et B]].
    rewrite Et in Y. destruct (send_to (counts ls) gbc o dir); [apply Z.eqb_eq in Y; lia|discriminate].
Qed.

Lemma map_map2 {A B C D} (g : C -> D) (f : A -> B -> C) l : forall l', map g (map2 f l l') = map2 (fun a b => g (f a b)) l l'.
Proof. induction l; intros [|b l']; cbn; auto. f_equal; auto. Qed.
Lemma map2_map_r {A B C} (f : A -> B -> C) (g : A -> B) l : map2 f l (map g l) = map (fun a => f a (g a)) l.
Proof. induction l; cbn; auto. f_equal; auto. Qed.

Lemma positions_flat ls c sel st :
  everywhere ls c sel st = flat_map (fun o => map (grid_view ls c (offs ls o) (st o)) (sel (st o))) (positions ls).
Proof.
  unfold everywhere, positions. fold (domains ls).
  assert (H : forall l, incl l (domains ls) ->
    flat_map (fun d => map (grid_view ls c (sub_offset_ncells d) (st (sub_offset_ndomains d))) (sel (st (sub_offset_ndomains d)))) l =
    flat_map (fun o => map (grid_view ls c (offs ls o) (st o)) (sel (st o))) (map sub_offset_ndomains l)).
  { induction l as [|d l IH]; intros HI; cbn [flat_map map]; auto. rewrite IH by (intros x Hx; apply HI; right; auto).
    f_equal. destruct (dom_pos ls d (HI d (or_introl eq_refl))) as [_ [_ E]]. rewrite E. auto. }
  apply H. intros x; auto.
Qed.

Lemma positions_flat_at ls c sel st :
  everywhere_at ls c sel st = flat_map (fun o => map (grid_view ls c (offs ls o) (st o)) (sel o (st o))) (positions ls).
Proof.
  unfold everywhere_at, positions. fold (domains ls).
  assert (H : forall l, incl l (domains ls) ->
    flat_map (fun d => map (grid_view ls c (sub_offset_ncells d) (st (sub_offset_ndomains d)))
      (sel (sub_offset_ndomains d) (st (sub_offset_ndomains d)))) l =
    flat_map (fun o => map (grid_view ls c (offs ls o) (st o)) (sel o (st o))) (map sub_offset_ndomains l)).
  { induction l as [|d l IH]; intros HI; cbn [flat_map map]; auto. rewrite IH by (intros x Hx; apply HI; right; auto).
    f_equal. destruct (dom_pos ls d (HI d (or_introl eq_refl))) as [_ [_ E]]. rewrite E. auto. }
  apply H. intros x; auto.
Qed.

Lemma arrived_in_grid ls gbc c o b dir s p : length gbc = length ls -> paired_flds gbc ->
  in_box o (counts ls) -> nonzero_direction (length ls) dir -> send_to (counts ls) gbc o dir = Some b ->
  map2 (in_grid ls (offs ls b)) (attrs c) (arrived c (displacement ls o b dir) s p) = grid_view ls c (offs ls o) s p.
Proof.
  intros LG P Ho Hd E. unfold grid_view, arrived, view. rewrite !map2_map_r. apply map_ext. intros a.
  pose proof (send_to_neighbor ls gbc o b dir LG P Ho Hd E) as ->.
  assert (F : Forall2 (fun a _ => -1 <= a <= 1)%Z dir (counts ls)).
  { apply dir_F2. unfold counts. rewrite map_length. apply Hd. }
  destruct a; cbn [in_grid]; auto using place; try lia.
Qed.

Theorem exchange_conserves_any ls gbc c st st' :
  length gbc = length ls -> paired_flds gbc -> dimension (length ls) -> dim c = length ls ->
  (forall b, in_box b (counts ls) ->
     Permutation (map (view c (st' b)) (live (st' b))) (map (view c (st b)) (live (st b)) ++ incoming ls gbc c st b)) ->
  Permutation (everywhere ls c live st') (everywhere_at ls c (destined ls gbc) st).
Proof.
  intros LG P HD DC H. rewrite positions_flat, positions_flat_at.
  set (out := fun o dir => match send_to (counts ls) gbc o dir with
    | Some _ => map (grid_view ls c (offs ls o) (st o)) (movers (st o) dir) | None => [] end).
  transitivity (flat_map (fun b => map (grid_view ls c (offs ls b) (st b)) (live (st b)) ++
     flat_map (fun dir => match recv_from (counts ls) gbc b dir with
       | Some o => out o dir | None => [] end) (all_dirs (dim c))) (positions ls)).
  { apply flat_map_perm. intros b Hb. apply in_positions in Hb.
    specialize (H b Hb). apply (Permutation_map (map2 (in_grid ls (offs ls b)) (attrs c))) in H.
    rewrite map_app, !map_map in H. unfold incoming in H. rewrite map_flat_map in H.
    etransitivity; [exact H|]. apply Permutation_app_head. rewrite (flat_map_ext_in _ (fun dir => match recv_from (counts ls) gbc b dir with
       | Some o => out o dir | None => [] end)); auto.
    intros dir Hdir. rewrite DC in Hdir. apply all_direction in Hdir; auto.
    destruct (recv_from (counts ls) gbc b dir) as [o|] eqn:E; auto.
    assert (Ho : in_box o (counts ls)) by (eapply recv_from_box; eauto).
    assert (Es : send_to (counts ls) gbc o dir = Some b) by (apply (match_partner ls gbc LG P); auto).
    unfold out. rewrite Es, map_map. apply map_ext. intros p. eapply arrived_in_grid; eauto. }
  transitivity (flat_map (fun o => map (grid_view ls c (offs ls o) (st o)) (live (st o)) ++
     flat_map (out o) (all_dirs (dim c))) (positions ls)).
  { rewrite !flat_map_app_perm. apply Permutation_app_head.
    etransitivity; [apply flat_map_swap|]. etransitivity; [|symmetry; apply flat_map_swap].
    apply flat_map_perm. intros dir Hdir. rewrite DC in Hdir. apply all_direction in Hdir; auto.
    apply (conserve (fun b => recv_from (counts ls) gbc b dir) (fun o => send_to (counts ls) gbc o dir)
             (positions ls) (fun o => out o dir)).
    - apply nodup_positions.
    - intros o b. rewrite !in_positions. intros. apply (match_partner ls gbc LG P); auto.
    - intros b o. rewrite !in_positions. intros. eapply recv_from_box; eauto.
    - intros b o. rewrite !in_positions. intros. eapply send_to_box; eauto.
    - intros o Ho E. unfold out. rewrite E. auto. }
  apply flat_map_perm. intros o Ho. symmetry.
  etransitivity; [apply Permutation_map, (destined_split ls gbc o (st o) HD)|].
  rewrite map_app, map_flat_map, DC. apply Permutation_app_head.
  rewrite (flat_map_ext_in _ (out o)); auto. intros dir _. unfold out. destruct (send_to _ _ _ _); auto.
Qed.

Theorem exchange_total_any ls gbc c sc st :
  length gbc = length ls -> paired_flds gbc -> dimension (length ls) -> dim c = length ls ->
  (forall o n, Permutation (o_prep sc o n) (seq 0 n)) ->
  (forall o dir n, Permutation (o_pop sc o dir n) (seq 0 n)) ->
  (forall o n, Permutation (o_ext sc o n) (seq 0 n)) ->
  (forall o, in_box o (counts ls) -> tagged_ok (length ls) (st o)) ->
  (forall b, in_box b (counts ls) -> np (st b) + length (incoming ls gbc c st b) < maxp (st b)) ->
  exists st', (forall b, in_box b (counts ls) -> comm_particles ls gbc c sc st b = Ok (st' b)) /\
    Permutation (everywhere ls c live st') (everywhere_at ls c (destined ls gbc) st).
Proof.
  intros LG P HD DC PP PO PE R CAP.
  destruct (exchange_all_any ls gbc c sc st LG P HD DC PP PO PE R CAP) as [st' H]. exists st'. split.
  - intros b Hb. apply H; auto.
  - apply (exchange_conserves_any ls gbc); auto. intros b Hb. apply H; auto.
Qed.

Theorem exchange_total ls gbc c sc st :
  length gbc = length ls -> paired_flds gbc -> dimension (length ls) -> dim c = length ls ->
  (forall o n, Permutation (o_prep sc o n) (seq 0 n)) ->
  (forall o dir n, Permutation (o_pop sc o dir n) (seq 0 n)) ->
  (forall o n, Permutation (o_ext sc o n) (seq 0 n)) ->
  (forall o, in_box o (counts ls) -> ready ls gbc o (st o)) ->
  (forall b, in_box b (counts ls) -> np (st b) + length (incoming ls gbc c st b) < maxp (st b)) ->
  exists st', (forall b, in_box b (counts ls) -> comm_particles ls gbc c sc st b = Ok (st' b)) /\
    Permutation (everywhere ls c live st') (everywhere ls c not_dead st).
Proof.
  intros LG P HD DC PP PO PE R CAP.
  destruct (exchange_total_any ls gbc c sc st LG P HD DC PP PO PE (fun o Ho => ready_tagged _ _ _ _ (R o Ho)) CAP) as [st' [H1 H2]].
  exists st'. split; auto. etransitivity; [exact H2|]. rewrite positions_flat, positions_flat_at.
  apply flat_map_perm. intros o Ho. apply in_positions in Ho. rewrite (destined_ready ls gbc o (st o) HD (R o Ho)). auto.
Qed.

Theorem landing_active ls gbc o b x :
  length gbc = length ls -> paired_flds gbc -> in_box o (counts ls) -> length x = length ls ->
  let dir := map2 side x (size ls o) in
  nonzero_direction (length ls) dir -> send_to (counts ls) gbc o dir = Some b ->
  Forall2 (fun a p => - snd p <= a < fst p + snd p)%Z x (combine (size ls o) (size ls b)) ->
  in_box (map2 Z.add x (map (displacement ls o b dir) (seq 0 (length ls)))) (size ls b).
Proof.
  intros LG P Ho Lx dir Hd E F.
  pose proof (send_to_neighbor ls gbc o b dir LG P Ho Hd E) as ->.
  apply landing; auto.
Qed.

(** ** Data of the examples *)
Definition ex_ls : list (list Z) := [[6; 5]]%Z.
Definition ex_bc := [(F_PERIODIC, F_PERIODIC)].
Definition ex_c : cfg := {| dim := 1; cart := true; npld_r := 0; npld_i := 1 |}.
Definition ex_sc : sched := {| o_prep := fun _ n => rev (seq 0 n); o_pop := fun _ _ n => seq 0 n; o_ext := fun _ n => seq 0 n |}.
Definition ex_st (o : list Z) : parts :=
  if list_eqb o [0%Z]
  then {| np := 3; maxp := 6; tg := fun p => nth p [1; 2; 0]%Z 0%Z;
          ar := fun a p => match a with I _ => nth p [2; -1; 7]%Z 0%Z | Iprev _ => nth p [1; 0; 7]%Z 0%Z
                                      | PldI _ => nth p [100; 101; 102]%Z 0%Z | _ => 0%Z end |}
  else {| np := 1; maxp := 4; tg := fun p => 3%Z;
          ar := fun a p => match a with I _ => 5%Z | Iprev _ => 4%Z | PldI _ => 200%Z | _ => 0%Z end |}.

Definition lost_bc := [(F_MATCH, F_MATCH)].

Theorem lost_without_partner : exists st st',
  (forall o, In o (ranks ex_ls) -> forall p, p < np (st o) ->
     tg (st o) p = 0%Z \/ tg (st o) p = 1%Z \/ exists dir, nonzero_direction 1 dir /\ dir2tag dir = Ok (tg (st o) p)) /\
  (forall o, In o (ranks ex_ls) -> np (st o) + length (incoming ex_ls lost_bc ex_c st o) < maxp (st o)) /\
  (forall o, In o (ranks ex_ls) -> comm_particles ex_ls lost_bc ex_c ex_sc st o = Ok (st' o)) /\
  length (everywhere ex_ls ex_c not_dead st) = 3 /\ length (everywhere ex_ls ex_c live st') = 1.
Proof.
  exists ex_st, (fun o => match comm_particles ex_ls lost_bc ex_c ex_sc ex_st o with Ok s => s | _ => ex_st o end).
  assert (RK : forall o, In o (ranks ex_ls) -> o = [0%Z] \/ o = [1%Z]).
  { intros o Ho. vm_compute in Ho. intuition. }
  assert (N1 : nonzero_direction 1 [1%Z]).
  { split; [|exists 1%Z; split; [left; auto|lia]]. split; [reflexivity|]. repeat constructor; lia. }
  assert (N2 : nonzero_direction 1 [(-1)%Z]).
  { split; [|exists (-1)%Z; split; [left; auto|lia]]. split; [reflexivity|]. repeat constructor; lia. }
  split; [|split; [|split; [|split]]].
  - intros o Ho p Hp. destruct (RK o Ho) as [-> | ->]; cbn in Hp.
    + destruct p as [|[|[|p]]]; [right; left|right; right|left|lia]; try reflexivity. exists [(-1)%Z]. split; auto.
    + destruct p as [|p]; [|lia]. right. right. exists [1%Z]. split; auto.
  - intros o Ho. destruct (RK o Ho) as [-> | ->]; vm_compute; lia.
  - intros o Ho. destruct (RK o Ho) as [-> | ->].
    + assert (X : match comm_particles ex_ls lost_bc ex_c ex_sc ex_st [0%Z] with Ok _ => True | _ => False end) by (vm_compute; auto).
      destruct (comm_particles ex_ls lost_bc ex_c ex_sc ex_st [0%Z]); tauto.
    + assert (X : match comm_particles ex_ls lost_bc ex_c ex_sc ex_st [1%Z] with Ok _ => True | _ => False end) by (vm_compute; auto).
      destruct (comm_particles ex_ls lost_bc ex_c ex_sc ex_st [1%Z]); tauto.
  - vm_compute. auto.
  - vm_compute. auto.
Qed.
