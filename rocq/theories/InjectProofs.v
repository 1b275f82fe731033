From Coq Require Import ZArith List Bool Arith Lia Permutation.
From Verif Require Import Base ListLemmas PrtlModel PrtlSpec PrtlProofs CkptModel InjectModel InjectSpec.
Import ListNotations.
Open Scope nat_scope.

Lemma upd_same {V} (f : nat -> V) i v : upd f i v i = v.
Proof. unfold upd. rewrite Nat.eqb_refl. auto. Qed.
Lemma upd_other {V} (f : nat -> V) i v j : j <> i -> upd f i v j = f j.
Proof. unfold upd. intros H. destruct (Nat.eqb_spec j i); congruence. Qed.
Lemma set_at_ar p v a s b q : ar (set_at p v a s) b q = if attr_eq_dec b a then (if Nat.eqb q p then v else ar s a q) else ar s b q.
Proof. unfold set_at, with_ar, upd_attr, upd. simpl. destruct (attr_eq_dec b a); auto. Qed.
Lemma set_at_rest p v a s : np (set_at p v a s) = np s /\ maxp (set_at p v a s) = maxp s /\ tg (set_at p v a s) = tg s.
Proof. auto. Qed.

(** One particle. *)
Lemma inject_particle_ok c mpi track dom id x p s : trackable c mpi track -> p < maxp s ->
  exists s', inject_particle c mpi track dom id x p s = Ok s' /\ np s' = np s /\ maxp s' = maxp s /\
    contains c mpi track dom id x s' p /\ (forall q, q <> p -> same_slot s' s q).
Proof.
  intros [D T] H. unfold inject_particle. rewrite (proj2 (Nat.leb_gt _ _) H).
  replace (track && Nat.ltb (npld_i c) (if mpi then 2 else 1)) with false.
  2:{ symmetry. destruct track; auto. destruct (T eq_refl) as [T1 T2]. simpl. apply Nat.ltb_ge.
      destruct mpi; auto. }
  set (s1 := if ge_dim c 1 then _ else s). set (s2 := if ge_dim c 2 then _ else s1).
  set (s3 := if ge_dim c 3 then _ else s2). set (s4 := if has_phi c then _ else s3).
  set (s5 := with_tg _ _).
  assert (R : forall s'', (exists t, Ok s'' = (if track then t else Ok (set_at p (n_w x) Weight s5))) -> True) by auto. clear R.
  assert (E : (if track then Ok (if mpi then set_at p dom (PldI 1) (set_at p id (PldI 0) (set_at p (n_w x) Weight s5))
                                else set_at p id (PldI 0) (set_at p (n_w x) Weight s5))
               else Ok (set_at p (n_w x) Weight s5)) =
              Ok (if track then (if mpi then set_at p dom (PldI 1) (set_at p id (PldI 0) (set_at p (n_w x) Weight s5))
                                else set_at p id (PldI 0) (set_at p (n_w x) Weight s5))
                  else set_at p (n_w x) Weight s5)) by (destruct track; auto).
  cbv zeta. rewrite E. eexists. split; [reflexivity|].
  assert (NP : np s4 = np s /\ maxp s4 = maxp s /\ tg s4 = tg s).
  { unfold s4, s3, s2, s1. destruct (has_phi c), (ge_dim c 3), (ge_dim c 2), (ge_dim c 1); auto. }
  destruct NP as (N1 & N2 & N3).
  assert (TG : tg s5 = upd (tg s) p alive_tag) by (unfold s5; simpl; rewrite N3; auto).
  split; [destruct track, mpi; exact N1|]. split; [destruct track, mpi; exact N2|].
  assert (A5 : forall b q, ar s5 b q =
    if Nat.eqb q p then
      match b with
      | I d => if Nat.leb 1 d && Nat.leb d (dim c) then nth (d - 1) (n_i x) 0%Z else ar s b q
      | Dx d => if Nat.leb 1 d && Nat.leb d (dim c) then nth (d - 1) (n_dx x) 0%Z else ar s b q
      | Ux d => if Nat.leb 1 d && Nat.leb d 3 then nth (d - 1) (n_u x) 0%Z else ar s b q
      | Phi => if has_phi c then n_phi x else ar s b q
      | _ => ar s b q
      end
    else ar s b q).
  { intros b q.
    assert (C : dim c = 0 \/ dim c = 1 \/ dim c = 2 \/ dim c = 3) by lia.
    unfold s5, with_tg. cbn [ar]. unfold s4, s3, s2, s1.
    replace (ge_dim c 1) with (Nat.leb 1 (dim c)) by auto. replace (ge_dim c 2) with (Nat.leb 2 (dim c)) by auto.
    replace (ge_dim c 3) with (Nat.leb 3 (dim c)) by auto.
    destruct (Nat.eqb q p) eqn:Q.
    - apply Nat.eqb_eq in Q as ->.
      assert (S1 : forall v a s, ar (set_at p v a s) a p = v) by (intros; rewrite set_at_ar, Nat.eqb_refl; destruct (attr_eq_dec a a); congruence).
      assert (S2 : forall v a e s, a <> e -> ar (set_at p v a s) e p = ar s e p) by (intros; rewrite set_at_ar; destruct (attr_eq_dec _ _); congruence).
      clear - C S1 S2.
      destruct (has_phi c); destruct C as [C|[C|[C|C]]]; rewrite C; cbn [Nat.leb];
        destruct b as [d|d|d|d|d| | |l|l]; try (destruct d as [|[|[|[|d]]]]);
        repeat first [rewrite S1 | rewrite S2 by discriminate]; reflexivity.
    - assert (S0 : forall v a s, ar (set_at p v a s) b q = ar s b q) by (intros; rewrite set_at_ar, Q; destruct (attr_eq_dec _ _); auto; congruence).
      destruct (has_phi c), (1 <=? dim c), (2 <=? dim c), (3 <=? dim c); rewrite ?S0; auto. }
  set (s6 := if track then _ else _).
  assert (A6 : forall b q, ar s6 b q = if Nat.eqb q p then
      match b with
      | Weight => n_w x
      | PldI 0 => if track then id else ar s5 b q
      | PldI 1 => if track && mpi then dom else ar s5 b q
      | _ => ar s5 b q end else ar s5 b q).
  { intros b q. unfold s6. destruct track, mpi; rewrite !set_at_ar; destruct (Nat.eqb q p) eqn:Q;
    destruct b as [d|d|d|d|d| | |l|l]; try (destruct l as [|[|l]]);
    repeat match goal with |- context [attr_eq_dec ?u ?v] => destruct (attr_eq_dec u v); try congruence end; auto. }
  assert (T6 : tg s6 = tg s5) by (unfold s6; destruct track, mpi; auto).
  split.
  - unfold contains. rewrite T6, TG, upd_same. split; [reflexivity|].
    assert (PP : Nat.eqb p p = true) by apply Nat.eqb_refl.
    split; [|split; [|split; [|split; [|split]]]].
    + intros d Hd. assert (L : Nat.leb 1 d && Nat.leb d (dim c) = true) by (apply andb_true_intro; split; apply Nat.leb_le; lia).
      rewrite !A6, PP, !A5, PP, L. auto.
    + intros d Hd. assert (L : Nat.leb 1 d && Nat.leb d 3 = true) by (apply andb_true_intro; split; apply Nat.leb_le; lia).
      rewrite !A6, PP, !A5, PP, L. auto.
    + rewrite A6, PP. auto.
    + intros D2 NC. rewrite A6, PP, A5, PP. unfold has_phi. rewrite D2, NC. auto.
    + intros ->. rewrite A6, PP. auto.
    + intros -> ->. rewrite A6, PP. auto.
  - intros q Hq. split.
    + rewrite T6, TG. apply upd_other; auto.
    + intros a. assert (Q : Nat.eqb q p = false) by (apply Nat.eqb_neq; auto). rewrite A6, Q, A5, Q. auto.
Qed.

Lemma inject_particle_past c mpi track dom id x p s : maxp s <= p -> inject_particle c mpi track dom id x p s = UB.
Proof. intros H. unfold inject_particle. rewrite (proj2 (Nat.leb_le _ _) H). auto. Qed.

Lemma same_slot_refl s p : same_slot s s p.
Proof. split; auto. Qed.
Lemma same_slot_trans s s' s'' p : same_slot s s' p -> same_slot s' s'' p -> same_slot s s'' p.
Proof. intros [A B] [C D]. split; [congruence|]. intros a. rewrite B. auto. Qed.
Lemma contains_same c mpi track dom id x s s' p : same_slot s' s p -> contains c mpi track dom id x s p ->
  contains c mpi track dom id x s' p.
Proof. intros [A B]. unfold contains. rewrite A. setoid_rewrite B. auto. Qed.

(** A whole launch for one species. *)
Definition put_one c mpi track dom acq n0 k0 (acc : res parts) (j : nat) : res parts :=
  rbind acc (fun q => match nth_error acq j with None => UB
    | Some x => inject_particle c mpi track dom (number k0 j) x (n0 + j) q end).
Lemma launch_eq c mpi track dom acq order s :
  launch c mpi track dom acq order s = fold_left (put_one c mpi track dom acq (np (cont s)) (counter s)) order (Ok (cont s)).
Proof. reflexivity. Qed.
Lemma put_err c mpi track dom acq n0 k0 order e : (e = Err \/ e = UB) ->
  fold_left (put_one c mpi track dom acq n0 k0) order e = e.
Proof. revert e. induction order as [|j order IH]; intros e He; simpl; auto. destruct He; subst e; simpl; apply IH; auto. Qed.

Lemma puts_ok c mpi track dom acq n0 k0 : trackable c mpi track -> forall order s, NoDup order ->
  (forall j, In j order -> j < length acq /\ n0 + j < maxp s) ->
  exists s', fold_left (put_one c mpi track dom acq n0 k0) order (Ok s) = Ok s' /\ np s' = np s /\ maxp s' = maxp s /\
    (forall j x, In j order -> nth_error acq j = Some x -> contains c mpi track dom (number k0 j) x s' (n0 + j)) /\
    (forall q, (forall j, In j order -> q <> n0 + j) -> same_slot s' s q).
Proof.
  intros T. induction order as [|j order IH]; intros s N B.
  - exists s. simpl. split; auto. split; auto. split; auto. split; [intros ? ? []|]. intros. apply same_slot_refl.
  - apply NoDup_cons_iff in N as [N1 N2]. destruct (B j (or_introl eq_refl)) as [Bj1 Bj2].
    destruct (nth_error acq j) as [x|] eqn:X; [|apply nth_error_None in X; lia].
    destruct (inject_particle_ok c mpi track dom (number k0 j) x (n0 + j) s T Bj2) as (s1 & E1 & P1 & M1 & C1 & F1).
    destruct (IH s1) as (s2 & E2 & P2 & M2 & C2 & F2); auto.
    { intros i Hi. rewrite M1. apply B. right; auto. }
    exists s2. simpl. rewrite X, E1. split; [exact E2|]. split; [congruence|]. split; [congruence|]. split.
    + intros i y [<-|Hi] Y; [|apply C2; auto]. assert (y = x) by congruence. subst y.
      eapply contains_same; [|exact C1]. apply F2. intros i Hi E. assert (j = i) by lia. subst. auto.
    + intros q Hq. eapply same_slot_trans; [apply F2|apply F1].
      * intros i Hi. apply Hq. right; auto.
      * apply Hq. left; auto.
Qed.

Lemma number_mod k j : number k j = ((k + Z.of_nat j) mod 2 ^ 32)%Z.
Proof. reflexivity. Qed.

Lemma advance_ok n s : np (cont s) + n <= maxp (cont s) -> exists s', advance n s = Ok s' /\
  np (cont s') = np (cont s) + n /\ maxp (cont s') = maxp (cont s) /\ counter s' = ((counter s + Z.of_nat n) mod 2 ^ 32)%Z /\
  forall p, same_slot (cont s') (cont s) p.
Proof.
  intros H. unfold advance, set_npart. rewrite (proj2 (Nat.ltb_ge _ _) H). simpl. eexists. split; [reflexivity|]. simpl.
  repeat split; auto.
Qed.

Theorem inject_one_ok c mpi track dom acq order s : trackable c mpi track -> Permutation order (seq 0 (length acq)) ->
  np (cont s) + length acq <= maxp (cont s) ->
  exists s', inject_one c mpi track dom acq order s = Ok s' /\ appended c mpi track dom acq s s'.
Proof.
  intros T P C. unfold inject_one. rewrite launch_eq.
  assert (IN : forall j, In j order <-> j < length acq).
  { intros j. rewrite P, in_seq. lia. }
  destruct (puts_ok c mpi track dom acq (np (cont s)) (counter s) T order (cont s)) as (q & E & NQ & MQ & CQ & FQ).
  { eapply Permutation_NoDup; [apply Permutation_sym; exact P|]. apply seq_NoDup. }
  { intros j Hj. apply IN in Hj. split; auto. lia. }
  rewrite E. cbn [rbind].
  destruct (advance_ok (length acq) {| cont := q; counter := counter s |}) as (s' & E' & N' & M' & K' & F').
  { simpl. lia. }
  simpl in *. exists s'. split; [exact E'|]. unfold appended. split; [lia|]. split; [lia|]. split; [exact K'|]. split.
  - intros j x X. apply (contains_same _ _ _ _ _ _ q); auto. rewrite <- number_mod. apply CQ; auto.
    apply IN. apply nth_error_Some. congruence.
  - intros p Hp. eapply same_slot_trans; [apply F'|]. apply FQ. intros j Hj. apply IN in Hj. lia.
Qed.

(** Too many: the slot past the end is written before anything is checked. *)
Theorem inject_one_past c mpi track dom acq order s : Permutation order (seq 0 (length acq)) ->
  maxp (cont s) < np (cont s) + length acq -> np (cont s) <= maxp (cont s) ->
  inject_one c mpi track dom acq order s = UB.
Proof.
  intros P C LE. unfold inject_one. rewrite launch_eq.
  assert (IN : In (length acq - 1) order).
  { apply (Permutation_in (l := seq 0 (length acq))); [apply Permutation_sym; auto|]. apply in_seq. lia. }
  assert (BND : forall j, In j order -> j < length acq).
  { intros j Hj. assert (X : In j (seq 0 (length acq))) by (apply (Permutation_in _ P); auto). apply in_seq in X. lia. }
  assert (Q : forall order q, In (length acq - 1) order -> (forall j, In j order -> j < length acq) -> maxp q = maxp (cont s) ->
    fold_left (put_one c mpi track dom acq (np (cont s)) (counter s)) order (Ok q) = UB).
  { clear order P IN BND. induction order as [|j order IH]; intros q IN BND M; [destruct IN|].
    simpl. destruct (nth_error acq j) as [x|] eqn:X; [|apply put_err; auto].
    destruct (le_lt_dec (maxp q) (np (cont s) + j)) as [L|L].
    - rewrite inject_particle_past by auto. apply put_err; auto.
    - destruct IN as [-> | IN]; [lia|].
      destruct (inject_particle c mpi track dom (number (counter s) j) x (np (cont s) + j) q) as [q'| |] eqn:E.
      + apply IH; auto. { intros i Hi; apply BND; right; auto. }
        unfold inject_particle in E. destruct (Nat.leb _ _); [discriminate|]. destruct (track && _); [discriminate|].
        rewrite <- M. destruct track, mpi, (has_phi c), (ge_dim c 1), (ge_dim c 2), (ge_dim c 3); injection E as <-; reflexivity.
      + exfalso. unfold inject_particle in E. destruct (Nat.leb _ _); [discriminate|]. destruct (track && _); [discriminate|].
        destruct track, mpi; discriminate.
      + apply put_err; auto. }
  rewrite (Q order (cont s)); auto.
Qed.

(** ** Two species *)
Lemma inject_particle_or c mpi track dom id x p s :
  inject_particle c mpi track dom id x p s = UB \/
  exists s', inject_particle c mpi track dom id x p s = Ok s' /\ maxp s' = maxp s /\ p < maxp s.
Proof.
  unfold inject_particle. destruct (Nat.leb_spec (maxp s) p) as [L|L]; auto. destruct (track && _); auto.
  right. destruct track, mpi, (has_phi c), (ge_dim c 1), (ge_dim c 2), (ge_dim c 3); eexists; (split; [reflexivity|]); split; auto.
Qed.

Section Pairs.
  Variables (cf : nat -> cfg) (tr : nat -> bool) (mpi : bool) (dom : Z) (f s : nat) (acq : list (newp * newp)) (w0 : nat -> pstate).
  Let fst_acq := map fst acq.
  Let snd_acq := map snd acq.

  Lemma pair_err order e : (e = Err \/ e = UB) -> fold_left (pair_thread cf tr mpi dom f s acq w0) order e = e.
  Proof. revert e. induction order as [|j order IH]; intros e He; simpl; auto. destruct He; subst e; simpl; apply IH; auto. Qed.

  Lemma pair_fold : f <> s -> trackable (cf f) mpi (tr f) -> trackable (cf s) mpi (tr s) -> forall order w,
    (forall j, In j order -> j < length acq /\ np (cont (w0 f)) + j < maxp (cont (w f)) /\ np (cont (w0 s)) + j < maxp (cont (w s))) ->
    exists w', fold_left (pair_thread cf tr mpi dom f s acq w0) order (Ok w) = Ok w' /\
      fold_left (put_one (cf f) mpi (tr f) dom fst_acq (np (cont (w0 f))) (counter (w0 f))) order (Ok (cont (w f))) = Ok (cont (w' f)) /\
      fold_left (put_one (cf s) mpi (tr s) dom snd_acq (np (cont (w0 s))) (counter (w0 s))) order (Ok (cont (w s))) = Ok (cont (w' s)) /\
      (forall k, counter (w' k) = counter (w k)) /\ (forall k, k <> f -> k <> s -> w' k = w k).
  Proof.
    intros FS TF TS. induction order as [|j order IH]; intros w B.
    - exists w. repeat split; auto.
    - destruct (B j (or_introl eq_refl)) as (B1 & B2 & B3).
      destruct (nth_error acq j) as [[x y]|] eqn:X; [|apply nth_error_None in X; lia].
      destruct (inject_particle_ok (cf f) mpi (tr f) dom (number (counter (w0 f)) j) x (np (cont (w0 f)) + j) (cont (w f)) TF B2)
        as (qf & E1 & P1 & M1 & _ & _).
      destruct (inject_particle_ok (cf s) mpi (tr s) dom (number (counter (w0 s)) j) y (np (cont (w0 s)) + j) (cont (w s)) TS B3)
        as (qs & E2 & P2 & M2 & _ & _).
      assert (N1 : nth_error fst_acq j = Some x) by (unfold fst_acq; rewrite nth_error_map, X; auto).
      assert (N2 : nth_error snd_acq j = Some y) by (unfold snd_acq; rewrite nth_error_map, X; auto).
      set (w1 := put_species (put_species w f qf) s qs).
      assert (W1 : w1 f = {| cont := qf; counter := counter (w f) |}).
      { unfold w1, put_species. rewrite upd_other, upd_same by auto. auto. }
      assert (W2 : w1 s = {| cont := qs; counter := counter (w s) |}).
      { unfold w1, put_species. rewrite upd_same, upd_other by auto. auto. }
      assert (W3 : forall k, k <> f -> k <> s -> w1 k = w k).
      { intros k K1 K2. unfold w1, put_species. rewrite !upd_other by auto. auto. }
      destruct (IH w1) as (w' & F1 & F2 & F3 & F4 & F5).
      { intros i Hi. rewrite W1, W2. simpl. rewrite M1, M2. apply B. right; auto. }
      rewrite W1 in F2. rewrite W2 in F3. simpl in F2, F3.
      exists w'. simpl. rewrite X, N1, N2. unfold pair_write. rewrite E1. cbn [rbind].
      assert (WS : put_species w f qf s = w s) by (unfold put_species; rewrite upd_other; auto).
      rewrite WS, E2. cbn [rbind]. fold w1.
      split; [exact F1|]. split; [exact F2|]. split; [exact F3|]. split.
      + intros k. rewrite F4. destruct (Nat.eq_dec k f) as [->|K1]; [rewrite W1; auto|].
        destruct (Nat.eq_dec k s) as [->|K2]; [rewrite W2; auto|]. rewrite W3; auto.
      + intros k K1 K2. rewrite F5, W3; auto.
  Qed.

  Lemma pair_thread_or w j : pair_thread cf tr mpi dom f s acq w0 (Ok w) j = UB \/
    exists w', pair_thread cf tr mpi dom f s acq w0 (Ok w) j = Ok w' /\ (forall k, maxp (cont (w' k)) = maxp (cont (w k))) /\
      np (cont (w0 f)) + j < maxp (cont (w f)) /\ np (cont (w0 s)) + j < maxp (cont (w s)).
  Proof.
    unfold pair_thread. cbn [rbind]. destruct (nth_error acq j) as [[x y]|]; auto. unfold pair_write.
    destruct (inject_particle_or (cf f) mpi (tr f) dom (number (counter (w0 f)) j) x (np (cont (w0 f)) + j) (cont (w f)))
      as [E|(q & E & M & L)]; rewrite E; auto. cbn [rbind].
    assert (MP : forall k, maxp (cont (put_species w f q k)) = maxp (cont (w k))).
    { intros k. unfold put_species. destruct (Nat.eq_dec k f) as [->|K]; [rewrite upd_same; auto|rewrite upd_other; auto]. }
    destruct (inject_particle_or (cf s) mpi (tr s) dom (number (counter (w0 s)) j) y (np (cont (w0 s)) + j) (cont (put_species w f q s)))
      as [E'|(q' & E' & M' & L')]; rewrite E'; auto. cbn [rbind]. right. eexists. split; [reflexivity|].
    rewrite MP in M', L'. split; [|auto]. intros k. unfold put_species at 1.
    destruct (Nat.eq_dec k s) as [->|K]; [rewrite upd_same; auto|rewrite upd_other; auto].
  Qed.

  Lemma pair_past j order : In j order -> forall w,
    (maxp (cont (w f)) <= np (cont (w0 f)) + j \/ maxp (cont (w s)) <= np (cont (w0 s)) + j) ->
    fold_left (pair_thread cf tr mpi dom f s acq w0) order (Ok w) = UB.
  Proof.
    induction order as [|i order IH]; intros IN w H; [destruct IN|].
    change (fold_left (pair_thread cf tr mpi dom f s acq w0) order (pair_thread cf tr mpi dom f s acq w0 (Ok w) i) = UB).
    destruct (pair_thread_or w i) as [E|(w' & E & M & L1 & L2)]; rewrite E; [apply pair_err; auto|].
    destruct IN as [-> | IN]; [lia|]. apply IH; auto. rewrite !M. auto.
  Qed.
End Pairs.

Theorem inject_pair_ok cf tr mpi dom f s acq order w : f <> s ->
  trackable (cf f) mpi (tr f) -> trackable (cf s) mpi (tr s) -> Permutation order (seq 0 (length acq)) ->
  np (cont (w f)) + length acq <= maxp (cont (w f)) -> np (cont (w s)) + length acq <= maxp (cont (w s)) ->
  exists w', inject_pair cf tr mpi dom f s acq order w = Ok w' /\
    appended (cf f) mpi (tr f) dom (map fst acq) (w f) (w' f) /\
    appended (cf s) mpi (tr s) dom (map snd acq) (w s) (w' s) /\ (forall k, k <> f -> k <> s -> w' k = w k).
Proof.
  intros FS TF TS P CF CS.
  assert (IN : forall j, In j order -> j < length acq).
  { intros j Hj. assert (X : In j (seq 0 (length acq))) by (apply (Permutation_in _ P); auto). apply in_seq in X. lia. }
  destruct (pair_fold cf tr mpi dom f s acq w FS TF TS order w) as (w1 & E & EF & ES & K & O).
  { intros j Hj. specialize (IN j Hj). lia. }
  destruct (inject_one_ok (cf f) mpi (tr f) dom (map fst acq) order (w f) TF) as (sf & IF & AF).
  { rewrite map_length; auto. } { rewrite map_length; auto. }
  destruct (inject_one_ok (cf s) mpi (tr s) dom (map snd acq) order (w s) TS) as (ss & IS & AS).
  { rewrite map_length; auto. } { rewrite map_length; auto. }
  unfold inject_one in IF, IS. rewrite launch_eq in IF, IS. rewrite EF in IF. rewrite ES in IS. cbn [rbind] in IF, IS.
  rewrite map_length in IF, IS.
  replace {| cont := cont (w1 f); counter := counter (w f) |} with (w1 f) in IF by (rewrite <- K; destruct (w1 f); auto).
  replace {| cont := cont (w1 s); counter := counter (w s) |} with (w1 s) in IS by (rewrite <- K; destruct (w1 s); auto).
  unfold inject_pair. rewrite E. unfold pair_advance. cbn [fold_left rbind]. rewrite IF. cbn [rbind].
  rewrite upd_other by auto. rewrite IS. cbn [rbind]. eexists. split; [reflexivity|].
  rewrite upd_other, !upd_same by auto. split; [auto|]. split; [auto|]. intros k K1 K2. rewrite !upd_other by auto. auto.
Qed.

Theorem inject_pair_past cf tr mpi dom f s acq order w : Permutation order (seq 0 (length acq)) -> acq <> [] ->
  (maxp (cont (w f)) < np (cont (w f)) + length acq \/ maxp (cont (w s)) < np (cont (w s)) + length acq) ->
  inject_pair cf tr mpi dom f s acq order w = UB.
Proof.
  intros P NE H.
  assert (L : 0 < length acq) by (destruct acq; [congruence|simpl; lia]).
  unfold inject_pair. rewrite (pair_past cf tr mpi dom f s acq w (length acq - 1)); [reflexivity| |lia].
  apply (Permutation_in (l := seq 0 (length acq))); [apply Permutation_sym; auto|]. apply in_seq. lia.
Qed.
