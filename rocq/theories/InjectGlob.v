From Coq Require Import Reals Lra ZArith List Bool Arith Lia Permutation.
From Verif Require Import Base ListLemmas DecompModel DecompSpec DecompProofs DecompTop
  HaloModel HaloSpec HaloProofs SyncProofs PrtlModel PrtlSpec PrtlProofs PrtlCommProofs PrtlCommTop
  CkptModel InjectModel InjectSpec InjectProofs StepTop.
Import ListNotations.
Open Scope nat_scope.

(** ** One dimension *)
Lemma Int_part_bounds x (k : Z) n : (IZR k <= x < IZR (k + n))%R -> (k <= Int_part x < k + n)%Z.
Proof.
  intros [A B]. destruct (base_Int_part x) as [C D]. split.
  - apply Z.lt_succ_r. apply lt_IZR. rewrite succ_IZR. lra.
  - apply lt_IZR. lra.
Qed.
Lemma locate_ok o n x : (0 <= o)%Z -> (o + n <= 2 ^ 31)%Z -> (IZR o <= x < IZR (o + n))%R ->
  locate o x = Ok ((Int_part x - o)%Z, frac_part x).
Proof.
  intros O N X. pose proof (Int_part_bounds x o n X) as B. unfold locate, to_cells.
  assert (0 <= IZR o)%R by (apply IZR_le; auto).
  destruct (Rle_dec 0 x) as [_|NX]; [|lra].
  assert (E : (Int_part x <? 2 ^ 32)%Z = true) by (apply Z.ltb_lt; lia). rewrite E. cbn [rbind].
  assert (W : w32 (Int_part x - o) = (Int_part x - o)%Z) by (apply w32_id; lia). rewrite W.
  assert (S : s32 (Int_part x - o) = (Int_part x - o)%Z).
  { unfold s32. destruct (Z.ltb_spec (Int_part x - o) (2 ^ 31)); lia. } rewrite S.
  replace (Int_part x - o + o)%Z with (Int_part x) by ring. rewrite w32_id by lia. auto.
Qed.

Section G.
  Variables (cd ph : nat -> R -> R).

  Lemma edge_le d N x k : converts (cd d) (ph d) N -> (ph d 0 <= x < ph d (IZR N))%R -> (0 <= k <= N)%Z ->
    ((ph d (IZR k) <= x)%R <-> (IZR k <= cd d x)%R).
  Proof.
    intros [M C] X K. destruct (C k K) as [B E]. split; intros H.
    - destruct (Req_dec (ph d (IZR k)) x) as [<-|NE]; [rewrite E; lra|].
      assert (cd d (ph d (IZR k)) < cd d x)%R by (apply M; lra). lra.
    - destruct (Rle_or_lt (ph d (IZR k)) x) as [L|L]; auto.
      assert (cd d x < cd d (ph d (IZR k)))%R by (apply M; lra). lra.
  Qed.

  (** The test in the code is the membership in the block, in every dimension. *)
  Lemma within_spec d o n N x : converts (cd d) (ph d) N -> (ph d 0 <= x < ph d (IZR N))%R -> (0 <= o)%Z -> (0 <= n)%Z -> (o + n <= N)%Z ->
    within (ph d (IZR o), ph d (IZR (o + n))) x = true <-> (o <= Int_part (cd d x) < o + n)%Z.
  Proof.
    intros C X O Nn B. unfold within. cbn [fst snd].
    pose proof (edge_le d N x o C X ltac:(lia)) as E1. pose proof (edge_le d N x (o + n) C X ltac:(lia)) as E2.
    assert (I1 : (IZR o <= cd d x)%R <-> (o <= Int_part (cd d x))%Z).
    { destruct (base_Int_part (cd d x)) as [P Q]. split; intros H.
      - apply Z.lt_succ_r. apply lt_IZR. rewrite succ_IZR. lra.
      - apply IZR_le in H. lra. }
    assert (I2 : (IZR (o + n) <= cd d x)%R <-> (o + n <= Int_part (cd d x))%Z).
    { destruct (base_Int_part (cd d x)) as [P Q]. split; intros H.
      - apply Z.lt_succ_r. apply lt_IZR. rewrite succ_IZR. lra.
      - apply IZR_le in H. lra. }
    destruct (Rle_dec _ _) as [A|A]; destruct (Rlt_dec _ _) as [A'|A']; cbn [andb]; split; intros H; try discriminate; auto.
    - split; [apply I1, E1; auto|]. destruct (Z.lt_ge_cases (Int_part (cd d x)) (o + n)) as [L|L]; auto.
      apply I2, E2 in L. lra.
    - exfalso. apply A'. destruct (Rlt_or_le x (ph d (IZR (o + n)))) as [L|L]; auto. apply E2, I2 in L. lia.
    - exfalso. apply A. apply E1, I1. lia.
    - exfalso. apply A. apply E1, I1. lia.
  Qed.

  (** All dimensions, from [d] on. *)
  Definition fits (d : nat) (offs ns Ns : list Z) (xs : list R) : Prop :=
    length offs = length xs /\ length ns = length xs /\ length Ns = length xs /\
    forall k, k < length xs -> converts (cd (d + k)) (ph (d + k)) (nth k Ns 0%Z) /\
      (ph (d + k)%nat 0 <= nth k xs 0 < ph (d + k)%nat (IZR (nth k Ns 0%Z)))%R /\
      (0 <= nth k offs 0)%Z /\ (0 <= nth k ns 0)%Z /\ (nth k offs 0 + nth k ns 0 <= nth k Ns 0)%Z /\ (nth k Ns 0 <= 2 ^ 31)%Z.

  Lemma fits_tail d o n N x offs ns Ns xs : fits d (o :: offs) (n :: ns) (N :: Ns) (x :: xs) -> fits (S d) offs ns Ns xs.
  Proof.
    intros (A & B & C & F). simpl in A, B, C. split; [lia|]. split; [lia|]. split; [lia|].
    intros k Hk. specialize (F (S k)). simpl in F. replace (S d + k) with (d + S k) by lia. apply F. lia.
  Qed.

  Lemma cells_spec : forall xs d offs ns Ns, fits d offs ns Ns xs ->
    (within_all (map2 (fun d '(o, k) => (ph d (IZR o), ph d (IZR (o + k)))) (seq d (length offs)) (combine offs ns)) xs = true <->
     Forall2 (fun c p => 0 <= c < snd p)%Z
       (map2 Z.sub (map Int_part (map2 cd (seq d (length xs)) xs)) offs) (combine offs ns)).
  Proof.
    induction xs as [|x xs IH]; intros d offs ns Ns F; destruct offs as [|o offs], ns as [|n ns], Ns as [|N Ns];
      try (exfalso; destruct F as (F1 & F2 & F3 & _); simpl in F1, F2, F3; lia).
    - simpl. split; auto.
    - pose proof (fits_tail _ _ _ _ _ _ _ _ _ F) as FT. destruct F as (_ & _ & _ & F).
      specialize (F 0 ltac:(simpl; lia)). rewrite Nat.add_0_r in F. cbn [nth] in F. destruct F as (C & X & O1 & O2 & O3 & O4).
      cbn [length seq combine map2 within_all map]. rewrite andb_true_iff, (within_spec d o n N x C X O1 O2 O3), (IH _ _ _ _ FT).
      split.
      + intros [H1 H2]. constructor; auto. cbn [snd]. lia.
      + intros H. inversion H as [|? ? ? ? H1 H2]; subst. cbn [snd] in H1. split; auto. lia.
  Qed.

  Lemma locate_all_ok : forall xs d offs ns Ns, fits d offs ns Ns xs ->
    Forall2 (fun c p => 0 <= c < snd p)%Z
       (map2 Z.sub (map Int_part (map2 cd (seq d (length xs)) xs)) offs) (combine offs ns) ->
    locate_all cd d offs xs = Ok (combine (map2 Z.sub (map Int_part (map2 cd (seq d (length xs)) xs)) offs)
                                          (map frac_part (map2 cd (seq d (length xs)) xs))).
  Proof.
    induction xs as [|x xs IH]; intros d offs ns Ns F H; destruct offs as [|o offs], ns as [|n ns], Ns as [|N Ns];
      try (exfalso; destruct F as (F1 & F2 & F3 & _); simpl in F1, F2, F3; lia).
    - reflexivity.
    - pose proof (fits_tail _ _ _ _ _ _ _ _ _ F) as FT. destruct F as (_ & _ & _ & F).
      specialize (F 0 ltac:(simpl; lia)). rewrite Nat.add_0_r in F. cbn [nth] in F. destruct F as (C & X & O1 & O2 & O3 & O4).
      cbn [length seq combine map2 map] in H. inversion H as [|? ? ? ? H1 H2]; subst. cbn [snd] in H1.
      cbn [locate_all length seq map2 map combine].
      assert (B : (IZR o <= cd d x < IZR (o + n))%R).
      { destruct (base_Int_part (cd d x)) as [P Q].
        assert (IZR o <= IZR (Int_part (cd d x)))%R by (apply IZR_le; lia).
        assert (IZR (Int_part (cd d x) + 1) <= IZR (o + n))%R by (apply IZR_le; lia). rewrite plus_IZR in H3. lra. }
      rewrite (locate_ok o n (cd d x) O1 ltac:(lia) B). cbn [rbind]. rewrite (IH _ _ _ _ FT H2). auto.
  Qed.
End G.

(** ** The loop *)
Section Loop.
  Variables (cd : nat -> R -> R) (rot : list R -> R -> list R -> list R) (enc : R -> Z).
  Variables (c : cfg) (mpi track uw : bool) (dom : Z).
  Variables (ext : list (R * R)) (off : list Z) (data : list listed).
  Definition inside (p : nat) : bool := match nth_error data p with Some e => within_all ext (l_x e) | None => false end.

  (** What is written for entry [e], but for the weight. *)
  Definition described (e : listed) (x : newp) : Prop := exists loc, locate_all cd 0 off (l_x e) = Ok loc /\
    n_i x = map fst loc /\ n_dx x = map (fun a => enc (snd a)) loc /\ n_u x = map enc (rot (l_x e) (l_phi e) (l_u e)) /\
    n_phi x = enc (l_phi e) /\ (uw = false -> n_w x = enc 1%R).

  Lemma global_fold n0 k0 : trackable c mpi track -> forall order k q, NoDup order ->
    (forall p, In p order -> p < length data) ->
    (forall p e, In p order -> nth_error data p = Some e -> within_all ext (l_x e) = true ->
       (exists loc, locate_all cd 0 off (l_x e) = Ok loc) /\ (uw = true -> p < maxp q)) ->
    n0 + k + length (filter inside order) <= maxp q ->
    exists q', fold_left (global_thread cd rot enc c mpi track uw dom ext off data n0 k0) order (Ok (k, q)) =
        Ok (k + length (filter inside order), q') /\ np q' = np q /\ maxp q' = maxp q /\
      (forall j p, nth_error (filter inside order) j = Some p -> exists e x, nth_error data p = Some e /\ described e x /\
         contains c mpi track dom (number k0 (k + j)) x q' (n0 + k + j)) /\
      (forall p, p < n0 + k \/ n0 + k + length (filter inside order) <= p -> same_slot q' q p).
  Proof.
    intros T. induction order as [|p order IH]; intros k q N B L CAP.
    - exists q. simpl. rewrite Nat.add_0_r. split; auto. split; auto. split; auto. split.
      + intros [|j] p X; discriminate. + intros. apply same_slot_refl.
    - apply NoDup_cons_iff in N as [N1 N2]. specialize (IH).
      assert (Bp := B p (or_introl eq_refl)). destruct (nth_error data p) as [e|] eqn:DP; [|apply nth_error_None in DP; lia].
      assert (IN : inside p = within_all ext (l_x e)) by (unfold inside; rewrite DP; auto).
      cbn [filter fold_left] in *. rewrite IN in *. unfold global_thread at 2. cbn [rbind]. rewrite DP.
      destruct (within_all ext (l_x e)) eqn:W.
      + destruct (L p e (or_introl eq_refl) DP W) as [[loc EL] UW]. rewrite EL. cbn [rbind length] in *.
        assert (WE : exists w, (if uw then (if Nat.leb (maxp q) p then UB else Ok (ar q Weight p)) else Ok (enc 1%R)) = Ok w /\
                       (uw = false -> w = enc 1%R)).
        { destruct uw.
          - specialize (UW eq_refl). rewrite (proj2 (Nat.leb_gt _ _) UW). eexists. split; [reflexivity|discriminate].
          - eexists. split; [reflexivity|auto]. }
        destruct WE as (w & WE & WF). rewrite WE. cbn [rbind].
        set (x := {| n_i := map fst loc; n_dx := _; n_u := _; n_w := w; n_phi := _ |}).
        destruct (inject_particle_ok c mpi track dom (number k0 k) x (n0 + k) q T ltac:(lia)) as (q1 & E1 & P1 & M1 & C1 & F1).
        rewrite E1. cbn [rbind].
        destruct (IH (S k) q1 N2) as (q2 & E2 & P2 & M2 & C2 & F2).
        * intros p' Hp. apply B. right; auto.
        * intros p' e' Hp D' W'. rewrite M1. apply (L p' e'); auto. right; auto.
        * rewrite M1. lia.
        * exists q2. replace (k + S (length (filter inside order))) with (S k + length (filter inside order)) by lia.
          split; [exact E2|]. split; [congruence|]. split; [congruence|]. split.
          -- intros [|j] p' X.
             ++ cbn [nth_error] in X. injection X as <-. exists e, x. split; [auto|]. split.
                { exists loc. unfold x. cbn. repeat split; auto. }
                rewrite !Nat.add_0_r. apply (contains_same _ _ _ _ _ _ q1); auto. apply F2. left. lia.
             ++ cbn [nth_error] in X. destruct (C2 j p' X) as (e' & x' & D' & DE & CO). exists e', x'. split; auto. split; auto.
                replace (k + S j) with (S k + j) by lia. replace (n0 + k + S j) with (n0 + S k + j) by lia. auto.
          -- intros p' Hp. eapply same_slot_trans; [apply F2; lia|apply F1; lia].
      + destruct (IH k q N2) as (q2 & E2 & H2).
        * intros p' Hp. apply B. right; auto.
        * intros p' e' Hp D' W'. apply (L p' e'); auto. right; auto.
        * exact CAP.
        * exists q2. split; [exact E2|exact H2].
  Qed.

  Theorem global_one order s : trackable c mpi track -> Permutation order (seq 0 (length data)) ->
    (forall e, In e data -> within_all ext (l_x e) = true -> exists loc, locate_all cd 0 off (l_x e) = Ok loc) ->
    (uw = true -> length data <= maxp (cont s)) ->
    np (cont s) + length (filter (fun e => within_all ext (l_x e)) data) <= maxp (cont s) ->
    exists s', inject_global cd rot enc c mpi track uw dom ext off data order s = Ok s' /\
      np (cont s') = np (cont s) + length (filter (fun e => within_all ext (l_x e)) data) /\ maxp (cont s') = maxp (cont s) /\
      counter s' = ((counter s + Z.of_nat (length (filter (fun e => within_all ext (l_x e)) data))) mod 2 ^ 32)%Z /\
      (exists es, Permutation es (filter (fun e => within_all ext (l_x e)) data) /\
         forall j e, nth_error es j = Some e -> exists x, described e x /\
           contains c mpi track dom ((counter s + Z.of_nat j) mod 2 ^ 32)%Z x (cont s') (np (cont s) + j)) /\
      (forall p, p < np (cont s) -> same_slot (cont s') (cont s) p).
  Proof.
    intros T P L UW CAP.
    assert (IN : forall p, In p order -> p < length data).
    { intros p Hp. assert (X : In p (seq 0 (length data))) by (apply (Permutation_in _ P); auto). apply in_seq in X. lia. }
    assert (SEL : forall f : listed -> bool, exists es, Permutation es (filter f data) /\
      map (nth_error data) (filter (fun p => match nth_error data p with Some e => f e | None => false end) order) = map Some es).
    { intros f. set (g := fun p => match nth_error data p with Some e => f e | None => false end).
      assert (X : map (nth_error data) (filter g (seq 0 (length data))) = map Some (filter f data)).
      { unfold g. clear. induction data as [|e l IH]; simpl; auto.
        rewrite <- seq_shift.
        assert (Y : forall l', map (nth_error (e :: l)) (filter (fun p => match nth_error (e :: l) p with Some e => f e | None => false end) (map S l')) =
                    map (nth_error l) (filter (fun p => match nth_error l p with Some e => f e | None => false end) l')).
        { induction l' as [|a l' IHl]; simpl; auto. destruct (nth_error l a) as [e'|] eqn:E; [destruct (f e')|]; simpl; rewrite ?E, IHl; auto. }
        destruct (f e); simpl; rewrite Y, IH; auto. }
      assert (PF : Permutation (map (nth_error data) (filter g order)) (map Some (filter f data))).
      { rewrite <- X. apply Permutation_map. apply Permutation_filter. auto. }
      apply Permutation_map_inv in PF as (es & E & PE). exists es. split; [apply Permutation_sym; auto|auto]. }
    destruct (SEL (fun e => within_all ext (l_x e))) as (es & PE & ME). change (map (nth_error data) (filter inside order) = map Some es) in ME.
    assert (LEN : length (filter inside order) = length (filter (fun e => within_all ext (l_x e)) data)).
    { rewrite <- (Permutation_length PE), <- (map_length Some es), <- ME, map_length. auto. }
    destruct (global_fold (np (cont s)) (counter s) T order 0 (cont s)) as (q & E & NQ & MQ & CQ & FQ).
    { eapply Permutation_NoDup; [apply Permutation_sym; exact P|]. apply seq_NoDup. }
    { auto. }
    { intros p e Hp D W. split; [apply L; auto; eapply nth_error_In; eauto|]. intros U. specialize (UW U). specialize (IN p Hp). lia. }
    { rewrite Nat.add_0_r, LEN. auto. }
    unfold inject_global. rewrite E. cbn [rbind]. rewrite Nat.add_0_l, LEN in *.
    destruct (advance_ok (length (filter (fun e => within_all ext (l_x e)) data)) {| cont := q; counter := counter s |}) as (s' & E' & N' & M' & K' & F').
    { simpl. lia. }
    simpl in *. exists s'. split; [exact E'|]. split; [lia|]. split; [lia|]. split; [exact K'|]. split.
    - exists es. split; [auto|]. intros j e X.
      assert (Y : nth_error (map Some es) j = Some (Some e)) by (rewrite nth_error_map, X; auto).
      rewrite <- ME in Y. rewrite nth_error_map in Y.
      destruct (nth_error (filter inside order) j) as [p|] eqn:FP; [|discriminate].
      destruct (CQ j p eq_refl) as (e' & x & D & DE & CO) || destruct (CQ j p FP) as (e' & x & D & DE & CO).
      simpl in Y. injection Y as Y. assert (e' = e) by congruence. subst e'.
      exists x. split; auto. rewrite Nat.add_0_r in CO. rewrite number_mod in CO. eapply contains_same; [apply F'|exact CO].
    - intros p Hp. eapply same_slot_trans; [apply F'|]. apply FQ. left. lia.
  Qed.
End Loop.

(** ** All subdomains *)
Lemma partition_perm {A} (f : nat -> A -> bool) n (data : list A) :
  (forall a, In a data -> exists d, d < n /\ f d a = true /\ forall d', d' < n -> f d' a = true -> d' = d) ->
  Permutation (flat_map (fun d => filter (f d) data) (seq 0 n)) data.
Proof.
  induction data as [|a data IH]; intros H.
  - cbn [filter]. induction (seq 0 n); simpl; auto.
  - destruct (H a (or_introl eq_refl)) as (d & Hd & Fd & U).
    transitivity (flat_map (fun d => (if f d a then [a] else []) ++ filter (f d) data) (seq 0 n)).
    { apply flat_map_perm. intros x _. cbn [filter]. destruct (f x a); simpl; auto. }
    rewrite flat_map_app_perm. change (a :: data) with ([a] ++ data). apply Permutation_app.
    + replace n with (d + S (n - S d)) by lia. rewrite seq_app, flat_map_app. cbn [seq flat_map plus]. rewrite Fd.
      assert (Z0 : forall m k, (forall x, k <= x < k + m -> x < n /\ x <> d) -> flat_map (fun d => if f d a then [a] else []) (seq k m) = []).
      { clear -U. induction m as [|m IH]; intros k Hx; auto. cbn [seq flat_map].
        destruct (f k a) eqn:E; [exfalso; destruct (Hx k ltac:(lia)) as [Q1 Q2]; apply Q2, U; auto|]. cbn [app]. apply IH. intros; apply Hx; lia. }
      rewrite !Z0 by (intros; lia). auto.
    + apply IH. intros b Hb. apply H. right; auto.
Qed.

Section All.
  Variables (ls : list (list Z)) (cd ph : nat -> R -> R).
  Hypothesis POS : Forall (Forall (fun a => 0 < a)%Z) ls.
  Hypothesis SMALL : Forall (fun l => sumZ l <= 2 ^ 31)%Z ls.
  Hypothesis CONV : forall d, d < length ls -> converts (cd d) (ph d) (nth d (map sumZ ls) 0%Z).

  Lemma wide : Forall (wide1 0) ls.
  Proof. eapply Forall_impl; [|exact POS]. intros l H. eapply Forall_impl; [|exact H]. simpl. intros; lia. Qed.

  Lemma dom_fits D e : In D (domains ls) -> inside_grid ph (map sumZ ls) e ->
    fits cd ph 0 (sub_offset_ncells D) (sub_ncells D) (map sumZ ls) (l_x e).
  Proof.
    intros HD (L & _ & G). rewrite map_length in *. destruct (dom_len ls D HD) as (A1 & A2 & _).
    destruct (dom_pos ls D HD) as (Bo & E1 & E2). pose proof (in_box_length _ _ Bo) as LB. unfold counts in LB. rewrite map_length in LB.
    split; [congruence|]. split; [congruence|]. split; [rewrite map_length; auto|].
    intros k Hk. rewrite L in Hk. rewrite Nat.add_0_l. split; [apply CONV; auto|]. split; [apply G; auto|].
    rewrite E1, E2. unfold size, offs.
    rewrite (nth_map2 blk ls _ k [] 0%Z) by lia. rewrite (nth_map2 off ls _ k [] 0%Z) by lia.
    rewrite (nth_indep (map sumZ ls) 0%Z (sumZ [])) by (rewrite map_length; auto). rewrite (map_nth sumZ).
    assert (W : wide1 0 (nth k ls [])) by (pose proof wide as W; rewrite Forall_forall in W; apply W, nth_In; auto).
    assert (B : (0 <= nth k (sub_offset_ndomains D) 0 < len (nth k ls []))%Z).
    { apply (ListLemmas.Forall2_nth _ _ _ 0%Z 0%Z) in Bo as [_ Bo]. specialize (Bo k ltac:(lia)). unfold counts in Bo.
      rewrite (nth_indep (map (fun l : list Z => Z.of_nat (length l)) ls) 0%Z (Z.of_nat (length (@nil Z)))) in Bo by (rewrite map_length; auto).
      rewrite (map_nth (fun l : list Z => Z.of_nat (length l))) in Bo. exact Bo. }
    pose proof (off_nonneg _ _ _ W B). pose proof (off_end _ _ _ W B). pose proof (blk_wide _ _ _ W B).
    assert (sumZ (nth k ls []) <= 2 ^ 31)%Z by (pose proof SMALL as Q; rewrite Forall_forall in Q; apply Q, nth_In; auto). lia.
  Qed.

  Definition gcell (e : listed) : list Z := map Int_part (map2 cd (seq 0 (length (l_x e))) (l_x e)).

  Lemma snd_box : forall (offs ns zs : list Z), length offs = length ns ->
    Forall2 (fun c p => 0 <= c < snd p)%Z zs (combine offs ns) <-> in_box zs ns.
  Proof.
    induction offs as [|o offs IH]; intros [|n ns] zs L; simpl in L; try lia; destruct zs as [|z zs]; cbn [combine]; split; intros H; try (inversion H; fail); try constructor;
      inversion H as [|? ? ? ? H1 H2]; subst; auto.
    - apply IH; auto. - apply IH; auto.
  Qed.

  Lemma within_cell D e : In D (domains ls) -> inside_grid ph (map sumZ ls) e ->
    within_all (phys_extent ph (sub_offset_ncells D) (sub_ncells D)) (l_x e) = true <->
    is_global_cell D (map2 Z.sub (gcell e) (sub_offset_ncells D)) (gcell e).
  Proof.
    intros HD G. pose proof (dom_fits D e HD G) as F. unfold phys_extent.
    rewrite (cells_spec cd ph _ _ _ _ _ F). fold (gcell e).
    destruct F as (F1 & F2 & _). rewrite snd_box by congruence. unfold is_global_cell. split; [|tauto]. intros H. split; auto.
    assert (LG : length (gcell e) = length (sub_offset_ncells D)).
    { unfold gcell. rewrite map_length, map2_length, seq_length. lia. }
    revert LG. generalize (gcell e). generalize (sub_offset_ncells D). clear.
    induction l as [|o l IH]; intros [|g gs] L; simpl in L; try lia; cbn [map2]; auto. f_equal; [lia|apply IH; lia].
  Qed.

  Lemma within_all_nth : forall xs d offs ns, length offs = length xs -> length ns = length xs ->
    within_all (map2 (fun d '(o, k) => (ph d (IZR o), ph d (IZR (o + k)))) (seq d (length offs)) (combine offs ns)) xs = true <->
    forall k, k < length xs -> (ph (d + k)%nat (IZR (nth k offs 0%Z)) <= nth k xs 0 < ph (d + k)%nat (IZR (nth k offs 0 + nth k ns 0)%Z))%R.
  Proof.
    induction xs as [|x xs IH]; intros d [|o offs] [|n ns] L1 L2; simpl in L1, L2; try lia.
    - simpl. split; intros; [lia|auto].
    - cbn [length seq combine map2 within_all]. rewrite andb_true_iff, (IH (S d) offs ns) by lia. unfold within. cbn [fst snd]. split.
      + intros [A B] [|k] Hk; cbn [nth].
        * rewrite Nat.add_0_r. destruct (Rle_dec _ _); [|discriminate]. destruct (Rlt_dec _ _); [|discriminate]. auto.
        * replace (d + S k) with (S d + k) by lia. apply B. lia.
      + intros H. split.
        * specialize (H 0 ltac:(lia)). rewrite Nat.add_0_r in H. cbn [nth] in H. destruct (Rle_dec _ _); [|lra]. destruct (Rlt_dec _ _); [auto|lra].
        * intros k Hk. specialize (H (S k) ltac:(lia)). cbn [nth] in H. replace (S d + k) with (d + S k) by lia. auto.
  Qed.
  Lemma within_inside D e : In D (domains ls) -> length (l_x e) = length ls ->
    within_all (phys_extent ph (sub_offset_ncells D) (sub_ncells D)) (l_x e) = true <-> inside_domain ph D e.
  Proof.
    intros HD L. destruct (dom_len ls D HD) as (A1 & A2 & _). unfold phys_extent, inside_domain.
    rewrite within_all_nth by congruence. split; intros H k Hk; apply (H k Hk).
  Qed.

  Lemma gcell_box e : inside_grid ph (map sumZ ls) e -> in_box (gcell e) (map sumZ ls).
  Proof.
    intros (L & _ & G). unfold in_box. apply (ListLemmas.Forall2_nth _ _ _ 0%Z 0%Z).
    assert (LG : length (gcell e) = length (map sumZ ls)) by (unfold gcell; rewrite map_length, map2_length, seq_length; lia).
    split; auto. intros k Hk. rewrite LG in Hk. unfold gcell.
    assert (LM : length (map2 cd (seq 0 (length (l_x e))) (l_x e)) = length ls) by (rewrite map2_length, seq_length, L, map_length; lia).
    rewrite map_length in Hk.
    rewrite (nth_indep (map Int_part _) 0%Z (Int_part 0)) by (rewrite map_length; lia). rewrite (map_nth Int_part).
    rewrite (nth_map2 cd _ _ k 0 0%R) by (rewrite ?seq_length, L, map_length; auto).
    rewrite seq_nth by (rewrite L, map_length; auto). cbn [plus].
    specialize (G k ltac:(rewrite map_length; auto)). specialize (CONV k Hk).
    set (N := nth k (map sumZ ls) 0%Z) in *. set (x := nth k (l_x e) 0%R) in *.
    assert (N0 : (0 <= N)%Z).
    { unfold N. rewrite (nth_indep (map sumZ ls) 0%Z (sumZ [])) by (rewrite map_length; auto). rewrite map_nth. apply sumZ_nonneg.
      pose proof wide as W. rewrite Forall_forall in W. eapply wide1_nonneg. apply W, nth_In; auto. }
    pose proof (edge_le cd ph k N x 0 CONV G ltac:(lia)) as E1. pose proof (edge_le cd ph k N x N CONV G ltac:(lia)) as E2.
    apply (Int_part_bounds _ 0 N). cbn [Z.add]. split; [apply E1; apply G|].
    apply Rnot_le_lt. intros H. apply E2 in H. lra.
  Qed.

  Theorem one_owner e : inside_grid ph (map sumZ ls) e ->
    exists! d, exists D, nth_error (domains ls) d = Some D /\ inside_domain ph D e.
  Proof.
    intros G. pose proof (tiles_cover ls _ eq_refl) as T. destruct T with (g := gcell e) as ([d z] & (D & E & C) & U).
    { eapply Forall_impl; [|exact POS]. intros l H. eapply Forall_impl; [|exact H]. simpl. intros; lia. }
    { apply gcell_box; auto. }
    cbn [fst snd] in *. assert (HD : In D (domains ls)) by (eapply nth_error_In; exact E).
    assert (LX : length (l_x e) = length ls) by (destruct G as [L _]; rewrite map_length in L; auto).
    assert (IZ : forall D' z', is_global_cell D' z' (gcell e) -> z' = map2 Z.sub (gcell e) (sub_offset_ncells D') \/ length (sub_offset_ncells D') <> length (sub_ncells D')).
    { intros D' z' [B Q]. destruct (Nat.eq_dec (length (sub_offset_ncells D')) (length (sub_ncells D'))) as [LL|]; auto. left. rewrite Q.
      apply in_box_length in B. assert (LL' : length z' = length (sub_offset_ncells D')) by congruence. clear -LL'.
      revert z' LL'. generalize (sub_offset_ncells D'). induction l as [|o l IH]; intros [|a z'] L; simpl in L; try lia; cbn [map2]; auto. f_equal; [lia|apply IH; lia]. }
    exists d. split.
    - exists D. split; auto. apply within_inside; auto. apply within_cell; auto.
      destruct (IZ D z C) as [<-|Q]; auto. exfalso. apply Q. apply (dom_len ls D HD).
    - intros d' (D' & E' & I'). assert (HD' : In D' (domains ls)) by (eapply nth_error_In; exact E').
      apply within_inside in I'; auto. apply within_cell in I'; auto.
      specialize (U (d', map2 Z.sub (gcell e) (sub_offset_ncells D'))). cbn [fst snd] in U.
      assert (X : (d, z) = (d', map2 Z.sub (gcell e) (sub_offset_ncells D'))) by (apply U; exists D'; auto). congruence.
  Qed.

  Variables (rot : list R -> R -> list R -> list R) (enc : R -> Z).
  Variables (c : cfg) (mpi track uw : bool) (data : list listed).
  Hypothesis DIM : dim c = length ls.
  Hypothesis ROT : forall x p u, length u = 3 -> length (rot x p u) = 3.

  Lemma placed_asked D e x s p dom id : In D (domains ls) -> inside_grid ph (map sumZ ls) e -> inside_domain ph D e ->
    described cd rot enc uw (sub_offset_ncells D) e x -> contains c mpi track dom id x s p ->
    placed c (sub_offset_ncells D) s p = asked c cd rot enc e.
  Proof.
    intros HD G I (loc & EL & X1 & X2 & X3 & X4 & _) (C1 & C2 & C3 & C4 & C5 & _).
    assert (LX : length (l_x e) = length ls) by (destruct G as [L _]; rewrite map_length in L; auto).
    pose proof (proj2 (within_inside D e HD LX) I) as W. apply within_cell in W; auto.
    pose proof (dom_fits D e HD G) as F. destruct (dom_len ls D HD) as (A1 & A2 & _).
    rewrite (locate_all_ok cd ph _ _ _ _ _ F) in EL by (fold (gcell e); rewrite snd_box by congruence; apply W).
    injection EL as EL. fold (gcell e) in EL. set (xs := map2 cd (seq 0 (length (l_x e))) (l_x e)) in *.
    assert (LS : length xs = dim c) by (unfold xs; rewrite map2_length, seq_length; lia).
    assert (LG : length (gcell e) = dim c) by (unfold gcell; rewrite map_length; auto).
    assert (LZ : length (map2 Z.sub (gcell e) (sub_offset_ncells D)) = dim c) by (rewrite map2_length; lia).
    assert (N1 : n_i x = map2 Z.sub (gcell e) (sub_offset_ncells D)).
    { rewrite X1, <- EL. clear -LZ LS. assert (L : length (map2 Z.sub (gcell e) (sub_offset_ncells D)) = length (map frac_part xs)) by (rewrite map_length; lia).
      revert L. generalize (map2 Z.sub (gcell e) (sub_offset_ncells D)) (map frac_part xs). induction l as [|a l IH]; intros [|b m] L; simpl in L; try lia; simpl; auto.
      f_equal. apply IH. lia. }
    assert (N2 : n_dx x = map (fun r => enc (frac_part r)) xs).
    { rewrite X2, <- EL. clear -LZ LS. assert (L : length (map2 Z.sub (gcell e) (sub_offset_ncells D)) = length xs) by lia.
      revert L. generalize (map2 Z.sub (gcell e) (sub_offset_ncells D)) xs. induction l as [|a l IH]; intros [|b m] L; simpl in L; try lia; simpl; auto.
      f_equal. apply IH. lia. }
    assert (SEQ : forall (l : list Z) n, length l = n -> map (fun d => nth (d - 1) l 0%Z) (seq 1 n) = l).
    { intros l n <-. clear. induction l as [|a l IH]; simpl; auto. f_equal. rewrite <- seq_shift, map_map.
      etransitivity; [|exact IH]. rewrite <- !seq_shift, !map_map. apply map_ext_in. intros k Hk. apply in_seq in Hk. cbn.
      destruct k; simpl; auto. }
    assert (P1 : map (fun d => ar s (PrtlModel.I d) p) (seq 1 (dim c)) = n_i x).
    { rewrite <- (SEQ (n_i x) (dim c)) by (rewrite N1; auto). apply map_ext_in. intros d Hd. apply in_seq in Hd. apply C2. lia. }
    assert (P2 : map (fun d => ar s (Dx d) p) (seq 1 (dim c)) = n_dx x).
    { rewrite <- (SEQ (n_dx x) (dim c)) by (rewrite N2, map_length; auto). apply map_ext_in. intros d Hd. apply in_seq in Hd. apply C2. lia. }
    assert (P3 : map (fun d => ar s (Ux d) p) (seq 1 3) = n_u x).
    { rewrite <- (SEQ (n_u x) 3) by (rewrite X3, map_length; apply ROT; apply G). apply map_ext_in. intros d Hd. apply in_seq in Hd. apply C3. lia. }
    assert (XS : map2 cd (seq 0 (dim c)) (l_x e) = xs) by (unfold xs; rewrite LX, DIM; auto).
    unfold placed, asked. rewrite P1, P2, P3, XS, N2, X3, N1. cbv zeta. f_equal; [f_equal; f_equal|].
    - symmetry. apply W.
    - destruct (Nat.eqb_spec (dim c) 2) as [D2|D2]; cbn [andb]; auto. destruct (cart c) eqn:CA; cbn [negb]; auto. rewrite <- X4. auto.
  Qed.

  Theorem global_all (s : nat -> pstate) (order : nat -> list nat) :
    trackable c mpi track -> Forall (inside_grid ph (map sumZ ls)) data ->
    (forall d D, nth_error (domains ls) d = Some D -> Permutation (order d) (seq 0 (length data)) /\
       (uw = true -> length data <= maxp (cont (s d))) /\
       forall sel, share (inside_domain ph D) data sel -> np (cont (s d)) + length sel <= maxp (cont (s d))) ->
    exists s' : nat -> pstate,
      (forall d D, nth_error (domains ls) d = Some D ->
         inject_global cd rot enc c mpi track uw (Z.of_nat d) (phys_extent ph (sub_offset_ncells D) (sub_ncells D))
           (sub_offset_ncells D) data (order d) (s d) = Ok (s' d) /\
         (forall p, p < np (cont (s d)) -> same_slot (cont (s' d)) (cont (s d)) p) /\
         (forall p, np (cont (s d)) <= p < np (cont (s' d)) -> tg (cont (s' d)) p = 1%Z /\ (uw = false -> ar (cont (s' d)) Weight p = enc 1%R)) /\
         exists sel, share (inside_domain ph D) data sel /\ Permutation (created c D (s d) (s' d)) (map (asked c cd rot enc) sel)) /\
      Permutation (flat_map (fun d => match nth_error (domains ls) d with Some D => created c D (s d) (s' d) | None => [] end) (seq 0 (length (domains ls))))
                  (map (asked c cd rot enc) data).
  Proof.
    intros T G H.
    set (f := fun d e => match nth_error (domains ls) d with Some D => within_all (phys_extent ph (sub_offset_ncells D) (sub_ncells D)) (l_x e) | None => false end).
    assert (LX : forall e, In e data -> length (l_x e) = length ls).
    { intros e He. rewrite Forall_forall in G. destruct (G e He) as [L _]. rewrite map_length in L; auto. }
    assert (SH : forall d D, nth_error (domains ls) d = Some D -> share (inside_domain ph D) data (filter (f d) data)).
    { intros d D ED. assert (HD : In D (domains ls)) by (eapply nth_error_In; exact ED).
      exists (filter (fun e => negb (f d e)) data). split; [|split].
      - clear. induction data as [|e l IH]; simpl; auto. destruct (f d e); simpl; auto. etransitivity; [apply Permutation_sym, Permutation_middle|]. auto.
      - apply Forall_forall. intros e He. apply filter_In in He as [He Fe]. unfold f in Fe. rewrite ED in Fe. apply within_inside in Fe; auto.
      - apply Forall_forall. intros e He. apply filter_In in He as [He Fe]. unfold f in Fe. rewrite ED in Fe. intros Q. apply within_inside in Q; auto. rewrite Q in Fe. discriminate. }
    assert (STEP : forall d, exists s', forall D, nth_error (domains ls) d = Some D ->
         inject_global cd rot enc c mpi track uw (Z.of_nat d) (phys_extent ph (sub_offset_ncells D) (sub_ncells D))
           (sub_offset_ncells D) data (order d) (s d) = Ok s' /\
         (forall p, p < np (cont (s d)) -> same_slot (cont s') (cont (s d)) p) /\
         (forall p, np (cont (s d)) <= p < np (cont s') -> tg (cont s') p = 1%Z /\ (uw = false -> ar (cont s') Weight p = enc 1%R)) /\
         Permutation (created c D (s d) s') (map (asked c cd rot enc) (filter (f d) data))).
    { intros d. destruct (nth_error (domains ls) d) as [D|] eqn:ED; [|exists (s d); intros; discriminate].
      assert (HD : In D (domains ls)) by (eapply nth_error_In; exact ED).
      destruct (H d D ED) as (P & UW & CAP). specialize (CAP _ (SH d D ED)).
      assert (FE : filter (f d) data = filter (fun e => within_all (phys_extent ph (sub_offset_ncells D) (sub_ncells D)) (l_x e)) data).
      { unfold f. rewrite ED. auto. }
      rewrite FE in *.
      destruct (global_one cd rot enc c mpi track uw (Z.of_nat d) (phys_extent ph (sub_offset_ncells D) (sub_ncells D)) (sub_offset_ncells D) data (order d) (s d) T P) as (s' & E & N & M & K & (es & PE & CE) & FR); auto.
      { intros e He W. rewrite Forall_forall in G. specialize (G e He). eexists. eapply locate_all_ok; [apply dom_fits; eauto|].
        destruct (dom_len ls D HD) as (A1 & A2 & _). fold (gcell e). rewrite snd_box by congruence. apply within_cell in W; auto. apply W. }
      exists s'. intros D' ED'. injection ED' as <-. split; [exact E|]. split; [exact FR|].
      assert (LE : length es = np (cont s') - np (cont (s d))) by (rewrite (Permutation_length PE); lia).
      split.
      - intros p Hp. destruct (nth_error es (p - np (cont (s d)))) as [e|] eqn:EN; [|apply nth_error_None in EN; lia].
        destruct (CE _ _ EN) as (x & (loc & _ & _ & _ & _ & _ & WX) & CO). replace (np (cont (s d)) + (p - np (cont (s d)))) with p in CO by lia.
        split; [apply CO|]. intros U. rewrite <- (WX U). apply CO.
      - etransitivity; [|apply Permutation_map; exact PE].
        replace (created c D (s d) s') with (map (asked c cd rot enc) es); auto.
        unfold created. rewrite <- LE. apply nth_error_ext. intros j.
        rewrite !nth_error_map. destruct (nth_error es j) as [e|] eqn:EN.
        + assert (JL : j < length es) by (apply nth_error_Some; congruence).
          rewrite (nth_error_nth' (seq (np (cont (s d))) (length es)) 0) by (rewrite seq_length; auto). rewrite seq_nth by auto. cbn [option_map].
          destruct (CE j e EN) as (x & DE & CO). f_equal. symmetry.
          assert (IE : In e (filter (fun e => within_all (phys_extent ph (sub_offset_ncells D) (sub_ncells D)) (l_x e)) data)).
          { eapply Permutation_in; [exact PE|]. eapply nth_error_In; eauto. }
          apply filter_In in IE as [I1 I2]. rewrite Forall_forall in G. specialize (G e I1).
          eapply placed_asked; eauto. apply within_inside; auto.
        + apply nth_error_None in EN. rewrite (proj2 (nth_error_None (seq (np (cont (s d))) (length es)) j)) by (rewrite seq_length; auto). auto. }
    assert (CH : exists s', forall d D, nth_error (domains ls) d = Some D ->
         inject_global cd rot enc c mpi track uw (Z.of_nat d) (phys_extent ph (sub_offset_ncells D) (sub_ncells D))
           (sub_offset_ncells D) data (order d) (s d) = Ok (s' d) /\
         (forall p, p < np (cont (s d)) -> same_slot (cont (s' d)) (cont (s d)) p) /\
         (forall p, np (cont (s d)) <= p < np (cont (s' d)) -> tg (cont (s' d)) p = 1%Z /\ (uw = false -> ar (cont (s' d)) Weight p = enc 1%R)) /\
         Permutation (created c D (s d) (s' d)) (map (asked c cd rot enc) (filter (f d) data))).
    { set (ex := fun d => match nth_error (domains ls) d with
        | Some D => inject_global cd rot enc c mpi track uw (Z.of_nat d) (phys_extent ph (sub_offset_ncells D) (sub_ncells D))
           (sub_offset_ncells D) data (order d) (s d) | None => UB end).
      exists (fun d => match ex d with Ok q => q | _ => s d end). intros d D ED.
      destruct (STEP d) as (s1 & S1). destruct (S1 D ED) as (E & R). unfold ex. rewrite ED, E. split; auto. }
    destruct CH as (s' & CH). exists s'. split.
    - intros d D ED. destruct (CH d D ED) as (E & R1 & R2 & R3). split; auto. split; auto. split; auto. exists (filter (f d) data). split; auto.
    - transitivity (flat_map (fun d => map (asked c cd rot enc) (filter (f d) data)) (seq 0 (length (domains ls)))).
      + apply flat_map_perm. intros d Hd. apply in_seq in Hd. destruct (nth_error (domains ls) d) as [D|] eqn:ED; [apply CH; auto|apply nth_error_None in ED; lia].
      + rewrite <- map_flat_map. apply Permutation_map. apply partition_perm. intros e He. rewrite Forall_forall in G.
        destruct (one_owner e (G e He)) as (d & (D & ED & I) & U). exists d. split; [apply nth_error_Some; congruence|].
        assert (FI : forall d D, nth_error (domains ls) d = Some D -> f d e = true <-> inside_domain ph D e).
        { intros d1 D1 E1. unfold f. rewrite E1. apply within_inside; auto. eapply nth_error_In; eauto. }
        split; [apply (FI d D ED); auto|]. intros d' Hd' F'. destruct (nth_error (domains ls) d') as [D'|] eqn:ED'; [|apply nth_error_None in ED'; lia].
        symmetry. apply U. exists D'. split; auto. apply (FI d' D' ED'); auto.
  Qed.
End All.
