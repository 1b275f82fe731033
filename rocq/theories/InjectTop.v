From Coq Require Import ZArith List Bool Arith Lia Permutation.
From Verif Require Import Base ListLemmas DecompModel DecompSpec DecompProofs DirsModel DirsSpec DirsProofs
  TopoModel TopoSpec TopoTop HaloModel HaloSpec HaloProofs SyncProofs PrtlModel PrtlSpec PrtlProofs PrtlCommModel PrtlCommSpec PrtlCommProofs PrtlCommTop
  CkptModel CkptSpec CkptPrtl InjectModel InjectSpec InjectProofs.
Import ListNotations.
Open Scope nat_scope.

(** ** Identifiers are part of what is kept about a particle *)
Fixpoint pick (a : attr) (l : list attr) (v : list Z) : Z :=
  match l, v with
  | b :: l', x :: v' => if attr_eq_dec b a then x else pick a l' v'
  | _, _ => 0%Z
  end.
Lemma pick_map a (g : attr -> Z) l : In a l -> pick a l (map g l) = g a.
Proof. induction l as [|b l IH]; simpl; intros []; destruct (attr_eq_dec b a); subst; auto; congruence. Qed.
Lemma pld_in c l : l < npld_i c -> In (PldI l) (attrs c).
Proof.
  intros H. unfold attrs. rewrite !in_app_iff. do 5 right. left. apply in_map. apply in_seq. lia.
Qed.
Definition pick_id (c : cfg) (v : list Z) : Z * Z := (pick (PldI 1) (attrs c) v, pick (PldI 0) (attrs c) v).
Lemma ident_view c s p : 2 <= npld_i c -> pick_id c (view c s p) = ident s p.
Proof.
  intros H. unfold pick_id, view, ident. rewrite !pick_map by (apply pld_in; lia). auto.
Qed.
Lemma ident_grid ls c off s p : 2 <= npld_i c -> pick_id c (grid_view ls c off s p) = ident s p.
Proof.
  intros H. unfold pick_id, grid_view, view, ident. rewrite map2_map_r.
  rewrite !(pick_map _ (fun a => in_grid ls off a (ar s a p))) by (apply pld_in; lia). auto.
Qed.

Definition idl (s : parts) : list (Z * Z) := map (ident s) (not_dead s).

Lemma not_dead_live s : (forall p, p < np s -> tg s p = 0%Z \/ tg s p = 1%Z) -> not_dead s = live s.
Proof.
  intros H. unfold not_dead, live. apply filter_ext_in'. intros p Hp. apply in_seq in Hp.
  destruct (H p) as [E|E]; [lia| |]; rewrite E; auto.
Qed.
Lemma ids_of_views c s s' l l' : 2 <= npld_i c -> Permutation (map (view c s') l') (map (view c s) l) ->
  Permutation (map (ident s') l') (map (ident s) l).
Proof.
  intros H P. apply (Permutation_map (pick_id c)) in P. rewrite !map_map in P.
  assert (X : forall u k, map (fun x => pick_id c (view c u x)) k = map (ident u) k).
  { intros u k. apply map_ext. intros. apply ident_view; auto. }
  rewrite !X in P. auto.
Qed.

Lemma flat_map_one {A B} (eqd : forall x y : A, {x = y} + {x <> y}) (f f' : A -> list B) L o drop ids : NoDup L -> In o L ->
  (forall b, b <> o -> f' b = f b) -> Permutation (f' o ++ drop) (f o ++ ids) ->
  Permutation (flat_map f' L ++ drop) (flat_map f L ++ ids).
Proof.
  intros N I O P. apply in_split in I as (l1 & l2 & ->). rewrite !flat_map_app. cbn [flat_map].
  apply NoDup_remove_2 in N. rewrite in_app_iff in N.
  assert (E1 : flat_map f' l1 = flat_map f l1).
  { apply flat_map_ext_in. intros x Hx. apply O. intros ->. auto. }
  assert (E2 : flat_map f' l2 = flat_map f l2).
  { apply flat_map_ext_in. intros x Hx. apply O. intros ->. auto. }
  rewrite E1, E2, <- !app_assoc. apply Permutation_app_head.
  rewrite (Permutation_app_comm (flat_map f l2) drop), (Permutation_app_comm (flat_map f l2) ids).
  rewrite !app_assoc. apply Permutation_app_tail. auto.
Qed.

Section Top.
  Variables (ls : list (list Z)) (gbc : list (flds_bc * flds_bc)) (c : cfg).
  Hypothesis LG : length gbc = length ls.
  Hypothesis PF : paired_flds gbc.
  Hypothesis HD : dimension (length ls).
  Hypothesis DC : dim c = length ls.
  Hypothesis PI2 : 2 <= npld_i c.

  Definition kept_cap (w : world) : Prop := forall o, In o (ranks ls) -> np (cont (w o)) <= maxp (cont (w o)).
  Definition dom_at (d : nat) : option (list Z) := option_map sub_offset_ndomains (nth_error (domains ls) d).

  Lemma ranks_nodup : NoDup (ranks ls).
  Proof. exact (nodup_positions ls). Qed.
  Lemma ranks_in o : In o (ranks ls) <-> in_box o (counts ls).
  Proof. exact (in_positions ls o). Qed.

  Lemma one_rank w w' o s' ids drop : set_rank w w' o s' ->
    (In o (ranks ls) -> Permutation (idl (cont s') ++ drop) (idl (cont (w o)) ++ ids)) ->
    (In o (ranks ls) -> np (cont s') <= maxp (cont s')) -> (~ In o (ranks ls) -> drop = ids) ->
    kept_cap w -> Permutation (all_idents ls w' ++ drop) (all_idents ls w ++ ids) /\ kept_cap w'.
  Proof.
    intros [E O] P C NI K. split.
    - destruct (in_dec (list_eq_dec Z.eq_dec) o (ranks ls)) as [I|I].
      + unfold all_idents. apply (flat_map_one (list_eq_dec Z.eq_dec) _ _ _ o).
        * apply ranks_nodup. * exact I.
        * intros b Hb. rewrite (O b Hb). auto.
        * rewrite E. apply P; auto.
      + rewrite (NI I). apply Permutation_app_tail. unfold all_idents. erewrite flat_map_ext_in; [reflexivity|].
        intros b Hb. rewrite O; auto. intros ->. auto.
    - intros b Hb. destruct (list_eq_dec Z.eq_dec b o) as [->|NE].
      + rewrite E. auto. + rewrite O; auto.
  Qed.

  Lemma track_c : trackable c true true.
  Proof. split; [destruct HD; lia|]. intros _. split; [lia|auto]. Qed.

  (** Every step keeps identifiers or adds the ones it gives out. *)
  Lemma step_idents w ids w' : step ls gbc c w ids w' -> kept_cap w ->
    (exists drop, Permutation (all_idents ls w' ++ drop) (all_idents ls w ++ ids)) /\ kept_cap w'.
  Proof.
    intros S K. destruct S as [w w' d D acq order s' ND PO o IJ SR|w w' o order q PO RD SR|w w' o ns order q PO LN PN PP IN SS SR
      |w w' o q NQ MQ DQ AQ SR|w w' sc PP PO PE RY CP CM CC|w w' by_rows order f0 f s0 N rank PO WR RR].
    - assert (Ho : In o (ranks ls)). { unfold o, ranks. apply in_map. eapply nth_error_In; eauto. }
      assert (CAP : np (cont (w o)) + length acq <= maxp (cont (w o))).
      { destruct (le_lt_dec (np (cont (w o)) + length acq) (maxp (cont (w o)))) as [H|H]; auto.
        rewrite (inject_one_past c true true (Z.of_nat d) acq order (w o) PO H (K o Ho)) in IJ. discriminate. }
      destruct (inject_one_ok c true true (Z.of_nat d) acq order (w o) track_c PO CAP) as (s1 & E1 & A1).
      assert (s1 = s') by congruence. subst s1. clear E1. destruct A1 as (A1 & A2 & A3 & A4 & A5).
      destruct (one_rank w w' o s' (map (ident (cont s')) (seq (np (cont (w o))) (length acq))) [] SR) as [R1 R2]; auto.
      + intros _. rewrite app_nil_r. unfold idl, not_dead. rewrite A1, seq_app, filter_app, map_app. simpl.
        apply Permutation_app.
        * replace (filter (fun p => negb (tg (cont s') p =? 0)%Z) (seq 0 (np (cont (w o)))))
            with (filter (fun p => negb (tg (cont (w o)) p =? 0)%Z) (seq 0 (np (cont (w o))))).
          { erewrite map_ext_in; [reflexivity|]. intros p Hp. apply filter_In in Hp as [Hp _]. apply in_seq in Hp.
            destruct (A5 p) as [_ B]; [lia|]. unfold ident. rewrite !B. auto. }
          apply filter_ext_in'. intros p Hp. apply in_seq in Hp. destruct (A5 p) as [B _]; [lia|]. rewrite B. auto.
        * assert (EF : filter (fun p => negb (tg (cont s') p =? 0)%Z) (seq (np (cont (w o))) (length acq)) = seq (np (cont (w o))) (length acq)).
          { assert (T1 : forall p, In p (seq (np (cont (w o))) (length acq)) -> tg (cont s') p = 1%Z).
            { intros p Hp. apply in_seq in Hp. destruct (nth_error acq (p - np (cont (w o)))) as [x|] eqn:X;
                [|apply nth_error_None in X; lia]. apply A4 in X. destruct X as [X _].
              replace (np (cont (w o)) + (p - np (cont (w o)))) with p in X by lia. auto. }
            revert T1. generalize (seq (np (cont (w o))) (length acq)). induction l as [|p l IH]; simpl; intros T1; auto.
            rewrite (T1 p) by auto. simpl. rewrite IH; auto. }
          rewrite EF. auto.
      + intros _. lia.
      + intros NI. contradiction.
      + split; [exists []; exact R1|exact R2].
    - destruct (in_dec (list_eq_dec Z.eq_dec) o (ranks ls)) as [I|I].
      + assert (T : forall p, p < np (cont (w o)) -> tg (cont (w o)) p = 0%Z \/ tg (cont (w o)) p = 1%Z).
        { intros p Hp. destruct (Z.eq_dec (tg (cont (w o)) p) 0); auto. destruct (Z.eq_dec (tg (cont (w o)) p) 1); auto.
          exfalso. assert (X : remove_dead c order (cont (w o)) = Err).
          { apply remove_dead_error; auto. exists p. auto. } congruence. }
        destruct (remove_dead_ok c order (cont (w o)) PO T (K o I)) as (q' & E & P & NL & M & T1 & _).
        assert (q' = q) by congruence. subst q'.
        destruct (one_rank w w' o {| cont := q; counter := counter (w o) |} [] [] SR) as [R1 R2]; auto.
        * intros _. rewrite !app_nil_r. cbn [cont]. unfold idl. rewrite (not_dead_live (cont (w o))) by auto.
          rewrite (not_dead_live q) by auto. apply (ids_of_views c); auto.
          replace (live q) with (seq 0 (np q)); auto. symmetry. unfold live.
          assert (X : forall l, (forall p, In p l -> p < np q) -> filter (fun p => (tg q p =? 1)%Z) l = l).
          { induction l as [|p l IH]; intros B; simpl; auto. rewrite (T1 p) by (apply B; left; auto). simpl. rewrite IH; auto.
            intros x Hx. apply B. right; auto. }
          apply X. intros p Hp. apply in_seq in Hp. lia.
        * intros _. cbn [cont]. rewrite NL, M. specialize (K o I). unfold live.
          pose proof (filter_len_le (fun p => (tg (cont (w o)) p =? 1)%Z) (seq 0 (np (cont (w o))))) as F.
          rewrite seq_length in F. lia.
        * split; [exists []; auto|auto].
      + destruct (one_rank w w' o {| cont := q; counter := counter (w o) |} [] [] SR) as [R1 R2]; auto; try contradiction.
        split; [exists []; auto|auto].
    - assert (D13 : 1 <= dim c <= 3) by (rewrite DC; exact HD).
      destruct (sort_spatially_ok c ns order (cont (w o)) PO LN D13 PN PP IN) as (q' & E & P & NL & M & _).
      assert (q' = q) by congruence. subst q'.
      destruct (one_rank w w' o {| cont := q; counter := counter (w o) |} [] [] SR) as [R1 R2]; auto.
      + intros _. rewrite !app_nil_r. cbn [cont]. unfold idl, not_dead.
        assert (X : forall s l, map (ident s) (filter (fun p => negb (tg s p =? 0)%Z) l) =
                    map (fun tv => pick_id c (snd tv)) (filter (fun tv => negb (fst tv =? 0)%Z) (map (tagged_view c s) l))).
        { intros s l. induction l as [|p l IH]; simpl; auto. destruct (tg s p =? 0)%Z; simpl; auto. rewrite IH, ident_view; auto. }
        rewrite !X. apply Permutation_map. apply Permutation_filter. exact P.
      + intros I. cbn [cont]. rewrite NL, M. apply K; auto.
      + split; [exists []; auto|auto].
    - assert (X : exists drop, Permutation (idl q ++ drop) (idl (cont (w o)))).
      { unfold idl, not_dead. rewrite NQ.
        assert (Y : forall l, (forall p, In p l -> p < np q) -> exists drop,
          Permutation (map (ident q) (filter (fun p => negb (tg q p =? 0)%Z) l) ++ drop)
                      (map (ident (cont (w o))) (filter (fun p => negb (tg (cont (w o)) p =? 0)%Z) l))).
        { induction l as [|p l IH]; intros B; [exists []; auto|].
          destruct IH as [drop IH]; [intros x Hx; apply B; right; auto|]. specialize (B p (or_introl eq_refl)).
          cbn [filter]. destruct (Z.eq_dec (tg (cont (w o)) p) 1) as [T|T].
          - rewrite T. cbn [Z.eqb negb]. destruct (tg q p =? 0)%Z; cbn [negb map].
            + exists (ident (cont (w o)) p :: drop).
              etransitivity; [apply Permutation_sym; apply Permutation_middle|]. constructor. exact IH.
            + exists drop. rewrite <- app_comm_cons. rewrite (AQ p B T). constructor. exact IH.
          - destruct (DQ p B T) as [E1 E2]. rewrite E1. destruct (tg (cont (w o)) p =? 0)%Z; cbn [negb map].
            + exists drop. exact IH.
            + exists drop. rewrite <- app_comm_cons.
              replace (ident q p) with (ident (cont (w o)) p) by (unfold ident; rewrite !E2; auto). constructor. exact IH. }
        apply Y. intros p Hp. apply in_seq in Hp. lia. }
      destruct X as [drop X]. destruct (in_dec (list_eq_dec Z.eq_dec) o (ranks ls)) as [I|I].
      + destruct (one_rank w w' o {| cont := q; counter := counter (w o) |} [] drop SR) as [R1 R2]; auto.
        * intros _. rewrite app_nil_r. exact X.
        * intros _. cbn [cont]. rewrite NQ, MQ. auto.
        * intros NI. contradiction.
        * split; [exists drop; auto|auto].
      + destruct (one_rank w w' o {| cont := q; counter := counter (w o) |} [] [] SR) as [R1 R2]; auto; try contradiction.
        split; [exists []; auto|auto].
    - destruct (exchange_total ls gbc c sc (conts w) LG PF HD DC PP PO PE RY CP) as (st' & E & P).
      assert (EQ : forall b, In b (ranks ls) -> cont (w' b) = st' b).
      { intros b Hb. apply ranks_in in Hb. specialize (E b Hb). rewrite (CM b Hb) in E. unfold conts in E. congruence. }
      assert (TG : forall b, In b (ranks ls) -> np (st' b) < maxp (st' b) /\
        forall p, p < np (st' b) -> tg (st' b) p = 0%Z \/ tg (st' b) p = 1%Z).
      { intros b Hb. apply ranks_in in Hb.
        destruct (exchange_rank ls gbc c sc (conts w) LG PF HD DC PP PO PE RY b Hb (CP b Hb)) as (s' & E' & _ & Q & T & _).
        rewrite (E b Hb) in E'. injection E' as E'. rewrite E'. auto. }
      split.
      + exists []. rewrite !app_nil_r. apply (Permutation_map (pick_id c)) in P.
        unfold everywhere in P. rewrite !map_flat_map in P. unfold all_idents, ranks.
        assert (FM : forall (g : list Z -> list (Z * Z)) l, flat_map g (map sub_offset_ndomains l) = flat_map (fun d => g (sub_offset_ndomains d)) l).
        { intros g l. induction l as [|d l IH]; simpl; auto. rewrite IH; auto. }
        rewrite !FM.
        assert (EL : forall d, In d (domains ls) ->
          map (pick_id c) (map (grid_view ls c (sub_offset_ncells d) (st' (sub_offset_ndomains d))) (live (st' (sub_offset_ndomains d)))) =
          map (ident (cont (w' (sub_offset_ndomains d)))) (not_dead (cont (w' (sub_offset_ndomains d))))).
        { intros d Hd. assert (I : In (sub_offset_ndomains d) (ranks ls)) by (unfold ranks; apply in_map; auto).
          rewrite (EQ _ I), (not_dead_live _ (proj2 (TG _ I))), map_map. apply map_ext. intros p. apply ident_grid; auto. }
        assert (ER : forall d, In d (domains ls) ->
          map (pick_id c) (map (grid_view ls c (sub_offset_ncells d) (conts w (sub_offset_ndomains d))) (not_dead (conts w (sub_offset_ndomains d)))) =
          map (ident (cont (w (sub_offset_ndomains d)))) (not_dead (cont (w (sub_offset_ndomains d))))).
        { intros d Hd. unfold conts. rewrite map_map. apply map_ext. intros p. apply ident_grid; auto. }
        rewrite (flat_map_ext_in _ _ _ EL) in P. rewrite (flat_map_ext_in _ _ _ ER) in P. exact P.
      + intros b Hb. rewrite (EQ b Hb). specialize (TG b Hb). lia.
    - destruct (species_roundtrip c by_rows N (fun r => w (rank r)) order f0 PO) as (f' & E & RT).
      cbv beta in E, RT. assert (f' = f). { unfold nps in E. congruence. } subst f'.
      assert (SP : forall o, In o (ranks ls) -> same_particles c (cont (w' o)) (cont (w o)) /\ np (cont (w' o)) <= maxp (cont (w' o))).
      { intros o Ho. destruct (In_nth (ranks ls) o [] Ho) as (r & Lr & Er). unfold ranks in Lr. rewrite map_length in Lr.
        destruct (RR r Lr) as (Z0 & CAP & RD). destruct (RT r (s0 r) Lr Z0 CAP) as (s' & RD' & SP & _ & MX).
        assert (s' = w' (rank r)) by congruence. subst s'. unfold rank in SP, MX, CAP. rewrite Er in SP, MX, CAP. split; auto.
        destruct SP as [SP _]. rewrite SP, MX. auto. }
      split.
      + exists []. rewrite !app_nil_r. unfold all_idents. apply flat_map_perm. intros o Ho. destruct (SP o Ho) as [[SN SV] _].
        assert (EQ : not_dead (cont (w' o)) = not_dead (cont (w o))).
        { unfold not_dead. rewrite SN. apply filter_ext_in'. intros p Hp. apply in_seq in Hp.
          assert (X := SV p). rewrite SN in X. specialize (X (proj2 Hp)). unfold tagged_view in X. injection X as X _. rewrite X. auto. }
        rewrite EQ. erewrite map_ext_in; [reflexivity|]. intros p Hp. unfold not_dead in Hp. apply filter_In in Hp as [Hp _].
        apply in_seq in Hp. assert (X := SV p). rewrite SN in X. specialize (X (proj2 Hp)). unfold tagged_view in X.
        apply (f_equal snd) in X. cbn [snd] in X. rewrite <- !(ident_view c) by auto. rewrite X. auto.
      + intros o Ho. apply SP; auto.
  Qed.

  (** ** The counters *)
  Definition of_dom (d : nat) (ids : list (Z * Z)) : list (Z * Z) := filter (fun i => Z.eqb (fst i) (Z.of_nat d)) ids.
  Definition numbered (d : nat) (ids : list (Z * Z)) (w : world) (o : list Z) : Prop :=
    let n := length (of_dom d ids) in
    (Z.of_nat n <= 2 ^ 32)%Z ->
    of_dom d ids = map (fun k => (Z.of_nat d, Z.of_nat k)) (seq 0 n) /\ counter (w o) = (Z.of_nat n mod 2 ^ 32)%Z.
  Definition counted (ids : list (Z * Z)) (w : world) : Prop :=
    (forall d D, nth_error (domains ls) d = Some D -> numbered d ids w (sub_offset_ndomains D)) /\
    (forall i, In i ids -> exists d, fst i = Z.of_nat d /\ d < length (domains ls)).

  Lemma of_dom_app d a b : of_dom d (a ++ b) = of_dom d a ++ of_dom d b.
  Proof. apply filter_app. Qed.
  Lemma of_dom_all d ids : (forall i, In i ids -> fst i = Z.of_nat d) -> of_dom d ids = ids.
  Proof.
    induction ids as [|i ids IH]; simpl; intros H; auto. rewrite (H i) by auto. rewrite Z.eqb_refl, IH; auto.
  Qed.
  Lemma of_dom_none d ids : (forall i, In i ids -> fst i <> Z.of_nat d) -> of_dom d ids = [].
  Proof.
    induction ids as [|i ids IH]; simpl; intros H; auto. destruct (Z.eqb_spec (fst i) (Z.of_nat d)); [exfalso; eapply H; eauto|].
    apply IH. auto.
  Qed.

  Lemma step_counted w ids ids' w' : step ls gbc c w ids' w' -> kept_cap w -> counted ids w -> counted (ids ++ ids') w'.
  Proof.
    intros S K C.
    assert (QUIET : forall v, (forall o, In o (ranks ls) -> counter (v o) = counter (w o)) -> counted (ids ++ []) v).
    { intros v H. rewrite app_nil_r. destruct C as [C1 C2]. split; auto. intros d D ND B. destruct (C1 d D ND B) as [X1 X2].
      split; auto. rewrite H; auto. unfold ranks. apply in_map. eapply nth_error_In; eauto. }
    destruct S as [w w' d D acq order s' ND PO o IJ SR|w w' o order q PO RD SR|w w' o ns order q PO LN PN PP IN SS SR
      |w w' o q NQ MQ DQ AQ SR|w w' sc PP PO PE RY CP CM CC|w w' by_rows order f0 f s0 N rank PO WR RR];
      try (apply QUIET; intros b Hb; destruct SR as [SR1 SR2];
           match type of SR1 with ?v ?o = _ => destruct (list_eq_dec Z.eq_dec b o) as [->|NE]; [rewrite SR1; auto|rewrite SR2; auto] end; fail).
    - assert (Ho : In o (ranks ls)). { unfold o, ranks. apply in_map. eapply nth_error_In; eauto. }
      assert (CAP : np (cont (w o)) + length acq <= maxp (cont (w o))).
      { destruct (le_lt_dec (np (cont (w o)) + length acq) (maxp (cont (w o)))) as [H|H]; auto.
        rewrite (inject_one_past c true true (Z.of_nat d) acq order (w o) PO H (K o Ho)) in IJ. discriminate. }
      destruct (inject_one_ok c true true (Z.of_nat d) acq order (w o) track_c PO CAP) as (s1 & E1 & A1).
      assert (s1 = s') by congruence. subst s1. clear E1. destruct A1 as (A1 & A2 & A3 & A4 & A5).
      set (new := map (ident (cont s')) (seq (np (cont (w o))) (length acq))).
      assert (NEW : new = map (fun j => (Z.of_nat d, ((counter (w o) + Z.of_nat j) mod 2 ^ 32)%Z)) (seq 0 (length acq))).
      { unfold new. replace (seq (np (cont (w o))) (length acq)) with (map (fun j => np (cont (w o)) + j) (seq 0 (length acq))).
        - rewrite map_map. apply map_ext_in. intros j Hj. apply in_seq in Hj.
          destruct (nth_error acq j) as [x|] eqn:X; [|apply nth_error_None in X; lia]. apply A4 in X.
          destruct X as (_ & _ & _ & _ & _ & X1 & X2). unfold ident. rewrite X1, X2; auto.
        - clear. generalize (length acq) at 1 2. intros m. generalize (np (cont (w o))). intros a.
          assert (Y : forall m b, map (fun j => a + j) (seq b m) = seq (a + b) m).
          { induction m0 as [|m0 IH]; intros b; simpl; auto. rewrite IH. f_equal. f_equal. lia. }
          rewrite Y. f_equal. lia. }
      assert (FN : forall i, In i new -> fst i = Z.of_nat d).
      { rewrite NEW. intros i Hi. apply in_map_iff in Hi as (j & <- & _). auto. }
      destruct C as [C1 C2]. destruct SR as [SR1 SR2]. split.
      + intros d' D' ND'. destruct (Nat.eq_dec d' d) as [->|NE].
        * assert (D' = D) by congruence. subst D'. fold o. unfold numbered. rewrite of_dom_app, (of_dom_all d new FN), app_length.
          specialize (C1 d D ND). unfold numbered in C1. fold o in C1.
          assert (LN : length new = length acq) by (unfold new; rewrite map_length, seq_length; auto). rewrite LN.
          set (n := length (of_dom d ids)) in *. intros B. destruct C1 as [X1 X2]; [lia|].
          rewrite SR1, A3, X2. split.
          -- rewrite X1, NEW, seq_app, map_app. f_equal. simpl.
             destruct (Nat.eq_dec (length acq) 0) as [L0|L0]; [rewrite L0; auto|].
             assert (Hn : (Z.of_nat n < 2 ^ 32)%Z) by lia.
             rewrite X2, (Z.mod_small (Z.of_nat n)) by lia.
             clear -B Hn. revert B. generalize (length acq). intros m B.
             assert (Y : forall m b, n + b + m <= n + m + b ->
               (Z.of_nat (n + b + m) <= 2 ^ 32)%Z ->
               map (fun j => (Z.of_nat d, ((Z.of_nat n + Z.of_nat j) mod 2 ^ 32)%Z)) (seq b m) =
               map (fun k => (Z.of_nat d, Z.of_nat k)) (seq (n + b) m)).
             { induction m0 as [|m0 IH]; intros b _ BB; simpl; auto. f_equal.
               - f_equal. rewrite Z.mod_small by lia. lia.
               - rewrite IH by lia. f_equal. f_equal. lia. }
             rewrite Y by lia. f_equal. f_equal. lia.
          -- rewrite Nat2Z.inj_add, Zplus_mod_idemp_l. auto.
        * unfold numbered. rewrite of_dom_app, (of_dom_none d' new).
          2:{ intros i Hi E. apply FN in Hi. lia. }
          rewrite app_nil_r. specialize (C1 d' D' ND'). unfold numbered in C1. intros B. destruct (C1 B) as [X1 X2].
          split; auto. rewrite SR2; auto. intros E. apply NE.
          assert (NoDup (ranks ls)) as NR by apply ranks_nodup.
          unfold ranks in NR. rewrite NoDup_nth_error in NR. apply NR.
          -- rewrite map_length. apply nth_error_Some. congruence.
          -- rewrite !nth_error_map, ND, ND'. simpl. unfold o in E. congruence.
      + intros i Hi. apply in_app_or in Hi as [Hi|Hi]; auto. exists d. split; auto. apply nth_error_Some. congruence.
    - apply QUIET. intros. apply CC.
    - apply QUIET. intros b Hb. destruct (In_nth (ranks ls) b [] Hb) as (r & Lr & Er). unfold ranks in Lr. rewrite map_length in Lr.
      destruct (RR r Lr) as (Z0 & CAP & RD).
      destruct (species_roundtrip c by_rows N (fun r => w (rank r)) order f0 PO) as (f' & E & RT).
      cbv beta in E, RT. assert (f' = f). { unfold nps in E. congruence. } subst f'.
      destruct (RT r (s0 r) Lr Z0 CAP) as (s' & RD' & _ & KC & _).
      assert (s' = w' (rank r)) by congruence. subst s'. unfold rank in KC. rewrite Er in KC. auto.
  Qed.

  Lemma history_inv w0 ids w : history ls gbc c w0 ids w -> empty_world w0 ->
    kept_cap w /\ counted ids w /\ exists rest, Permutation (all_idents ls w ++ rest) ids.
  Proof.
    induction 1 as [w|w ids w' ids' w'' H IH S]; intros E.
    - split; [|split].
      + intros o _. destruct (E o) as [-> _]. lia.
      + split; [|intros ? []]. intros d D ND. unfold numbered. simpl. intros _. split; auto. apply E.
      + exists []. rewrite app_nil_r. unfold all_idents. replace (flat_map _ _) with (@nil (Z * Z)); auto.
        induction (ranks ls) as [|o l IHl]; auto. simpl. unfold not_dead. destruct (E o) as [-> _]. simpl. auto.
    - destruct (IH E) as (K & C & rest & P). split; [|split].
      + apply (step_idents _ _ _ S K).
      + eapply step_counted; eauto.
      + destruct (step_idents _ _ _ S K) as [[drop PD] _]. exists (drop ++ rest).
        rewrite app_assoc, PD, <- app_assoc, (Permutation_app_comm ids'), app_assoc, P. auto.
  Qed.

  Lemma nodup_classes (ids : list (Z * Z)) : (forall d, NoDup (of_dom d ids)) ->
    (forall i, In i ids -> exists d, fst i = Z.of_nat d) -> NoDup ids.
  Proof.
    induction ids as [|i ids IH]; intros H F; constructor.
    - intros Hi. destruct (F i (or_introl eq_refl)) as [d E]. specialize (H d). unfold of_dom in H. cbn [filter] in H.
      rewrite E, Z.eqb_refl in H. apply NoDup_cons_iff in H as [H _]. apply H. apply filter_In. split; auto. rewrite E, Z.eqb_refl. auto.
    - apply IH; [|intros; apply F; right; auto]. intros d. specialize (H d). unfold of_dom in *. cbn [filter] in H.
      destruct (Z.eqb _ _); auto. apply NoDup_cons_iff in H. apply H.
  Qed.

  Theorem idents_unique w0 ids w : history ls gbc c w0 ids w -> empty_world w0 ->
    (forall d, (Z.of_nat (length (filter (fun i => Z.eqb (fst i) d) ids)) <= 2 ^ 32)%Z) ->
    NoDup ids /\ NoDup (all_idents ls w) /\ incl (all_idents ls w) ids.
  Proof.
    intros H E B. destruct (history_inv w0 ids w H E) as (K & [C1 C2] & rest & P).
    assert (N : NoDup ids).
    { apply nodup_classes.
      - intros d. destruct (nth_error (domains ls) d) as [D|] eqn:ND.
        + destruct (C1 d D ND) as [X _]; [apply B|]. rewrite X.
          apply FinFun.Injective_map_NoDup; [|apply seq_NoDup]. intros x y XY. injection XY. lia.
        + rewrite (of_dom_none d); [constructor|]. intros i Hi E'. destruct (C2 i Hi) as (d' & E1 & L).
          apply nth_error_None in ND. lia.
      - intros i Hi. destruct (C2 i Hi) as (d & E1 & _). eauto. }
    split; [exact N|]. apply Permutation_sym in P. pose proof (Permutation_NoDup P N) as N2. split.
    - clear -N2. induction (all_idents ls w) as [|x l IH]; [constructor|]. simpl in N2. apply NoDup_cons_iff in N2 as [A B].
      constructor; auto. intros X. apply A. apply in_or_app. auto.
    - intros i Hi. apply (Permutation_in _ (Permutation_sym P)). apply in_or_app. auto.
  Qed.
End Top.
