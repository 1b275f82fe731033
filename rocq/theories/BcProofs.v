(** Proofs about boundary conditions from the input file. *)
From Coq Require Import ZArith List Bool String Ascii Reals Lia.
From Verif Require Import Base ListLemmas TopoModel TopoSpec BcModel BcSpec.
Import ListNotations.
Open Scope string_scope.

Lemma rbind_ok {A B} (r : res A) (f : A -> res B) b : rbind r f = Ok b <-> exists a, r = Ok a /\ f a = Ok b.
Proof. destruct r; cbn; split; try discriminate; try (intros [a [H _]]; discriminate H); [intros H; eauto|]. intros [x [H1 H2]]. injection H1 as ->. auto. Qed.

Lemma ok_inj {A} (a b : A) : Ok a = Ok b -> a = b.
Proof. congruence. Qed.
Lemma f2_impl {A B} (P Q : A -> B -> Prop) : (forall a b, P a b -> Q a b) -> forall l r, Forall2 P l r -> Forall2 Q l r.
Proof. intros H l r F. induction F; constructor; auto. Qed.
Lemma rmap_ok {A B} (f : A -> res B) l : forall r, rmap f l = Ok r <-> Forall2 (fun a b => f a = Ok b) l r.
Proof.
  induction l as [|a l IH]; intros r; cbn [rmap].
  - split; [intros H; injection H as <-; auto|intros H; inversion H; auto].
  - rewrite rbind_ok. split.
    + intros [b [H1 H2]]. apply rbind_ok in H2 as [r' [H2 H3]]. injection H3 as <-. constructor; auto. apply IH; auto.
    + intros H. inversion H as [|? b ? r' H1 H2]; subst. exists b. split; auto. apply rbind_ok. exists r'. split; auto. apply IH; auto.
Qed.

Lemma pick_flds s b : pick flds_table (to_lower s) = Ok b <-> says flds_word F_INVALID s b.
Proof.
  unfold says. generalize (to_lower s). clear s. intros s. unfold flds_table. cbn [pick].
  repeat match goal with |- context [String.eqb ?n s] => destruct (String.eqb_spec n s) as [<-|?] end;
    try (split; [intros H; injection H as <-; split; [discriminate|reflexivity]|intros [H1 H2]; destruct b; cbn in H2; try discriminate H2; auto; congruence]).
  split; [discriminate|]. intros [H1 H2]. destruct b; cbn in H2; congruence.
Qed.
Lemma pick_prtl s b : pick prtl_table (to_lower s) = Ok b <-> says prtl_word P_INVALID s b.
Proof.
  unfold says. generalize (to_lower s). clear s. intros s. unfold prtl_table. cbn [pick].
  repeat match goal with |- context [String.eqb ?n s] => destruct (String.eqb_spec n s) as [<-|?] end;
    try (split; [intros H; injection H as <-; split; [discriminate|reflexivity]|intros [H1 H2]; destruct b; cbn in H2; try discriminate H2; auto; congruence]).
  split; [discriminate|]. intros [H1 H2]. destruct b; cbn in H2; congruence.
Qed.

Section Kind.
  Context {B : Type} (eq : forall a b : B, {a = b} + {a <> b}) (table : list (string * B)) (word : B -> string) (INVALID PERIODIC AXIS HORIZON : B).
  Hypothesis PK : forall s b, pick table (to_lower s) = Ok b <-> says word INVALID s b.

  Lemma cart_dim_ok l p : cart_dim eq table PERIODIC l = Ok p <-> reads word INVALID PERIODIC l p.
  Proof.
    unfold cart_dim, reads. destruct l as [|s [|s' [|? ?]]].
    - split; [discriminate|]. intros [[x [H _]]|[x [y [H _]]]]; discriminate H.
    - rewrite rbind_ok. split.
      + intros [b [H1 H2]]. apply PK in H1. destruct (eq b PERIODIC) as [->|]; [|discriminate]. injection H2 as <-. left. eauto.
      + intros [[x [H1 [H2 ->]]]|[x [y [H _]]]]; [|discriminate H]. injection H1 as ->. exists PERIODIC. split; [apply PK; auto|].
        destruct (eq PERIODIC PERIODIC); congruence.
    - rewrite rbind_ok. split.
      + intros [b [H1 H2]]. apply PK in H1. destruct (eq b PERIODIC); [discriminate|]. apply rbind_ok in H2 as [b' [H2 H3]]. apply PK in H2.
        destruct (eq b' PERIODIC); [discriminate|]. injection H3 as <-. right. exists s, s'. cbn. auto.
      + intros [[x [H _]]|[x [y [H [H1 [H2 [H3 H4]]]]]]]; [discriminate H|]. injection H as -> ->. exists (fst p). split; [apply PK; auto|].
        destruct (eq (fst p) PERIODIC); [congruence|]. apply rbind_ok. exists (snd p). split; [apply PK; auto|].
        destruct (eq (snd p) PERIODIC); [congruence|]. destruct p; auto.
    - split; [discriminate|]. intros [[x [H _]]|[x [y [H _]]]]; discriminate H.
  Qed.

  Lemma kind_cart eng dim spec r : kind_bcs eq table PERIODIC AXIS HORIZON eng true dim spec = Ok r <->
    List.length spec = dim /\ Forall2 (reads word INVALID PERIODIC) spec r.
  Proof.
    unfold kind_bcs. rewrite rbind_ok. split.
    - intros [l [H1 H2]]. destruct (Nat.eqb_spec (List.length spec) dim); [|discriminate]. destruct (Nat.eqb (List.length l) dim); [|discriminate].
      injection H2 as ->. split; auto. apply rmap_ok in H1. eapply f2_impl; [|exact H1]. intros a b. apply cart_dim_ok.
    - intros [H1 H2]. exists r. rewrite (proj2 (Nat.eqb_eq _ _) H1). split.
      + apply rmap_ok. eapply f2_impl; [|exact H2]. intros a b. apply cart_dim_ok.
      + apply Forall2_length in H2. rewrite <- H2, (proj2 (Nat.eqb_eq _ _) H1). auto.
  Qed.
  Lemma reads_paired spec r : Forall2 (reads word INVALID PERIODIC) spec r ->
    Forall (fun p => fst p = PERIODIC <-> snd p = PERIODIC) r.
  Proof.
    induction 1 as [|l p spec r H _ IH]; constructor; auto. destruct H as [[s [_ [_ ->]]]|[s [s' [_ [_ [_ [H1 H2]]]]]]]; [cbn; tauto|tauto].
  Qed.
  Lemma reads_said spec r : Forall2 (reads word INVALID PERIODIC) spec r ->
    Forall (fun p => (exists s, In s (List.concat spec) /\ says word INVALID s (fst p)) /\ (exists s, In s (List.concat spec) /\ says word INVALID s (snd p))) r.
  Proof.
    induction 1 as [|l p spec r H _ IH]; constructor.
    - destruct H as [[s [-> [H ->]]]|[s [s' [-> [H1 [H2 _]]]]]]; cbn [List.concat app fst snd].
      + split; exists s; split; auto; left; auto.
      + split; [exists s|exists s']; split; auto; [left|right; left]; auto.
    - eapply Forall_impl; [|exact IH]. intros q [[s [A1 A2]] [s' [B1 B2]]]. cbn [List.concat].
      split; [exists s|exists s']; split; auto; apply in_app_iff; auto.
  Qed.
End Kind.

Lemma scan_ok layer key l : forall atm, (exists r, scan layer key atm l = Ok r) <->
  (List.length (filter (is_word "atmosphere") l) + (if atm then 1 else 0) <= 1)%nat \/ (filter (is_word "atmosphere") l = [] ).
Proof.
  induction l as [|s l IH]; intros atm; cbn [scan filter].
  - split; eauto. 
  - fold (is_word "atmosphere" s). destruct (is_word "atmosphere" s) eqn:A.
    + cbn [List.length]. destruct atm.
      * split; [intros [r H]; discriminate H|]. intros [H|H]; [lia|discriminate H].
      * split.
        -- intros [r H]. apply rbind_ok in H as [r' [H _]]. assert (X : exists r, scan layer key true l = Ok r) by eauto. apply IH in X. left. destruct X as [X|X]; [lia|rewrite X; cbn; lia].
        -- intros [H|H]; [|discriminate H]. assert (X : exists r, scan layer key true l = Ok r). { apply IH. right. destruct (filter _ l); auto. cbn in H. lia. }
           destruct X as [r ->]. eexists. reflexivity.
    + rewrite <- (IH atm). split; intros [r H].
      * apply rbind_ok in H as [r' [H _]]. eauto.
      * rewrite H. eexists. reflexivity.
Qed.

Lemma scan_keys layer key l : forall atm r, layer <> "atmosphere" -> ~ In key atmosphere_keys -> scan layer key atm l = Ok r ->
  (In key r <-> exists s, In s l /\ to_lower s = layer) /\
  (forall k, In k atmosphere_keys -> (In k r <-> exists s, In s l /\ to_lower s = "atmosphere")).
Proof.
  induction l as [|s l IH]; intros atm r NL NK H; cbn [scan] in H.
  - injection H as <-. split; [|intros k _]; (split; [intros []|intros [s [[] _]]]).
  - destruct (String.eqb_spec (to_lower s) "atmosphere") as [E|E].
    + destruct atm; [discriminate|]. apply rbind_ok in H as [r' [H1 H2]]. apply ok_inj in H2. subst r.
      destruct (IH _ _ NL NK H1) as [I1 I2]. destruct (String.eqb_spec (to_lower s) layer) as [E'|E']; [congruence|]. cbn [app]. split.
      * rewrite in_app_iff. split.
        -- intros [K|K]; [contradiction|]. apply I1 in K as [x [K1 K2]]. exists x. split; auto. right. auto.
        -- intros [x [[->|K1] K2]]; [congruence|]. right. apply I1. eauto.
      * intros k K. split; [|intros _; apply in_app_iff; auto]. intros _. exists s. split; auto. left. auto.
    + apply rbind_ok in H as [r' [H1 H2]]. apply ok_inj in H2. subst r. destruct (IH _ _ NL NK H1) as [I1 I2]. split.
      * rewrite in_app_iff. split.
        -- intros [K|K].
           ++ destruct (String.eqb_spec (to_lower s) layer) as [E'|E']; [|destruct K]. exists s. split; auto. left. auto.
           ++ apply I1 in K as [x [K1 K2]]. exists x. split; auto. right. auto.
        -- intros [x [[->|K1] K2]]; [left; rewrite K2, String.eqb_refl; left; auto|]. right. apply I1. eauto.
      * intros k K. rewrite in_app_iff. split.
        -- intros [K'|K'].
           ++ destruct (String.eqb (to_lower s) layer); [|destruct K']. destruct K' as [->|[]]. contradiction.
           ++ apply I2 in K' as [x [K1 K2]]; auto. exists x. split; auto. right. auto.
        -- intros [x [[->|K1] K2]]; [congruence|]. right. apply I2; eauto.
Qed.

Lemma scan_all_ok own layer key spec : (exists r, scan_all own layer key spec = Ok r) <->
  (1 <= List.length spec <= 3)%nat /\ one_atmosphere spec.
Proof.
  unfold scan_all, one_atmosphere. destruct (Nat.eqb_spec (List.length spec) 0) as [E|E]; cbn [orb].
  - split; [intros [r H]; discriminate H|lia].
  - destruct (Nat.ltb_spec 3 (List.length spec)).
    + split; [intros [r X]; discriminate X|lia].
    + pose proof (scan_ok layer key (List.concat spec) false) as S. split.
      * intros [r X]. apply rbind_ok in X as [r' [X _]]. split; [lia|]. destruct (proj1 S) as [Y|Y]; eauto; [lia|]. rewrite Y. cbn. lia.
      * intros [_ X]. destruct (proj2 S) as [r Y]; [left; lia|]. rewrite Y. eexists. reflexivity.
Qed.

(** ** Cartesian grids *)
Theorem cartesian_accepted eng dim flds prtl :
  (exists p f q, get_bcs eng true dim flds prtl = Ok (p, f, q)) <->
  (1 <= dim <= 3)%nat /\ List.length flds = dim /\ List.length prtl = dim /\ one_atmosphere flds /\ one_atmosphere prtl /\
  (exists f, Forall2 flds_reads flds f) /\ (exists q, Forall2 prtl_reads prtl q).
Proof.
  unfold get_bcs. split.
  - intros [p [f [q H]]]. apply rbind_ok in H as [p1 [H1 H]]. apply rbind_ok in H as [p2 [H2 H]].
    apply rbind_ok in H as [f' [H3 H]]. apply rbind_ok in H as [q' [H4 H]].
    apply (kind_cart _ _ flds_word F_INVALID _ _ _ pick_flds) in H3 as [L1 F]. apply (kind_cart _ _ prtl_word P_INVALID _ _ _ pick_prtl) in H4 as [L2 Q].
    destruct (proj1 (scan_all_ok _ _ _ flds) (ex_intro _ _ H1)). destruct (proj1 (scan_all_ok _ _ _ prtl) (ex_intro _ _ H2)).
    repeat split; auto; try lia; eauto.
  - intros [D [L1 [L2 [A1 [A2 [[f F] [q Q]]]]]]].
    destruct (proj2 (scan_all_ok "grid.boundaries.fields" "match" "grid.boundaries.match.ds" flds)) as [p1 E1]; [split; auto; lia|].
    destruct (proj2 (scan_all_ok "grid.boundaries.particles" "absorb" "grid.boundaries.absorb.ds" prtl)) as [p2 E2]; [split; auto; lia|].
    rewrite E1, E2. cbn [rbind].
    rewrite (proj2 (kind_cart flds_bc_eq_dec flds_table flds_word F_INVALID F_PERIODIC F_AXIS F_HORIZON pick_flds eng dim flds f) (conj L1 F)).
    rewrite (proj2 (kind_cart prtl_bc_eq_dec prtl_table prtl_word P_INVALID P_PERIODIC P_AXIS P_HORIZON pick_prtl eng dim prtl q) (conj L2 Q)).
    cbn [rbind]. eauto.
Qed.

Theorem cartesian_result eng dim flds prtl p f q : get_bcs eng true dim flds prtl = Ok (p, f, q) ->
  List.length f = dim /\ List.length q = dim /\ Forall2 flds_reads flds f /\ Forall2 prtl_reads prtl q /\
  Forall (fun b => fst b = F_PERIODIC <-> snd b = F_PERIODIC) f /\ Forall (fun b => fst b = P_PERIODIC <-> snd b = P_PERIODIC) q.
Proof.
  unfold get_bcs. intros H. apply rbind_ok in H as [p1 [H1 H]]. apply rbind_ok in H as [p2 [H2 H]].
  apply rbind_ok in H as [f' [H3 H]]. apply rbind_ok in H as [q' [H4 H]]. injection H as <- <- <-.
  apply (kind_cart _ _ flds_word F_INVALID _ _ _ pick_flds) in H3 as [L1 F]. apply (kind_cart _ _ prtl_word P_INVALID _ _ _ pick_prtl) in H4 as [L2 Q].
  pose proof (reads_paired _ _ _ _ _ F). pose proof (reads_paired _ _ _ _ _ Q).
  pose proof (Forall2_length _ _ _ F). pose proof (Forall2_length _ _ _ Q). repeat split; auto; lia.
Qed.

Theorem cartesian_paired eng dim flds prtl p f q : get_bcs eng true dim flds prtl = Ok (p, f, q) ->
  (~ mentions "sync" flds -> paired_flds f) /\ (~ mentions "sync" prtl -> paired_prtl q).
Proof.
  intros H. destruct (cartesian_result _ _ _ _ _ _ _ H) as [_ [_ [F [Q [PF PQ]]]]].
  pose proof (reads_said _ _ _ _ _ F) as SF. pose proof (reads_said _ _ _ _ _ Q) as SQ. split; intros N.
  - unfold paired_flds, paired. apply Forall_forall. intros b I. rewrite Forall_forall in PF, SF. destruct (SF b I) as [[s [I1 [V1 W1]]] [s' [I2 [V2 W2]]]].
    split; [apply PF; auto|]. split; [|split; [|split]]; auto; intros E; apply N; [exists s|exists s']; split; auto; rewrite ?W1, ?W2, E; reflexivity.
  - unfold paired_prtl, paired. apply Forall_forall. intros b I. rewrite Forall_forall in PQ, SQ. destruct (SQ b I) as [[s [I1 [V1 W1]]] [s' [I2 [V2 W2]]]].
    split; [apply PQ; auto|]. split; [|split; [|split]]; auto; intros E; apply N; [exists s|exists s']; split; auto; rewrite ?W1, ?W2, E; reflexivity.
Qed.

Theorem promised_layers eng cart dim flds prtl p f q : get_bcs eng cart dim flds prtl = Ok (p, f, q) ->
  (In "grid.boundaries.match.ds" p <-> mentions "match" flds) /\
  (In "grid.boundaries.absorb.ds" p <-> mentions "absorb" prtl) /\
  (forall k, In k atmosphere_keys -> (In k p <-> mentions "atmosphere" flds \/ mentions "atmosphere" prtl)).
Proof.
  unfold get_bcs. intros H. apply rbind_ok in H as [p1 [H1 H]]. apply rbind_ok in H as [p2 [H2 H]].
  apply rbind_ok in H as [f' [H3 H]]. apply rbind_ok in H as [q' [H4 H]]. injection H as <- <- <-.
  assert (X : forall own layer key spec r, scan_all own layer key spec = Ok r -> exists r', r = own :: r' /\ scan layer key false (List.concat spec) = Ok r').
  { intros own layer key spec r E. unfold scan_all in E. destruct (_ || _); [discriminate|]. apply rbind_ok in E as [r' [E1 E2]]. injection E2 as <-. eauto. }
  assert (Y : forall own layer key spec r k, scan_all own layer key spec = Ok r -> In k r -> k = own \/ k = key \/ In k atmosphere_keys).
  { intros own layer key spec r k E I. apply X in E as [r' [-> E]]. destruct I as [I|I]; auto. right. clear -E I.
    revert r' E I. generalize false. induction (List.concat spec) as [|s l IH]; intros atm r' E I; cbn [scan] in E.
    - injection E as <-. destruct I.
    - destruct (String.eqb (to_lower s) "atmosphere").
      + destruct atm; [discriminate|]. apply rbind_ok in E as [r2 [E1 E2]]. apply ok_inj in E2. subst r'. apply in_app_iff in I as [I|I].
        * destruct (String.eqb (to_lower s) layer); [|destruct I]. destruct I as [<-|[]]. auto.
        * apply in_app_iff in I as [I|I]; eauto.
      + apply rbind_ok in E as [r2 [E1 E2]]. apply ok_inj in E2. subst r'. apply in_app_iff in I as [I|I]; eauto.
        destruct (String.eqb (to_lower s) layer); [|destruct I]. destruct I as [<-|[]]. auto. }
  assert (NA : forall k, In k atmosphere_keys -> k <> "grid.boundaries.fields" /\ k <> "grid.boundaries.particles" /\ k <> "grid.boundaries.match.ds" /\ k <> "grid.boundaries.absorb.ds").
  { intros k I. cbn in I. repeat split; intros ->; intuition discriminate. }
  pose proof (fun k => Y _ _ _ _ _ k H1) as Y1. pose proof (fun k => Y _ _ _ _ _ k H2) as Y2.
  apply X in H1 as [r1 [-> S1]]. apply X in H2 as [r2 [-> S2]].
  assert (NM : ~ In "grid.boundaries.match.ds" atmosphere_keys) by (intros I; apply NA in I; tauto).
  assert (NB : ~ In "grid.boundaries.absorb.ds" atmosphere_keys) by (intros I; apply NA in I; tauto).
  assert (N3 : "match" <> "atmosphere") by discriminate. assert (N4 : "absorb" <> "atmosphere") by discriminate.
  destruct (scan_keys _ _ _ _ _ N3 NM S1) as [K1 K2].
  destruct (scan_keys _ _ _ _ _ N4 NB S2) as [K3 K4].
  unfold mentions. split; [|split].
  - rewrite <- K1, in_app_iff. split; [|intros I; left; right; auto]. intros [[I|I]|I]; [discriminate I|auto|].
    exfalso. destruct (Y2 _ I) as [E|[E|E]]; [discriminate E|discriminate E|]. apply NA in E. tauto.
  - rewrite <- K3, in_app_iff. split; [|intros I; right; right; auto]. intros [I|[I|I]]; [|discriminate I|auto].
    exfalso. destruct (Y1 _ I) as [E|[E|E]]; [discriminate E|discriminate E|]. apply NA in E. tauto.
  - intros k I. rewrite <- (K2 k I), <- (K4 k I), in_app_iff. cbn [In]. destruct (NA k I) as [N1 [N2 _]]. intuition congruence.
Qed.

(** ** Thickness *)
Lemma read_lists_ok l : forall r, read_lists l = (r, true) <-> Forall2 thickness l r.
Proof.
  induction l as [|ds l IH]; intros r; cbn [read_lists].
  - split; [intros H; injection H as <-; auto|intros H; inversion H; auto].
  - destruct (read_lists l) as [r' ok] eqn:E. unfold thickness. destruct ds as [|a [|b [|c ds]]].
    + split.
      * intros H. injection H as <- ->. constructor; [right; right; auto|apply IH; auto].
      * intros H. inversion H as [|? p ? r2 H1 H2]; subst. apply IH in H2. injection H2 as -> ->.
        destruct H1 as [H1|[[H1 _]|[_ ->]]]; try discriminate H1. auto.
    + split.
      * intros H. injection H as <- ->. constructor; [right; left; auto|apply IH; auto].
      * intros H. inversion H as [|? p ? r2 H1 H2]; subst. apply IH in H2. injection H2 as -> ->.
        destruct H1 as [H1|[[H1 H3]|[H1 _]]]; try discriminate H1. injection H1 as ->. destruct p. cbn in *. subst. auto.
    + split.
      * intros H. injection H as <- ->. constructor; [left; auto|apply IH; auto].
      * intros H. inversion H as [|? p ? r2 H1 H2]; subst. apply IH in H2. injection H2 as -> ->.
        destruct H1 as [H1|[[H1 H3]|[H1 _]]]; try discriminate H1. injection H1 as -> ->. destruct p. auto.
    + split; [discriminate|]. intros H. inversion H as [|? p ? r2 H1 H2]; subst. destruct H1 as [H1|[[H1 _]|[H1 _]]]; discriminate H1.
Qed.

Theorem match_ds_ok dim default : 
  (forall ds, match_ds dim default (Number ds) = repeat (ds, ds) dim) /\
  (forall l r, List.length l = dim -> Forall2 thickness l r -> match_ds dim default (Lists l) = r) /\
  (forall l, (List.length l <> dim \/ ~ exists r, Forall2 thickness l r) -> match_ds_mpi dim default (Lists l) = Err).
Proof.
  split; [auto|]. split.
  - intros l r L F. cbn. rewrite (proj2 (Nat.eqb_eq _ _) L). apply read_lists_ok in F. rewrite F. auto.
  - intros l H. cbn. destruct (Nat.eqb_spec (List.length l) dim) as [L|L]; auto. destruct H as [H|H]; [congruence|].
    destruct (read_lists l) as [r [|]] eqn:E; auto. exfalso. apply H. exists r. apply read_lists_ok. auto.
Qed.
