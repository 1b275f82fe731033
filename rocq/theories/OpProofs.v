(** Proofs for the output section. *)
From Coq Require Import ZArith List Bool String Reals Lra Lia.
From Verif Require Import Base RunModel RunSpec RunProps OpModel OpSpec.
Import ListNotations.
Open Scope Z_scope.

Lemma u32_fits n : 0 <= n < 2 ^ 32 -> u32 n = n.
Proof. apply Z.mod_small. Qed.
Lemma minus_one t : is_minus_one t = true <-> t = (-1)%R.
Proof. unfold is_minus_one. destruct (Req_EM_T t (-1)); split; congruence. Qed.

(** The stored pair as a schedule. *)
Definition as_schedule (k : category) : schedule :=
  if enabled k then if Rlt_dec 0 (time_of k) then Each (time_of k) else Every (interval_of k) else Off.
Lemma stored g c : sound_global g -> sound_category c -> as_schedule (read_category g c) = asked g c /\ (enabled (read_category g c) = true -> (0 < interval_of (read_category g c))%Z \/ (0 < time_of (read_category g c))%R).
Proof.
  intros [Gf G0] [Cf Ct]. destruct g as [gi gt], c as [ci ct en]. cbn [g_interval g_time c_interval c_time c_enable] in *.
  unfold read_category, asked. cbn [g_interval g_time c_interval c_time c_enable].
  assert (A : forall o, fits o -> option_map u32 o = o). { intros [n|] F; [cbn; now rewrite (u32_fits n F)|reflexivity]. }
  rewrite (A gi Gf), (A ci Cf). clear A.
  assert (GP : 0 < or_else gi 100). { destruct gi as [n|]; cbn in *; [|lia]. assert (n <> 0) by congruence. lia. }
  assert (PG : positive_steps gi = match gi with Some n => Some n | None => None end).
  { destruct gi as [n|]; [|reflexivity]. cbn in *. destruct (Z.ltb_spec 0 n); [reflexivity|lia]. }
  assert (M1 : is_minus_one (-1)%R = true) by now apply minus_one.
  assert (L1 : (~ 0 < -1)%R) by lra.
  set (e := or_else en true).
  assert (O : forall s : schedule, match en with Some false => Off | _ => s end = if e then s else Off) by (intros s; unfold e; destruct en as [[|]|]; reflexivity).
  rewrite O. clear O. clearbody e.
  assert (INH : as_schedule (Category (or_else gi 100) (or_else gt (-1)%R) e)
    = (if e then match positive_time gt, positive_steps gi with Some t, _ => Each t | None, Some n => Every n | None, None => Every 100 end else Off)).
  { unfold as_schedule. cbn [enabled time_of interval_of]. destruct e; [|reflexivity]. rewrite PG. destruct gt as [t|]; cbn [or_else positive_time].
    - destruct (Rlt_dec 0 t); [reflexivity|]. destruct gi; reflexivity.
    - destruct (Rlt_dec 0 (-1)); [contradiction|]. destruct gi; reflexivity. }
  assert (TAIL : forall (q : option Z), fits q ->
     let k := if ((or_else q 0 =? 0) && true)%bool then Category (or_else gi 100) (or_else gt (-1)%R) e else Category (or_else q 0) (-1)%R e in
     as_schedule k = (if e then match positive_steps q, positive_time gt, positive_steps gi with Some n, _, _ => Every n | None, Some t, _ => Each t | None, None, Some n => Every n | None, None, None => Every 100 end else Off)
     /\ (enabled k = true -> 0 < interval_of k \/ (0 < time_of k)%R)).
  { intros q F. cbv zeta. rewrite andb_true_r. destruct (Z.eqb_spec (or_else q 0) 0) as [E|E].
    - assert (PQ : positive_steps q = None) by (destruct q as [n|]; [cbn in E |- *; now rewrite E|reflexivity]).
      rewrite PQ, INH. split; [reflexivity|]. intros _. left. exact GP.
    - destruct q as [n|]; cbn [or_else] in *; [|contradiction]. cbn in F. unfold as_schedule. cbn [enabled time_of interval_of positive_steps].
      destruct (Z.ltb_spec 0 n); [|lia]. destruct (Rlt_dec 0 (-1)); [contradiction|]. destruct e; auto. }
  destruct ct as [t|]; cbn [or_else positive_time] in *.
  - destruct (Rlt_dec 0 t) as [P|P].
    + assert (M : is_minus_one t = false) by (destruct (is_minus_one t) eqn:E; [apply minus_one in E; lra|reflexivity]).
      rewrite M, andb_false_r. unfold as_schedule. cbn [enabled time_of interval_of]. destruct (Rlt_dec 0 t); [|contradiction]. destruct e; auto.
    + destruct Ct as [Ct|Ct]; [contradiction|]. subst t. rewrite M1. exact (TAIL ci Cf).
  - rewrite M1. exact (TAIL ci Cf).
Qed.

Theorem every g c n qs : sound_global g -> sound_category c -> asked g c = Every n ->
  written g c qs = Ok (map (fun q => fst (fst q) mod n =? 0) qs).
Proof.
  intros G C A. destruct (stored g c G C) as [S P]. rewrite A in S. unfold as_schedule in S. unfold written. cbv zeta.
  destruct (enabled (read_category g c)); [|discriminate]. destruct (Rlt_dec 0 (time_of _)) as [T|T]; [discriminate|]. injection S as S.
  destruct (P eq_refl) as [I|I]; [|contradiction]. rewrite C36_step_interval by (auto; lra). cbn [rbind fst]. now rewrite S.
Qed.
Theorem each g c t dt s0 x0 n0 qs : sound_global g -> sound_category c -> asked g c = Each t -> (0 <= x0)%R -> spaced dt x0 qs ->
  exists bs, written g c ((s0, x0, n0) :: qs) = Ok (true :: bs) /\ List.length bs = List.length qs /\ gaps t (t + dt) (x0 :: answers qs bs)
    /\ (last (map (fun q => snd (fst q)) qs) x0 - last (answers qs bs) x0 < t)%R.
Proof.
  intros G C A X Sp. destruct (stored g c G C) as [S P]. rewrite A in S. unfold as_schedule in S. unfold written. cbv zeta.
  destruct (enabled (read_category g c)); [|discriminate]. destruct (Rlt_dec 0 (time_of _)) as [T|T]; [|discriminate]. injection S as S.
  destruct (C36_time_interval (interval_of (read_category g c)) (time_of (read_category g c)) dt s0 x0 n0 qs T X Sp) as (bs & t' & Q & L & Ga & La).
  exists bs. rewrite Q. cbn [rbind fst]. rewrite S in Ga, La. auto.
Qed.
Theorem off g c qs : asked g c = Off -> written g c qs = Ok (map (fun _ => false) qs).
Proof.
  unfold asked, written, read_category. destruct (c_enable c) as [[|]|] eqn:E; cbn [or_else].
  - destruct (positive_time (c_time c)), (positive_steps (c_interval c)), (positive_time (g_time g)), (positive_steps (g_interval g)); discriminate.
  - intros _. destruct (_ && _)%bool; reflexivity.
  - destruct (positive_time (c_time c)), (positive_steps (c_interval c)), (positive_time (g_time g)), (positive_steps (g_interval g)); discriminate.
Qed.

(** Undefined exactly when the pair that is stored is of no use. *)
Theorem undefined g c q qs : written g c (q :: qs) = UB <->
  enabled (read_category g c) = true /\ interval_of (read_category g c) = 0 /\ (time_of (read_category g c) <= 0)%R.
Proof.
  unfold written. cbv zeta. set (k := read_category g c). destruct (enabled k); [|split; [discriminate|intros [E _]; discriminate]].
  destruct q as [[s x] n]. destruct (Rlt_dec 0 (time_of k)) as [T|T].
  - split; [|intros (_ & _ & H); lra]. intros H. exfalso. revert H.
    assert (Q : forall qs tr, use_time tr = true -> pending tr = false -> exists r, queries tr qs = Ok r).
    { clear. induction qs as [|[[s x] n] qs IH]; intros tr U P; [eexists; reflexivity|]. cbn [queries]. unfold should_write. rewrite P, U. cbn [andb].
      destruct (Rlt_dec (last_output tr) 0); [|destruct (Rle_dec _ _)]; cbn [rbind snd fst];
        [destruct (IH (with_last tr x) U P) as [rr RR]|destruct (IH (with_last tr x) U P) as [rr RR]|destruct (IH tr U P) as [rr RR]];
        rewrite RR; eexists; reflexivity. }
    destruct (Q ((s, x, n) :: qs) (new_tracker (interval_of k) (time_of k) None)) as [rr RR];
      [cbn; destruct (Rlt_dec 0 (time_of k)); [reflexivity|contradiction]|reflexivity|]. rewrite RR. discriminate.
  - destruct (Z.eq_dec (interval_of k) 0) as [I|I].
    + split; [intros _; repeat split; auto; lra|]. intros _. cbn [queries]. rewrite I, C36_zero_interval_refuted by lra. reflexivity.
    + split; [|tauto]. intros H. exfalso. revert H.
      assert (Q : forall qs tr, use_time tr = false -> pending tr = false -> interval tr <> 0 -> exists r, queries tr qs = Ok r).
      { clear. induction qs as [|[[s x] n] qs IH]; intros tr U P N; [eexists; reflexivity|]. cbn [queries]. unfold should_write. rewrite P, U. cbn [andb].
        destruct (Z.eqb_spec (interval tr) 0); [contradiction|]. cbn [rbind snd fst]. destruct (IH tr U P N) as [rr RR]. rewrite RR. eexists; reflexivity. }
      destruct (Q ((s, x, n) :: qs) (new_tracker (interval_of k) (time_of k) None)) as [rr RR];
        [cbn; destruct (Rlt_dec 0 (time_of k)); [contradiction|reflexivity]|reflexivity|exact I|]. rewrite RR. discriminate.
Qed.
Theorem zero_time g n : written g (CategoryIn None (Some 0%R) n) [(1, 0%R, 0%R)] = UB \/ n = Some false.
Proof.
  destruct n as [[|]|]; [left| right; reflexivity|left]; apply undefined; unfold read_category; cbn;
    (replace (is_minus_one 0) with false by (symmetry; destruct (is_minus_one 0) eqn:E; [apply minus_one in E; lra|reflexivity]));
    cbn; repeat split; lra.
Qed.

(** Downsampling. *)
Lemma layout_ok ghosts : forall dim l, (dim <= List.length l)%nat -> (ghosts = true -> forall z, In z l -> z = 1) -> layout dim ghosts l = Ok (firstn dim l).
Proof.
  induction dim as [|n IH]; intros l L H; [reflexivity|]. destruct l as [|d r]; [cbn in L; lia|]. cbn [layout firstn].
  assert (E : (negb (d =? 1) && ghosts)%bool = false).
  { destruct ghosts; [|apply andb_false_r]. rewrite (H eq_refl d) by now left. reflexivity. }
  rewrite E, IH; [reflexivity|cbn in L; lia|]. intros Hg z I. apply H; [exact Hg|now right].
Qed.
Lemma layout_short ghosts : forall dim l, (List.length l < dim)%nat -> (ghosts = true -> forall z, In z l -> z = 1) -> layout dim ghosts l = UB.
Proof.
  induction dim as [|n IH]; intros l L H; [lia|]. destruct l as [|d r]; [reflexivity|]. cbn [layout].
  assert (E : (negb (d =? 1) && ghosts)%bool = false).
  { destruct ghosts; [|apply andb_false_r]. rewrite (H eq_refl d) by now left. reflexivity. }
  rewrite E, IH; [reflexivity|cbn in L; lia|]. intros Hg z I. apply H; [exact Hg|now right].
Qed.
Definition listed (dim : nat) (d : down_in) : list Z := match d with DList l => map u32 l | DInt z => repeat (u32 z) dim | DOther => repeat 1 dim end.
Lemma read_ok dim d ghosts l : read_down dim d ghosts = Ok l <->
  (List.length (listed dim d) <= 3)%nat /\ l = firstn dim (listed dim d) /\ ~ In 0 l /\ (ghosts = true -> forall z, In z l -> z = 1).
Proof.
  unfold read_down. change (match d with DList l => _ | DInt z => _ | DOther => _ end) with (listed dim d). cbv zeta.
  destruct (Nat.ltb_spec 3 (List.length (listed dim d))) as [L|L]; [split; [discriminate|intros (H & _); lia]|].
  set (f := firstn dim (listed dim d)).
  assert (Z0 : existsb (fun z => z =? 0) f = true <-> In 0 f).
  { rewrite existsb_exists. split; [intros (x & I & E); apply Z.eqb_eq in E; now subst x|intros I; exists 0; split; [exact I|reflexivity]]. }
  assert (Z1 : existsb (fun z => negb (z =? 1)) f = false <-> (forall z, In z f -> z = 1)).
  { rewrite <- not_true_iff_false, existsb_exists. split.
    - intros H z I. destruct (Z.eq_dec z 1) as [|N]; [assumption|]. exfalso. apply H. exists z. split; [exact I|]. apply negb_true_iff, Z.eqb_neq, N.
    - intros H (z & I & E). rewrite (H z I) in E. discriminate. }
  destruct (existsb (fun z => z =? 0) f) eqn:E0.
  - split; [discriminate|]. intros (_ & -> & N & _). exfalso. apply N. now apply Z0.
  - assert (N0 : ~ In 0 f) by (intros I; apply Z0 in I; congruence).
    destruct ghosts; cbn [andb].
    + destruct (existsb (fun z => negb (z =? 1)) f) eqn:E1.
      * split; [discriminate|]. intros (_ & -> & _ & H). apply Z1 in H; [discriminate|reflexivity].
      * split; [intros H; injection H as <-|intros (_ & -> & _)]; [|reflexivity]. repeat split; auto. intros _. now apply Z1.
    + split; [intros H; injection H as <-|intros (_ & -> & _)]; [|reflexivity]. repeat split; auto. discriminate.
Qed.
Theorem factors_ok dim d ghosts l : (1 <= dim <= 3)%nat -> factors dim d ghosts = Ok l <->
  (dim <= List.length (listed dim d) <= 3)%nat /\ l = firstn dim (listed dim d) /\ ~ In 0 l /\ (ghosts = true -> forall z, In z l -> z = 1).
Proof.
  intros D. unfold factors. destruct (read_down dim d ghosts) as [r| |] eqn:R; cbn [rbind].
  - apply read_ok in R. destruct R as (L & -> & N & G). destruct (Nat.le_gt_cases dim (List.length (listed dim d))) as [S|S].
    + rewrite layout_ok; [|rewrite firstn_length; lia|exact G]. rewrite firstn_firstn, Nat.min_id. split.
      * intros H. injection H as <-. auto.
      * intros (_ & -> & _). reflexivity.
    + rewrite layout_short; [|rewrite firstn_length; lia|exact G]. split; [discriminate|lia].
  - split; [discriminate|]. intros (L & -> & N & G). assert (X : read_down dim d ghosts = Ok (firstn dim (listed dim d))) by (apply read_ok; repeat split; auto; lia). congruence.
  - split; [discriminate|]. intros (L & -> & N & G). assert (X : read_down dim d ghosts = Ok (firstn dim (listed dim d))) by (apply read_ok; repeat split; auto; lia). congruence.
Qed.
Theorem factors_ub dim d ghosts : (1 <= dim <= 3)%nat -> factors dim d ghosts = UB <->
  exists l, d = DList l /\ (List.length l < dim)%nat /\ ~ In 0 (map u32 l) /\ (ghosts = true -> forall z, In z (map u32 l) -> z = 1).
Proof.
  intros D. unfold factors. destruct (read_down dim d ghosts) as [r| |] eqn:R; cbn [rbind].
  - apply read_ok in R. destruct R as (L & -> & N & G). destruct (Nat.le_gt_cases dim (List.length (listed dim d))) as [S|S].
    + rewrite layout_ok; [|rewrite firstn_length; lia|exact G]. split; [discriminate|]. intros (l & -> & H & _). cbn [listed] in S. rewrite map_length in S. lia.
    + rewrite layout_short; [|rewrite firstn_length; lia|exact G]. split; [intros _|reflexivity].
      destruct d as [l|z|]; cbn [listed] in *; try (rewrite repeat_length in S; lia). exists l. rewrite map_length in S.
      rewrite firstn_all2 in N, G by (rewrite map_length; lia). auto.
  - split; [discriminate|]. intros (l & -> & S & N & G).
    assert (X : read_down dim (DList l) ghosts = Ok (firstn dim (listed dim (DList l)))).
    { apply read_ok. cbn [listed]. rewrite firstn_all2 by (rewrite map_length; lia). rewrite map_length. repeat split; auto; lia. }
    congruence.
  - exfalso. unfold read_down in R. cbv zeta in R. repeat (match type of R with context [if ?b then _ else _] => destruct b end; try discriminate).
Qed.

(** Command line. *)
Lemma find_here pre key r : ~ In key pre -> find_arg (pre ++ key :: r) key = Some r.
Proof.
  induction pre as [|a pre IH]; intros N; cbn [app find_arg]; [now rewrite String.eqb_refl|].
  destruct (String.eqb_spec a key) as [->|E]; [exfalso; apply N; now left|]. apply IH. intros I. apply N. now right.
Qed.
Lemma find_nowhere args key : ~ In key args -> find_arg args key = None.
Proof.
  induction args as [|a r IH]; intros N; [reflexivity|]. cbn [find_arg].
  destruct (String.eqb_spec a key) as [->|E]; [exfalso; apply N; now left|]. apply IH. intros I. apply N. now right.
Qed.
Theorem input_given prog pre v post : ~ In "-input"%string pre -> input_file (prog :: pre ++ "-input"%string :: v :: post) = Ok v.
Proof. intros N. unfold input_file, getArgument. cbn [tl]. now rewrite find_here. Qed.
Theorem input_last prog pre : ~ In "-input"%string pre -> input_file (prog :: pre ++ ["-input"%string]) = Ok "input"%string.
Proof. intros N. unfold input_file, getArgument. cbn [tl]. now rewrite find_here. Qed.
Theorem input_absent prog args : input_file (prog :: args) = UB <-> ~ In "-input"%string args.
Proof.
  unfold input_file, getArgument. cbn [tl]. split.
  - intros H I. apply in_split in I. revert H.
    destruct I as (pre & post & E). revert args E. induction pre as [|a pre IH]; intros args ->.
    + cbn [app find_arg]. rewrite String.eqb_refl. destruct post; discriminate.
    + cbn [app find_arg]. destruct (String.eqb a "-input"); [destruct (pre ++ _)%list; discriminate|]. now apply IH.
  - intros N. now rewrite find_nowhere.
Qed.
Theorem resuming prog args : is_resuming (prog :: args) = true <-> exists k, In k ["-continue"; "-restart"; "-resume"; "-checkpoint"]%string /\ In k args.
Proof.
  assert (S : forall k, isSpecified (prog :: args) k = true <-> In k args).
  { intros k. unfold isSpecified. cbn [tl]. rewrite existsb_exists. split; [intros (x & I & E); apply String.eqb_eq in E; now subst x|intros I; exists k; split; [exact I|apply String.eqb_refl]]. }
  unfold is_resuming. rewrite !orb_true_iff, !S. split.
  - intros [[[H|H]|H]|H]; eexists; split; try exact H; cbn; auto.
  - intros (k & I & H). cbn in I. destruct I as [E|[E|[E|[E|[]]]]]; subst k; auto.
Qed.
(** Species. *)
Theorem species_declared n l : declare n l = Ok l <-> Forall (fun s => 1 <= s <= Z.of_nat n) l.
Proof.
  unfold declare. assert (E : forallb (fun s => (1 <=? s) && (s <=? Z.of_nat n))%bool l = true <-> Forall (fun s => 1 <= s <= Z.of_nat n) l).
  { rewrite forallb_forall, Forall_forall. split; intros H s I; specialize (H s I); [apply andb_prop in H|apply andb_true_intro]; rewrite ?Z.leb_le in *; lia. }
  destruct (forallb _ l); split; intros H; auto; try discriminate; [now apply E|apply E in H; discriminate].
Qed.
Theorem species_default n : (n <= 255)%nat -> declare n (read_species n None) = Ok (map (fun i => Z.of_nat (i + 1)) (seq 0 n)).
Proof.
  intros Hn. assert (E : read_species n None = map (fun i => Z.of_nat (i + 1)) (seq 0 n)).
  { unfold read_species. cbn [option_map or_else]. apply map_ext_in. intros i I. apply in_seq in I. apply Z.mod_small. lia. }
  rewrite E. apply species_declared. apply Forall_forall. intros s I. apply in_map_iff in I. destruct I as (i & <- & I). apply in_seq in I. lia.
Qed.
