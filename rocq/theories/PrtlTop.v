(** The sequence of removals and sorts made between steps. *)
From Coq Require Import ZArith List Bool Arith Lia Permutation.
From Verif Require Import Base ListLemmas PrtlModel PrtlSpec PrtlProofs.
Import ListNotations.

Lemma live_all : forall s, (forall p, p < np s -> tg s p = 1%Z) -> live s = seq 0 (np s).
Proof.
  intros s H. unfold live. rewrite (filter_ext_in' _ (fun _ => true)).
  - generalize (seq 0 (np s)). induction l; cbn; congruence.
  - intros p Hp. apply in_seq in Hp. rewrite H by lia. reflexivity.
Qed.

Lemma cell_view : forall c, 1 <= dim c <= 3 -> exists f, forall s p, cell c s p = f (view c s p).
Proof.
  intros c Hd. exists (fun v => map (fun d => nth (4 * (d - 1)) v 0%Z) (seq 1 (dim c))).
  intros s p. unfold cell. apply map_ext_in. intros d Hdd. apply in_seq in Hdd.
  unfold view, attrs, ge_dim, has_phi.
  destruct c as [n cc r i]. cbn [dim cart npld_r npld_i] in *.
  destruct n as [|[|[|[|n]]]]; try lia; cbn [Nat.leb when app];
  assert (C : d = 1 \/ d = 2 \/ d = 3) by lia; destruct C as [->|[->| ->]]; try lia; reflexivity.
Qed.

Lemma live_views_cells : forall c ns s s', 1 <= dim c <= 3 -> same_live c s s' ->
  (forall p, In p (live s) -> Forall2 (fun n i => 0 <= i < n)%Z ns (cell c s p)) ->
  (forall p, In p (live s') -> Forall2 (fun n i => 0 <= i < n)%Z ns (cell c s' p)).
Proof.
  intros c ns s s' Hd HP H p Hp. destruct (cell_view c Hd) as [f Hf].
  assert (X : In (view c s' p) (map (view c s) (live s))).
  { eapply Permutation_in; [apply Permutation_sym, HP|]. now apply in_map. }
  apply in_map_iff in X. destruct X as (q & E & Hq). rewrite Hf, <- E, <- Hf. now apply H.
Qed.

Lemma removal_kept : forall ns c order s, 1 <= dim c <= 3 -> well_kept ns c s -> Permutation order (seq 0 (np s)) ->
  exists s', remove_dead c order s = Ok s' /\ well_kept ns c s' /\ same_live c s s' /\ maxp s' = maxp s /\
  np s' = length (live s).
Proof.
  intros ns c order s Hd (W1 & W2 & W3) HP.
  destruct (remove_dead_ok c order s HP W2 W1) as (s' & E & P & N & M & T & _).
  exists s'. split; [assumption|].
  assert (SL : same_live c s s') by (unfold same_live; rewrite (live_all s' T); now apply Permutation_sym).
  split; [|auto]. split; [|split].
  - rewrite N, M. pose proof (filter_len_le (fun p => Z.eqb (tg s p) 1) (seq 0 (np s))) as X.
    rewrite seq_length in X. unfold live. lia.
  - intros p Hp. right. auto.
  - now apply (live_views_cells c ns s s').
Qed.

Lemma live_tagged : forall c s, map (view c s) (live s) =
  map snd (filter (fun v => Z.eqb (fst v) 1) (map (tagged_view c s) (seq 0 (np s)))).
Proof.
  intros c s. unfold live. generalize (seq 0 (np s)). induction l as [|p l IH]; [reflexivity|].
  cbn [map filter tagged_view fst]. destruct (Z.eqb (tg s p) 1); cbn [map snd]; now rewrite <- IH.
Qed.

Lemma sort_kept : forall ns c order s, length ns = dim c -> 1 <= dim c <= 3 ->
  Forall (fun n => 0 < n)%Z ns -> (prodZ ns < 2 ^ 31 - 1)%Z -> well_kept ns c s -> Permutation order (seq 0 (np s)) ->
  exists s', sort_spatially c ns order s = Ok s' /\ well_kept ns c s' /\ same_live c s s' /\ maxp s' = maxp s /\ np s' = np s.
Proof.
  intros ns c order s L Hd Hn Hb (W1 & W2 & W3) HP.
  destruct (sort_spatially_ok c ns order s HP L Hd Hn Hb W3) as (s' & E & P & N & M & _).
  exists s'. split; [assumption|].
  assert (SL : same_live c s s').
  { unfold same_live. rewrite !live_tagged. apply Permutation_map, Permutation_filter, Permutation_sym, P. }
  split; [|auto]. split; [|split].
  - lia.
  - intros p Hp. assert (X : In (tagged_view c s' p) (map (tagged_view c s) (seq 0 (np s)))).
    { eapply Permutation_in; [exact P|]. apply in_map. apply in_seq. lia. }
    apply in_map_iff in X. destruct X as (q & Eq & Hq). apply in_seq in Hq. unfold tagged_view in Eq.
    assert (Et : tg s' p = tg s q) by congruence. rewrite Et. apply W2. lia.
  - now apply (live_views_cells c ns s s').
Qed.

Lemma kept_refl : forall ns x, well_kept ns (scfg x) (sparts x) -> kept ns x x.
Proof. intros. repeat split; auto; try apply H. apply Permutation_refl. Qed.
Lemma kept_trans : forall ns x y z, kept ns x y -> kept ns y z -> kept ns x z.
Proof.
  intros ns x y z (A1 & A2 & A3 & A4 & A5 & A6 & A7) (B1 & B2 & B3 & B4 & B5 & B6 & B7).
  split; [congruence|]. split; [congruence|]. split; [congruence|]. split; [congruence|]. split; [lia|]. split; [assumption|].
  unfold same_live in *. rewrite A1 in B7. eapply Permutation_trans; eassumption.
Qed.
Lemma Forall2_trans {A} (R : A -> A -> Prop) : (forall x y z, R x y -> R y z -> R x z) ->
  forall l1 l2 l3, Forall2 R l1 l2 -> Forall2 R l2 l3 -> Forall2 R l1 l3.
Proof.
  intros T l1 l2 l3 H. revert l3. induction H; intros l3 G; inversion G; subst; constructor; eauto.
Qed.

Lemma removal_all : forall ns (ord : nat -> nat -> list nat) , (forall j n, Permutation (ord j n) (seq 0 n)) ->
  forall sp i, Forall (usable ns) sp -> exists sp',
  res_mapi (fun j y => rbind (remove_dead (scfg y) (ord j (np (sparts y))) (sparts y)) (fun s => Ok (with_parts y s))) i sp = Ok sp' /\
  Forall2 (kept ns) sp sp'.
Proof.
  intros ns ord Ho. induction sp as [|x sp IH]; intros i F; cbn [res_mapi]; [eexists; split; [reflexivity|constructor]|].
  inversion F as [|? ? (F1 & F2 & F3) F4]; subst.
  destruct (removal_kept ns (scfg x) (ord i (np (sparts x))) (sparts x) F2 F3 (Ho _ _)) as (s' & E & W & SL & M & N).
  rewrite E. cbn [rbind]. destruct (IH (S i) F4) as (sp' & E' & K). rewrite E'. cbn [rbind].
  eexists. split; [reflexivity|]. constructor; [|assumption].
  repeat split; auto; try apply W. cbn. rewrite N. unfold live. pose proof (filter_len_le (fun p => Z.eqb (tg (sparts x) p) 1) (seq 0 (np (sparts x)))) as X.
  rewrite seq_length in X. lia.
Qed.

Lemma usable_kept : forall ns sp sp', Forall (usable ns) sp -> Forall2 (kept ns) sp sp' -> Forall (usable ns) sp'.
Proof.
  intros ns sp sp' F K. induction K as [|x y sp sp' K1 K IH]; [constructor|].
  inversion F as [|? ? (F1 & F2 & F3) F4]; subst. constructor; [|now apply IH].
  destruct K1 as (A1 & A2 & A3 & A4 & A5 & A6 & A7). unfold usable. rewrite A1 in *. auto.
Qed.

Lemma Forall2_set_nth {A} (R : A -> A -> Prop) : forall l k x y, Forall2 R l l -> nth_error l k = Some x -> R x y ->
  Forall2 R l (set_nth l k y).
Proof.
  intros l. induction l as [|a l IH]; intros k x y F E H; [destruct k; discriminate|].
  inversion F; subst. destruct k; cbn in *; constructor; auto; [congruence|]. eapply IH; eauto.
Qed.
Lemma Forall_usable_refl : forall ns sp, Forall (usable ns) sp -> Forall2 (kept ns) sp sp.
Proof. induction 1 as [|x l (A & B & C)]; constructor; auto. now apply kept_refl. Qed.

Lemma sort_one_ok : forall ns step ord k sp, (forall k j b n, Permutation (ord k j b n) (seq 0 n)) ->
  Forall (fun n => 0 < n)%Z ns -> (prodZ ns < 2 ^ 31 - 1)%Z -> Forall (usable ns) sp ->
  exists sp', sort_one ns step ord k sp = Ok sp' /\ Forall2 (kept ns) sp sp'.
Proof.
  intros ns step ord k sp Ho Hn Hb F. unfold sort_one.
  destruct (nth_error sp k) as [x|] eqn:Ex; [|eexists; split; [reflexivity|now apply Forall_usable_refl]].
  assert (G : exists sp1, (if (Z.ltb 0 (clear_every x) && Z.eqb (step mod clear_every x) 0 && Z.ltb 0 step)%Z
         then res_mapi (fun j y => rbind (remove_dead (scfg y) (ord k j false (np (sparts y))) (sparts y))
                                      (fun s => Ok (with_parts y s))) 0 sp
         else Ok sp) = Ok sp1 /\ Forall2 (kept ns) sp sp1).
  { destruct (_ && _ && _)%bool; [|eexists; split; [reflexivity|now apply Forall_usable_refl]].
    apply (removal_all ns (fun j n => ord k j false n)); auto. }
  destruct G as (sp1 & -> & K1). cbn [rbind]. pose proof (usable_kept _ _ _ F K1) as F1.
  destruct (_ && _)%bool; [|eauto].
  destruct (nth_error sp1 k) as [y|] eqn:Ey; [|eauto].
  pose proof (proj1 (Forall_forall _ _) F1 y (nth_error_In _ _ Ey)) as (U1 & U2 & U3).
  destruct (sort_kept ns (scfg y) (ord k k true (np (sparts y))) (sparts y) U1 U2 Hn Hb U3 (Ho _ _ _ _)) as (s' & E & W & SL & M & N).
  rewrite E. cbn [rbind]. eexists. split; [reflexivity|].
  eapply (Forall2_trans _ (kept_trans ns)); [exact K1|].
  eapply Forall2_set_nth; [now apply Forall_usable_refl|exact Ey|].
  repeat split; auto; try apply W. cbn. lia.
Qed.

Theorem sort_particles_ok : forall ns step ord sp, (forall k j b n, Permutation (ord k j b n) (seq 0 n)) ->
  Forall (fun n => 0 < n)%Z ns -> (prodZ ns < 2 ^ 31 - 1)%Z -> Forall (usable ns) sp ->
  exists sp', sort_particles ns step ord sp = Ok sp' /\ Forall2 (kept ns) sp sp'.
Proof.
  intros ns step ord sp Ho Hn Hb F. unfold sort_particles.
  assert (G : forall ks sp0, Forall (usable ns) sp0 -> exists sp',
     fold_left (fun acc k => rbind acc (sort_one ns step ord k)) ks (Ok sp0) = Ok sp' /\ Forall2 (kept ns) sp0 sp').
  { induction ks as [|k ks IH]; intros sp0 F0; cbn [fold_left rbind];
      [eexists; split; [reflexivity|now apply Forall_usable_refl]|].
    destruct (sort_one_ok ns step ord k sp0 Ho Hn Hb F0) as (sp1 & -> & K1).
    destruct (IH sp1 (usable_kept _ _ _ F0 K1)) as (sp' & E & K). exists sp'. split; [assumption|].
    eapply (Forall2_trans _ (kept_trans ns)); eassumption. }
  now apply G.
Qed.
