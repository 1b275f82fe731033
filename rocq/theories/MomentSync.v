(** Particle moments on a decomposed periodic grid. *)
From Coq Require Import ZArith List Bool Reals Lra Lia Permutation.
From Verif Require Import Base ListLemmas DecompModel DecompSpec DirsSpec TopoModel TopoSpec HaloModel ShapeSpec HaloSpec
  HaloProofs SyncProofs GaussProofs MomentModel MomentSpec MomentProofs MomentTop.
Import ListNotations.
Open Scope R_scope.

Lemma rsum_subset (l l' : list (list Z)) f : NoDup l -> NoDup l' -> incl l' l ->
  (forall a, In a l -> ~ In a l' -> f a = 0) -> rsum l f = rsum l' f.
Proof.
  intros Hl. revert l'. induction Hl as [|a l Hn Hl IH]; intros l' Hl' Hi Hz.
  - destruct l' as [|b l']; [reflexivity|]. destruct (Hi b); left; reflexivity.
  - change (f a + rsum l f = rsum l' f).
    destruct (in_dec (list_eq_dec Z.eq_dec) a l') as [D|D].
    + apply in_split in D as (u & v & ->).
      rewrite (rsum_perm (u ++ a :: v) (a :: u ++ v)) by (symmetry; apply Permutation_middle).
      change (f a + rsum l f = f a + rsum (u ++ v) f). f_equal. apply NoDup_remove in Hl' as [H1 H2]. apply IH; auto.
      * intros b Hb. assert (Hb' : In b (u ++ a :: v)) by (rewrite in_app_iff in *; cbn; tauto).
        destruct (Hi b Hb') as [<-|H]; [contradiction|assumption].
      * intros b Hb Hnb. apply Hz; [right; assumption|]. rewrite in_app_iff in *. cbn. intros [H|[<-|H]]; tauto.
    + rewrite (Hz a) by (auto; left; reflexivity). rewrite (IH l'); auto; [ring| |].
      * intros b Hb. destruct (Hi b Hb) as [<-|H]; [contradiction|assumption].
      * intros b Hb Hnb. apply Hz; [right; assumption|assumption].
Qed.

Lemma weight_d_out c q : Forall (fun p => 0 <= snd p <= 1) q -> forall y,
  ~ Forall2 (fun a p => Z.abs (a - fst p) <= window (order_ c))%Z y q -> length y = length q -> weight_d c q y = 0.
Proof.
  induction 1 as [|[i x] q Hp Hq IH]; intros [|a y] H HL; try discriminate.
  - elim H. constructor.
  - cbn [weight_d]. destruct (Z.leb_spec (Z.abs (a - i)) (window (order_ c))) as [Ha|Ha].
    + rewrite IH; [ring| |cbn in HL; congruence]. intros H'. apply H. constructor; assumption.
    + replace (weight1 c (IZR i + x - (IZR a + 1/2)) (a - i)) with 0; [ring|].
      pose proof (weight1_out c i x (a - i) Hp Ha) as E. replace (i + (a - i))%Z with a in E by lia. symmetry. exact E.
Qed.

Lemma weight_d_shift c o q : forall y, length y = length q -> length o = length q ->
  weight_d c (map2 (fun o a => (o + fst a, snd a)%Z) o q) (map2 Z.add o y) = weight_d c q y.
Proof.
  revert o. induction q as [|[i x] q IH]; intros [|b o] [|a y] H1 H2; try discriminate; [reflexivity|].
  cbn [map2 weight_d fst snd]. rewrite IH by (cbn in *; congruence). f_equal. f_equal; [rewrite !plus_IZR; ring|lia].
Qed.

Lemma fm_map {A B C} (f : B -> list C) (h : A -> B) l : flat_map f (map h l) = flat_map (fun a => f (h a)) l.
Proof. induction l; cbn; congruence. Qed.
Lemma map_fm {A B C} (h : B -> C) (f : A -> list B) l : map h (flat_map f l) = flat_map (fun a => map h (f a)) l.
Proof. induction l; cbn; rewrite ?map_app; congruence. Qed.

Lemma box_shift i b : length i = length b ->
  box (map2 (fun o r => (o + fst r, o + snd r)%Z) i b) = map (map2 Z.add i) (box b).
Proof.
  revert i. induction b as [|[lo hi] b IH]; intros [|o i] H; try discriminate; [reflexivity|].
  cbn [map2 box fst snd]. rewrite IH by (cbn in H; congruence).
  replace (zrange (o + lo) (o + hi)) with (map (Z.add o) (zrange lo hi)).
  2:{ unfold zrange. rewrite map_map. replace (o + hi - (o + lo))%Z with (hi - lo)%Z by lia. apply map_ext. intros. lia. }
  rewrite fm_map, map_fm. apply flat_map_ext. intros x. rewrite !map_map. reflexivity.
Qed.

Lemma box_length b y : In y (box b) -> length y = length b.
Proof. intros H. apply in_boxl in H. eapply Forall2_length. exact H. Qed.

(** A domain's share of a particle, summed over all its cells that are cell [z] of the grid. *)
Lemma domain_share c g n o Ns q z : (window (order_ c) <= g)%Z -> in_box (map fst q) n ->
  Forall (fun p => 0 <= snd p <= 1) q -> length o = length n -> length Ns = length n ->
  rsum (box (map (fun k => (- g, k + g)%Z) n)) (fun y =>
    if list_eq_dec Z.eq_dec (map2 (fun c N => (c mod N)%Z) (map2 Z.add o y) Ns) z then weight_d c q y else 0)
  = spread c Ns (map2 (fun o a => (o + fst a, snd a)%Z) o q) z.
Proof.
  intros Hw Hb HF Ho HN. set (w := window (order_ c)) in *.
  assert (Lq : length q = length n). { apply Forall2_length in Hb. rewrite map_length in Hb. assumption. }
  set (W := box (map2 (fun i r => (i + fst r, i + snd r)%Z) (map fst q) (map (fun _ => (- w, w + 1)%Z) Ns))).
  rewrite (rsum_subset _ W); [|apply nodup_box|apply nodup_box| |].
  - unfold W. rewrite box_shift by (rewrite !map_length; congruence). rewrite rsum_map. unfold spread. fold w.
    apply rsum_ext. intros di Hdi. apply box_length in Hdi. rewrite map_length in Hdi.
    assert (E : map2 Z.add (map fst (map2 (fun (o0 : Z) (a : Z * R) => ((o0 + fst a)%Z, snd a)) o q)) di
                = map2 Z.add o (map2 Z.add (map fst q) di)).
    { assert (L2 : length di = length q) by congruence. assert (L3 : length o = length q) by congruence. clear -L2 L3.
      revert o q L2 L3. induction di as [|d di IH]; intros [|a o] [|p q] L2 L3; try discriminate; [reflexivity|].
      cbn. rewrite IH by (cbn in *; congruence). f_equal. lia. }
    cbv zeta. rewrite E. rewrite weight_d_shift; [reflexivity| |congruence].
    rewrite map2_length, map_length. lia.
  - intros y Hy. apply in_boxl. apply in_boxl in Hy. unfold W in Hy. clear -Hw Hb Hy HN.
    revert Ns HN y Hy. revert Hb. generalize (map fst q). intros r Hb. induction Hb as [|a m r n Ha Hr IH]; intros Ns HN y Hy.
    + destruct Ns; [|discriminate]. inversion Hy; subst. constructor.
    + destruct Ns as [|N0 Ns]; [discriminate|]. cbn [map map2] in Hy. inversion Hy as [|b ? y' ? Hb Hy']; subst. cbn [map].
      constructor; [cbn [fst snd] in *; lia|]. apply (IH Ns); [cbn in HN; congruence|exact Hy'].
  - intros y Hy Hny. apply box_length in Hy. rewrite map_length in Hy. led E; [|reflexivity].
    apply weight_d_out; [assumption| |congruence]. intros HF2. apply Hny. unfold W. apply in_boxl.
    assert (L2 : length Ns = length q) by congruence. fold w in HF2. clear -HF2 L2. revert Ns L2.
    induction HF2 as [|a p y q Ha Hr IH]; intros [|N0 Ns] HL; try discriminate; cbn [map map2]; constructor.
    + cbn [fst snd]. lia.
    + apply IH. cbn in HL. congruence.
Qed.

Section Domains.
  Variables (g : Z) (ls : list (list Z)) (gbc : list (flds_bc * flds_bc)).
  Hypotheses (W : wide g ls) (HL : length gbc = length ls) (HP : all_periodic gbc) (HD : dimension (length ls)).
  Variables (c : mcfg) (F : moment) (c1 c2 : Z) (sp : list Z -> list species) (f : list Z -> buffer).
  Hypotheses (Hcart : cartesian c = true) (Hs : supported c) (Hg : ghosts c = g) (Hc : components_ok F c1 c2).
  Hypothesis Hin : forall d s p, In d (domains ls) -> In s (sp (sub_offset_ndomains d)) -> In p (sparts s) ->
    live p = true -> inside (sub_ncells d) p.
  Hypothesis Hf : forall d, In d (domains ls) -> exists all specs sched,
    selects all specs (sp (sub_offset_ndomains d)) /\ Forall (species_ok F) (sp (sub_offset_ndomains d)) /\
    any_order sched /\
    compute_moments c F all specs c1 c2 sched (fun _ => 0) = Some (f (sub_offset_ndomains d)).

  Lemma f_value d y : In d (domains ls) -> length y = length (sub_ncells d) ->
    f (sub_offset_ndomains d) (loc g y) = rsum (sp (sub_offset_ndomains d)) (fun s => rsum (sparts s) (fun p =>
      if live p then contribution c F s p c1 c2 * weight_d c (ppos p) y else 0)).
  Proof.
    intros Hd Hy. destruct (Hf d Hd) as (all & specs & sched & H1 & H2 & H3 & H4).
    destruct (moments_value c F all specs c1 c2 _ sched (fun _ => 0) (length (sub_ncells d)) Hcart Hs Hc H1 H2 H3) as (b' & E & H).
    - intros s p A B C. destruct (Hin d s p Hd A B C) as [I1 I2]. split; [|assumption].
      apply Forall2_length in I1. rewrite map_length in I1. assumption.
    - rewrite H4 in E. injection E as <-. rewrite <- Hg. rewrite H by assumption. ring.
  Qed.

  Lemma dom_lengths d : In d (domains ls) ->
    length (sub_ncells d) = length ls /\ length (sub_offset_ncells d) = length ls.
  Proof.
    intros Hd. destruct (dom_pos ls d Hd) as [B [E1 E2]]. rewrite E1, E2. apply Forall2_length in B.
    unfold counts in B. rewrite map_length in B. unfold size, offs. rewrite !map2_length, B. lia.
  Qed.

  Theorem sync_value d y : In d (domains ls) -> in_box y (sub_ncells d) ->
    synchronize g ls gbc f (length ls) (sub_offset_ndomains d) (loc g y) =
    rsum (deposited c F c1 c2 (domains ls) sp)
      (fun e => snd e * spread c (map sumZ ls) (fst e) (wrapped ls d y)).
  Proof.
    intros Hd Hy. rewrite sync_result by assumption. unfold cells, deposited. rewrite !rsum_flat_map.
    apply rsum_ext. intros d' Hd'. rewrite rsum_map. cbn [fst snd]. rewrite rsum_flat_map.
    destruct (dom_lengths d' Hd') as [L1 L2].
    rewrite (rsum_ext _ _ (fun y' => rsum (sp (sub_offset_ndomains d')) (fun s => rsum (sparts s) (fun p =>
      if live p then contribution c F s p c1 c2 * (if list_eq_dec Z.eq_dec (wrapped ls d' y') (wrapped ls d y) then weight_d c (ppos p) y' else 0) else 0)))).
    - rewrite rsum_swap. apply rsum_ext. intros s Hsin. rewrite rsum_swap. rewrite rsum_map, rsum_filter. apply rsum_ext.
      intros p Hpin. cbn [fst snd]. destruct (live p) eqn:El; [|apply rsum_zero]. rewrite rsum_scal. f_equal.
      unfold wrapped at 1. destruct (Hin d' s p Hd' Hsin Hpin El) as [I1 I2]. unfold globally.
      apply (domain_share c g (sub_ncells d')); auto; [rewrite <- Hg; apply Hs|congruence|rewrite map_length; congruence].
    - intros y' Hy'. apply box_length in Hy'. rewrite map_length in Hy'. rewrite f_value by assumption.
      unfold same_cell. cbn [fst snd].
      destruct (list_eq_dec Z.eq_dec (wrapped ls d y) (wrapped ls d' y')) as [E|E].
      + apply rsum_ext. intros s _. apply rsum_ext. intros p _. destruct (live p); [|reflexivity].
        destruct list_eq_dec; [reflexivity|congruence].
      + symmetry. apply rsum_none. intros s _. apply rsum_none. intros p _. destruct (live p); [|reflexivity].
        destruct list_eq_dec; [congruence|ring].
  Qed.

  Theorem sync_moment_total :
    rsum (cells 0 ls) (fun k => synchronize g ls gbc f (length ls) (sub_offset_ndomains (fst k)) (loc g (snd k)))
    = rsum (deposited c F c1 c2 (domains ls) sp) snd.
  Proof.
    rewrite (sync_total g ls gbc W HL HP HD f). unfold cells, deposited. rewrite !rsum_flat_map.
    apply rsum_ext. intros d Hd. rewrite rsum_map. cbn [fst snd]. rewrite rsum_flat_map.
    destruct (Hf d Hd) as (all & specs & sched & H1 & H2 & H3 & H4).
    destruct (moments_total c F all specs c1 c2 _ sched (fun _ => 0) (sub_ncells d) Hs Hc H1 H2 H3) as (b' & E & H).
    { congruence. }
    { intros s p A B C. apply (Hin d s p Hd A B C). }
    rewrite H4 in E. injection E as <-. rewrite rsum_zero, Rplus_0_l in H.
    rewrite (rsum_ext (sp (sub_offset_ndomains d)) _ (fun s => rsum (sparts s) (fun p => if live p then contribution c F s p c1 c2 else 0))).
    2:{ intros s _. rewrite rsum_map, rsum_filter. reflexivity. }
    fold (total c F (sp (sub_offset_ndomains d)) c1 c2). rewrite <- H. unfold storage. rewrite Hg.
    replace (box (map (fun k => (0, k + 2 * g)%Z) (sub_ncells d)))
      with (map (loc g) (box (map (fun n => (- g, n + g)%Z) (sub_ncells d)))).
    - rewrite rsum_map. reflexivity.
    - clear. induction (sub_ncells d) as [|n l IH]; [reflexivity|]. cbn [map box]. rewrite <- IH.
      replace (zrange 0 (n + 2 * g)) with (map (fun a => (a + g)%Z) (zrange (- g) (n + g))).
      2:{ unfold zrange. rewrite map_map. replace (n + g - - g)%Z with (n + 2 * g - 0)%Z by lia. apply map_ext. intros. lia. }
      rewrite fm_map, map_fm. apply flat_map_ext. intros x. rewrite !map_map. reflexivity.
  Qed.
End Domains.
