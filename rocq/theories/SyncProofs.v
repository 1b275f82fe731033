From Coq Require Import ZArith List Bool Lia Reals Permutation Lra.
From Verif Require Import Base ListLemmas DecompModel DecompSpec DecompProofs DecompTop
  DirsModel DirsSpec DirsProofs TopoModel TopoSpec TopoProofs TopoTop HaloModel HaloSpec HaloProofs.
Import ListNotations.
Open Scope Z_scope.

Lemma Forall2_impl {A B} (P Q : A -> B -> Prop) l k :
  (forall a b, P a b -> Q a b) -> Forall2 P l k -> Forall2 Q l k.
Proof. intros H. induction 1; constructor; auto. Qed.

(** * Sums *)
Lemma rsum_app {A} (l1 l2 : list A) f : (rsum (l1 ++ l2) f = rsum l1 f + rsum l2 f)%R.
Proof. induction l1; simpl; lra. Qed.
Lemma rsum_perm {A} (l1 l2 : list A) f : Permutation l1 l2 -> rsum l1 f = rsum l2 f.
Proof. unfold rsum. induction 1; simpl; lra. Qed.
Lemma rsum_ext {A} (l : list A) f f' : (forall a, In a l -> f a = f' a) -> rsum l f = rsum l f'.
Proof. unfold rsum. induction l; simpl; intros H; auto. rewrite H, IHl; auto. Qed.
Lemma rsum_map {A B} (h : A -> B) l f : rsum (map h l) f = rsum l (fun a => f (h a)).
Proof. unfold rsum. induction l; simpl; congruence. Qed.
Lemma rsum_filter {A} (p : A -> bool) l f :
  rsum (filter p l) f = rsum l (fun a => if p a then f a else 0%R).
Proof. unfold rsum. induction l as [|a l IH]; simpl; auto. destruct (p a); simpl; rewrite IH; lra. Qed.
Lemma rsum_flat_map {A B} (h : A -> list B) l f :
  rsum (flat_map h l) f = rsum l (fun a => rsum (h a) f).
Proof. induction l; simpl; auto. rewrite rsum_app, IHl. auto. Qed.
Lemma rsum_plus {A} (l : list A) f f' : (rsum l (fun a => f a + f' a) = rsum l f + rsum l f')%R.
Proof. unfold rsum. induction l; simpl; lra. Qed.
Lemma rsum_zero {A} (l : list A) : rsum l (fun _ => 0%R) = 0%R.
Proof. unfold rsum. induction l; simpl; lra. Qed.
Lemma rsum_swap {A B} (l : list A) (k : list B) f :
  rsum l (fun a => rsum k (fun b => f a b)) = rsum k (fun b => rsum l (fun a => f a b)).
Proof.
  induction l as [|a l IH].
  - simpl. rewrite rsum_zero. auto.
  - change (rsum k (f a) + rsum l (fun a => rsum k (f a)) =
      rsum k (fun b => f a b + rsum l (fun a => f a b)))%R.
    rewrite rsum_plus. f_equal. exact IH.
Qed.
Lemma rsum_scal {A} (l : list A) f c : (rsum l (fun a => c * f a) = c * rsum l f)%R.
Proof. unfold rsum. induction l; simpl; lra. Qed.
Lemma fold_left_rsum {A} (l : list A) f acc :
  (fold_left (fun acc a => acc + f a) l acc = acc + rsum l f)%R.
Proof.
  revert acc; induction l as [|a l IH]; intros acc; simpl; [lra|]. rewrite IH. unfold rsum at 2. simpl.
  fold (rsum l f). lra.
Qed.

(** Exactly one element satisfies the predicate. *)
Lemma rsum_single {A} (l : list A) (p : A -> bool) c x :
  NoDup l -> In x l -> p x = true -> (forall y, In y l -> p y = true -> y = x) ->
  rsum l (fun a => if p a then c else 0%R) = c.
Proof.
  induction 1 as [|a l Hn Hd IH]; intros Hx Hp Hu; [destruct Hx|].
  change ((if p a then c else 0) + rsum l (fun a => if p a then c else 0) = c)%R.
  destruct Hx as [->|Hx].
  - rewrite Hp.
    rewrite (rsum_ext l _ (fun _ => 0%R)).
    + rewrite rsum_zero. lra.
    + intros b Hb. destruct (p b) eqn:E; auto. assert (b = x) by (apply Hu; simpl; auto). subst. contradiction.
  - rewrite IH; auto; [|intros; apply Hu; simpl; auto].
    destruct (p a) eqn:E; [|lra]. assert (a = x) by (apply Hu; simpl; auto). subst. contradiction.
Qed.

(** * Enumerations *)
Lemma in_zrange lo hi a : In a (zrange lo hi) <-> lo <= a < hi.
Proof.
  unfold zrange. rewrite in_map_iff. split.
  - intros [i [<- H]]. apply in_seq in H. lia.
  - intros H. exists (Z.to_nat (a - lo)). split; [lia|]. apply in_seq. lia.
Qed.
Lemma nodup_zrange lo hi : NoDup (zrange lo hi).
Proof.
  unfold zrange. apply FinFun.Injective_map_NoDup; [|apply seq_NoDup]. intros a b H. lia.
Qed.
Lemma in_boxl b x : In x (box b) <-> Forall2 (fun a r => fst r <= a < snd r) x b.
Proof.
  revert x; induction b as [|[lo hi] b IH]; intros x; simpl.
  - split; [intros [<-|[]]; constructor|]. intros H; inversion H; auto.
  - rewrite in_flat_map. split.
    + intros [a [Ha H]]. apply in_map_iff in H as [t [<- Ht]]. apply IH in Ht.
      apply in_zrange in Ha. constructor; auto.
    + intros H. inversion H as [|a ? t ? Ha Ht]; subst. exists a. split; [apply in_zrange; auto|].
      apply in_map. apply IH. auto.
Qed.
Lemma nodup_box b : NoDup (box b).
Proof.
  induction b as [|[lo hi] b IH]; simpl.
  - repeat constructor. simpl. auto.
  - apply in_flat_map_nodup; [apply nodup_zrange| |].
    + intros a _. apply FinFun.Injective_map_NoDup; auto. intros x y E. congruence.
    + intros a a' x _ _ H1 H2. apply in_map_iff in H1 as [t [<- _]].
      apply in_map_iff in H2 as [t' [E _]]. congruence.
Qed.
Lemma in_box_ext_list g n y :
  In y (box (map (fun n => (- g, n + g)) n)) <-> in_extended g y n.
Proof.
  rewrite in_boxl. unfold in_extended. revert y; induction n as [|n0 n IH]; intros y; simpl.
  - split; intros H; inversion H; constructor.
  - split; intros H; inversion H; subst; constructor; auto; apply IH; auto.
Qed.

Definition as_pos (c : subdomain * list Z) : list Z * list Z := (sub_offset_ndomains (fst c), snd c).

Lemma in_cells g ls c : In c (cells g ls) <-> In (fst c) (domains ls) /\ in_extended g (snd c) (sub_ncells (fst c)).
Proof.
  unfold cells. rewrite in_flat_map. split.
  - intros [d [Hd H]]. apply in_map_iff in H as [y [<- Hy]]. simpl. split; auto.
    apply in_box_ext_list. auto.
  - destruct c as [d y]. simpl. intros [H1 H2]. exists d. split; auto. apply in_map.
    apply in_box_ext_list. auto.
Qed.

Lemma nodup_domains ls : NoDup (domains ls).
Proof.
  pose proof (nodup_positions ls) as H. unfold positions in H.
  apply NoDup_map_inv in H. exact H.
Qed.

Lemma dom_inj ls d d' : In d (domains ls) -> In d' (domains ls) ->
  sub_offset_ndomains d = sub_offset_ndomains d' -> d = d'.
Proof.
  intros H H' E. destruct (dom_pos ls d H) as [_ [E1 E2]]. destruct (dom_pos ls d' H') as [_ [E1' E2']].
  destruct d, d'; simpl in *. congruence.
Qed.

Lemma nodup_cells g ls : NoDup (cells g ls).
Proof.
  unfold cells. apply in_flat_map_nodup; [apply nodup_domains| |].
  - intros d _. apply FinFun.Injective_map_NoDup; [|apply nodup_box]. intros x y E. congruence.
  - intros a b x _ _ H1 H2. apply in_map_iff in H1 as [t [<- _]].
    apply in_map_iff in H2 as [t' [E _]]. congruence.
Qed.

Lemma nodup_map_in {A B} (f : A -> B) l :
  NoDup l -> (forall a b, In a l -> In b l -> f a = f b -> a = b) -> NoDup (map f l).
Proof.
  induction 1 as [|a l Hn H IH]; simpl; intros Hf; constructor.
  - rewrite in_map_iff. intros [b [E Hb]]. assert (b = a) by (apply Hf; auto). subst. contradiction.
  - apply IH. auto.
Qed.

Lemma nodup_poscells g ls : NoDup (map as_pos (cells g ls)).
Proof.
  apply nodup_map_in; [apply nodup_cells|]. intros [d y] [d' y'] H H' E.
  apply in_cells in H, H'. unfold as_pos in E. simpl in *. inversion E.
  f_equal. apply (dom_inj ls); tauto.
Qed.

Lemma in_poscells g ls o y :
  In (o, y) (map as_pos (cells g ls)) <-> in_box o (counts ls) /\ in_extended g y (size ls o).
Proof.
  rewrite in_map_iff. split.
  - intros [[d y'] [E H]]. apply in_cells in H. unfold as_pos in E. simpl in *. inversion E; subst.
    destruct H as [H1 H2]. destruct (dom_pos ls d H1) as [B [E1 _]]. rewrite E1 in H2. auto.
  - intros [Ho Hy]. destruct (pos_dom ls o Ho) as [d [Hd <-]]. exists (d, y). split; auto.
    apply in_cells. simpl. split; auto. destruct (dom_pos ls d Hd) as [B [E1 _]]. rewrite E1. auto.
Qed.

(** * Aliases of an active cell *)
Definition wrap (ls : list (list Z)) (o y : list Z) : list Z :=
  map2 (fun c N => c mod N) (map2 Z.add (offs ls o) y) (map sumZ ls).

Definition alias1 (g : Z) (l : list Z) (o y d : Z) : Z * Z :=
  let a := neighbor1 (len l) o (- d) in
  (a, fst (send_slice_sync g (blk l a) d) + (y + g - fst (recv_slice_sync g (blk l o) d)) - g).
Definition valid1 (g : Z) (l : list Z) (o y d : Z) : Prop :=
  fst (recv_slice_sync g (blk l o) d) <= y + g < snd (recv_slice_sync g (blk l o) d).

Lemma block_unique_Z g l a o z y : wide1 g l -> 0 <= a < len l -> 0 <= o < len l ->
  0 <= z < blk l a -> 0 <= y < blk l o -> off l a + z = off l o + y -> a = o /\ z = y.
Proof.
  intros W Ha Ho Hz Hy E. pose proof (wide1_nonneg g l W) as N.
  rewrite !off_sum in E by auto. unfold blk, len in *.
  assert (Z.to_nat a = Z.to_nat o).
  { apply (block_unique l (Z.to_nat a) (Z.to_nat o) (sumZ (firstn (Z.to_nat a) l) + z)); auto; lia. }
  assert (a = o) by lia. subst. split; auto. lia.
Qed.

Lemma alias1_spec g l o y a z :
  0 <= g -> wide1 g l -> 0 <= o < len l -> 0 <= y < blk l o -> 0 <= a < len l ->
  (- g <= z < blk l a + g /\ (off l a + z) mod sumZ l = (off l o + y) mod sumZ l) <->
  exists d, -1 <= d <= 1 /\ valid1 g l o y d /\ alias1 g l o y d = (a, z).
Proof.
  intros Hg W Ho Hy Ha.
  pose proof (blk_wide g l o W Ho) as Bo. pose proof (blk_wide g l a W Ha) as Ba.
  pose proof (off_nonneg g l o W Ho) as Oo. pose proof (off_end g l o W Ho) as Eo.
  assert (M : (off l o + y) mod sumZ l = off l o + y) by (apply Z.mod_small; lia).
  rewrite M. split.
  - intros [Hz E]. pose proof (halo1 g l a z Hg W Ha Hz) as H. cbv zeta in H.
    set (d := side z (blk l a)) in *. destruct H as [H1 H2]. rewrite E in H2.
    assert (Hd : -1 <= d <= 1) by (unfold d, side; destruct (z <? 0), (blk l a <=? z); lia).
    pose proof (neighbor1_range (len l) a d Ha Hd) as Hb.
    destruct (block_unique_Z g l _ o _ y W Hb Ho H1 Hy H2) as [E1 E2].
    rewrite E1 in *.
    exists d. split; auto.
    assert (En : neighbor1 (len l) o (- d) = a).
    { rewrite <- E1. apply neighbor1_inv; auto. }
    unfold valid1, alias1. rewrite En.
    unfold src_cell in E2. clear H1 H2 E M.
    unfold d, side in *. destruct (Z.ltb_spec z 0) as [Y|Y]; [|destruct (Z.leb_spec (blk l a) z) as [Y2|Y2]];
    unfold recv_slice, send_slice, recv_slice_sync, send_slice_sync, i_min, i_max in *;
    cbn [Z.eqb Z.opp Pos.eqb fst snd] in *; (split; [lia|f_equal; lia]).
  - intros [d [Hd [Hv He]]]. unfold alias1 in He. inversion He as [[En Ez]]. rewrite En in *.
    assert (E1 : neighbor1 (len l) a d = o).
    { rewrite <- En. pose proof (neighbor1_inv (len l) o (- d) Ho ltac:(lia)) as Q.
      rewrite Z.opp_involutive in Q. auto. }
    assert (Hz : - g <= z < blk l a + g /\ side z (blk l a) = d /\
                 src_cell g (blk l a) (blk l o) d z = y).
    { unfold valid1 in Hv. unfold side, src_cell.
      assert (C : d = -1 \/ d = 0 \/ d = 1) by lia.
      assert (Eb : d = 0 -> blk l a = blk l o).
      { intros ->. rewrite neighbor1_zero in E1. subst. auto. }
      destruct C as [->|[->| ->]];
      unfold recv_slice, send_slice, recv_slice_sync, send_slice_sync, i_min, i_max in *;
      cbn [Z.eqb Z.opp Pos.eqb fst snd] in *; try rewrite (Eb eq_refl) in *;
      destruct (Z.ltb_spec z 0); destruct (Z.leb_spec (blk l a) z);
      try rewrite (Eb eq_refl) in *; cbv iota; try lia.
      rewrite (proj2 (Z.leb_gt _ _)) by auto. lia. }
    destruct Hz as [Hz [Es Ey]]. rewrite Ez. split; auto.
    pose proof (halo1 g l a z Hg W Ha Hz) as H. cbv zeta in H. rewrite Es, E1, Ey in H.
    destruct H as [_ H]. congruence.
Qed.

Lemma alias1_inj g l o y d d' :
  0 <= g -> wide1 g l -> 0 <= o < len l -> 0 <= y < blk l o ->
  -1 <= d <= 1 -> -1 <= d' <= 1 -> alias1 g l o y d = alias1 g l o y d' -> d = d'.
Proof.
  intros Hg W Ho Hy Hd Hd' E. unfold alias1 in E. injection E as E1 E2.
  rewrite <- E1 in E2.
  pose proof (blk_wide g l o W Ho).
  pose proof (neighbor1_range (len l) o (- d) Ho ltac:(lia)) as Hb.
  pose proof (blk_wide g l _ W Hb).
  assert (C : d = -1 \/ d = 0 \/ d = 1) by lia.
  assert (C' : d' = -1 \/ d' = 0 \/ d' = 1) by lia.
  destruct C as [->|[->| ->]], C' as [->|[->| ->]]; auto; exfalso;
  unfold recv_slice_sync, send_slice_sync, i_min, i_max in *;
  cbn [Z.eqb Z.opp Pos.eqb fst snd] in *; lia.
Qed.

Definition alias (g : Z) (ls : list (list Z)) (o y dir : list Z) : list Z * list Z :=
  let a := neighbor_offset (counts ls) o (opp_dir dir) in
  (a, map2 (fun u v => u - v)
    (map2 Z.add (map fst (slices (send_slice_sync g) (size ls a) dir))
       (map2 Z.sub (loc g y) (map fst (slices (recv_slice_sync g) (size ls o) dir))))
    (map (fun _ => g) y)).

Definition valid (g : Z) (ls : list (list Z)) (o y dir : list Z) : bool :=
  in_slices (loc g y) (slices (recv_slice_sync g) (size ls o) dir).

Lemma alias_cons g l ls o0 o y0 y d dir :
  alias g (l :: ls) (o0 :: o) (y0 :: y) (d :: dir) =
  (fst (alias1 g l o0 y0 d) :: fst (alias g ls o y dir),
   snd (alias1 g l o0 y0 d) :: snd (alias g ls o y dir)).
Proof.
  unfold alias, alias1. rewrite counts_cons. unfold opp_dir. cbn [map]. rewrite neighbor_offset_cons.
  rewrite !size_cons. unfold slices, loc. cbn [map map2 fst snd]. reflexivity.
Qed.

Lemma valid_cons g l ls o0 o y0 y d dir :
  valid g (l :: ls) (o0 :: o) (y0 :: y) (d :: dir) = true <->
  valid1 g l o0 y0 d /\ valid g ls o y dir = true.
Proof.
  unfold valid, valid1, slices, loc. rewrite size_cons. cbn [map2 map in_slices].
  destruct (recv_slice_sync g (blk l o0) d) as [lo hi] eqn:E. cbn [fst snd].
  rewrite !andb_true_iff, Z.leb_le, Z.ltb_lt. unfold slices. tauto.
Qed.

Lemma alias_spec g : 0 <= g -> forall ls, Forall (wide1 g) ls -> forall o y a z,
  in_box o (counts ls) -> in_box y (size ls o) -> in_box a (counts ls) ->
  (in_extended g z (size ls a) /\ wrap ls a z = wrap ls o y) <->
  exists dir, direction (length ls) dir /\ valid g ls o y dir = true /\ alias g ls o y dir = (a, z).
Proof.
  intros Hg. unfold in_extended, wrap, direction.
  induction 1 as [|l ls W1 W IH]; intros o y a z Ho Hy Ha.
  - inversion Ho; subst. inversion Hy; subst. inversion Ha; subst. simpl. split.
    + intros [H _]. inversion H; subst. exists []. repeat split; auto.
    + intros [dir [[L _] [_ E]]]. destruct dir; [|discriminate]. inversion E; subst.
      split; [constructor|auto].
  - rewrite counts_cons in Ho, Ha. inversion Ho as [|o0 ? o' ? Ho0 Ho']; subst.
    inversion Ha as [|a0 ? a' ? Ha0 Ha']; subst. rewrite size_cons in *.
    inversion Hy as [|y0 ? y' ? Hy0 Hy']; subst.
    pose proof (fun z0 => alias1_spec g l o0 y0 a0 z0 Hg W1 Ho0 Hy0 Ha0) as A1.
    unfold offs in *. cbn [map2 map]. split.
    + intros [H E]. inversion H as [|z0 ? z' ? Hz0 Hz']; subst. cbn [map2] in E.
      injection E as E1 E2.
      destruct (proj1 (A1 z0)) as [d [D1 [D2 D3]]]; [split; auto|].
      destruct (proj1 (IH o' y' a' z' Ho' Hy' Ha')) as [dir [[L1 L2] [L3 L4]]]; [split; auto|].
      exists (d :: dir). split; [split; [simpl; auto|constructor; auto]|].
      split; [apply valid_cons; auto|]. rewrite alias_cons, D3, L4. reflexivity.
    + intros [dir [[L F] [Hv E]]]. destruct dir as [|d dir]; [discriminate|].
      inversion F; subst. apply valid_cons in Hv. destruct Hv as [V1 V2].
      rewrite alias_cons in E. destruct (alias1 g l o0 y0 d) as [p1 p2] eqn:P.
      destruct (alias g ls o' y' dir) as [q1 q2] eqn:Q. cbn [fst snd] in E.
      destruct z as [|z0 z']; [discriminate|]. injection E as -> -> -> ->.
      destruct (proj2 (A1 z0)) as [P1 P2].
      { exists d. auto. }
      destruct (proj2 (IH o' y' a' z' Ho' Hy' Ha')) as [Q1 Q2].
      { exists dir. split; [split; [simpl in L; lia|auto]|]. split; auto. }
      split; [constructor; auto|]. cbn [map2]. f_equal; auto.
Qed.

Lemma alias_inj g : 0 <= g -> forall ls, Forall (wide1 g) ls -> forall o y dir dir',
  in_box o (counts ls) -> in_box y (size ls o) ->
  direction (length ls) dir -> direction (length ls) dir' ->
  alias g ls o y dir = alias g ls o y dir' -> dir = dir'.
Proof.
  intros Hg. unfold direction. induction 1 as [|l ls W1 W IH]; intros o y dir dir' Ho Hy [L F] [L' F'] E.
  - destruct dir, dir'; auto; discriminate.
  - rewrite counts_cons in Ho. inversion Ho as [|o0 ? o' ? Ho0 Ho']; subst. rewrite size_cons in *.
    inversion Hy as [|y0 ? y' ? Hy0 Hy']; subst.
    destruct dir as [|d dir]; [discriminate|]. destruct dir' as [|d' dir']; [discriminate|].
    inversion F; subst. inversion F'; subst. rewrite !alias_cons in E.
    destruct (alias1 g l o0 y0 d) as [p1 p2] eqn:P. destruct (alias1 g l o0 y0 d') as [p1' p2'] eqn:P'.
    destruct (alias g ls o' y' dir) as [q1 q2] eqn:Q. destruct (alias g ls o' y' dir') as [q1' q2'] eqn:Q'.
    cbn [fst snd] in E. injection E as -> -> -> ->. f_equal.
    + apply (alias1_inj g l o0 y0); auto. congruence.
    + apply (IH o' y'); auto; congruence.
Qed.

Lemma every_spec D d : dimension D -> (In d (every D) <-> direction D d).
Proof.
  intros HD. split; [|apply every_complete; auto].
  intros H.
  assert (B : forallb (fun d => Nat.eqb (length d) D && forallb (fun a => (-1 <=? a) && (a <=? 1)) d) (every D) = true).
  { destruct (dims D HD) as [->|[->| ->]]; vm_compute; reflexivity. }
  rewrite forallb_forall in B. apply B in H. apply andb_true_iff in H as [H1 H2].
  apply Nat.eqb_eq in H1. split; auto. rewrite forallb_forall in H2. apply Forall_forall.
  intros a Ha. apply H2 in Ha. apply andb_true_iff in Ha. rewrite !Z.leb_le in Ha. auto.
Qed.

Lemma every_cons D : dimension D -> every D = repeat 0 D :: all_dirs D.
Proof. intros HD. destruct (dims D HD) as [->|[->| ->]]; reflexivity. Qed.

Lemma nodup_every D : dimension D -> NoDup (every D).
Proof.
  intros HD. rewrite every_cons by auto. constructor; [|apply all_nodup].
  intros H. apply all_direction in H; auto. apply nonzero_iff in H. destruct H as [_ H].
  destruct (dims D HD) as [->|[->| ->]]; discriminate.
Qed.

(** Contribution read at an alias. *)
Lemma loc_alias g ls o y dir :
  length y = length ls -> in_box o (counts ls) -> direction (length ls) dir ->
  let a := neighbor_offset (counts ls) o (opp_dir dir) in
  loc g (snd (alias g ls o y dir)) =
  map2 Z.add (map fst (slices (send_slice_sync g) (size ls a) dir))
       (map2 Z.sub (loc g y) (map fst (slices (recv_slice_sync g) (size ls o) dir))).
Proof.
  cbv zeta. revert o y dir. induction ls as [|l ls IH]; intros o y dir L Ho [Ld Fd].
  - destruct y; [|discriminate]. inversion Ho; subst. reflexivity.
  - destruct y as [|y0 y]; [discriminate|]. destruct dir as [|d dir]; [discriminate|].
    rewrite counts_cons in Ho. inversion Ho as [|o0 ? o' ? Ho0 Ho']; subst. inversion Fd; subst.
    rewrite alias_cons. cbn [snd]. rewrite counts_cons. unfold opp_dir. cbn [map].
    rewrite neighbor_offset_cons, !size_cons. unfold loc at 1, slices. cbn [map map2 loc].
    f_equal; [unfold alias1; cbn [snd fst]; lia|].
    apply IH; auto; split; auto; simpl in Ld; lia.
Qed.

Section Sum.
  Variables (g : Z) (ls : list (list Z)) (gbc : list (flds_bc * flds_bc)).
  Hypothesis W : wide g ls.
  Hypothesis L : length gbc = length ls.
  Hypothesis AP : all_periodic gbc.
  Hypothesis HD : dimension (length ls).
  Let ns := counts ls.

  Lemma AP_paired : paired_flds gbc.
  Proof.
    eapply Forall_impl; [|exact AP]. intros b ->. cbn. repeat split; auto; discriminate.
  Qed.

  Lemma ext_length y o : in_box o ns -> in_extended g y (size ls o) -> length y = length ls.
  Proof.
    intros Ho H. pose proof (Forall2_length _ _ _ H). rewrite size_length in H0; auto.
  Qed.

  Lemma in_slices_active y n : length y = length n ->
    (in_slices (loc g y) (map (fun n => (i_min g, i_max g n)) n) = true <-> in_box y n).
  Proof.
    unfold loc, i_min, i_max, in_box. revert n; induction y as [|a y IH]; intros [|b n] E; try discriminate; simpl.
    - split; auto.
    - rewrite !andb_true_iff, Z.leb_le, Z.ltb_lt, IH by (simpl in E; lia).
      split; [intros [[? ?] ?]; constructor; auto; lia|].
      intros H. inversion H; subst. repeat split; auto; lia.
  Qed.

  Variable f : list Z -> list Z -> R.

  Lemma sync_add_alias o y dir : in_box o ns -> length y = length ls ->
    nonzero_direction (length ls) dir ->
    sync_add g ls gbc f o (loc g y) dir =
    if valid g ls o y dir then f (fst (alias g ls o y dir)) (loc g (snd (alias g ls o y dir))) else 0%R.
  Proof.
    intros Ho Ly Hd. unfold sync_add. fold (counts ls).
    destruct (periodic_partner ls gbc L AP_paired o dir AP Ho Hd) as [-> _].
    unfold valid. destruct (in_slices _ _); auto.
    rewrite loc_alias; auto. apply Hd.
  Qed.

  Lemma alias_zero o y : in_box o ns -> length y = length ls ->
    alias g ls o y (repeat 0 (length ls)) = (o, y).
  Proof.
    unfold ns. clear. revert o y. induction ls as [|l l' IH]; intros o y Ho Ly.
    - inversion Ho; subst. destruct y; [reflexivity|discriminate].
    - rewrite counts_cons in Ho. inversion Ho as [|o0 ? o' ? Ho0 Ho']; subst.
      destruct y as [|y0 y]; [discriminate|]. cbn [length repeat]. rewrite alias_cons, IH by (auto; simpl in Ly; lia).
      unfold alias1. cbn [fst snd Z.opp]. rewrite neighbor1_zero.
      unfold send_slice_sync, recv_slice_sync, i_min. cbn [Z.eqb Z.opp fst].
      f_equal. f_equal. lia.
  Qed.

  Lemma valid_zero o y : in_box o ns -> in_box y (size ls o) ->
    valid g ls o y (repeat 0 (length ls)) = true.
  Proof.
    destruct W as [Hg _]. unfold ns. clear -Hg. revert o y.
    induction ls as [|l l' IH]; intros o y Ho Hy.
    - inversion Ho; subst. inversion Hy; subst. reflexivity.
    - rewrite counts_cons in Ho. inversion Ho as [|o0 ? o' ? Ho0 Ho']; subst.
      rewrite size_cons in Hy. inversion Hy as [|y0 ? y' ? Hy0 Hy']; subst.
      cbn [length repeat]. apply valid_cons. split; [|apply IH; auto].
      unfold valid1, recv_slice_sync, i_min, i_max. cbn [Z.eqb Z.opp fst snd]. lia.
  Qed.

  Lemma wrapped_wrap d y : In d (domains ls) -> wrapped ls d y = wrap ls (sub_offset_ndomains d) y.
  Proof. intros H. destruct (dom_pos ls d H) as [_ [_ E]]. unfold wrapped, wrap. rewrite E. auto. Qed.

  Definition same_pos (p q : list Z * list Z) : bool :=
    if list_eq_dec Z.eq_dec (wrap ls (fst p) (snd p)) (wrap ls (fst q) (snd q)) then true else false.

  Lemma same_cell_pos c c' : In (fst c) (domains ls) -> In (fst c') (domains ls) ->
    same_cell ls c c' = same_pos (as_pos c) (as_pos c').
  Proof.
    intros H H'. unfold same_cell, same_pos, as_pos. rewrite !wrapped_wrap by auto. reflexivity.
  Qed.

  Lemma sync_sum o y : in_box o ns -> in_box y (size ls o) ->
    synchronize g ls gbc f (length ls) o (loc g y) =
    rsum (map as_pos (cells g ls))
      (fun q => if same_pos (o, y) q then f (fst q) (loc g (snd q)) else 0%R).
  Proof.
    intros Ho Hy. pose proof W as [Hg Wl].
    assert (Ly : length y = length ls).
    { pose proof (in_box_length _ _ Hy). rewrite size_length in H; auto. }
    unfold synchronize. rewrite (proj2 (in_slices_active y (size ls o) ltac:(rewrite size_length; auto)) Hy).
    unfold sync_buff. rewrite fold_left_rsum, Rplus_0_l.
    set (h := fun q : list Z * list Z => f (fst q) (loc g (snd q))).
    rewrite (rsum_ext _ _ (fun dir => if valid g ls o y dir then h (alias g ls o y dir) else 0%R)).
    2:{ intros dir Hd. apply all_direction in Hd; auto. rewrite sync_add_alias; auto. }
    transitivity (rsum (every (length ls)) (fun dir => if valid g ls o y dir then h (alias g ls o y dir) else 0%R)).
    { rewrite every_cons by auto.
      change (rsum (repeat 0%Z (length ls) :: all_dirs (length ls))
        (fun dir => if valid g ls o y dir then h (alias g ls o y dir) else 0%R)) with
        ((if valid g ls o y (repeat 0%Z (length ls)) then h (alias g ls o y (repeat 0%Z (length ls))) else 0) +
         rsum (all_dirs (length ls)) (fun dir => if valid g ls o y dir then h (alias g ls o y dir) else 0))%R.
      rewrite valid_zero, alias_zero by auto. reflexivity. }
    rewrite <- rsum_filter. rewrite <- (rsum_map (alias g ls o y) _ h).
    rewrite <- (rsum_filter (fun q => same_pos (o, y) q) _ h).
    apply rsum_perm. apply NoDup_Permutation.
    - apply nodup_map_in.
      + apply NoDup_filter. apply nodup_every; auto.
      + intros d d' H H' E. apply filter_In in H, H'. destruct H as [H _], H' as [H' _].
        apply every_spec in H, H'; auto. eapply alias_inj; eauto.
    - apply NoDup_filter. apply nodup_poscells.
    - intros [a z]. rewrite in_map_iff, filter_In, in_poscells.
      assert (SP : same_pos (o, y) (a, z) = true <-> wrap ls a z = wrap ls o y).
      { unfold same_pos. cbn [fst snd]. destruct (list_eq_dec _ _ _); split; congruence. }
      rewrite SP. split.
      + intros [dir [E H]]. apply filter_In in H as [H Hv]. apply every_spec in H; auto.
        assert (Ha : in_box a ns).
        { unfold alias in E. inversion E; subst. apply neighbor_offset_in_box; auto.
          apply dir_F2. unfold ns, counts. rewrite map_length. apply opp_direction. auto. }
        split; [split; auto|].
        * apply (alias_spec g Hg ls Wl o y a z Ho Hy Ha). eauto.
        * apply (alias_spec g Hg ls Wl o y a z Ho Hy Ha). eauto.
      + intros [[Ha Hz] E].
        destruct (proj1 (alias_spec g Hg ls Wl o y a z Ho Hy Ha) (conj Hz E)) as [dir [D1 [D2 D3]]].
        exists dir. split; auto. apply filter_In. split; auto. apply every_spec; auto.
  Qed.

  Lemma sync_result d y : In d (domains ls) -> in_box y (sub_ncells d) ->
    synchronize g ls gbc f (length ls) (sub_offset_ndomains d) (loc g y) =
    rsum (cells g ls) (fun c => if same_cell ls (d, y) c
       then f (sub_offset_ndomains (fst c)) (loc g (snd c)) else 0%R).
  Proof.
    intros Hd Hy. destruct (dom_pos ls d Hd) as [B [E1 E2]]. rewrite sync_sum; auto; [|rewrite <- E1; auto].
    rewrite rsum_map. apply rsum_ext. intros c Hc. apply in_cells in Hc.
    rewrite same_cell_pos; auto; tauto.
  Qed.

  (** Each cell, ghosts included, is exactly one active cell of the grid. *)
  Lemma owner_unique c : In c (cells g ls) ->
    exists c0, In c0 (cells 0 ls) /\ same_cell ls c0 c = true /\
      forall c1, In c1 (cells 0 ls) -> same_cell ls c1 c = true -> c1 = c0.
  Proof.
    intros Hc. apply in_cells in Hc. destruct c as [d z]. cbn [fst snd] in Hc. destruct Hc as [Hd Hz].
    destruct (dom_pos ls d Hd) as [B [E1 E2]]. pose proof W as [Hg Wl]. rewrite E1 in Hz.
    destruct (haloD g ls Hg Wl _ z B Hz) as [x [X1 [_ X3]]].
    set (a := neighbor_offset (counts ls) (sub_offset_ndomains d) (zone z (size ls (sub_offset_ndomains d)))) in *.
    assert (Ha : in_box a ns).
    { apply neighbor_offset_in_box; auto. apply dir_F2. unfold ns, counts. rewrite map_length.
      rewrite <- (size_length ls (sub_offset_ndomains d) B). eapply zone_dir; eauto. }
    destruct (pos_dom ls a Ha) as [da [Hda Ea]].
    assert (Z0 : forall n t, in_extended 0 t n <-> in_box t n).
    { intros n t. unfold in_extended, in_box. split; intros H; (eapply Forall2_impl; [|exact H]; simpl; intros; lia). }
    destruct (dom_pos ls da Hda) as [Bda [E1a E2a]].
    assert (WR : forall a z, in_box a ns -> in_box z (size ls a) -> wrap ls a z = map2 Z.add (offs ls a) z).
    { intros a' z' Ha' Hz'. pose proof (at_active g ls gbc (fun t => t) W L a' z' Ha' Hz') as Q. exact Q. }
    exists (da, x). split; [|split].
    - apply in_cells. cbn [fst snd]. split; auto. apply Z0. rewrite E1a, Ea. auto.
    - rewrite same_cell_pos by auto. unfold same_pos, as_pos. cbn [fst snd].
      destruct (list_eq_dec _ _ _) as [|N]; auto. exfalso. apply N. rewrite Ea.
      rewrite WR; auto.
    - intros [d1 x1] H1 S1. apply in_cells in H1. cbn [fst snd] in H1. destruct H1 as [H1 H1'].
      apply Z0 in H1'. destruct (dom_pos ls d1 H1) as [B1 [E11 E21]]. rewrite E11 in H1'.
      rewrite same_cell_pos in S1 by auto. unfold same_pos, as_pos in S1. cbn [fst snd] in S1.
      destruct (list_eq_dec _ _ _) as [S|]; [|discriminate].
      rewrite WR in S; auto. unfold wrap in S. rewrite <- X3 in S.
      (* tiling uniqueness by dimension *)
      assert (U : forall lls a1 a2 t1 t2, Forall (wide1 g) lls -> in_box a1 (counts lls) -> in_box a2 (counts lls) ->
         in_box t1 (size lls a1) -> in_box t2 (size lls a2) ->
         map2 Z.add (offs lls a1) t1 = map2 Z.add (offs lls a2) t2 -> a1 = a2 /\ t1 = t2).
      { clear. intros lls a1 a2 t1 t2 F. revert a1 a2 t1 t2. induction F as [|l lls W1 F IH]; intros a1 a2 t1 t2 A1 A2 T1 T2 E.
        - inversion A1; inversion A2; subst. inversion T1; inversion T2; subst. auto.
        - rewrite counts_cons in *. inversion A1 as [|u1 ? a1' ? U1 A1']; subst.
          inversion A2 as [|u2 ? a2' ? U2 A2']; subst. rewrite size_cons in *.
          inversion T1 as [|v1 ? t1' ? V1 T1']; subst. inversion T2 as [|v2 ? t2' ? V2 T2']; subst.
          unfold offs in *. cbn [map2] in E. injection E as E1 E2.
          destruct (block_unique_Z g l u1 u2 v1 v2 W1 U1 U2 V1 V2 E1) as [-> ->].
          destruct (IH a1' a2' t1' t2' A1' A2' T1' T2' E2) as [-> ->]. auto. }
      destruct (U ls _ a x1 x Wl B1 Ha H1' X1 S) as [Q1 Q2].
      subst x1. f_equal. apply (dom_inj ls); auto. congruence.
  Qed.

  Lemma sync_total :
    rsum (cells 0 ls) (fun c => synchronize g ls gbc f (length ls) (sub_offset_ndomains (fst c)) (loc g (snd c)))
    = rsum (cells g ls) (fun c => f (sub_offset_ndomains (fst c)) (loc g (snd c))).
  Proof.
    assert (Z0 : forall n t, in_extended 0 t n <-> in_box t n).
    { intros n t. unfold in_extended, in_box. split; intros H; (eapply Forall2_impl; [|exact H]; simpl; intros; lia). }
    rewrite (rsum_ext (cells 0 ls) _ (fun c0 => rsum (cells g ls) (fun c => if same_cell ls c0 c
       then f (sub_offset_ndomains (fst c)) (loc g (snd c)) else 0%R))).
    2:{ intros [d y] H. apply in_cells in H. cbn [fst snd] in *. apply sync_result; [tauto|]. apply Z0. tauto. }
    rewrite rsum_swap. apply rsum_ext. intros c Hc.
    destruct (owner_unique c Hc) as [c0 [H1 [H2 H3]]].
    apply (rsum_single _ (fun c0 => same_cell ls c0 c) _ c0); auto. apply nodup_cells.
  Qed.
End Sum.
