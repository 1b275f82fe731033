From Coq Require Import Reals Lra Psatz ZArith Lia List Bool.
From Verif Require Import Base ListLemmas DecompModel DecompSpec DirsModel DirsSpec DirsProofs TopoModel TopoSpec TopoProofs VelModel VelSpec PushModel PushSpec.
Import ListNotations.
Open Scope R_scope.

Definition outcome k n (bc : prtl_bc * prtl_bc) c := bc_dim k n (fst bc) (snd bc) c.

Lemma bc_from_length flip k ns bcs cs u t : length (fst (fst (bc_from flip k ns bcs cs u t))) = length cs.
Proof.
  revert k bcs cs u t. induction ns as [|n ns IH]; intros k [|[lo hi] bcs] [|c cs] u t; cbn [bc_from]; auto.
  destruct (bc_dim k n lo hi c) as [[c' dies] inv].
  specialize (IH (S k) bcs cs (if inv then flip k u else u) (if dies then 0%Z else t)).
  destruct (bc_from _ _ _ _ _ _ _) as [[cs'' u''] t'']. cbn [fst length] in *. lia.
Qed.

Lemma bc_from_pos flip k ns bcs cs u t j n bc c :
  nth_error ns j = Some n -> nth_error bcs j = Some bc -> nth_error cs j = Some c ->
  nth_error (fst (fst (bc_from flip k ns bcs cs u t))) j = Some (fst (fst (outcome (k + j) n bc c))).
Proof.
  revert k ns bcs cs u t. induction j as [|j IH]; intros k [|n0 ns] [|[lo hi] bcs] [|c0 cs] u t E1 E2 E3; cbn in E1, E2, E3; try discriminate;
  cbn [bc_from]; destruct (bc_dim k n0 lo hi c0) as [[c' dies] inv] eqn:Q;
  destruct (bc_from flip (S k) ns bcs cs (if inv then flip k u else u) (if dies then 0%Z else t)) as [[cs'' u''] t''] eqn:Q2; cbn [fst].
  - injection E1 as ->. injection E2 as <-. injection E3 as ->. cbn [nth_error]. rewrite Nat.add_0_r. unfold outcome. cbn [fst snd]. rewrite Q. auto.
  - cbn [nth_error]. rewrite <- Nat.add_succ_comm. specialize (IH (S k) ns bcs cs (if inv then flip k u else u) (if dies then 0%Z else t) E1 E2 E3).
    rewrite Q2 in IH. exact IH.
Qed.

Lemma bc_from_interior flip k ns bcs cs u t : Forall2 inside ns cs -> bc_from flip k ns bcs cs u t = (cs, u, t).
Proof.
  intros H. revert k bcs u t. induction H as [|n c ns cs Hc H IH]; intros k [|[lo hi] bcs] u t; cbn [bc_from]; auto.
  unfold bc_dim. destruct Hc as [H1 H2].
  rewrite (proj2 (Z.ltb_ge _ _) H1), (proj2 (Z.leb_gt _ _) H2). rewrite IH. auto.
Qed.

Lemma interior_untouched flip ns bcs p : Forall2 inside ns (p_pos p) -> boundary flip ns bcs p = p.
Proof. intros H. unfold boundary. rewrite bc_from_interior by auto. destruct p; auto. Qed.

(** Deaths. *)
Definition killed k n bc c : bool := snd (fst (outcome k n bc c)).
Definition flipped k n bc c : bool := snd (outcome k n bc c).

Lemma bc_from_tag flip k ns bcs cs u t :
  length bcs = length ns -> length cs = length ns -> t <> 0%Z ->
  let t' := snd (bc_from flip k ns bcs cs u t) in
  (t' = 0%Z \/ t' = t) /\
  (t' = 0%Z <-> exists j n bc c, nth_error ns j = Some n /\ nth_error bcs j = Some bc /\ nth_error cs j = Some c /\
      killed (k + j) n bc c = true).
Proof.
  assert (Z0 : forall ns k bcs cs u, snd (bc_from flip k ns bcs cs u 0%Z) = 0%Z).
  { clear. induction ns as [|n ns IH]; intros k [|[lo hi] bcs] [|c cs] u; cbn [bc_from]; auto.
    destruct (bc_dim k n lo hi c) as [[c' dies] inv].
    specialize (IH (S k) bcs cs (if inv then flip k u else u)).
    replace (if dies then 0%Z else 0%Z) with 0%Z by (destruct dies; auto).
    destruct (bc_from _ _ _ _ _ _ _) as [[? ?] ?]. exact IH. }
  cbv zeta. revert k bcs cs u. induction ns as [|n ns IH]; intros k [|[lo hi] bcs] [|c cs] u L1 L2 Ht; cbn in L1, L2; try discriminate; cbn [bc_from].
  - cbn [snd]. split; auto. split; [tauto|]. intros (j & ? & ? & ? & E & _). destruct j; discriminate.
  - destruct (bc_dim k n lo hi c) as [[c' dies] inv] eqn:Q.
    set (u1 := if inv then flip k u else u).
    assert (K : killed k n (lo, hi) c = dies) by (unfold killed, outcome; cbn [fst snd]; rewrite Q; auto).
    destruct dies.
    + pose proof (Z0 ns (S k) bcs cs u1) as Z1. destruct (bc_from flip (S k) ns bcs cs u1 0%Z) as [[? ?] t']. cbn [snd] in *. subst t'.
      split; auto. split; auto. intros _. exists 0%nat, n, (lo, hi), c. rewrite Nat.add_0_r. auto.
    + specialize (IH (S k) bcs cs u1 ltac:(lia) ltac:(lia) Ht). destruct (bc_from flip (S k) ns bcs cs u1 t) as [[? ?] t']. cbn [snd] in *.
      split; [tauto|]. destruct IH as [_ IH]. rewrite IH. split.
      * intros (j & n' & bc & c0 & E1 & E2 & E3 & E4). exists (S j), n', bc, c0. rewrite <- Nat.add_succ_comm. auto.
      * intros ([|j] & n' & bc & c0 & E1 & E2 & E3 & E4).
        -- cbn in E1, E2, E3. injection E1 as ->. injection E2 as <-. injection E3 as ->. rewrite Nat.add_0_r in E4. congruence.
        -- exists j, n', bc, c0. rewrite Nat.add_succ_comm. auto.
Qed.

Lemma killed_met k n bc c : (0 < n)%Z -> killed k n bc c = true <-> (met n bc c P_ABSORB \/ met n bc c P_ATMOSPHERE).
Proof.
  intros Hn. unfold killed, outcome, bc_dim, met, below, above. destruct bc as [lo hi]. cbn [fst snd].
  destruct (Z.ltb_spec (ci c) 0); [|destruct (Z.leb_spec n (ci c))]; 
  [destruct lo|destruct hi|]; cbn [action_of]; try destruct (Nat.eqb k 1); cbn [bc_side fst snd];
  (split; [intros; try discriminate; intuition lia|intros [[[]|[]]|[[]|[]]]; try lia; auto; discriminate]).
Qed.

Lemma absorbing flip ns bcs p :
  length bcs = length ns -> length (p_pos p) = length ns -> Forall (fun n => 0 < n)%Z ns -> p_tag p = 1%Z ->
  let q := boundary flip ns bcs p in
  (p_tag q = 0 \/ p_tag q = 1)%Z /\
  (p_tag q = 0%Z <-> exists k n bc c, nth_error ns k = Some n /\ nth_error bcs k = Some bc /\ nth_error (p_pos p) k = Some c /\
     (met n bc c P_ABSORB \/ met n bc c P_ATMOSPHERE)).
Proof.
  intros L1 L2 F Ht. cbv zeta. unfold boundary. pose proof (bc_from_tag flip 0 ns bcs (p_pos p) (p_u p) (p_tag p) L1 L2 ltac:(lia)) as H.
  cbv zeta in H. destruct (bc_from _ _ _ _ _ _ _) as [[cs u] t]. cbn [snd p_tag] in *. destruct H as [H1 H2]. split; [lia|].
  rewrite H2. split; intros (k & n & bc & c & E1 & E2 & E3 & E4); exists k, n, bc, c; repeat split; auto; cbn [Nat.add] in *;
  assert (0 < n)%Z by (rewrite Forall_forall in F; apply F; eapply nth_error_In; eauto); eapply killed_met in E4; eauto; cbn [Nat.add]; eauto.
Qed.

Lemma boundary_pos flip ns bcs p k n bc c :
  nth_error ns k = Some n -> nth_error bcs k = Some bc -> nth_error (p_pos p) k = Some c ->
  nth_error (p_pos (boundary flip ns bcs p)) k = Some (fst (fst (outcome k n bc c))).
Proof.
  intros E1 E2 E3. unfold boundary. pose proof (bc_from_pos flip 0 ns bcs (p_pos p) (p_u p) (p_tag p) k n bc c E1 E2 E3) as H.
  destruct (bc_from _ _ _ _ _ _ _) as [[cs u] t]. exact H.
Qed.

Lemma periodic_shift flip ns bcs p k n bc c :
  nth_error ns k = Some n -> nth_error bcs k = Some bc -> nth_error (p_pos p) k = Some c -> (0 < n)%Z ->
  met n bc c P_PERIODIC ->
  exists c', nth_error (p_pos (boundary flip ns bcs p)) k = Some c' /\
    ((below c /\ moved_by n c c') \/ (above n c /\ moved_by (- n) c c')) /\
    ((- n <= ci c < 2 * n)%Z -> inside n c').
Proof.
  intros E1 E2 E3 Hn M. exists (fst (fst (outcome k n bc c))). split; [apply boundary_pos; auto|].
  unfold outcome, bc_dim, met, below, above, inside, moved_by in *. destruct bc as [lo hi]. cbn [fst snd] in *.
  destruct M as [[Hb E]|[Ha E]]; subst.
  - rewrite (proj2 (Z.ltb_lt _ _) Hb). cbn [action_of bc_side fst ci cx ci_prev cx_prev]. split; [left; auto 10|intros; lia].
  - destruct (Z.ltb_spec (ci c) 0); [lia|]. rewrite (proj2 (Z.leb_le _ _) Ha). cbn [action_of bc_side fst ci cx ci_prev cx_prev]. split; [right; auto 10|intros; lia].
Qed.

Lemma reflecting flip ns bcs p k n bc c :
  nth_error ns k = Some n -> nth_error bcs k = Some bc -> nth_error (p_pos p) k = Some c -> (0 < n)%Z ->
  (met n bc c P_REFLECT \/ (k = 1%nat /\ met n bc c P_AXIS)) -> near n c ->
  exists c', nth_error (p_pos (boundary flip ns bcs p)) k = Some c' /\
    ((below c /\ mirrored_at 0 c c') \/ (above n c /\ mirrored_at (IZR n) c c')) /\ inside n c' /\
    (0 <= cx c < 1 -> 0 < cx c' <= 1).
Proof.
  intros E1 E2 E3 Hn M N. exists (fst (fst (outcome k n bc c))). split; [apply boundary_pos; auto|].
  unfold outcome, bc_dim, met, below, above, near, inside, mirrored_at, coord in *. destruct bc as [lo hi]. cbn [fst snd] in *.
  assert (A : (ci c < 0 /\ (action_of k lo = Mirror \/ action_of k lo = Fold) \/ n <= ci c /\ (action_of k hi = Mirror \/ action_of k hi = Fold))%Z).
  { destruct M as [[[? <-]|[? <-]]|[-> [[? <-]|[? <-]]]]; cbn; auto. }
  destruct A as [[Hb A]|[Ha A]].
  - rewrite (proj2 (Z.ltb_lt _ _) Hb). assert (E : ci c = (-1)%Z) by lia.
    destruct A as [A|A]; rewrite A; cbn [bc_side fst ci cx ci_prev cx_prev]; rewrite E; repeat split; try lia; try lra; auto; left; repeat split; auto; try lia; lra.
  - destruct (Z.ltb_spec (ci c) 0); [lia|]. rewrite (proj2 (Z.leb_le _ _) Ha). assert (E : ci c = n) by lia.
    destruct A as [A|A]; rewrite A; cbn [bc_side fst ci cx ci_prev cx_prev]; rewrite E; repeat split; try lia; try lra; auto; right; repeat split; auto; try lia; rewrite minus_IZR; lra.
Qed.

(** Velocities in Cartesian coordinates. *)
Lemma neg_comp_at k j u : (k < 3)%nat -> (j < 3)%nat -> comp j (neg_comp k u) = if Nat.eqb j k then - comp j u else comp j u.
Proof. intros. destruct u as [[a b] c]. destruct k as [|[|[|]]], j as [|[|[|]]]; try lia; cbn; auto. Qed.

Lemma bc_from_vel k ns bcs cs u t j :
  length bcs = length ns -> length cs = length ns -> (k + length ns <= 3)%nat -> (j < 3)%nat ->
  comp j (snd (fst (bc_from neg_comp k ns bcs cs u t))) =
  if andb (Nat.leb k j) (match nth_error ns (j - k), nth_error bcs (j - k), nth_error cs (j - k) with
     | Some n, Some bc, Some c => flipped j n bc c | _, _, _ => false end)
  then - comp j u else comp j u.
Proof.
  revert k bcs cs u t. induction ns as [|n ns IH]; intros k [|[lo hi] bcs] [|c cs] u t L1 L2 Hk Hj; cbn in L1, L2; try discriminate; cbn [bc_from].
  - cbn [fst snd]. destruct (j - k)%nat; cbn; rewrite Bool.andb_false_r; auto.
  - destruct (bc_dim k n lo hi c) as [[c' dies] inv] eqn:Q.
    set (u1 := if inv then neg_comp k u else u). set (t1 := if dies then 0%Z else t).
    assert (F : flipped k n (lo, hi) c = inv) by (unfold flipped, outcome; cbn [fst snd]; rewrite Q; auto).
    cbn [length] in Hk. specialize (IH (S k) bcs cs u1 t1 ltac:(lia) ltac:(lia) ltac:(lia) Hj).
    destruct (bc_from neg_comp (S k) ns bcs cs u1 t1) as [[? u'] ?]. cbn [fst snd] in *. rewrite IH. clear IH.
    assert (U : comp j u1 = if andb inv (Nat.eqb j k) then - comp j u else comp j u).
    { unfold u1. destruct inv; cbn [andb]; auto. apply neg_comp_at; lia. }
    destruct (Nat.leb_spec (S k) j) as [H|H].
    + replace (Nat.leb k j) with true by (symmetry; apply Nat.leb_le; lia). cbn [andb].
      replace (j - k)%nat with (S (j - S k)) by lia. cbn [nth_error].
      destruct (Nat.eqb_spec j k); [lia|]. rewrite Bool.andb_false_r in U. rewrite U. auto.
    + cbn [andb]. rewrite U. destruct (Nat.eqb_spec j k) as [->|N].
      * rewrite Nat.leb_refl, Nat.sub_diag. cbn [nth_error andb]. rewrite F, Bool.andb_true_r. auto.
      * destruct (Nat.leb_spec k j); [lia|]. rewrite Bool.andb_false_r. cbn [andb]. auto.
Qed.

Lemma flipped_met k n bc c : (0 < n)%Z -> flipped k n bc c = true <-> met n bc c P_REFLECT.
Proof.
  intros Hn. unfold flipped, outcome, bc_dim, met, below, above. destruct bc as [lo hi]. cbn [fst snd].
  destruct (Z.ltb_spec (ci c) 0); [|destruct (Z.leb_spec n (ci c))];
  [destruct lo|destruct hi|]; cbn [action_of]; try destruct (Nat.eqb k 1); cbn [bc_side fst snd];
  (split; [intros; try discriminate; intuition lia|intros [[]|[]]; try lia; auto; discriminate]).
Qed.

Lemma velocities ns bcs p :
  length bcs = length ns -> length (p_pos p) = length ns -> (length ns <= 3)%nat -> Forall (fun n => 0 < n)%Z ns ->
  forall j, (j < 3)%nat ->
  let hit := exists n bc c, nth_error ns j = Some n /\ nth_error bcs j = Some bc /\ nth_error (p_pos p) j = Some c /\ met n bc c P_REFLECT in
  let u' := p_u (boundary neg_comp ns bcs p) in
  (hit -> comp j u' = - comp j (p_u p)) /\ (~ hit -> comp j u' = comp j (p_u p)).
Proof.
  intros L1 L2 L3 F j Hj. cbv zeta. unfold boundary. pose proof (bc_from_vel 0 ns bcs (p_pos p) (p_u p) (p_tag p) j L1 L2 L3 Hj) as H.
  destruct (bc_from _ _ _ _ _ _ _) as [[cs u] t]. cbn [fst snd p_u] in *. rewrite Nat.sub_0_r in H. cbn [Nat.leb andb] in H. rewrite H. clear H.
  destruct (nth_error ns j) as [n|] eqn:E1, (nth_error bcs j) as [bc|] eqn:E2, (nth_error (p_pos p) j) as [c|] eqn:E3;
  try (split; [intros (? & ? & ? & K1 & K2 & K3 & _); discriminate|intros _; auto]).
  assert (Hn : (0 < n)%Z) by (rewrite Forall_forall in F; apply F; eapply nth_error_In; eauto).
  pose proof (flipped_met j n bc c Hn) as K. destruct (flipped j n bc c); split; auto.
  - intros N. exfalso. apply N. exists n, bc, c. tauto.
  - intros (? & ? & ? & K1 & K2 & K3 & K4). injection K1 as <-. injection K2 as <-. injection K3 as <-. apply K in K4. discriminate.
Qed.

(** A curvilinear reflection reverses one component in the curvilinear basis. *)
Lemma flip_curved_ok to_U from_U k u : (forall v, to_U (from_U v) = v) -> (forall v, from_U (to_U v) = v) ->
  to_U (flip_curved to_U from_U k u) = neg_comp k (to_U u) /\
  flip_curved to_U from_U k (flip_curved to_U from_U k u) = u.
Proof.
  intros H1 H2. unfold flip_curved. rewrite !H1. split; auto.
  rewrite <- (H2 u) at 2. f_equal. destruct (to_U u) as [[a b] c]. destruct k as [|[|]]; unfold neg_comp, v1, v2, v3; cbn [fst snd]; rewrite Ropp_involutive; auto.
Qed.

(** ** Particles left outside belong to a neighbour *)
Lemma axis_dir_aligned D k s : (k < D)%nat -> s = (-1)%Z \/ s = 1%Z -> axis_aligned D (axis_dir D k s) k s.
Proof.
  intros Hk Hs. unfold axis_dir. split; [split|].
  - rewrite !app_length, !repeat_length. cbn. lia.
  - rewrite !Forall_app. repeat split.
    + apply Forall_forall. intros x Hx. apply repeat_spec in Hx. lia.
    + repeat constructor; lia.
    + apply Forall_forall. intros x Hx. apply repeat_spec in Hx. lia.
  - split; auto. split; [lia|]. intros j Hj. destruct (Nat.eqb_spec j k) as [->|N].
    + rewrite app_nth2; rewrite repeat_length; [|lia]. rewrite Nat.sub_diag. auto.
    + destruct (lt_dec j k).
      * rewrite app_nth1 by (rewrite repeat_length; lia). apply nth_repeat.
      * rewrite app_nth2; rewrite repeat_length; [|lia]. replace (j - k)%nat with (S (j - S k)) by lia. cbn. apply nth_repeat.
Qed.

Notation pface1 := (face1 prtl_bc_eq_dec P_PERIODIC P_SYNC).
Lemma prtl_axis ns gbc o k s : length gbc = length ns -> in_box o ns -> (k < length ns)%nat -> s = (-1)%Z \/ s = 1%Z ->
  prtl_bc_in ns gbc o (axis_dir (length ns) k s) = pface1 (nth k ns 0%Z) (nth k o 0%Z) s (nth k gbc (P_INVALID, P_INVALID)).
Proof.
  intros L Ho Hk Hs. pose proof (axis_dir_aligned (length ns) k s Hk Hs) as A. pose proof (in_box_length _ _ Ho) as L1.
  unfold prtl_bc_in. rewrite bc_in_faces; auto; [|eapply axis_nonzero; eauto].
  rewrite (nth_faces_single prtl_bc_eq_dec P_PERIODIC P_SYNC ns o gbc _ k s P_INVALID) by auto. cbn [first_nonperiodic].
  destruct (prtl_bc_eq_dec _ _) as [E|E]; auto.
Qed.

Lemma face_sync n a d bf bp : d = (-1)%Z \/ d = 1%Z -> same_periodicity bf bp ->
  fst bp <> P_SYNC -> snd bp <> P_SYNC -> pface1 n a d bp = P_SYNC -> fface1 n a d bf = F_SYNC.
Proof.
  destruct bf as [fl fh], bp as [pl ph]. unfold same_periodicity. cbn [fst snd]. intros Hd [S1 S2] N1 N2. unfold face1, raw1. cbn [fst snd].
  destruct Hd as [->| ->]; cbn [Z.eqb Pos.eqb].
  - destruct (Z.eqb_spec a 0).
    + destruct (Z.eqb (neighbor1 n a (-1)) a); [congruence|]. destruct (prtl_bc_eq_dec pl P_PERIODIC) as [->|]; [|congruence].
      intros _. destruct (flds_bc_eq_dec fl F_PERIODIC); auto. tauto.
    + intros _. destruct (Z.eqb _ _); auto.
  - destruct (Z.eqb_spec a (n - 1)).
    + destruct (Z.eqb (neighbor1 n a 1) a); [congruence|]. destruct (prtl_bc_eq_dec ph P_PERIODIC) as [->|]; [|congruence].
      intros _. destruct (flds_bc_eq_dec fh F_PERIODIC); auto. tauto.
    + intros _. destruct (Z.eqb _ _); auto.
Qed.

Lemma face_handled k n a d bp : d = (-1)%Z \/ d = 1%Z -> handled k (fst bp) -> handled k (snd bp) ->
  pface1 n a d bp = P_SYNC \/ handled k (pface1 n a d bp).
Proof.
  destruct bp as [pl ph]. cbn [fst snd]. intros Hd H1 H2. unfold face1, raw1. cbn [fst snd].
  destruct Hd as [->| ->]; cbn [Z.eqb Pos.eqb]; destruct (Z.eqb _ _); destruct (Z.eqb _ _); auto;
  destruct (prtl_bc_eq_dec _ _); auto.
Qed.

(** All faces in direction [dir] synchronised. *)
Lemma faces_sync ns : forall o dir gbc, length gbc = length ns -> length o = length ns -> length dir = length ns ->
  (forall k n a d b, nth_error ns k = Some n -> nth_error o k = Some a -> nth_error dir k = Some d -> nth_error gbc k = Some b -> d <> 0%Z -> fface1 n a d b = F_SYNC) ->
  Forall (eq F_SYNC) (ffaces ns o dir gbc).
Proof.
  induction ns as [|n ns IH]; intros [|a o] [|d dir] [|b gbc] L1 L2 L3 H; cbn in L1, L2, L3; try discriminate; cbn [faces]; auto.
  assert (H' : Forall (eq F_SYNC) (ffaces ns o dir gbc)).
  { apply IH; try lia. intros k n0 a0 d0 b0. apply (H (S k)). }
  destruct (Z.eqb_spec d 0); auto. constructor; auto. symmetry. apply (H 0%nat); auto.
Qed.

Lemma sync_send ns gbc o dir : Forall okbc gbc -> length gbc = length ns -> in_box o ns -> nonzero_direction (length ns) dir ->
  Forall (eq F_SYNC) (ffaces ns o dir gbc) -> send_to ns gbc o dir = Some (neighbor_offset ns o dir).
Proof.
  intros Hg L Ho Hd H. unfold send_to. rewrite (partners_ok ns gbc Hg L o dir Ho Hd). cbn [fst].
  assert (E : flds_bc_in ns gbc o dir = F_SYNC).
  { unfold flds_bc_in. rewrite bc_in_faces; auto; [|apply in_box_length; auto].
    pose proof (fcl_nonempty ns gbc L o dir Ho Hd) as Ne. unfold fcl in Ne.
    destruct (ffaces ns o dir gbc) as [|b l]; [exfalso; apply Ne; auto|]. inversion H; subst. cbn [first_nonperiodic].
    destruct (flds_bc_eq_dec F_SYNC F_PERIODIC); auto. discriminate. }
  rewrite E. auto.
Qed.

Lemma nth_error_map2 {A B C} (f : A -> B -> C) l m k a b : nth_error l k = Some a -> nth_error m k = Some b -> nth_error (map2 f l m) k = Some (f a b).
Proof.
  revert m k. induction l as [|x l IH]; intros [|y m] [|k] E1 E2; cbn in *; try discriminate.
  - congruence.
  - auto.
Qed.

Lemma in_box_dec x n : {in_box x n} + {~ in_box x n}.
Proof.
  unfold in_box. revert n. induction x as [|a x IH]; intros [|b n].
  - left. constructor.
  - right. intros H. inversion H.
  - right. intros H. inversion H.
  - destruct (IH n) as [H|H]; [|right; intros K; inversion K; auto].
    destruct (Z_le_dec 0 a), (Z_lt_dec a b); [left; constructor; auto|right|right|right]; intros K; inversion K; lia.
Qed.

Lemma side_range x y : (-1 <= side x y <= 1)%Z.
Proof. unfold side. destruct (Z.ltb x 0), (Z.leb y x); lia. Qed.
Lemma sides_range l m : Forall (fun a => -1 <= a <= 1)%Z (map2 side l m).
Proof. revert m. induction l; intros [|y m]; cbn; constructor; auto using side_range. Qed.
Lemma sides_zero l m : length l = length m -> Forall (fun a => a = 0%Z) (map2 side l m) -> in_box l m.
Proof.
  revert m. induction l as [|a l IH]; intros [|y m] L X; cbn in *; try lia; constructor; inversion X; subst.
  - unfold side in H1. destruct (Z.ltb_spec a 0), (Z.leb_spec y a); lia.
  - apply IH; auto.
Qed.
Lemma Forall2_nth {A B} (P : A -> B -> Prop) l m k a b : Forall2 P l m -> nth_error l k = Some a -> nth_error m k = Some b -> P a b.
Proof. intros H. revert k. induction H; intros [|k] E1 E2; cbn in *; try discriminate; [congruence|eauto]. Qed.

Lemma left_goes_to_neighbour D ns gf gp o nn flip p :
  dimension D -> length ns = D -> length gf = D -> length gp = D -> length nn = D -> length (p_pos p) = D ->
  paired_flds gf -> Forall2 same_periodicity gf gp ->
  (forall k b, nth_error gp k = Some b -> handled k (fst b) /\ handled k (snd b)) ->
  in_box o ns -> Forall (fun n => 0 < n)%Z nn -> Forall2 near nn (p_pos p) -> p_tag p = 1%Z ->
  exists q, boundary_mpi flip nn (local_bcs ns gp o) p = Ok q /\
    (p_tag q = 0%Z \/ p_tag q = 1%Z \/
     exists dir b, nonzero_direction D dir /\ dir2tag dir = Ok (p_tag q) /\ send_to ns gf o dir = Some b).
Proof.
  intros HD Ln Lf Lp Lnn Lpos Hpf Hs Hh Ho Hn Hnear Ht. unfold boundary_mpi.
  set (bcs := local_bcs ns gp o). set (q := boundary flip nn bcs p).
  assert (Lb : length bcs = length nn) by (unfold bcs, local_bcs; rewrite map_length, seq_length; lia).
  destruct (absorbing flip nn bcs p Lb ltac:(lia) Hn Ht) as [Tq Kq]. fold q in Tq, Kq.
  assert (Lq : length (map ci (p_pos q)) = D).
  { rewrite map_length. unfold q, boundary. pose proof (bc_from_length flip 0 nn bcs (p_pos p) (p_u p) (p_tag p)) as H.
    destruct (bc_from _ _ _ _ _ _ _) as [[? ?] ?]. cbn [fst p_pos] in *. lia. }
  assert (Hn' : Forall (fun k => 0 <= k)%Z nn) by (eapply Forall_impl; [|exact Hn]; cbv beta; intros; lia).
  destruct Tq as [Tq|Tq]; rewrite Tq.
  - rewrite (retag_dead D _ nn HD Lq Lnn). cbn [rbind]. eexists. split; [reflexivity|]. auto.
  - destruct (retag_alive D (map ci (p_pos q)) nn HD Lq Lnn Hn') as (t & E & In & Out). rewrite E. cbn [rbind]. eexists. split; [reflexivity|]. cbn [p_tag].
    destruct (in_box_dec (map ci (p_pos q)) nn) as [B|B].
    { right; left. apply In. exact B. }
    right; right. set (dir := map2 side (map ci (p_pos q)) nn). specialize (Out B). fold dir in Out.
    assert (Ld : length dir = D) by (unfold dir; rewrite map2_length; lia).
    assert (Nz : nonzero_direction D dir).
    { split; [split; auto|].
      - apply sides_range.
      - destruct (Exists_dec (fun a => a <> 0%Z) dir) as [X|X].
        { intros x. destruct (Z.eq_dec x 0); auto. }
        { apply Exists_exists in X. exact X. }
        exfalso. apply B. assert (X' : Forall (fun a => a = 0%Z) dir).
        { apply Forall_forall. intros a Ha. destruct (Z.eq_dec a 0); auto. exfalso. apply X. apply Exists_exists. eauto. }
        apply sides_zero; auto. lia. }
    exists dir, (neighbor_offset ns o dir). split; auto. split; auto.
    apply sync_send; auto; try (rewrite Ln; auto); try lia.
    apply faces_sync; try lia. { apply in_box_length in Ho. lia. }
    intros k n a d bf E1 E2 E3 E4 Hd.
    assert (Hk : (k < D)%nat) by (rewrite <- Ln; apply nth_error_Some; congruence).
    destruct (nth_error (p_pos p) k) as [c|] eqn:Ec; [|apply nth_error_None in Ec; lia].
    destruct (nth_error nn k) as [m|] eqn:Em; [|apply nth_error_None in Em; lia].
    destruct (nth_error gp k) as [bp|] eqn:Ep; [|apply nth_error_None in Ep; lia].
    assert (Eb : nth_error bcs k = Some (pface1 n a (-1) bp, pface1 n a 1 bp)).
    { unfold bcs, local_bcs. cbv zeta. rewrite nth_error_map.
      assert (Sq : nth_error (seq 0 (length ns)) k = Some k).
      { rewrite (nth_error_nth' _ 0%nat) by (rewrite seq_length; lia). rewrite seq_nth by lia. auto. }
      rewrite Sq. cbn [option_map]. rewrite !prtl_axis by (auto; lia).
      rewrite (nth_error_nth ns k 0%Z E1), (nth_error_nth o k 0%Z E2), (nth_error_nth gp k _ Ep). auto. }
    pose proof (boundary_pos flip nn bcs p k m _ c Em Eb Ec) as P. fold q in P.
    set (c' := fst (fst (outcome k m _ c))) in *.
    assert (Ed : d = side (ci c') m).
    { assert (X : nth_error dir k = Some (side (ci c') m)) by (unfold dir; apply nth_error_map2; auto; rewrite nth_error_map, P; auto). congruence. }
    assert (Hm : (0 < m)%Z) by (rewrite Forall_forall in Hn; apply Hn; eapply nth_error_In; eauto).
    assert (Nr : near m c) by (eapply Forall2_nth; eauto).
    destruct (Hh k bp Ep) as [H1 H2].
    assert (Ndead : killed k m (pface1 n a (-1) bp, pface1 n a 1 bp) c = false).
    { destruct (killed k m _ c) eqn:K; auto. exfalso. apply killed_met in K; auto. 
      assert (Z : p_tag q = 0%Z) by (apply Kq; exists k, m, (pface1 n a (-1) bp, pface1 n a 1 bp), c; auto). lia. }
    assert (Sp : same_periodicity bf bp) by (eapply Forall2_nth; eauto).
    assert (NS : forall b, handled k b -> b <> P_SYNC) by (intros b Hb ->; unfold handled in Hb; intuition discriminate).
    assert (D1 : d = (-1)%Z \/ d = 1%Z) by (pose proof (side_range (ci c') m); lia).
    apply (face_sync n a d bf bp D1 Sp); [auto|auto|].
    (* the side the particle is on was not handled *)
    unfold c', outcome, bc_dim in Ed, Ndead. cbn [fst snd] in Ed. unfold killed, outcome, bc_dim in Ndead. cbn [fst snd] in Ndead.
    unfold near in Nr.
    destruct (Z.ltb_spec (ci c) 0) as [Lo|Lo].
    + destruct (face_handled k n a (-1) bp (or_introl eq_refl) H1 H2) as [F|F].
      * rewrite F in Ed. cbn [action_of bc_side fst] in Ed. unfold side in Ed. rewrite (proj2 (Z.ltb_lt _ _) Lo) in Ed. subst d. auto.
      * exfalso. destruct F as [F|[F|[F|[F|[F ->]]]]]; rewrite F in *; cbn [action_of Nat.eqb bc_side fst snd ci] in *; try discriminate;
        unfold side in Ed; destruct (Z.ltb_spec (ci c + m) 0), (Z.leb_spec m (ci c + m)); destruct (Z.ltb_spec 0 0), (Z.leb_spec m 0); lia.
    + destruct (Z.leb_spec m (ci c)) as [Hi|Hi].
      * destruct (face_handled k n a 1 bp (or_intror eq_refl) H1 H2) as [F|F].
        -- rewrite F in Ed. cbn [action_of bc_side fst] in Ed. unfold side in Ed. destruct (Z.ltb_spec (ci c) 0); [lia|]. rewrite (proj2 (Z.leb_le _ _) Hi) in Ed. subst d. auto.
        -- exfalso. destruct F as [F|[F|[F|[F|[F ->]]]]]; rewrite F in *; cbn [action_of Nat.eqb bc_side fst snd ci] in *; try discriminate;
           unfold side in Ed; destruct (Z.ltb_spec (ci c + - m) 0), (Z.leb_spec m (ci c + - m)); destruct (Z.ltb_spec (m - 1) 0), (Z.leb_spec m (m - 1)); lia.
      * exfalso. cbn [fst] in Ed. unfold side in Ed. destruct (Z.ltb_spec (ci c) 0), (Z.leb_spec m (ci c)); lia.
Qed.
