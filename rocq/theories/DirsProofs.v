From Coq Require Import ZArith List Bool Lia.
From Verif Require Import Base ListLemmas DecompSpec DirsModel DirsSpec.
Import ListNotations.
Open Scope Z_scope.

Lemma dims D : dimension D -> D = 1%nat \/ D = 2%nat \/ D = 3%nat.
Proof. unfold dimension. lia. Qed.

Lemma trit a : -1 <= a <= 1 -> a = -1 \/ a = 0 \/ a = 1.
Proof. lia. Qed.

(** All 3^D direction vectors. *)
Definition every (D : nat) : list (list Z) :=
  match D with
  | 1%nat => [0] :: all_dirs 1
  | 2%nat => [0; 0] :: all_dirs 2
  | 3%nat => [0; 0; 0] :: all_dirs 3
  | _ => []
  end.

Lemma every_complete D d : dimension D -> direction D d -> In d (every D).
Proof.
  intros HD [L F].
  destruct (dims D HD) as [->|[->| ->]].
  - destruct d as [|a [|]]; try discriminate.
    inversion F; subst. destruct (trit a) as [->|[->| ->]]; auto; simpl; auto.
  - destruct d as [|a [|b [|]]]; try discriminate.
    inversion F as [|? ? Ha F2]; subst. inversion F2 as [|? ? Hb _]; subst.
    destruct (trit a Ha) as [->|[->| ->]], (trit b Hb) as [->|[->| ->]]; simpl; tauto.
  - destruct d as [|a [|b [|c [|]]]]; try discriminate.
    inversion F as [|? ? Ha F2]; subst. inversion F2 as [|? ? Hb F3]; subst.
    inversion F3 as [|? ? Hc _]; subst.
    destruct (trit a Ha) as [->|[->| ->]], (trit b Hb) as [->|[->| ->]],
             (trit c Hc) as [->|[->| ->]]; simpl; tauto.
Qed.

(** Decide a statement about all directions by running through the table. *)
Lemma every_forall (P : list Z -> bool) D :
  dimension D -> forallb P (every D) = true -> forall d, direction D d -> P d = true.
Proof.
  intros HD H d Hd. rewrite forallb_forall in H. apply H. apply every_complete; auto.
Qed.

Definition is_orth (d : list Z) : bool :=
  Nat.eqb (length (filter (fun a => negb (a =? 0)) d)) 1.
Definition is_zero (d : list Z) : bool := forallb (fun a => a =? 0) d.

Lemma nonzero_iff D d : nonzero_direction D d <-> direction D d /\ is_zero d = false.
Proof.
  split; intros [H1 H2]; split; auto.
  - destruct H2 as [a [Ha Hn]]. destruct (is_zero d) eqn:E; auto.
    unfold is_zero in E. rewrite forallb_forall in E. apply E in Ha. lia.
  - clear H1. unfold is_zero in H2. induction d as [|a d IH]; [discriminate|].
    simpl in H2. destruct (Z.eqb_spec a 0) as [->|Hn].
    + simpl in H2. destruct (IH H2) as [b [Hb Hn]]. exists b; split; simpl; auto.
    + exists a; simpl; auto.
Qed.

Definition mem (d : list Z) (l : list (list Z)) : bool :=
  existsb (fun e => if list_eq_dec Z.eq_dec e d then true else false) l.

Lemma mem_In d l : mem d l = true <-> In d l.
Proof.
  unfold mem. rewrite existsb_exists. split.
  - intros [e [He H]]. destruct (list_eq_dec Z.eq_dec e d); congruence.
  - intros H. exists d. split; auto. destruct (list_eq_dec Z.eq_dec d d); auto.
Qed.

Lemma all_direction D d : dimension D -> In d (all_dirs D) -> nonzero_direction D d.
Proof.
  intros HD H. apply nonzero_iff.
  assert (B : forallb (fun d => Nat.eqb (length d) D &&
                 forallb (fun a => (-1 <=? a) && (a <=? 1)) d && negb (is_zero d)) (all_dirs D) = true).
  { destruct (dims D HD) as [->|[->| ->]]; vm_compute; reflexivity. }
  rewrite forallb_forall in B. apply B in H.
  apply andb_true_iff in H as [H Z1]. apply andb_true_iff in H as [L F].
  split; [split|].
  - apply Nat.eqb_eq; auto.
  - apply Forall_forall. intros a Ha. rewrite forallb_forall in F. apply F in Ha.
    apply andb_true_iff in Ha as [A1 A2]. apply Z.leb_le in A1. apply Z.leb_le in A2. lia.
  - destruct (is_zero d); auto; discriminate.
Qed.

Lemma all_complete D d : dimension D -> nonzero_direction D d -> In d (all_dirs D).
Proof.
  intros HD H. apply nonzero_iff in H as [H1 H2].
  apply mem_In.
  assert (B : (is_zero d || mem d (all_dirs D)) = true).
  { apply (every_forall (fun d => is_zero d || mem d (all_dirs D)) D); auto.
    destruct (dims D HD) as [->|[->| ->]]; vm_compute; reflexivity. }
  rewrite H2 in B. auto.
Qed.

Lemma all_nodup D : NoDup (all_dirs D).
Proof.
  destruct D as [|[|[|[|]]]]; simpl;
    repeat match goal with
    | |- NoDup [] => constructor
    | |- NoDup (_ :: _) => constructor; [simpl; intuition congruence|]
    end.
Qed.

Lemma unique_half D d :
  dimension D -> nonzero_direction D d ->
  (In d (unique_dirs D) /\ ~ In (opp_dir d) (unique_dirs D)) \/
  (~ In d (unique_dirs D) /\ In (opp_dir d) (unique_dirs D)).
Proof.
  intros HD H. apply nonzero_iff in H as [H1 H2].
  assert (B : (is_zero d || xorb (mem d (unique_dirs D)) (mem (opp_dir d) (unique_dirs D))) = true).
  { apply (every_forall (fun d => is_zero d || xorb (mem d (unique_dirs D))
                                   (mem (opp_dir d) (unique_dirs D))) D); auto.
    destruct (dims D HD) as [->|[->| ->]]; vm_compute; reflexivity. }
  rewrite H2 in B. cbn [orb] in B. rewrite <- !mem_In.
  destruct (mem d (unique_dirs D)), (mem (opp_dir d) (unique_dirs D)); cbn in B; try discriminate.
  - left; split; auto; discriminate.
  - right; split; auto; discriminate.
Qed.

Definition res_eqb {A} (eqb : A -> A -> bool) (x y : res A) : bool :=
  match x, y with Ok a, Ok b => eqb a b | Err, Err => true | UB, UB => true | _, _ => false end.

Definition leqb (a b : list Z) : bool := if list_eq_dec Z.eq_dec a b then true else false.

Lemma tag_roundtrip D d :
  dimension D -> nonzero_direction D d ->
  exists t, dir2tag d = Ok t /\ 2 <= t < 1 + 3 ^ Z.of_nat D /\ tag2dir D t = Ok d.
Proof.
  intros HD H. apply nonzero_iff in H as [H1 H2].
  assert (B : (is_zero d ||
     match dir2tag d with
     | Ok t => (2 <=? t) && (t <? 1 + 3 ^ Z.of_nat D) && res_eqb leqb (tag2dir D t) (Ok d)
     | _ => false end) = true).
  { apply (every_forall (fun d => is_zero d ||
     match dir2tag d with
     | Ok t => (2 <=? t) && (t <? 1 + 3 ^ Z.of_nat D) && res_eqb leqb (tag2dir D t) (Ok d)
     | _ => false end) D); auto.
    destruct (dims D HD) as [->|[->| ->]]; vm_compute; reflexivity. }
  rewrite H2 in B. cbn [orb] in B. destruct (dir2tag d) as [t| |]; try discriminate.
  exists t. apply andb_true_iff in B as [B B3]. apply andb_true_iff in B as [B1 B2].
  split; auto. split; [lia|].
  destruct (tag2dir D t) as [e| |]; try discriminate. cbn in B3. unfold leqb in B3.
  destruct (list_eq_dec Z.eq_dec e d); [subst; auto|discriminate].
Qed.

Lemma tag_roundtrip_inv D t :
  dimension D -> 2 <= t < 1 + 3 ^ Z.of_nat D ->
  exists d, tag2dir D t = Ok d /\ nonzero_direction D d /\ dir2tag d = Ok t.
Proof.
  intros HD Ht.
  assert (L : Z.of_nat (length (all_dirs D)) = 3 ^ Z.of_nat D - 1).
  { destruct (dims D HD) as [->|[->| ->]]; reflexivity. }
  unfold tag2dir.
  destruct (Z.ltb_spec (t - 2) 0); [lia|].
  destruct (Z.leb_spec (Z.of_nat (length (all_dirs D))) (t - 2)); [lia|]. cbn [orb].
  set (d := nth (Z.to_nat (t - 2)) (all_dirs D) []).
  assert (Hd : In d (all_dirs D)) by (apply nth_In; lia).
  exists d. split; auto. split; [apply all_direction; auto|].
  assert (B : forallb (fun k => res_eqb Z.eqb (dir2tag (nth k (all_dirs D) [])) (Ok (Z.of_nat k + 2)))
              (seq 0 (length (all_dirs D))) = true).
  { destruct (dims D HD) as [->|[->| ->]]; vm_compute; reflexivity. }
  rewrite forallb_forall in B.
  specialize (B (Z.to_nat (t - 2)) ltac:(apply in_seq; lia)).
  fold d in B. unfold res_eqb in B. destruct (dir2tag d); try discriminate.
  apply Z.eqb_eq in B. f_equal. lia.
Qed.

Lemma retag_dead D x n :
  dimension D -> length x = D -> length n = D -> retag 0 x n = Ok 0.
Proof.
  intros HD Lx Ln. destruct (dims D HD) as [->|[->| ->]];
  destruct x as [|x1 [|x2 [|x3 [|]]]]; try discriminate;
  destruct n as [|n1 [|n2 [|n3 [|]]]]; try discriminate; cbn [retag];
  unfold send_tag1, send_tag2, send_tag3; f_equal; apply Z.mul_0_r.
Qed.

Ltac split_sides :=
  repeat match goal with
  | |- context [?a <? 0] => destruct (Z.ltb_spec a 0); try lia
  | |- context [?a <=? ?b] => destruct (Z.leb_spec a b); try lia
  end.

Lemma retag_alive D x n :
  dimension D -> length x = D -> length n = D -> Forall (fun k => 0 <= k) n ->
  exists t, retag 1 x n = Ok t /\
    (in_box x n -> t = 1) /\
    (~ in_box x n -> dir2tag (map2 side x n) = Ok t).
Proof.
  intros HD Lx Ln Hn. unfold in_box, side. destruct (dims D HD) as [->|[->| ->]];
  destruct x as [|x1 [|x2 [|x3 [|]]]]; try discriminate;
  destruct n as [|n1 [|n2 [|n3 [|]]]]; try discriminate; cbn [retag map2];
  eexists; (split; [reflexivity|]);
  repeat match goal with H : Forall _ (_ :: _) |- _ => inversion H; clear H; subst end.
  - split_sides; (split; intros Hbox; [|reflexivity || exfalso; apply Hbox; repeat constructor; lia]);
    repeat match goal with H : Forall2 _ (_ :: _) _ |- _ => inversion H; clear H; subst end;
    try lia; try reflexivity.
  - split_sides; (split; intros Hbox; [|reflexivity || exfalso; apply Hbox; repeat constructor; lia]);
    repeat match goal with H : Forall2 _ (_ :: _) _ |- _ => inversion H; clear H; subst end;
    try lia; try reflexivity.
  - split_sides; (split; intros Hbox; [|reflexivity || exfalso; apply Hbox; repeat constructor; lia]);
    repeat match goal with H : Forall2 _ (_ :: _) _ |- _ => inversion H; clear H; subst end;
    try lia; try reflexivity.
Qed.

(** * Accessors *)

Lemma axis_enum D d k s :
  dimension D -> axis_aligned D d k s ->
  (s = -1 \/ s = 1) /\ d = repeat 0 k ++ [s] ++ repeat 0 (D - S k).
Proof.
  intros HD [Hd [Hk [Hs Hj]]].
  destruct Hd as [L F].
  destruct (dims D HD) as [->|[->| ->]].
  - destruct d as [|a [|]]; try discriminate. destruct k; [|lia].
    pose proof (Hj 0%nat ltac:(lia)) as E; cbn in E; subst.
    inversion F; subst. simpl. split; [lia|auto].
  - destruct d as [|a [|b [|]]]; try discriminate.
    pose proof (Hj 0%nat ltac:(lia)) as E0; pose proof (Hj 1%nat ltac:(lia)) as E1.
    inversion F as [|? ? Ha F2]; subst. inversion F2 as [|? ? Hb _]; subst.
    destruct k as [|[|]]; try lia; cbn in E0, E1; subst; simpl; (split; [lia|auto]).
  - destruct d as [|a [|b [|c [|]]]]; try discriminate.
    pose proof (Hj 0%nat ltac:(lia)) as E0; pose proof (Hj 1%nat ltac:(lia)) as E1;
    pose proof (Hj 2%nat ltac:(lia)) as E2.
    inversion F as [|? ? Ha F2]; subst. inversion F2 as [|? ? Hb F3]; subst.
    inversion F3 as [|? ? Hc _]; subst.
    destruct k as [|[|[|]]]; try lia; cbn in E0, E1, E2; subst; simpl; (split; [lia|auto]).
Qed.

Lemma accessors_axis D d k s :
  dimension D -> axis_aligned D d k s ->
  get_sign d = Ok s /\ get_dim d = Ok (Z.of_nat k).
Proof.
  intros HD H. pose proof (axis_enum D d k s HD H) as [Hs ->].
  destruct H as [_ [Hk _]].
  destruct (dims D HD) as [->|[->| ->]]; destruct k as [|[|[|]]]; try lia;
    destruct Hs as [->| ->]; split; reflexivity.
Qed.

Lemma sign_rejects D d :
  dimension D -> direction D d -> (forall k s, ~ axis_aligned D d k s) -> get_sign d = Err.
Proof.
  intros HD Hd Hno.
  assert (B : (is_orth d || res_eqb Z.eqb (get_sign d) Err) = true).
  { apply (every_forall (fun d => is_orth d || res_eqb Z.eqb (get_sign d) Err) D); auto.
    destruct (dims D HD) as [->|[->| ->]]; vm_compute; reflexivity. }
  apply orb_true_iff in B as [B|B].
  2:{ destruct (get_sign d); try discriminate; auto. }
  exfalso.
  assert (E : exists k s, (k < D)%nat /\ s <> 0 /\
     forall j, (j < D)%nat -> nth j d 0 = if Nat.eqb j k then s else 0).
  { pose proof (every_complete D d HD Hd) as HI. clear -HD HI B.
    destruct (dims D HD) as [->|[->| ->]]; simpl in HI;
    repeat (destruct HI as [HI|HI]; [subst d; try discriminate B|]); try contradiction.
    all: match goal with
         | |- exists k s, _ /\ _ /\ forall j, _ -> nth j [?a] 0 = _ =>
             exists 0%nat, a
         | |- exists k s, _ /\ _ /\ forall j, _ -> nth j [0; ?b] 0 = _ => exists 1%nat, b
         | |- exists k s, _ /\ _ /\ forall j, _ -> nth j [?a; 0] 0 = _ => exists 0%nat, a
         | |- exists k s, _ /\ _ /\ forall j, _ -> nth j [0; 0; ?c] 0 = _ => exists 2%nat, c
         | |- exists k s, _ /\ _ /\ forall j, _ -> nth j [0; ?b; 0] 0 = _ => exists 1%nat, b
         | |- exists k s, _ /\ _ /\ forall j, _ -> nth j [?a; 0; 0] 0 = _ => exists 0%nat, a
         end;
      (split; [lia|split; [discriminate|intros [|[|[|]]] Hj; try lia; reflexivity]]). }
  destruct E as [k [s [E1 [E2 E3]]]]. apply (Hno k s). repeat split; auto; apply Hd.
Qed.

Lemma get_dim_diagonal : get_dim [1; 1] = Ok 1.
Proof. reflexivity. Qed.

Lemma hash_injective D a b :
  dimension D -> direction D a -> direction D b -> hash a = hash b -> a = b.
Proof.
  intros HD Ha Hb E.
  assert (B : forallb (fun a => forallb (fun b => negb (hash a =? hash b) || leqb a b) (every D))
                (every D) = true).
  { destruct (dims D HD) as [->|[->| ->]]; vm_compute; reflexivity. }
  rewrite forallb_forall in B. specialize (B a (every_complete D a HD Ha)).
  rewrite forallb_forall in B. specialize (B b (every_complete D b HD Hb)).
  rewrite E, Z.eqb_refl in B. cbn in B. unfold leqb in B.
  destruct (list_eq_dec Z.eq_dec a b); [auto|discriminate].
Qed.

Lemma table_complete D : dimension D ->
  NoDup (all_dirs D) /\ (forall d, In d (all_dirs D) <-> nonzero_direction D d).
Proof.
  intros HD. split; [apply all_nodup|]. split; [apply all_direction|apply all_complete]; auto.
Qed.

Lemma tags_inverse D : dimension D ->
  (forall d, nonzero_direction D d -> exists t,
     dir2tag d = Ok t /\ 2 <= t < 1 + 3 ^ Z.of_nat D /\ tag2dir D t = Ok d) /\
  (forall t, 2 <= t < 1 + 3 ^ Z.of_nat D -> exists d,
     tag2dir D t = Ok d /\ nonzero_direction D d /\ dir2tag d = Ok t).
Proof. intros HD. split; intros; [apply tag_roundtrip|apply tag_roundtrip_inv]; auto. Qed.

Lemma tag_of_departure D x n :
  dimension D -> length x = D -> length n = D -> Forall (fun k => 0 <= k) n ->
  retag 0 x n = Ok 0 /\
  exists t, retag 1 x n = Ok t /\
    (in_box x n -> t = 1) /\
    (~ in_box x n -> dir2tag (map2 side x n) = Ok t).
Proof. intros. split; [eapply retag_dead; eauto|eapply retag_alive; eauto]. Qed.

Lemma get_dim_witness :
  exists D d, dimension D /\ direction D d /\ (forall k s, ~ axis_aligned D d k s) /\
    get_dim d = Ok 1.
Proof.
  exists 2%nat, [1; 1]. split; [unfold dimension; lia|].
  split; [split; [reflexivity|repeat constructor; lia]|]. split; [|reflexivity].
  intros k s [_ [Hk [Hs H]]].
  pose proof (H 0%nat ltac:(lia)) as H0. pose proof (H 1%nat ltac:(lia)) as H1.
  cbn [nth] in *. destruct k as [|[|]]; cbn in H0, H1; lia.
Qed.
