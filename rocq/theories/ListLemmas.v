(** Generic list lemmas (no reference to the code base). *)
From Coq Require Import ZArith List Bool Lia Permutation.
From Verif Require Import Base.
Import ListNotations.
Open Scope Z_scope.

Lemma sumZ_app l1 l2 : sumZ (l1 ++ l2) = sumZ l1 + sumZ l2.
Proof. induction l1; simpl; lia. Qed.

Lemma prodZ_app l1 l2 : prodZ (l1 ++ l2) = prodZ l1 * prodZ l2.
Proof.
  induction l1 as [|a l1 IH]; [symmetry; apply Z.mul_1_l|].
  change (a * prodZ (l1 ++ l2) = a * prodZ l1 * prodZ l2). rewrite IH. apply Z.mul_assoc.
Qed.

Lemma sumZ_repeat a n : sumZ (repeat a n) = Z.of_nat n * a.
Proof. induction n; simpl repeat; simpl sumZ; lia. Qed.

Lemma sumZ_nonneg l : Forall (fun a => 0 <= a) l -> 0 <= sumZ l.
Proof. induction 1; simpl; lia. Qed.

Lemma sumZ_perm l1 l2 : Permutation l1 l2 -> sumZ l1 = sumZ l2.
Proof. induction 1; simpl; lia. Qed.

Lemma map2_length {A B C} (f : A -> B -> C) l1 l2 :
  length (map2 f l1 l2) = Nat.min (length l1) (length l2).
Proof. revert l2; induction l1; destruct l2; simpl; auto. Qed.

Lemma map2_app {A B C} (f : A -> B -> C) l1 l2 k1 k2 :
  length l1 = length l2 ->
  map2 f (l1 ++ k1) (l2 ++ k2) = map2 f l1 l2 ++ map2 f k1 k2.
Proof.
  revert l2; induction l1; destruct l2; simpl; intros; try discriminate; auto.
  f_equal; auto.
Qed.

Lemma map2_ext_Forall2 {A B C} (f g : A -> B -> C) l1 l2 :
  Forall2 (fun a b => f a b = g a b) l1 l2 -> map2 f l1 l2 = map2 g l1 l2.
Proof. induction 1; simpl; congruence. Qed.

Lemma nth_map2 {A B C} (f : A -> B -> C) l1 l2 n da db dc :
  (n < length l1)%nat -> (n < length l2)%nat ->
  nth n (map2 f l1 l2) dc = f (nth n l1 da) (nth n l2 db).
Proof.
  revert l2 n; induction l1; destruct l2, n; simpl; intros; try lia; auto.
  apply IHl1; lia.
Qed.

Lemma Forall2_length {A B} (P : A -> B -> Prop) l1 l2 :
  Forall2 P l1 l2 -> length l1 = length l2.
Proof. induction 1; simpl; auto. Qed.

Lemma Forall2_nth {A B} (P : A -> B -> Prop) l1 l2 da db :
  Forall2 P l1 l2 <->
  length l1 = length l2 /\
  forall n, (n < length l1)%nat -> P (nth n l1 da) (nth n l2 db).
Proof.
  split.
  - induction 1; simpl; split; intros; try lia.
    destruct n; auto. apply IHForall2; lia.
  - revert l2; induction l1; destruct l2; simpl; intros [E H]; try discriminate; constructor.
    + apply (H O); lia.
    + apply IHl1. split; [lia|]. intros n Hn. apply (H (S n)); lia.
Qed.

Lemma Forall2_app_inv_snoc {A B} (P : A -> B -> Prop) l1 a l2 b :
  Forall2 P (l1 ++ [a]) (l2 ++ [b]) <-> Forall2 P l1 l2 /\ P a b.
Proof.
  split.
  - intros H.
    assert (length l1 = length l2).
    { apply Forall2_length in H. rewrite !app_length in H. simpl in H. lia. }
    revert l2 H0 H; induction l1; destruct l2; simpl; intros E H; try discriminate.
    + inversion H; auto.
    + inversion H; subst. destruct (IHl1 l2) as [H1 H2]; auto.
  - intros [H1 H2]. apply Forall2_app; auto.
Qed.

Lemma in_flat_map_nodup {A B} (f : A -> list B) l :
  NoDup l -> (forall a, In a l -> NoDup (f a)) ->
  (forall a b x, In a l -> In b l -> In x (f a) -> In x (f b) -> a = b) ->
  NoDup (flat_map f l).
Proof.
  induction 1 as [|a l Hn Hl IH]; simpl; intros Hf Hd; [constructor|].
  assert (IH' : NoDup (flat_map f l)).
  { apply IH; [intros; apply Hf; auto|intros; eapply Hd; eauto]. }
  assert (Ha : NoDup (f a)) by (apply Hf; auto).
  assert (Hs : forall x, In x (f a) -> ~ In x (flat_map f l)).
  { intros x H1 H2. apply in_flat_map in H2 as [b [H2 H3]].
    assert (a = b) by (eapply Hd; eauto). subst; auto. }
  clear -Ha IH' Hs. induction (f a) as [|x r IHr]; simpl; auto.
  inversion Ha; subst. constructor.
  - rewrite in_app_iff. intros [?|?]; [auto|]. eapply Hs; simpl; eauto.
  - apply IHr; auto. intros; apply Hs; simpl; auto.
Qed.

Lemma in_box_length x n : in_box x n -> length x = length n.
Proof. apply Forall2_length. Qed.
