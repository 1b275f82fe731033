(** C24: perfect-conductor walls. *)
From Coq Require Import ZArith List Bool Reals Lra Lia.
From Verif Require Import Base FieldModel HaloSpec SyncProofs WallModel WallSpec WallTop.
Import ListNotations.
Open Scope Z_scope.

(** Any set of conducting faces of the subdomain, applied in any order: at every wall
    tangential E and normal B vanish and the ghost cells hold the mirror image, edges and
    corners included; nothing in front of the walls changes.  Missing: see
    [C24_upper_last_ghost_refuted]. *)
Theorem C24_all_walls_partial : forall (g : Z) (n : list Z) (setE setB : bool) faces F c,
  0 < g -> (length n <= 3)%nat -> Forall (fun k => g < k) n -> Forall (ok_face g n) faces -> NoDup (map fst faces) ->
  tagged setE setB c = true ->
  let F' := conductors g n setE setB faces F in
  (forall o P order, In (o, P, order) faces -> conducting c g n o P (filled c g o P) F') /\
  (forall x, in_box x (whole g n) -> (forall o P order, In (o, P, order) faces -> inner c g n o P x) -> F' c x = F c x).
Proof. exact (fun g n setE setB faces F c G1 D3 => all_faces g n setE setB G1 D3 faces F c). Qed.
Print Assumptions C24_all_walls_partial.

(** Lower walls: all ghost cells. *)
Theorem C24_lower_walls : forall (g : Z) (n : list Z) (setE setB : bool) faces F c,
  0 < g -> (length n <= 3)%nat -> Forall (fun k => g < k) n -> Forall (ok_face g n) faces -> NoDup (map fst faces) ->
  tagged setE setB c = true ->
  forall o order, In (o, false, order) faces -> conducting c g n o false g (conductors g n setE setB faces F).
Proof. exact lower_walls. Qed.
Print Assumptions C24_lower_walls.

(** Fields that are not selected by the tags are left alone. *)
Theorem C24_untagged : forall (g : Z) (n : list Z) (setE setB : bool) faces F c,
  (length n <= 3)%nat -> Forall (ok_face g n) faces -> tagged setE setB c = false ->
  forall x, conductors g n setE setB faces F c x = F c x.
Proof. exact untagged. Qed.
Print Assumptions C24_untagged.

(** Upper walls: the components half a cell off the wall are never set in the last ghost cell. *)
Theorem C24_upper_last_ghost_refuted : forall (g : Z) (n : list Z) (setE setB : bool) o order c,
  0 < g -> (length n <= 3)%nat -> Forall (fun k => g < k) n -> ok_face g n (o, true, order) -> tagged setE setB c = true ->
  sign c o = 1%R -> exists F, ~ conducting c g n o true g (conductor_in g n setE setB o true order F).
Proof. exact upper_last. Qed.
Print Assumptions C24_upper_last_ghost_refuted.

(** A 3 x 4 grid with two ghost cells, conducting on the lower x1 and the upper x2 side. *)
Definition ex_n : list Z := [3; 4].
Definition ex_faces : list (nat * bool * list (list Z)) :=
  [(0%nat, false, box [(0, 3); (0, 8)]); (1%nat, true, box [(0, 7); (0, 2)])].
Example ex_ok : Forall (ok_face 2 ex_n) ex_faces /\ NoDup (map fst ex_faces) /\ Forall (fun k => 2 < k) ex_n.
Proof.
  assert (B : forall x l, in_box x l <-> Forall2 (fun a r => fst r <= a < snd r) x (map (fun b => (0, b)) l)).
  { intros x l. split; intros H.
    - induction H; cbn; constructor; auto.
    - remember (map (fun b => (0, b)) l) as m eqn:E. revert l E. induction H; intros [|bb ll] E; try discriminate; constructor.
      + injection E as -> ->. auto.
      + apply IHForall2. injection E as _ ->. auto. }
  repeat apply conj.
  - repeat apply Forall_cons; try apply Forall_nil; (split; [cbn; lia|]; split; [apply nodup_box|]; intros t; rewrite in_boxl, B; cbn; reflexivity).
  - cbn. repeat constructor; cbn; intuition discriminate.
  - repeat constructor; lia.
Qed.
(** E_x1 in the ghost corner: mirrored in both walls. *)
Example ex_corner : forall F, conductors 2 ex_n true true ex_faces F Ex1 [0; 7] = Ropp (F Ex1 [3; 5]).
Proof.
  intros F. destruct ex_ok as (OK & ND & N).
  destruct (C24_all_walls_partial 2 ex_n true true ex_faces F Ex1 ltac:(lia) ltac:(cbn; lia) N OK ND eq_refl) as [C U].
  assert (IB : forall a b, 0 <= a < 7 -> 0 <= b < 8 -> in_box [a; b] (whole 2 ex_n)).
  { intros. repeat constructor; cbn; lia. }
  pose proof (C 0%nat false _ (or_introl eq_refl)) as C0. pose proof (C 1%nat true _ (or_intror (or_introl eq_refl))) as C1.
  destruct (C0 [0; 7] (IB 0 7 ltac:(lia) ltac:(lia))) as [_ M0]. rewrite (M0 ltac:(vm_compute; split; congruence) [3; 7]).
  2: { split; [auto|]. split; [cbn; lia|]. intros [|[|[]]]; cbn; auto; congruence. }
  destruct (C1 [3; 7] (IB 3 7 ltac:(lia) ltac:(lia))) as [_ M1]. rewrite (M1 ltac:(vm_compute; split; congruence) [3; 5]).
  2: { split; [auto|]. split; [cbn; lia|]. intros [|[|[]]]; cbn; auto; congruence. }
  rewrite U; [cbn; ring|apply IB; lia|].
  intros o P order [E|[E|[]]]; injection E as <- <- _; cbn; lia.
Qed.
