(** Proofs about uniform injection: number and places in one subdomain. *)
From Coq Require Import ZArith List Bool Reals Lra Lia.
From Flocq Require Import Core.Raux.
From Verif Require Import Base MeshModel MeshSpec MeshProofs UniModel UniSpec.
Import ListNotations.
Open Scope R_scope.

Definition len (conv : R -> R) (e : R * R) (b : bnd * bnd) : R :=
  if Rlt_dec (lo e (fst b)) (hi e (snd b)) then conv (hi e (snd b)) - conv (lo e (fst b)) else 0.

Lemma code_length_len conv e b L : proper e -> code_length conv e b L <-> L = len conv e b.
Proof.
  intros P. unfold len. destruct (Rlt_dec _ _) as [O|O].
  - assert (W : forall t, lo e (fst b) <= t <= hi e (snd b) <-> within_ext e t /\ within b t).
    { intros t. split; [apply lo_hi_within; auto|apply within_lo_hi; auto]. }
    split.
    + intros [(x & y & XY & T & ->)|(N & _)].
      * pose proof (proj2 (T (lo e (fst b))) (proj1 (W (lo e (fst b))) ltac:(lra))).
        pose proof (proj2 (T (hi e (snd b))) (proj1 (W (hi e (snd b))) ltac:(lra))).
        pose proof (proj2 (W x) (proj1 (T x) ltac:(lra))). pose proof (proj2 (W y) (proj1 (T y) ltac:(lra))).
        replace x with (lo e (fst b)) by lra. replace y with (hi e (snd b)) by lra. auto.
      * exfalso. apply (N (lo e (fst b))), W. lra.
    + intros ->. left. exists (lo e (fst b)), (hi e (snd b)). split; [lra|]. auto.
  - split.
    + intros [(x & y & XY & T & ->)|(_ & ->)]; auto.
      pose proof (within_lo_hi e b x P (proj1 (T x) ltac:(lra))). pose proof (within_lo_hi e b y P (proj1 (T y) ltac:(lra))).
      replace y with x by lra. lra.
    + intros ->. destruct (Req_dec (lo e (fst b)) (hi e (snd b))) as [E|E].
      * destruct (Rle_dec (fst e) (lo e (fst b))) as [A|A]; [|pose proof (lo_range e (fst b) P); lra].
        assert (D : (within_ext e (lo e (fst b)) /\ within b (lo e (fst b))) \/ ~ (within_ext e (lo e (fst b)) /\ within b (lo e (fst b)))).
        { unfold within_ext, within, above_end, below_end. destruct (fst b) as [|u|], (snd b) as [|v|]; cbn [lo hi] in *; try (right; tauto);
            repeat match goal with |- context [?a <= ?b] => lazymatch goal with H : a <= b \/ ~ a <= b |- _ => fail | _ => assert (a <= b \/ ~ a <= b) by (destruct (Rle_dec a b); auto) end end; tauto. }
        destruct D as [D|D].
        -- left. exists (lo e (fst b)), (lo e (fst b)). split; [lra|]. split; [|lra].
           intros t. split; intros T; [replace t with (lo e (fst b)) by lra; auto|].
           apply within_lo_hi in T; auto. lra.
        -- right. split; auto. intros t T. apply D. pose proof (within_lo_hi e b t P T). replace (lo e (fst b)) with t by lra. auto.
      * right. split; auto. intros t T. apply within_lo_hi in T; auto. lra.
Qed.

Lemma side_ends conv e b : proper e -> side conv e b = (conv (lo e (fst b)), conv (hi e (snd b))).
Proof. intros P. unfold side. rewrite min_lo, max_hi by auto. reflexivity. Qed.

(** The conversion is increasing, also at the ends. *)
Lemma grid_le conv e n x y : grid_map conv e n -> within_ext e x -> within_ext e y -> x <= y -> conv x <= conv y.
Proof. intros (M & _) X Y L. destruct (Req_dec x y) as [->|N]; [lra|]. left. apply M; auto. lra. Qed.

Definition prod (l : list (R * R)) : R := fold_right (fun s v => (snd s - fst s) * v) 1 l.
Lemma prod_cons s l : prod (s :: l) = (snd s - fst s) * prod l.
Proof. reflexivity. Qed.
Lemma num_cells_prod l : num_cells l = prod l.
Proof.
  unfold num_cells. assert (H : forall l a, fold_left (fun acc s => acc * (snd s - fst s)) l a = a * prod l).
  { clear l. induction l as [|s l IH]; intros a; cbn [fold_left prod fold_right]; [lra|]. fold (prod l). rewrite IH. ring. }
  rewrite H. lra.
Qed.

(** The check of the intersection passes: either the ends are in order everywhere, or a dimension is thin. *)
Definition dim_ok (eps : R) (p : (R * R) * (bnd * bnd)) : bool :=
  forallb (fun i => negb (blt (snd i) (fst i) || almost_equal eps (fst i) (snd i))) (intersect1 (fst p) (snd p)).

Lemma dim_true eps e b : 0 <= eps -> proper e -> dim_ok eps (e, b) = true -> lo e (fst b) <= hi e (snd b).
Proof.
  intros He P D. destruct (half_dec b) as [N|[N1 N2]].
  - destruct (query1 eps e b He P N) as [Q _]. apply Q in D. apply overlap_iff in D; auto. lra.
  - rewrite N2. cbn [hi]. apply lo_range; auto.
Qed.
Lemma dim_false eps e b : 0 <= eps -> proper e -> dim_ok eps (e, b) = false ->
  ~ lo e (fst b) < hi e (snd b) \/
  exists x y, x < y /\ (forall t, x <= t <= y <-> within_ext e t /\ within b t) /\ y - x <= Rmin (Rabs x) (Rabs y) * eps.
Proof.
  intros He P D. destruct (Rlt_dec (lo e (fst b)) (hi e (snd b))) as [O|O]; auto. right.
  destruct (half_dec b) as [N|[N1 N2]].
  - exists (lo e (fst b)), (hi e (snd b)). split; auto. split.
    { intros t. split; [apply lo_hi_within; auto|apply within_lo_hi; auto]. }
    unfold dim_ok in D. cbn [fst snd] in D. rewrite intersect1_ok in D by auto. cbn [forallb fst snd blt almost_equal] in D. rewrite andb_true_r in D.
    destruct (Rlt_dec (hi e (snd b)) (lo e (fst b))); [lra|]. cbn [orb] in D.
    destruct (Rle_dec _ _) as [A|A]; [rewrite Rabs_minus_sym, Rabs_pos_eq in A by lra; exact A|].
    destruct (Req_EM_T _ _); [lra|discriminate D].
  - unfold dim_ok in D. cbn [fst snd] in D. rewrite intersect1_half in D by auto. discriminate D.
Qed.

Lemma volume_sides eps convs : 0 <= eps -> forall ext ns box V, mesh_ok convs ext ns -> code_volume convs ext box V ->
  (forallb (dim_ok eps) (combine ext box) = true -> V = prod (sides convs ext box) /\ Forall (fun s => fst s <= snd s) (sides convs ext box)) /\
  (forallb (dim_ok eps) (combine ext box) = false -> V = 0 \/ thin eps ext box) /\ 0 <= V.
Proof.
  intros He. induction convs as [|c cs IH]; intros ext ns box V M C; destruct ext as [|e es], ns as [|n ns]; cbn in M; try contradiction;
    destruct box as [|b bs]; cbn in C; try contradiction.
  - subst V. cbn. split; [auto|]. split; [discriminate|lra].
  - destruct M as (P & G & M). destruct C as (L & W & CL & CV & ->). apply code_length_len in CL; auto.
    destruct (IH es ns bs W M CV) as (A & B & W0).
    pose proof (lo_range e (fst b) P) as RL. pose proof (hi_range e (snd b) P) as RH.
    assert (L0 : 0 <= L).
    { rewrite CL. unfold len. destruct (Rlt_dec _ _); [|lra].
      pose proof (grid_le c e n (lo e (fst b)) (hi e (snd b)) G RL RH ltac:(lra)). lra. }
    cbn [combine forallb sides]. rewrite side_ends by auto. cbn [fst snd].
    split; [|split].
    + intros T. apply andb_true_iff in T. destruct T as [T1 T2]. destruct (A T2) as [-> FA].
      apply dim_true in T1; auto.
      pose proof (grid_le c e n _ _ G RL RH T1). split.
      * rewrite prod_cons. cbn [fst snd]. f_equal. rewrite CL. unfold len. destruct (Rlt_dec _ _) as [O|O]; auto.
        replace (hi e (snd b)) with (lo e (fst b)) by lra. lra.
      * constructor; auto.
    + intros T. apply andb_false_iff in T. destruct T as [T|T].
      * apply dim_false in T; auto. destruct T as [T|T].
        -- left. rewrite CL. unfold len. destruct (Rlt_dec _ _); [contradiction|]. lra.
        -- right. exists 0%nat, e, b. cbn. auto.
      * destruct (B T) as [->|(d & e' & b' & T1 & T2 & T3)]; [left; lra|]. right. exists (S d), e', b'. cbn. auto.
    + apply Rmult_le_pos; auto.
Qed.

Lemma volume_lengths convs : forall ext box V, code_volume convs ext box V -> length box = length ext.
Proof.
  induction convs as [|c cs IH]; intros [|e es] [|b bs] V H; cbn in *; try contradiction; auto.
  destruct H as (L & W & _ & H & _). f_equal. eapply IH; eauto.
Qed.

Lemma to_npart_ok x : 0 <= x < IZR (2 ^ 32) -> to_npart x = Ok (Zfloor x).
Proof.
  intros [A B]. unfold to_npart. rewrite Ztrunc_floor by auto.
  assert (0 <= Zfloor x)%Z by (apply Zfloor_lub; auto).
  assert (Zfloor x < 2 ^ 32)%Z. { apply lt_IZR. pose proof (Zfloor_lb x). lra. }
  rewrite (proj2 (Z.leb_le _ _)), (proj2 (Z.ltb_lt _ _)) by auto. auto.
Qed.

Lemma compute_value eps convs ppc0 nd ext ns box V :
  0 <= eps -> mesh_ok convs ext ns -> code_volume convs ext box V -> 0 <= ppc0 * nd -> ppc0 * nd / 2 * V < IZR (2 ^ 32) ->
  (compute_num_inject eps convs ppc0 nd ext box = Ok (Some (Zfloor (ppc0 * nd / 2 * V), sides convs ext box)) /\
   V = prod (sides convs ext box) /\ Forall (fun s => fst s <= snd s) (sides convs ext box)) \/
  (compute_num_inject eps convs ppc0 nd ext box = Ok None /\ (V = 0 \/ thin eps ext box)).
Proof.
  intros He M C K U. destruct (volume_sides eps convs He ext ns box V M C) as (A & B & V0).
  unfold compute_num_inject, deduce_region. rewrite intersects_forallb by (eapply volume_lengths; eauto).
  fold (dim_ok eps). change (fun p => forallb _ (intersect1 (fst p) (snd p))) with (dim_ok eps). cbn [rbind].
  destruct (forallb (dim_ok eps) (combine ext box)).
  - left. destruct (A eq_refl) as [EV F]. cbn [rbind]. rewrite num_cells_prod, <- EV.
    replace (ppc0 * nd * (1 / 2) * V) with (ppc0 * nd / 2 * V) by lra.
    rewrite to_npart_ok; auto. split; auto. apply Rmult_le_pos; lra.
  - right. split; auto.
Qed.

Lemma nonempty_continues dim box : continues dim box (nonempty_box dim box).
Proof.
  unfold continues, nonempty_box. split.
  - rewrite app_length, firstn_length, repeat_length. lia.
  - intros d D. destruct (nth_error box d) as [b|] eqn:E.
    + assert (d < length box)%nat by (apply nth_error_Some; congruence).
      rewrite nth_error_app1 by (rewrite firstn_length; lia).
      rewrite <- E. clear E. revert d box D H. induction dim as [|dim IH]; intros d box D H; [lia|]. destruct box as [|b' box]; [cbn in H; lia|].
      destruct d; auto. cbn [firstn nth_error]. apply IH; cbn in H; lia.
    + apply nth_error_None in E. rewrite nth_error_app2 by (rewrite firstn_length; lia).
      rewrite firstn_length, Nat.min_r by lia.
      rewrite nth_error_repeat by lia. auto.
Qed.
Lemma list_ext {A} (a : list A) : forall b, (forall d, nth_error a d = nth_error b d) -> a = b.
Proof.
  induction a as [|x a IH]; intros [|y b] H; auto; try (specialize (H 0%nat); discriminate).
  f_equal; [specialize (H 0%nat); cbn in H; congruence|]. apply IH. intros d. apply (H (S d)).
Qed.
Lemma continues_unique dim box a b : continues dim box a -> continues dim box b -> a = b.
Proof.
  intros [A1 A2] [B1 B2]. apply list_ext. intros d.
  destruct (Nat.lt_ge_cases d dim) as [D|D]; [rewrite A2, B2 by auto; auto|].
  rewrite (proj2 (nth_error_None a d)), (proj2 (nth_error_None b d)) by lia. auto.
Qed.
