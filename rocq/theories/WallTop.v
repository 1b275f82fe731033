From Coq Require Import ZArith List Bool Reals Lra Lia Permutation.
From Verif Require Import Base ListLemmas FieldModel WallModel WallSpec WallProofs.
Import ListNotations.
Open Scope Z_scope.

Section Faces.
  Variables (g : Z) (n : list Z) (setE setB : bool).
  Hypothesis G1 : 0 < g.
  Hypothesis D3 : (length n <= 3)%nat.

  Definition hit (c : comp) (o : nat) (P : bool) (x : list Z) : Prop :=
    if P then 2 * wall_edge g n o P <= twice_pos c o (nth o x 0) < 2 * (wall_edge g n o P + (if even o c then g - 1 else g))
    else twice_pos c o (nth o x 0) <= 2 * wall_edge g n o P.
  Lemma hit_dec c o P x : hit c o P x \/ ~ hit c o P x.
  Proof. unfold hit. destruct P; lia. Qed.

  Lemma tp c o i : twice_pos c o i = 2 * i + if even o c then 1 else 0.
  Proof. reflexivity. Qed.

  Lemma face_cases o P order F c x : (o < length n)%nat -> 0 < nth o n 0 -> good_order g n o P order -> tagged setE setB c = true ->
    in_box x (whole g n) ->
    let F' := conductor_in g n setE setB o P order F in
    (hit c o P x -> (twice_pos c o (nth o x 0) = 2 * wall_edge g n o P /\ F' c x = 0%R) \/
       (twice_pos c o (nth o x 0) <> 2 * wall_edge g n o P /\ forall y, image c o (wall_edge g n o P) x y -> F' c x = (sign c o * F c y)%R)) /\
    (~ hit c o P x -> F' c x = F c x).
  Proof.
    intros Ho Np GO T Bx F'. pose proof GO as [ND GI]. pose proof (good_ts g n D3 o P order Ho GO) as TS.
    set (e := wall_edge g n o P) in *. assert (O3 : (o < 3)%nat) by lia.
    assert (RES := fun y => face_result e o P setE setB O3 order (length n) Ho TS ND F c y).
    pose proof Bx as Bx'. apply (in_box_nth n D3) in Bx' as [L B]. rewrite whole_length in *.
    split.
    - intros H. destruct (writes g n setE setB D3 o P order x c Ho Np GO Bx T H) as (t & v & It & Wt).
      fold e in Wt. destruct (TS t It) as [Lt Nt]. pose proof (proj1 (RES x) t x v It Wt eq_refl) as E1.
      destruct (wr_behind e o P setE setB O3 c t x v ltac:(lia) Nt Wt) as (_ & _ & A3 & _ & A5). destruct v as [[s w]|].
      + right. destruct A5 as (-> & Iw & Lw & Q). split.
        * destruct Iw as (_ & Iw & _). destruct P; lia.
        * intros y Iy. assert (y = w) as -> by (eapply (image_unique n D3); [| exact Iy|exact Iw]; lia). exact E1.
      + left. destruct A5 as [A5 A6]. split; [|exact E1]. rewrite tp, A6. lia.
    - intros H. apply RES. intros t y v It Wt ->. apply H. destruct (TS t It) as [Lt Nt].
      destruct (wr_behind e o P setE setB O3 c t y v ltac:(lia) Nt Wt) as (_ & _ & A3 & A4 & A5). unfold hit. fold e. rewrite tp in *.
      apply GI in It. apply (in_box_nth n D3) in It as [_ It]. rewrite range_length in It. specialize (It o Ho). rewrite range_nth, Nat.eqb_refl in It by auto.
      destruct P; [|auto]. destruct (even o c); cbn [andb] in A4; lia.
  Qed.

  Lemma hit_same c o P x y : nth o x 0 = nth o y 0 -> hit c o P x -> hit c o P y.
  Proof. unfold hit. intros ->. auto. Qed.

  (** The image of a written cell is in the array and is not written. *)
  Lemma image_inside c o P x : (o < length n)%nat -> 0 < nth o n 0 -> in_box x (whole g n) -> hit c o P x ->
    twice_pos c o (nth o x 0) <> 2 * wall_edge g n o P ->
    exists w, image c o (wall_edge g n o P) x (at_o o w x) /\ in_box (at_o o w x) (whole g n).
  Proof.
    intros Ho Np Bx H NE. pose proof Bx as Bx'. apply (in_box_nth n D3) in Bx' as [L B]. rewrite whole_length in *.
    destruct (image_at n D3 c o (wall_edge g n o P) x ltac:(lia)) as (w & Iw & Tw). exists w. split; auto.
    apply whole_at; auto. specialize (B o Ho). rewrite whole_nth in B by auto. unfold hit in H. rewrite !tp in *. unfold wall_edge in *.
    destruct P, (even o c); lia.
  Qed.

  Lemma preserve o P o' P' order F c d : (o < length n)%nat -> (o' < length n)%nat -> 0 < nth o n 0 -> 0 < nth o' n 0 -> good_order g n o' P' order ->
    tagged setE setB c = true -> (o, P) <> (o', P') -> (o = o' -> g < nth o n 0) -> d <= g ->
    conducting c g n o P d F -> conducting c g n o P d (conductor_in g n setE setB o' P' order F).
  Proof.
    intros Ho Ho' Npo Np GO T NE Big Dg C. set (F' := conductor_in g n setE setB o' P' order F).
    unfold conducting in *. set (e := wall_edge g n o P) in *. intros x Bx.
    pose proof Bx as Bx'. apply (in_box_nth n D3) in Bx' as [L B]. rewrite whole_length in *.
    assert (FC := fun z Bz => face_cases o' P' order F c z Ho' Np GO T Bz). cbv zeta in FC. fold F' in FC.
    pose proof (B o Ho) as Bo. rewrite whole_nth in Bo by auto.
    assert (BY : forall y, (if P then 2 * e < twice_pos c o (nth o x 0) < 2 * (e + d)
                  else 2 * (e - d) <= twice_pos c o (nth o x 0) < 2 * e) -> image c o e x y -> in_box y (whole g n)).
    { intros y W Iy. assert (y = at_o o (nth o y 0) x) as ->.
      { apply at_o_eq; try apply Iy; auto. lia. }
      apply whole_at; auto. destruct Iy as (_ & Q & _). rewrite !tp in *. unfold e, wall_edge in *. destruct P, (even o c); lia. }
    destruct (Nat.eq_dec o o') as [EO|NO].
    - (* the opposite wall *)
      specialize (C x Bx) as [C1 C2].
      subst o'. assert (PP : P' = negb P) by (destruct P, P'; auto; congruence). subst P'. specialize (Big eq_refl).
      assert (X : forall z, in_box z (whole g n) -> (if P then 2 * g < twice_pos c o (nth o z 0) else twice_pos c o (nth o z 0) < 2 * (nth o n 0 + g)) -> F' c z = F c z).
      { intros z Bz Q. apply FC; auto. unfold hit, wall_edge. destruct P; cbn [negb]; lia. }
      split.
      + intros W. rewrite X; auto. unfold e, wall_edge in W. destruct P; lia.
      + intros W y Iy. rewrite (X x); [|auto|unfold e, wall_edge in W; destruct P; lia]. rewrite (X y); [auto| |].
        * apply BY; auto.
        * destruct Iy as (_ & Q & _). unfold e, wall_edge in *. destruct P; lia.
    - (* a wall in another direction *)
      split.
      + intros W. destruct (hit_dec c o' P' x) as [H|H].
        * destruct (proj1 (FC x Bx) H) as [[_ E]|[NW E]]; auto.
          destruct (image_inside c o' P' x Ho' Np Bx H NW) as (w & Iw & Bw). rewrite (E _ Iw).
          assert (Z : F c (at_o o' w x) = 0%R); [|rewrite Z; ring].
          apply (C _ Bw). rewrite at_o_other by auto. auto.
        * rewrite (proj2 (FC x Bx) H). apply (C x Bx); auto.
      + intros W y Iy. pose proof (BY y W Iy) as By.
        assert (XY : nth o' x 0 = nth o' y 0) by (symmetry; apply Iy; auto).
        destruct (hit_dec c o' P' x) as [H|H].
        * pose proof (hit_same c o' P' x y XY H) as Hy.
          destruct (proj1 (FC x Bx) H) as [[W1 E]|[NW E]]; destruct (proj1 (FC y By) Hy) as [[W2 Ey]|[NW2 Ey]]; try (exfalso; rewrite XY in *; congruence).
          -- rewrite E, Ey. ring.
          -- destruct (image_inside c o' P' x Ho' Np Bx H NW) as (w & Iw & Bw).
             assert (Iw' : image c o' (wall_edge g n o' P') y (at_o o' w y)).
             { destruct Iw as (I1 & I2 & I3). rewrite at_o_same in I2 by lia. split; [apply at_o_len|]. rewrite at_o_same by (rewrite <- L in *; destruct Iy as [-> _]; lia).
               rewrite <- XY. split; auto. intros k K. apply at_o_other; auto. }
             rewrite (E _ Iw), (Ey _ Iw').
             assert (Z : F c (at_o o' w x) = (sign c o * F c (at_o o' w y))%R); [|rewrite Z; ring].
             apply (C _ Bw); [rewrite at_o_other by auto; auto|].
             destruct Iy as (I1 & I2 & I3). split; [rewrite !at_o_len; auto|]. rewrite !at_o_other by auto. split; auto.
             intros k K. destruct (Nat.eq_dec k o') as [-> | K']; [rewrite !at_o_same; auto; lia|rewrite !at_o_other; auto].
        * assert (Hy : ~ hit c o' P' y) by (intros Q; apply H; eapply hit_same; [symmetry; exact XY|exact Q]).
          rewrite (proj2 (FC x Bx) H), (proj2 (FC y By) Hy). apply (C x Bx); auto.
  Qed.

  Lemma hits_behind c o P x : hit c o P x -> ~ inner c g n o P x.
  Proof. unfold hit, inner. destruct P; lia. Qed.

  Theorem all_faces faces F c : Forall (fun k => g < k) n -> Forall (ok_face g n) faces -> NoDup (map fst faces) -> tagged setE setB c = true ->
    let F' := conductors g n setE setB faces F in
    (forall o P order, In (o, P, order) faces -> conducting c g n o P (filled c g o P) F') /\
    (forall x, in_box x (whole g n) -> (forall o P order, In (o, P, order) faces -> inner c g n o P x) -> F' c x = F c x).
  Proof.
    intros N OK ND T.
    assert (BIG : forall o, (o < length n)%nat -> g < nth o n 0) by (intros o Ho; rewrite Forall_forall in N; apply N, nth_In; auto).
    assert (G : forall rest (done : list (nat * bool * list (list Z))) F0, Forall (ok_face g n) (done ++ rest) -> NoDup (map fst (done ++ rest)) ->
      (forall o P order, In (o, P, order) done -> conducting c g n o P (filled c g o P) F0) ->
      (forall o P order, In (o, P, order) (done ++ rest) -> conducting c g n o P (filled c g o P) (conductors g n setE setB rest F0)) /\
      (forall x, in_box x (whole g n) -> (forall o P order, In (o, P, order) rest -> inner c g n o P x) -> conductors g n setE setB rest F0 c x = F0 c x)).
    { induction rest as [|[[o P] order] rest IH]; intros done F0 OK' ND' C.
      - rewrite app_nil_r. cbn. split; auto.
      - unfold conductors in *. cbn [fold_left].
        assert (OKF : (ok_face g n) (o, P, order)) by (rewrite Forall_forall in OK'; apply OK'; apply in_app_iff; right; left; auto).
        destruct OKF as [Ho GO]. assert (Np := BIG o Ho).
        replace (done ++ (o, P, order) :: rest) with ((done ++ [(o, P, order)]) ++ rest) in * by (rewrite <- app_assoc; auto).
        destruct (IH (done ++ [(o, P, order)]) (conductor_in g n setE setB o P order F0)) as [R1 R2]; auto.
        + intros o1 P1 order1 I1. apply in_app_iff in I1 as [I1|[I1|[]]].
          * assert (OK1 : (ok_face g n) (o1, P1, order1)).
            { rewrite Forall_forall in OK'. apply OK'. apply in_app_iff. left. apply in_app_iff. auto. }
            destruct OK1 as [Ho1 GO1]. pose proof (BIG o1 Ho1). apply preserve; auto; try lia.
            -- rewrite !map_app in ND'. cbn [map fst] in ND'. rewrite <- app_assoc in ND'. cbn [app] in ND'. apply NoDup_remove_2 in ND'.
               intros Q. apply ND'. apply in_app_iff. left. rewrite <- Q. apply (in_map fst _ _ I1).
            -- unfold filled. destruct (P1 && _); lia.
            -- eapply C; eauto.
          * injection I1 as <- <- <-. apply (face_conducts g n setE setB G1 D3 o P order F0 c Ho ltac:(lia) GO T).
        + split; auto. intros x Bx IN. rewrite R2; auto.
          * apply (face_cases o P order F0 c x Ho ltac:(lia) GO T Bx). intros H. apply hits_behind in H. apply H. eapply IN. left. reflexivity.
          * intros. eapply IN. right. eauto. }
    destruct (G faces [] F) as [R1 R2]; auto. intros ? ? ? [].
  Qed.

  (** The last ghost cell of the upper side is left alone by the components between the nodes. *)
  Theorem last_ghost o order F c x : (o < length n)%nat -> 0 < nth o n 0 -> good_order g n o true order -> tagged setE setB c = true ->
    in_box x (whole g n) -> sign c o = 1%R -> nth o x 0 = nth o n 0 + 2 * g - 1 ->
    conductor_in g n setE setB o true order F c x = F c x.
  Proof.
    intros Ho Np GO T Bx S E. apply face_cases; auto. unfold hit, wall_edge. rewrite tp, E.
    unfold sign in S. fold (even o c) in S. destruct (even o c); [lia|lra].
  Qed.
  Theorem last_ghost_wrong o order c : (o < length n)%nat -> Forall (fun k => g < k) n -> good_order g n o true order -> tagged setE setB c = true ->
    sign c o = 1%R -> exists F, ~ conducting c g n o true g (conductor_in g n setE setB o true order F).
  Proof.
    intros Ho N GO T S.
    assert (BIG : forall o, (o < length n)%nat -> g < nth o n 0) by (intros k Hk; rewrite Forall_forall in N; apply N, nth_In; auto).
    assert (Np := BIG o Ho).
    assert (EV : even o c = true) by (unfold sign in S; fold (even o c) in S; destruct (even o c); [auto|lra]).
    set (F := (fun _ y => if nth o y 0 =? nth o n 0 + 2 * g - 1 then 1%R else 0%R) : fields). exists F. intros C.
    set (x := at_o o (nth o n 0 + 2 * g - 1) (repeat 0 (length n))).
    assert (B0 : in_box (repeat 0 (length n)) (whole g n)).
    { apply (in_box_nth n D3). rewrite repeat_length, whole_length. split; auto. intros k Hk. rewrite whole_nth by auto. rewrite nth_repeat. pose proof (BIG k Hk). lia. }
    assert (Bx : in_box x (whole g n)) by (apply whole_at; auto; lia).
    assert (Xo : nth o x 0 = nth o n 0 + 2 * g - 1) by (apply at_o_same; rewrite repeat_length; auto).
    assert (Lx : length x = length n) by (unfold x; rewrite at_o_len, repeat_length; auto).
    destruct (image_at n D3 c o (wall_edge g n o true) x ltac:(lia)) as (w & Iw & Tw).
    destruct (C x Bx) as [_ M]. specialize (fun H => M H _ Iw). rewrite S in M.
    rewrite (last_ghost o order F c x) in M; auto; [|lia].
    rewrite !tp, EV, Xo in *. unfold wall_edge in *.
    assert (Bw : in_box (at_o o w x) (whole g n)) by (apply whole_at; auto; lia).
    rewrite (proj2 (face_cases o true order F c (at_o o w x) Ho ltac:(lia) GO T Bw)) in M.
    - unfold F in M. rewrite Xo, at_o_same in M by lia. rewrite Z.eqb_refl in M.
      destruct (Z.eqb_spec w (nth o n 0 + 2 * g - 1)); [lia|]. specialize (M ltac:(lia)). lra.
    - unfold hit, wall_edge. rewrite tp, EV, at_o_same by lia. lia.
  Qed.
End Faces.

Lemma lower_walls g n setE setB faces F c :
  0 < g -> (length n <= 3)%nat -> Forall (fun k => g < k) n -> Forall (ok_face g n) faces -> NoDup (map fst faces) ->
  tagged setE setB c = true ->
  forall o order, In (o, false, order) faces -> conducting c g n o false g (conductors g n setE setB faces F).
Proof. intros G1 D3 N OK ND T o order H. exact (proj1 (all_faces g n setE setB G1 D3 faces F c N OK ND T) o false order H). Qed.

Lemma untagged g n setE setB faces F c :
  (length n <= 3)%nat -> Forall (ok_face g n) faces -> tagged setE setB c = false ->
  forall x, conductors g n setE setB faces F c x = F c x.
Proof.
  intros D3 OK T x. unfold conductors. revert F. induction OK as [|[[o P] order] faces [Ho GO] OK IH]; intros F; cbn [fold_left]; auto.
  rewrite IH. eapply face_untagged; eauto.
Qed.

Lemma upper_last g n setE setB o order c :
  0 < g -> (length n <= 3)%nat -> Forall (fun k => g < k) n -> ok_face g n (o, true, order) -> tagged setE setB c = true ->
  sign c o = 1%R -> exists F, ~ conducting c g n o true g (conductor_in g n setE setB o true order F).
Proof. intros G1 D3 N [Ho GO] T S. eapply last_ghost_wrong; eauto. Qed.
