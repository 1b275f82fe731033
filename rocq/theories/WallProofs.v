From Coq Require Import ZArith List Bool Reals Lra Lia Permutation.
From Verif Require Import Base ListLemmas FieldModel WallModel WallSpec.
Import ListNotations.
Open Scope Z_scope.

(** ** One index replaced *)
Lemma at_o_len o v x : length (at_o o v x) = length x.
Proof. revert o. induction x as [|a x IH]; intros [|o]; simpl; auto. Qed.
Lemma at_o_length o v x : (o < length x)%nat -> length (at_o o v x) = length x.
Proof. intros _. apply at_o_len. Qed.
Lemma at_o_same o v x : (o < length x)%nat -> nth o (at_o o v x) 0 = v.
Proof. revert o. induction x as [|a x IH]; intros [|o] H; simpl in *; try lia; auto. apply IH. lia. Qed.
Lemma at_o_other o v x k : k <> o -> nth k (at_o o v x) 0 = nth k x 0.
Proof.
  revert o k. induction x as [|a x IH]; intros o k H; [destruct o; auto|].
  destruct o as [|o], k as [|k]; simpl; auto; try lia.
Qed.
Lemma list_ext (x y : list Z) : length x = length y -> (forall k, (k < length x)%nat -> nth k x 0 = nth k y 0) -> x = y.
Proof.
  revert y. induction x as [|a x IH]; intros [|b y] L H; simpl in L; try lia; auto.
  f_equal; [apply (H 0%nat); simpl; lia|]. apply IH; [lia|]. intros k Hk. apply (H (S k)). simpl. lia.
Qed.
Lemma at_o_eq o v x y : (o < length x)%nat -> length y = length x -> nth o y 0 = v -> (forall k, k <> o -> nth k y 0 = nth k x 0) -> y = at_o o v x.
Proof.
  intros H L E O. apply list_ext; [rewrite at_o_length; auto|]. intros k Hk. destruct (Nat.eq_dec k o) as [-> | N].
  - rewrite at_o_same; auto. - rewrite at_o_other; auto.
Qed.
Lemma at_o_at_o o v w x : (o < length x)%nat -> at_o o v (at_o o w x) = at_o o v x.
Proof.
  intros H. symmetry. apply at_o_eq; rewrite ?at_o_length; auto.
  - apply at_o_same; auto. - intros k K. rewrite !at_o_other; auto.
Qed.
Lemma at_o_id o x : (o < length x)%nat -> at_o o (nth o x 0) x = x.
Proof. intros H. symmetry. apply at_o_eq; auto. Qed.
Lemma at_o_swap o o' v w x : o <> o' -> (o < length x)%nat -> (o' < length x)%nat -> at_o o v (at_o o' w x) = at_o o' w (at_o o v x).
Proof.
  intros N H H'. apply at_o_eq; rewrite ?at_o_len; auto.
  - rewrite at_o_other by auto. apply at_o_same; auto.
  - intros k K. destruct (Nat.eq_dec k o) as [-> | K'].
    + rewrite !at_o_same; rewrite ?at_o_len; auto.
    + rewrite !at_o_other; auto.
Qed.

(** ** What a thread writes to one component: target, and source with its sign if not zero *)
Section Face0.
  Variables (e : Z) (o : nat) (P : bool).
  Definition even (c : comp) : bool := Bool.eqb (electric c) (Nat.eqb (along c) o).
  Definition val (F : fields) (c : comp) (v : option (R * list Z)) : R :=
    match v with None => 0%R | Some (s, y) => (s * F c y)%R end.

  Lemma set_hit (F : fields) c x v y : fset F c x v c y = if list_eq_dec Z.eq_dec y x then v else F c y.
  Proof. unfold set. destruct (comp_eq_dec c c); [auto|congruence]. Qed.
  Lemma set_miss (F : fields) c c' x v y : c' <> c -> fset F c x v c' y = F c' y.
  Proof. intros H. unfold set. destruct (comp_eq_dec c' c); [congruence|auto]. Qed.

  Lemma zero_hit F c x y : zero e o c x F c y = if list_eq_dec Z.eq_dec y (at_o o e x) then 0%R else F c y.
  Proof. apply set_hit. Qed.
  Lemma copy_hit F c x y : copy e o P c x F c y =
    let '(t, w) := if P then (at_o o (e + nth o x 0 - 1) x, at_o o (e - nth o x 0) x) else (at_o o (e - nth o x 0) x, at_o o (e + nth o x 0 - 1) x) in
    if list_eq_dec Z.eq_dec y t then (1 * F c w)%R else F c y.
  Proof. unfold copy. destruct P; cbv zeta; rewrite set_hit, Rmult_1_l; reflexivity. Qed.
  Lemma flip_hit F c x y : flip e o P c x F c y =
    let '(t, w) := if P then (at_o o (e + nth o x 0) x, at_o o (e - nth o x 0) x) else (at_o o (e - nth o x 0) x, at_o o (e + nth o x 0) x) in
    if list_eq_dec Z.eq_dec y t then (-1 * F c w)%R else F c y.
  Proof. unfold flip. destruct P; cbv zeta; rewrite set_hit; (replace (-1)%R with (- (1))%R by ring); rewrite <- Ropp_mult_distr_l, Rmult_1_l; reflexivity. Qed.
  Lemma zero_miss F c c' x y : c' <> c -> zero e o c x F c' y = F c' y.
  Proof. apply set_miss. Qed.
  Lemma copy_miss F c c' x y : c' <> c -> copy e o P c x F c' y = F c' y.
  Proof. intros H. unfold copy. destruct P; apply set_miss; auto. Qed.
  Lemma flip_miss F c c' x y : c' <> c -> flip e o P c x F c' y = F c' y.
  Proof. intros H. unfold flip. destruct P; apply set_miss; auto. Qed.

  Definition one_wr (c : comp) (x : list Z) : option (list Z * option (R * list Z)) :=
    let i := nth o x 0 in
      if i =? 0 then if even c then None else Some (at_o o e x, None)
      else if even c then Some (if P then (at_o o (e + i - 1) x, Some (1%R, at_o o (e - i) x)) else (at_o o (e - i) x, Some (1%R, at_o o (e + i - 1) x)))
      else Some (if P then (at_o o (e + i) x, Some ((-1)%R, at_o o (e - i) x)) else (at_o o (e - i) x, Some ((-1)%R, at_o o (e + i) x))).

End Face0.

Ltac wall_t :=
  repeat first [rewrite zero_miss by discriminate | rewrite copy_miss by discriminate | rewrite flip_miss by discriminate];
  try reflexivity; rewrite ?zero_hit, ?copy_hit, ?flip_hit;
  match goal with P : bool |- _ => destruct P end; cbv iota zeta;
  repeat first [rewrite zero_miss by discriminate | rewrite copy_miss by discriminate | rewrite flip_miss by discriminate]; reflexivity.

Lemma wall_E_spec e o P (O3 : (o < 3)%nat) F x c y : wall_E e o P x F c y =
  if electric c then match one_wr e o P c x with None => F c y | Some (t, v) => if list_eq_dec Z.eq_dec y t then val F c v else F c y end else F c y.
Proof.
  unfold wall_E, one_wr, even, val. destruct o as [|[|[|]]]; [| | |lia]; clear O3;
  destruct c; cbn [electric along Nat.eqb Bool.eqb]; match goal with |- context [nth ?k x 0 =? 0] => destruct (nth k x 0 =? 0) end; wall_t.
Qed.
Lemma wall_B_spec e o P (O3 : (o < 3)%nat) F x c y : wall_B e o P x F c y =
  if electric c then F c y else match one_wr e o P c x with None => F c y | Some (t, v) => if list_eq_dec Z.eq_dec y t then val F c v else F c y end.
Proof.
  unfold wall_B, one_wr, even, val. destruct o as [|[|[|]]]; [| | |lia]; clear O3;
  destruct c; cbn [electric along Nat.eqb Bool.eqb]; match goal with |- context [nth ?k x 0 =? 0] => destruct (nth k x 0 =? 0) end; wall_t.
Qed.

Section Face.
  Variables (e : Z) (o : nat) (P setE setB : bool).
  Hypothesis O3 : (o < 3)%nat.
  Local Notation even := (even o).
  Definition wr (c : comp) (x : list Z) : option (list Z * option (R * list Z)) :=
    let i := nth o x 0 in
    if tagged setE setB c then
      if i =? 0 then if even c then None else Some (at_o o e x, None)
      else if even c then Some (if P then (at_o o (e + i - 1) x, Some (1%R, at_o o (e - i) x)) else (at_o o (e - i) x, Some (1%R, at_o o (e + i - 1) x)))
      else Some (if P then (at_o o (e + i) x, Some ((-1)%R, at_o o (e - i) x)) else (at_o o (e - i) x, Some ((-1)%R, at_o o (e + i) x)))
    else None.
  Lemma conductor_spec F x c y : conductor e o P setE setB F x c y =
    match wr c x with None => F c y | Some (t, v) => if list_eq_dec Z.eq_dec y t then val F c v else F c y end.
  Proof.
    unfold conductor, wr, tagged. destruct setE, setB, (electric c) eqn:E; rewrite ?wall_B_spec, ?E, ?wall_E_spec, ?E by auto; try reflexivity.
    all: fold (one_wr e o P c x); destruct (one_wr e o P c x) as [[t [[w u]|]]|]; cbn [val]; rewrite ?wall_E_spec, ?E by auto; reflexivity.
  Qed.

  (** Behind the wall or on it: [behind] for targets, [before] for sources. *)
  Lemma wr_behind c x t v : (o < length x)%nat -> 0 <= nth o x 0 -> wr c x = Some (t, v) ->
    length t = length x /\ (forall k, k <> o -> nth k t 0 = nth k x 0) /\
    (if P then 2 * e <= twice_pos c o (nth o t 0) else twice_pos c o (nth o t 0) <= 2 * e) /\
    nth o x 0 = (if P then nth o t 0 - e else e - nth o t 0) + (if even c && P then 1 else 0) /\
    match v with
    | None => nth o t 0 = e /\ even c = false
    | Some (s, y) => s = sign c o /\ image c o e t y /\ length y = length x /\
        (if P then twice_pos c o (nth o y 0) < 2 * e else 2 * e < twice_pos c o (nth o y 0))
    end.
  Proof.
    intros L I. unfold wr. destruct (tagged _ _ _); [|discriminate].
    assert (EV : twice_pos c o = fun i => 2 * i + if even c then 1 else 0) by reflexivity.
    assert (SG : sign c o = if even c then 1%R else (-1)%R) by reflexivity.
    unfold image. rewrite EV, SG. 
    destruct (Z.eqb_spec (nth o x 0) 0) as [Z0|Z0]; destruct (even c) eqn:E; try discriminate; destruct P; intros H; injection H as <- <-; cbn [andb];
      rewrite ?at_o_length, ?at_o_same by (rewrite ?at_o_length; auto);
      repeat match goal with |- _ /\ _ => split end; auto; try lia; intros; rewrite ?at_o_other by auto; auto.
  Qed.

  Variables (ts : list (list Z)) (D : nat).
  Hypothesis OD : (o < D)%nat.
  Hypothesis TS : forall t, In t ts -> length t = D /\ 0 <= nth o t 0.
  Hypothesis ND : NoDup ts.

  Lemma wr_inj c x x' t v v' : In x ts -> In x' ts -> wr c x = Some (t, v) -> wr c x' = Some (t, v') -> x = x'.
  Proof.
    intros I I' W W'. destruct (TS x I) as [L N]. destruct (TS x' I') as [L' N'].
    destruct (wr_behind c x t v ltac:(lia) N W) as (A1 & A2 & A3 & A4 & A5).
    destruct (wr_behind c x' t v' ltac:(lia) N' W') as (B1 & B2 & B3 & B4 & B5).
    apply list_ext; [lia|]. intros k Hk. destruct (Nat.eq_dec k o) as [-> | K]; [lia|]. rewrite <- A2, <- B2; auto.
  Qed.

  (** The result, whatever the order. *)
  Theorem face_result F c y :
    (forall x t v, In x ts -> wr c x = Some (t, v) -> y = t -> par_for (conductor e o P setE setB) ts F c y = val F c v) /\
    ((forall x t v, In x ts -> wr c x = Some (t, v) -> y <> t) -> par_for (conductor e o P setE setB) ts F c y = F c y).
  Proof.
    unfold par_for.
    (* unfold from the left, keeping the untouched sources *)
    assert (G : forall done rest m, NoDup (done ++ rest) -> (forall t, In t (done ++ rest) -> In t ts) ->
      (forall y, (forall x t v, In x done -> wr c x = Some (t, v) -> y = t -> m c y = val F c v) /\
                 ((forall x t v, In x done -> wr c x = Some (t, v) -> y <> t) -> m c y = F c y)) ->
      (forall y, (forall x t v, In x (done ++ rest) -> wr c x = Some (t, v) -> y = t -> fold_left (conductor e o P setE setB) rest m c y = val F c v) /\
                 ((forall x t v, In x (done ++ rest) -> wr c x = Some (t, v) -> y <> t) -> fold_left (conductor e o P setE setB) rest m c y = F c y))).
    { intros done rest. revert done. induction rest as [|a rest IH]; intros done m N S M z.
      - rewrite app_nil_r. cbn [fold_left]. apply M.
      - cbn [fold_left]. replace (done ++ a :: rest) with ((done ++ [a]) ++ rest) in * by (rewrite <- app_assoc; auto).
        apply IH; auto. clear z. intros z.
        assert (SA : In a ts) by (apply S; apply in_app_iff; left; apply in_app_iff; right; simpl; auto).
        assert (SD : forall x, In x done -> In x ts) by (intros x Hx; apply S; apply in_app_iff; left; apply in_app_iff; auto).
        assert (NA : ~ In a done).
        { intros Q. apply in_split in Q as (l1 & l2 & ->). rewrite <- !app_assoc in N. simpl in N.
          apply NoDup_remove_2 in N. apply N. apply in_app_iff. right. apply in_app_iff. right. simpl. auto. }
        rewrite conductor_spec. destruct (TS a SA) as [LA NAo].
        destruct (wr c a) as [[t v]|] eqn:W.
        + destruct (wr_behind c a t v ltac:(lia) NAo W) as (A1 & A2 & A3 & A4 & A5).
          assert (VA : val m c v = val F c v).
          { destruct v as [[s w]|]; auto. cbn [val]. f_equal. apply M. intros x t' v' Hx W' ->.
            destruct (TS x (SD x Hx)) as [LX NX].
            destruct (wr_behind c x t' v' ltac:(lia) NX W') as (B1 & B2 & B3 & _). destruct A5 as (_ & _ & _ & Q). destruct P; lia. }
          split.
          * intros x t' v' Hx W' ->. apply in_app_iff in Hx as [Hx|[<- | []]].
            -- destruct (list_eq_dec _ _ _) as [-> |NE].
               ++ exfalso. apply NA. rewrite (wr_inj c a x t v v'); auto.
               ++ apply (proj1 (M t') x t' v'); auto.
            -- rewrite W in W'. injection W' as <- <-. destruct (list_eq_dec _ _ _); [auto|congruence].
          * intros H. destruct (list_eq_dec _ _ _) as [-> |NE].
            -- exfalso. eapply H; [|exact W|reflexivity]. apply in_app_iff. right. simpl. auto.
            -- apply M. intros x t' v' Hx. apply H. apply in_app_iff. auto.
        + split.
          * intros x t' v' Hx W' ->. apply in_app_iff in Hx as [Hx|[<- | []]]; [|congruence]. apply (proj1 (M t') x t' v'); auto.
          * intros H. apply M. intros x t' v' Hx. apply H. apply in_app_iff. auto. }
    specialize (G [] ts F). cbn [app] in G. apply G; auto. intros z. split; [intros x t v []|auto].
  Qed.
End Face.

(** ** One face of the grid *)
Section Grid.
  Variables (g : Z) (n : list Z) (setE setB : bool).
  Hypothesis G1 : 0 < g.
  Hypothesis D3 : (length n <= 3)%nat.

  Lemma range_nth o P k : (k < length n)%nat -> nth k (wall_range g n o P) 0 = if Nat.eqb k o then (if P then g else g + 1) else nth k n 0 + 2 * g.
  Proof.
    intros H. unfold wall_range. 
    rewrite (nth_indep _ 0 ((fun d => if Nat.eqb d o then (if P then g else g + 1) else nth d n 0 + 2 * g) 0%nat)) by (rewrite map_length, seq_length; auto).
    rewrite (map_nth (fun d => if Nat.eqb d o then (if P then g else g + 1) else nth d n 0 + 2 * g)). rewrite seq_nth by auto. auto.
  Qed.
  Lemma range_length o P : length (wall_range g n o P) = length n.
  Proof. unfold wall_range. rewrite map_length, seq_length. auto. Qed.
  Lemma whole_nth k : (k < length n)%nat -> nth k (whole g n) 0 = nth k n 0 + 2 * g.
  Proof.
    intros H. unfold whole. rewrite (nth_indep _ 0 (0 + 2 * g)) by (rewrite map_length; auto). rewrite (map_nth (fun k => k + 2 * g)). auto.
  Qed.
  Lemma whole_length : length (whole g n) = length n.
  Proof. apply map_length. Qed.
  Lemma in_box_nth x l : in_box x l <-> length x = length l /\ forall k, (k < length l)%nat -> 0 <= nth k x 0 < nth k l 0.
  Proof.
    unfold in_box. rewrite (ListLemmas.Forall2_nth _ _ _ 0 0). split; intros [A B]; split; auto; intros k Hk; apply B; lia.
  Qed.
  Lemma whole_at x o v : in_box x (whole g n) -> (o < length n)%nat -> 0 <= v < nth o n 0 + 2 * g -> in_box (at_o o v x) (whole g n).
  Proof.
    intros H Ho Hv. apply in_box_nth in H as [L B]. rewrite whole_length in *. apply in_box_nth. rewrite at_o_length, whole_length by lia. split; auto.
    intros k Hk. specialize (B k Hk). destruct (Nat.eq_dec k o) as [-> | K]; [rewrite at_o_same, whole_nth by lia; auto|rewrite at_o_other; auto].
  Qed.

  (** Thread that writes the given cell, if any. *)
  Lemma writes o P order x c : (o < length n)%nat -> 0 < nth o n 0 -> good_order g n o P order -> in_box x (whole g n) -> tagged setE setB c = true ->
    (if P then 2 * wall_edge g n o P <= twice_pos c o (nth o x 0) < 2 * (wall_edge g n o P + (if even o c then g - 1 else g))
     else twice_pos c o (nth o x 0) <= 2 * wall_edge g n o P) ->
    exists t v, In t order /\ wr (wall_edge g n o P) o P setE setB c t = Some (x, v).
  Proof.
    intros Ho Np [_ GO] Bx T R. set (e := wall_edge g n o P) in *. pose proof Bx as Bx'. apply in_box_nth in Bx' as [L B]. rewrite whole_length in *.
    set (i := nth o x 0) in *. set (j := (if P then i - e else e - i) + (if even o c && P then 1 else 0)).
    assert (EV : twice_pos c o i = 2 * i + if even o c then 1 else 0) by reflexivity. rewrite EV in R.
    pose proof (B o Ho) as Bo. rewrite whole_nth in Bo by auto. fold i in Bo.
    assert (J : 0 <= j < if P then g else g + 1).
    { unfold j, e, wall_edge in *. destruct P, (even o c); cbn [andb]; lia. }
    exists (at_o o j x).
    assert (IN : In (at_o o j x) order).
    { apply GO. apply in_box_nth. rewrite range_length, at_o_length by lia. split; auto. intros k Hk. rewrite range_nth by auto.
      destruct (Nat.eqb_spec k o) as [-> | K]; [rewrite at_o_same by lia; auto|]. rewrite at_o_other by auto. specialize (B k Hk). rewrite whole_nth in B; auto. }
    assert (NJ : nth o (at_o o j x) 0 = j) by (apply at_o_same; lia).
    assert (X : forall w, w = i -> at_o o w (at_o o j x) = x).
    { intros w ->. rewrite at_o_at_o by lia. apply at_o_id. lia. }
    unfold wr. rewrite T, NJ. unfold j.
    destruct (even o c) eqn:E; destruct P eqn:EP; cbn [andb]; match goal with |- context [?a =? 0] => destruct (Z.eqb_spec a 0) as [Z0|Z0] end; try (exfalso; unfold j, e, wall_edge in *; lia);
      eexists; (split; [exact IN|]); rewrite X by lia; reflexivity.
  Qed.

  Lemma good_ts o P order : (o < length n)%nat -> good_order g n o P order -> forall t, In t order -> length t = length n /\ 0 <= nth o t 0.
  Proof.
    intros Ho [_ GO] t Ht. apply GO in Ht. apply in_box_nth in Ht as [L B]. rewrite range_length in *. split; auto. apply B; auto.
  Qed.

  Lemma image_at c o e x : (o < length x)%nat -> exists w, image c o e x (at_o o w x) /\ twice_pos c o w = 4 * e - twice_pos c o (nth o x 0).
  Proof.
    intros H. assert (EV : twice_pos c o = fun i => 2 * i + if even o c then 1 else 0) by reflexivity.
    exists (2 * e - nth o x 0 - if even o c then 1 else 0). unfold image. rewrite at_o_length, at_o_same, EV by auto.
    split; [split; [auto|split; [destruct (even o c); lia|intros; apply at_o_other; auto]]|destruct (even o c); lia].
  Qed.
  Lemma image_unique c o e x y y' : (o < length x)%nat -> image c o e x y -> image c o e x y' -> y = y'.
  Proof.
    intros H (L & E & O) (L' & E' & O'). apply list_ext; [lia|]. intros k Hk. destruct (Nat.eq_dec k o) as [-> | K].
    - unfold twice_pos in *. lia. - rewrite O, O' by auto. auto.
  Qed.

  Theorem face_conducts o P order F c : (o < length n)%nat -> 0 < nth o n 0 -> good_order g n o P order -> tagged setE setB c = true ->
    let F' := conductor_in g n setE setB o P order F in
    conducting c g n o P (if P && even o c then g - 1 else g) F' /\
    (forall x, in_box x (whole g n) -> inner c g n o P x -> F' c x = F c x).
  Proof.
    intros Ho Np GO T F'. pose proof GO as [ND _]. pose proof (good_ts o P order Ho GO) as TS. set (e := wall_edge g n o P) in *.
    assert (O3 : (o < 3)%nat) by lia.
    assert (RES := fun y => face_result e o P setE setB O3 order (length n) Ho TS ND F c y).
    assert (INN : forall x, length x = length n -> inner c g n o P x -> F' c x = F c x).
    { intros x L I. apply RES. intros t y v Ht W ->. destruct (TS t Ht) as [Lt Nt].
      destruct (wr_behind e o P setE setB O3 c t y v ltac:(lia) Nt W) as (_ & _ & A3 & _). unfold inner in I. fold e in I. destruct P; lia. }
    split.
    - unfold conducting. fold e. intros x Bx. pose proof Bx as Bx'. apply in_box_nth in Bx' as [L B]. rewrite whole_length in *.
      assert (EV : twice_pos c o (nth o x 0) = 2 * nth o x 0 + if even o c then 1 else 0) by reflexivity.
      split.
      + intros W. destruct (writes o P order x c Ho Np GO Bx T) as (t & v & It & Wt).
        { fold e. destruct P, (even o c); lia. }
        fold e in Wt. destruct (TS t It) as [Lt Nt]. unfold F', conductor_in. fold e. rewrite (proj1 (RES x) t x v It Wt eq_refl).
        destruct (wr_behind e o P setE setB O3 c t x v ltac:(lia) Nt Wt) as (_ & _ & _ & _ & A5). destruct v as [[s y]|]; auto.
        destruct A5 as (_ & (_ & Q & _) & _ & Q'). destruct P; lia.
      + intros R y Iy. destruct (writes o P order x c Ho Np GO Bx T) as (t & v & It & Wt).
        { fold e. destruct P, (even o c); cbn [andb] in R; lia. }
        fold e in Wt. destruct (TS t It) as [Lt Nt]. pose proof (proj1 (RES x) t x v It Wt eq_refl) as E1.
        unfold F' at 1, conductor_in. fold e. rewrite E1.
        destruct (wr_behind e o P setE setB O3 c t x v ltac:(lia) Nt Wt) as (_ & _ & _ & _ & A5). destruct v as [[s w]|].
        * destruct A5 as (-> & Iw & Lw & Q). assert (y = w) as -> by (eapply image_unique; [| exact Iy|exact Iw]; lia).
          cbn [val]. f_equal. symmetry. apply INN; [lia|]. unfold inner. fold e. auto.
        * exfalso. destruct A5 as [A5 A6]. rewrite A6 in *. destruct P; cbn [andb] in R; lia.
    - intros x Bx. apply INN. apply in_box_nth in Bx as [L _]. rewrite whole_length in L. auto.
  Qed.

  (** Components that are not selected do not change. *)
  Theorem face_untagged o P order F c x : (o < length n)%nat -> good_order g n o P order -> tagged setE setB c = false ->
    conductor_in g n setE setB o P order F c x = F c x.
  Proof.
    intros Ho GO T. pose proof GO as [ND _]. apply (face_result _ o P setE setB ltac:(lia) order (length n) Ho (good_ts o P order Ho GO) ND F c x).
    intros t y v It W. exfalso. unfold wr in W. rewrite T in W. discriminate.
  Qed.
End Grid.
