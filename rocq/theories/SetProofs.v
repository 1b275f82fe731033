(** Proofs about fields set by the problem generator. *)
From Coq Require Import ZArith List Bool Reals Lra Lia Permutation.
From Verif Require Import Base ListLemmas DecompModel DecompSpec FieldModel FieldProofs HaloSpec SyncProofs ShapeSpec InterpSpec StepSpec MatchModel MatchProofs MatchTop SetModel SetSpec.
From Verif Require MomentTop StatsProofs.
Import ListNotations.
Open Scope R_scope.

(** ** Bodies that write values known beforehand *)
Section Write.
  Variables (val : comp -> list Z -> option R) (cs : list Z -> list comp).
  Definition wr (m : fields) (x : list Z) : fields := fold_left (fun m c => match val c x with Some v => fset m c x v | None => m end) (cs x) m.
  Lemma wr_fold x c y : forall l m, fold_left (fun m c => match val c x with Some v => fset m c x v | None => m end) l m c y =
    if in_dec comp_eq_dec c l then if cell_dec y x then match val c x with Some v => v | None => m c y end else m c y else m c y.
  Proof.
    induction l as [|k l IH]; intro m; [reflexivity|]. cbn [fold_left]. rewrite IH.
    assert (E : match val k x with Some v => fset m k x v | None => m end c y = if comp_eq_dec c k then if cell_dec y x then match val c x with Some v => v | None => m c y end else m c y else m c y).
    { destruct (comp_eq_dec c k) as [->|N].
      - destruct (val k x) as [v|]; [|destruct (cell_dec y x); reflexivity]. destruct (cell_dec y x) as [->|Q]; [apply set_eq|apply set_neq_x; exact Q].
      - destruct (val k x) as [v|]; [|reflexivity]. apply set_neq_c. exact N. }
    rewrite E. destruct (in_dec comp_eq_dec c l) as [A|A], (in_dec comp_eq_dec c (k :: l)) as [B|B]; destruct (comp_eq_dec c k) as [C|C]; destruct (cell_dec y x); try reflexivity;
      try (exfalso; cbn in B; intuition congruence); destruct (val c x); reflexivity.
  Qed.
  Hypothesis all : forall x c, In c (cs x).
  Lemma wr_at m x c y : wr m x c y = if cell_dec y x then match val c x with Some v => v | None => m c y end else m c y.
  Proof. unfold wr. rewrite wr_fold. destruct (in_dec comp_eq_dec c (cs x)) as [_|N]; [reflexivity|]. exfalso. apply N, all. Qed.
  Lemma wr_loop cells order m c y : NoDup cells -> Permutation order cells ->
    par_for wr order m c y = if in_dec cell_dec y cells then match val c y with Some v => v | None => m c y end else m c y.
  Proof.
    intros ND P. rewrite (par_for_spec (fun _ => true) wr).
    - destruct (in_dec cell_dec y order) as [A|A]; destruct (in_dec cell_dec y cells) as [B|B];
        try (exfalso; first [apply B; eapply Permutation_in; [exact P|exact A]|apply A; eapply Permutation_in; [apply Permutation_sym; exact P|exact B]]); [|reflexivity].
      rewrite wr_at. destruct (cell_dec y y); [reflexivity|congruence].
    - intros m0 x c0 z [H|H]; [discriminate|]. rewrite wr_at. destruct (cell_dec z x); [contradiction|reflexivity].
    - intros m0 m' c0 x _ _ Ho. rewrite !wr_at. destruct (cell_dec x x); [|congruence]. destruct (val c0 x); [reflexivity|]. apply Ho. exact I.
    - eapply Permutation_NoDup; [apply Permutation_sym; exact P|exact ND].
  Qed.
End Write.

Lemma active_nodup g n : NoDup (active_cells g n).
Proof. unfold active_cells. apply FinFun.Injective_map_NoDup; [intros a b; apply MomentTop.loc_inj|apply nodup_box]. Qed.
Lemma active_in g n y : In (loc g y) (active_cells g n) <-> in_box y n.
Proof.
  unfold active_cells. rewrite in_map_iff. split.
  - intros [z [E I]]. apply MomentTop.loc_inj in E. subst z. apply in_boxl in I. unfold in_box. revert n I. induction y as [|a y IH]; intros [|k n] I; inversion I; subst; constructor; auto.
  - intro H. exists y. split; [reflexivity|]. apply in_boxl. unfold in_box in H. induction H; constructor; auto.
Qed.
Definition six : list comp := [Ex1; Ex2; Ex3; Bx1; Bx2; Bx3].
Lemma in_six c : In c six.
Proof. destruct c; cbn; tauto. Qed.
Lemma fold_ext {A B} (f f' : A -> B -> A) l : (forall a b, f a b = f' a b) -> forall a, fold_left f l a = fold_left f' l a.
Proof. intro H. induction l; intro x; [reflexivity|]. cbn. rewrite H. apply IHl. Qed.

(** ** Initial fields *)
Lemma in_box_length (y n : list Z) : in_box y n -> length y = length n.
Proof. intro H. eapply Forall2_length. exact H. Qed.
Lemma number_axis c : number c = S (axis_of c).
Proof. destruct c; reflexivity. Qed.
Lemma initial_sr g ph tu setter n order m : (1 <= length n <= 3)%nat -> (forall l, Permutation (order l) l) ->
  exists m', init_fields false g ph tu setter n order m = Ok m' /\
  (forall c y, in_box y n -> m' c (loc g y) = match setter c with Some f => tu (S (axis_of c)) (place c y) (f (ph (place c y))) | None => m c (loc g y) end) /\
  (forall c y, ~ in_box y n -> m' c (loc g y) = m c (loc g y)).
Proof.
  intros L HO. exists (par_for (set_sr g ph tu setter) (order (active_cells g n)) m).
  split; [destruct n as [|? [|? [|? [|? ?]]]]; cbn in L; try lia; reflexivity|].
  assert (E : forall c y, par_for (set_sr g ph tu setter) (order (active_cells g n)) m c y =
     if in_dec cell_dec y (active_cells g n) then match setter c with Some f => tu (number c) (where_ g c y) (f (ph (where_ g c y))) | None => m c y end else m c y).
  { intros c y. pose proof (wr_loop (fun c x => match setter c with Some f => Some (tu (number c) (where_ g c x) (f (ph (where_ g c x)))) | None => None end) (fun _ => six) (fun _ => in_six)
      (active_cells g n) (order (active_cells g n)) m c y (active_nodup g n) (HO _)) as W.
    transitivity (par_for (wr (fun c x => match setter c with Some f => Some (tu (number c) (where_ g c x) (f (ph (where_ g c x)))) | None => None end) (fun _ => six)) (order (active_cells g n)) m c y).
    - unfold par_for. rewrite (fold_ext (set_sr g ph tu setter) (wr (fun c x => match setter c with Some f => Some (tu (number c) (where_ g c x) (f (ph (where_ g c x)))) | None => None end) (fun _ => six))); [reflexivity|].
      intros m0 x. unfold set_sr, wr, six. apply fold_ext. intros m1 c1. destruct (setter c1); reflexivity.
    - rewrite W. destruct (in_dec _ _ _); [|reflexivity]. destruct (setter c); reflexivity. }
  split; intros c y H; rewrite E; destruct (in_dec cell_dec (loc g y) (active_cells g n)) as [A|A].
  - rewrite where_place by (rewrite (in_box_length _ _ H); exact L). rewrite number_axis. reflexivity.
  - exfalso. apply A, active_in, H.
  - exfalso. apply H. apply (active_in g), A.
  - reflexivity.
Qed.

Lemma initial_gr g ph tu setter n order m : (2 <= length n <= 3)%nat -> (forall l, Permutation (order l) l) ->
  exists m', init_fields true g ph tu setter n order m = Ok m' /\
  (forall c y, in_box y n -> m' c (loc g y) =
     if forallb (has setter) (if electric c then [Ex1; Ex2; Ex3] else [Bx1; Bx2; Bx3]) then match setter c with Some f => f (ph (place c y)) | None => m c (loc g y) end else m c (loc g y)) /\
  (forall c y, ~ in_box y n -> m' c (loc g y) = m c (loc g y)).
Proof.
  intros L HO. exists (par_for (set_gr g ph setter) (order (active_cells g n)) m).
  split; [destruct n as [|? [|? [|? [|? ?]]]]; cbn in L; try lia; reflexivity|].
  set (val := fun c x => if forallb (has setter) (if electric c then [Ex1; Ex2; Ex3] else [Bx1; Bx2; Bx3]) then match setter c with Some f => Some (f (ph (where_ g c x))) | None => None end else None).
  assert (E : forall c y, par_for (set_gr g ph setter) (order (active_cells g n)) m c y = if in_dec cell_dec y (active_cells g n) then match val c y with Some v => v | None => m c y end else m c y).
  { intros c y. rewrite <- (wr_loop val (fun _ => six) (fun _ => in_six) (active_cells g n) (order (active_cells g n)) m c y (active_nodup g n) (HO _)).
    unfold par_for. rewrite (fold_ext (set_gr g ph setter) (wr val (fun _ => six))); [reflexivity|].
    intros m0 x. unfold set_gr, set_gr_triple, wr, six, val. cbn [forallb electric fold_left].
    assert (HS : forall c, has setter c = match setter c with Some _ => true | None => false end) by reflexivity. rewrite !HS.
    destruct (setter Ex1), (setter Ex2), (setter Ex3), (setter Bx1), (setter Bx2), (setter Bx3); reflexivity. }
  split; intros c y H; rewrite E; destruct (in_dec cell_dec (loc g y) (active_cells g n)) as [A|A].
  - unfold val. rewrite where_place by (rewrite (in_box_length _ _ H); lia). destruct (forallb _ _); [|reflexivity]. destruct (setter c); reflexivity.
  - exfalso. apply A, active_in, H.
  - exfalso. apply H. apply (active_in g), A.
  - reflexivity.
Qed.

(** Positions on a subdomain shifted to the whole grid. *)
Lemma place_shift c : forall y s d, length s = length y -> place_from c d (map2 Z.add s y) = map2 Rplus (map IZR s) (place_from c d y).
Proof.
  induction y as [|a y IH]; intros [|b s] d L; cbn in L; try lia; [reflexivity|]. cbn [map2 place_from map]. rewrite IH by lia. f_equal.
  unfold node. rewrite plus_IZR. lra.
Qed.
Lemma divided_initial g ls PH TU ph tu setter order st F : (1 <= length ls <= 3)%nat ->
  (forall d p, ph d p = PH (shifted (sub_offset_ncells d) p)) -> (forall d a p v, tu d a p v = TU a (shifted (sub_offset_ncells d) p) v) ->
  (forall p l, Permutation (order p l) l) -> agree_active g ls st F ->
  let run d := init_fields false g (ph d) (tu d) setter (sub_ncells d) (order (sub_offset_ndomains d)) (st (sub_offset_ndomains d)) in
  (forall d, In d (domains ls) -> exists m, run d = Ok m) /\
  forall st', (forall d, In d (domains ls) -> run d = Ok (st' (sub_offset_ndomains d))) -> agree_active g ls st' (initial PH TU setter F).
Proof.
  intros L Hph Htu HO A run.
  assert (K : forall d, In d (domains ls) -> exists m, run d = Ok m /\ forall c y, in_box y (sub_ncells d) -> m c (loc g y) = initial PH TU setter F c (map2 Z.add (sub_offset_ncells d) y)).
  { intros d Hd. destruct (StatsProofs.dom_length ls d Hd) as [L1 L2].
    destruct (initial_sr g (ph d) (tu d) setter (sub_ncells d) (order (sub_offset_ndomains d)) (st (sub_offset_ndomains d)) ltac:(lia) (HO _)) as [m [E [V _]]].
    exists m. split; [exact E|]. intros c y Hy. rewrite V by exact Hy. unfold initial. destruct (setter c) as [f|]; [|apply A; assumption].
    pose proof (in_box_length _ _ Hy) as Ly. unfold place. rewrite (place_shift c y (sub_offset_ncells d) 0) by lia. rewrite Htu, Hph. reflexivity. }
  split.
  - intros d Hd. destruct (K d Hd) as [m [E _]]. exists m. exact E.
  - intros st' H d c y Hd Hy. destruct (K d Hd) as [m [E V]]. pose proof (eq_trans (eq_sym E) (H d Hd)) as Q. injection Q as Q. rewrite <- Q. apply V. exact Hy.
Qed.

(** ** Updates *)
Lemma stencil_brought g (b : fields) y c : (1 <= length y <= 3)%nat ->
  map (eval_row b (loc g y)) (stencil (loc g y) c) = e_there c (fun s k => b s (loc g k)) y ++ b_there c (fun s k => b s (loc g k)) y.
Proof.
  intro L. assert (E1 : forall a, (a + 1 + g = a + g + 1)%Z) by (intro; ring). assert (E2 : forall a, (a - 1 + g = a + g + -1)%Z) by (intro; ring).
  destruct y as [|y1 [|y2 [|y3 [|? ?]]]]; cbn [length] in L; try lia;
    destruct c; cbn [loc map stencil stencil1 stencil2 stencil3 eval_row fold_right map2 e_there b_there app brought mid_cell electric axis_of Nat.eqb Bool.eqb];
    rewrite ?Z.add_0_r, ?E1, ?E2; repeat (apply f_equal2; [lra|]); reflexivity.
Qed.

Definition cvalue (g : Z) ph tu tt (setter : comp -> option (list R -> list R -> list R -> bool * R)) (b : fields) (c : comp) (x : list Z) : option R :=
  match setter c with
  | None => None
  | Some f => let p := where_ g c x in
              let u := map (eval_row b x) (stencil x c) in
              let '(flag, v) := f (ph p) (tt p (firstn 3 u)) (tt p (skipn 3 u)) in
              if flag : bool then Some (tu (number c) p v) else None
  end.
Definition branches (x : list Z) : list comp := match x with [_] => [Ex1; Bx2; Bx3; Ex2; Ex3; Bx1] | [_; _] => [Ex1; Bx2; Ex2; Bx1; Ex3; Bx3] | _ => [Ex1; Ex2; Ex3; Bx1; Bx2; Bx3] end.
Lemma in_branches x c : In c (branches x).
Proof. unfold branches. destruct x as [|? [|? [|? ?]]]; destruct c; cbn; tauto. Qed.
Lemma custom_wr g ph tu tt setter b x m : custom_body g ph tu tt setter (Some b) (Ok m) x = Ok (wr (cvalue g ph tu tt setter b) branches m x).
Proof.
  unfold custom_body, wr. fold (branches x). generalize (branches x) as l. intro l. revert m. induction l as [|c l IH]; intro m; [reflexivity|]. cbn [fold_left].
  assert (E : custom1 g ph tu tt setter (Some b) x (Ok m) c = Ok (match cvalue g ph tu tt setter b c x with Some v => fset m c x v | None => m end)).
  { unfold custom1, cvalue. cbn [rbind]. destruct (setter c) as [f|]; [|reflexivity]. cbv zeta. destruct (f _ _ _) as [[] v]; reflexivity. }
  rewrite E. apply IH.
Qed.
Lemma custom_loop g ph tu tt setter b cells : forall m, custom_run g ph tu tt setter (Some b) cells m = Ok (par_for (wr (cvalue g ph tu tt setter b) branches) cells m).
Proof. unfold custom_run, par_for. induction cells as [|x cells IH]; intro m; [reflexivity|]. cbn [fold_left]. rewrite custom_wr. apply IH. Qed.

Lemma custom_values g ph tu tt setter n order em : (1 <= length n <= 3)%nat -> (forall l, Permutation (order l) l) ->
  exists m', custom_run g ph tu tt setter (Some em) (order (active_cells g n)) em = Ok m' /\
  (forall c y, in_box y n -> m' c (loc g y) = updated ph tu tt setter (fun s k => em s (loc g k)) c y) /\
  (forall c y, ~ in_box y n -> m' c (loc g y) = em c (loc g y)).
Proof.
  intros L HO. rewrite custom_loop. eexists. split; [reflexivity|].
  split; intros c y H; rewrite (wr_loop _ _ in_branches (active_cells g n) _ em c (loc g y) (active_nodup g n) (HO _)); destruct (in_dec cell_dec (loc g y) (active_cells g n)) as [A|A].
  - pose proof (in_box_length _ _ H) as Ly. unfold cvalue, updated. destruct (setter c) as [f|]; [|reflexivity]. cbv zeta.
    rewrite where_place, stencil_brought by lia. rewrite number_axis.
    change (firstn 3 (e_there c (fun s k => em s (loc g k)) y ++ b_there c (fun s k => em s (loc g k)) y)) with (e_there c (fun s k => em s (loc g k)) y).
    change (skipn 3 (e_there c (fun s k => em s (loc g k)) y ++ b_there c (fun s k => em s (loc g k)) y)) with (b_there c (fun s k => em s (loc g k)) y).
    destruct (f _ _ _) as [[] v]; reflexivity.
  - exfalso. apply A, active_in, H.
  - exfalso. apply H. apply (active_in g), A.
  - reflexivity.
Qed.

(** As the code is, any update reads an array that is not there. *)
Lemma ub_fold {A} (f : res A -> list Z -> res A) l : (forall x, f UB x = UB) -> fold_left f l UB = UB.
Proof. intro H. induction l; [reflexivity|]. cbn. rewrite H. exact IHl. Qed.
Lemma custom_ub g ph tu tt setter c f x m : setter c = Some f -> custom_body g ph tu tt setter None (Ok m) x = UB.
Proof.
  intro H. unfold custom_body. fold (branches x). pose proof (in_branches x c) as I. revert I. generalize (branches x) as l. revert m.
  assert (U : forall l, fold_left (custom1 g ph tu tt setter None x) l UB = UB) by (induction l as [|k l IH]; [reflexivity|]; cbn; exact IH).
  intros m l. revert m. induction l as [|k l IH]; intros m I; [destruct I|]. cbn [fold_left]. unfold custom1 at 2. cbn [rbind].
  destruct (setter k) as [fk|] eqn:E; [apply U|]. destruct I as [->|I]; [congruence|]. apply IH, I.
Qed.
Lemma update_undefined g ph tu tt setter n order em c f : setter c = Some f -> (forall l, Permutation (order l) l) -> (exists y, in_box y n) ->
  update_em_fields g ph tu tt setter n order em = UB.
Proof.
  intros H HO [y Hy]. unfold update_em_fields, custom_buffer, custom_run. apply (active_in g) in Hy.
  assert (I : In (loc g y) (order (active_cells g n))) by (eapply Permutation_in; [apply Permutation_sym, HO|exact Hy]).
  destruct (order (active_cells g n)) as [|x l]; [destruct I|]. cbn [fold_left]. rewrite (custom_ub _ _ _ _ _ c f) by exact H.
  apply ub_fold. intro z. unfold custom_body. generalize (match z with [_] => [Ex1; Bx2; Bx3; Ex2; Ex3; Bx1] | [_; _] => [Ex1; Bx2; Ex2; Bx1; Ex3; Bx3] | _ => [Ex1; Ex2; Ex3; Bx1; Bx2; Bx3] end) as k.
  induction k as [|q k IH]; [reflexivity|]. cbn. exact IH.
Qed.

(** ** Interpolation *)
Lemma brought_affine t s : forall y d a b (f : list Z -> R), (forall k, length k = length y -> f k = affine a b (place_from s d k)) -> length b = length y ->
  brought t s d f y = affine a b (place_from t d y).
Proof.
  induction y as [|i r IH]; intros d a b f Hf Lb.
  - cbn. rewrite Hf by reflexivity. destruct b; reflexivity.
  - destruct b as [|b0 b]; [cbn in Lb; lia|].
    assert (K : forall j, brought t s (S d) (fun r => f (j :: r)) r = b0 * node (mid_cell s d) j + affine a b (place_from t (S d) r)).
    { intro j. transitivity (affine (a + b0 * node (mid_cell s d) j) b (place_from t (S d) r)).
      - apply IH; [|cbn in Lb; lia]. intros k Lk. rewrite Hf by (cbn; lia). cbn [place_from affine]. clear -Lk Lb. revert Lk. generalize (place_from s (S d) k). revert b Lb.
        assert (G : forall b p, b0 * node (mid_cell s d) j + affine a b p = affine (a + b0 * node (mid_cell s d) j) b p).
        { induction b as [|b1 b IHb]; intros [|p0 p]; cbn; try ring. rewrite <- IHb. ring. }
        intros. apply G.
      - clear. generalize (place_from t (S d) r). induction b as [|b1 b IHb]; intros [|p0 p]; cbn; try ring. rewrite IHb. ring. }
    cbn [brought place_from affine]. rewrite !K. unfold node. rewrite plus_IZR, minus_IZR.
    destruct (mid_cell t d), (mid_cell s d); cbn [Bool.eqb]; lra.
Qed.
Lemma brought_ext t s : forall y d (f f' : list Z -> R), (forall k, Forall2 (fun a b => (b - 1 <= a <= b + 1)%Z) k y -> f k = f' k) -> brought t s d f y = brought t s d f' y.
Proof.
  induction y as [|i r IH]; intros d f f' H; [apply H; constructor|]. cbn [brought].
  assert (K : forall j, (i - 1 <= j <= i + 1)%Z -> brought t s (S d) (fun r => f (j :: r)) r = brought t s (S d) (fun r => f' (j :: r)) r).
  { intros j Hj. apply IH. intros k Hk. apply H. constructor; [lia|exact Hk]. }
  rewrite !K by lia. reflexivity.
Qed.
Lemma brought_shift t s : forall y o d (f : list Z -> R), length o = length y -> brought t s d (fun k => f (map2 Z.add o k)) y = brought t s d f (map2 Z.add o y).
Proof.
  induction y as [|i r IH]; intros [|o1 o] d f L; cbn in L; try lia; [reflexivity|]. cbn [map2 brought].
  assert (K : forall j, brought t s (S d) (fun r0 => f ((o1 + j)%Z :: map2 Z.add o r0)) r = brought t s (S d) (fun r0 => f ((o1 + j)%Z :: r0)) (map2 Z.add o r)).
  { intro j. apply (IH o (S d) (fun r0 => f ((o1 + j)%Z :: r0))). lia. }
  rewrite !K. replace (o1 + (i + 1))%Z with (o1 + i + 1)%Z by ring. replace (o1 + (i - 1))%Z with (o1 + i - 1)%Z by ring. reflexivity.
Qed.
Lemma divided_update g ls PH TU TT ph tu tt setter order st F : (1 <= length ls <= 3)%nat -> (1 <= g)%Z ->
  (forall d p, ph d p = PH (shifted (sub_offset_ncells d) p)) -> (forall d a p v, tu d a p v = TU a (shifted (sub_offset_ncells d) p) v) ->
  (forall d p v, tt d p v = TT (shifted (sub_offset_ncells d) p) v) ->
  (forall p l, Permutation (order p l) l) -> agree g ls st F ->
  let run d := custom_run g (ph d) (tu d) (tt d) setter (Some (st (sub_offset_ndomains d))) (order (sub_offset_ndomains d) (active_cells g (sub_ncells d))) (st (sub_offset_ndomains d)) in
  (forall d, In d (domains ls) -> exists m, run d = Ok m) /\
  forall st', (forall d, In d (domains ls) -> run d = Ok (st' (sub_offset_ndomains d))) -> agree_active g ls st' (updated PH TU TT setter F).
Proof.
  intros L Hg Hph Htu Htt HO A run.
  assert (K : forall d, In d (domains ls) -> exists m, run d = Ok m /\ forall c y, in_box y (sub_ncells d) -> m c (loc g y) = updated PH TU TT setter F c (map2 Z.add (sub_offset_ncells d) y)).
  { intros d Hd. destruct (StatsProofs.dom_length ls d Hd) as [L1 L2].
    destruct (custom_values g (ph d) (tu d) (tt d) setter (sub_ncells d) (order (sub_offset_ndomains d)) (st (sub_offset_ndomains d)) ltac:(lia) (HO _)) as [m [E [V _]]].
    exists m. split; [exact E|]. intros c y Hy. rewrite V by exact Hy. pose proof (in_box_length _ _ Hy) as Ly.
    assert (B : forall s, brought c s 0 (fun k => st (sub_offset_ndomains d) s (loc g k)) y = brought c s 0 (F s) (map2 Z.add (sub_offset_ncells d) y)).
    { intro s. rewrite <- brought_shift by lia. apply brought_ext. intros k Hk. apply A; [exact Hd|].
      clear -Hk Hy Hg. unfold in_extended. unfold in_box in Hy. revert k Hk. induction Hy as [|a n y ns H Hy IH]; intros k Hk; inversion Hk; subst; constructor; [lia|auto]. }
    unfold updated. destruct (setter c) as [f|].
    - cbv zeta. unfold place. rewrite (place_shift c y (sub_offset_ncells d) 0) by lia. rewrite Hph, !Htt. fold (shifted (sub_offset_ncells d) (place_from c 0 y)).
      assert (EE : e_there c (fun s k => st (sub_offset_ndomains d) s (loc g k)) y = e_there c F (map2 Z.add (sub_offset_ncells d) y)) by (unfold e_there; cbn [map]; rewrite !B; reflexivity).
      assert (EB : b_there c (fun s k => st (sub_offset_ndomains d) s (loc g k)) y = b_there c F (map2 Z.add (sub_offset_ncells d) y)) by (unfold b_there; cbn [map]; rewrite !B; reflexivity).
      rewrite EE, EB. destruct (f _ _ _) as [[] v]; [apply Htu|]. apply A; [exact Hd|]. clear -Hy Hg. unfold in_extended. induction Hy; constructor; [lia|assumption].
    - apply A; [exact Hd|]. clear -Hy Hg. unfold in_extended. induction Hy; constructor; [lia|assumption]. }
  split.
  - intros d Hd. destruct (K d Hd) as [m [E _]]. exists m. exact E.
  - intros st' H d c y Hd Hy. destruct (K d Hd) as [m [E V]]. pose proof (eq_trans (eq_sym E) (H d Hd)) as Q. injection Q as Q. rewrite <- Q. apply V. exact Hy.
Qed.
Lemma gr_subset : exists (setter : comp -> option (list R -> R)), setter Bx1 <> None /\ setter Bx2 <> None /\
  forall g ph tu n order m, (2 <= length n <= 3)%nat -> (forall l, Permutation (order l) l) ->
  exists m', init_fields true g ph tu setter n order m = Ok m' /\ forall c y, m' c (loc g y) = m c (loc g y).
Proof.
  exists (fun c => match c with Bx1 | Bx2 => Some (fun _ => 1) | _ => None end). split; [discriminate|]. split; [discriminate|].
  intros g ph tu n order m L HO. destruct (initial_gr g ph tu (fun c => match c with Bx1 | Bx2 => Some (fun _ => 1) | _ => None end) n order m L HO) as [m' [E [V W]]].
  exists m'. split; [exact E|]. intros c y.
  destruct (in_dec cell_dec (loc g y) (active_cells g n)) as [H|H].
  - apply active_in in H. rewrite V by exact H. destruct c; reflexivity.
  - apply W. intro Q. apply H, active_in, Q.
Qed.
