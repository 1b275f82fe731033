(** Proofs for the atmosphere. *)
From Coq Require Import ZArith List Bool Reals Lra Lia Permutation.
From Verif Require Import Base ListLemmas HaloSpec SyncProofs MomentModel MomentSpec MomentProofs MomentTop AtmosModel AtmosSpec.
Import ListNotations.
Open Scope R_scope.

(** ** Cells *)
Lemma in_all_cells n : forall y, In y (all_cells n) <-> in_box y n.
Proof.
  induction n as [|k n IH]; intros y; cbn [all_cells].
  - split; [intros [<-|[]]; constructor|]. intros H. inversion H. left. reflexivity.
  - rewrite in_flat_map. split.
    + intros (a & Ha & H). apply in_map_iff in H as (z & <- & Hz). apply in_seq in Ha.
      constructor; [lia|]. apply IH. exact Hz.
    + intros H. inversion H as [|a m z n' Ha Hz]; subst. exists (Z.to_nat a). split; [apply in_seq; lia|].
      rewrite Z2Nat.id by lia. apply in_map. apply IH. exact Hz.
Qed.

Lemma nodup_flat {A B} (f : A -> list B) (key : B -> A) l : NoDup l ->
  (forall a b, In b (f a) -> key b = a) -> (forall a, NoDup (f a)) -> NoDup (flat_map f l).
Proof.
  intros Hl Hk Hf. induction Hl as [|a l Ha Hl IH]; cbn [flat_map]; [constructor|].
  assert (Hd : forall b, In b (f a) -> ~ In b (flat_map f l)).
  { intros b Hb H. apply in_flat_map in H as (a' & Ha' & Hb'). apply Hk in Hb, Hb'. congruence. }
  specialize (Hf a). clear Hk. induction Hf as [|b r Hb Hr IHr]; [exact IH|]. cbn [app]. constructor.
  - intros H. apply in_app_iff in H as [H|H]; [contradiction|]. apply (Hd b); [left; reflexivity|exact H].
  - apply IHr. intros c Hc. apply Hd. right. exact Hc.
Qed.
Lemma nodup_all_cells n : NoDup (all_cells n).
Proof.
  induction n as [|k n IH]; cbn [all_cells]; [repeat constructor; intros []|].
  apply (nodup_flat _ (fun b => Z.to_nat (nth 0 b 0%Z))).
  - apply seq_NoDup.
  - intros a b H. apply in_map_iff in H as (z & <- & _). cbn. apply Nat2Z.id.
  - intros a. apply FinFun.Injective_map_NoDup; [|exact IH]. intros x z. injection 1. auto.
Qed.

Lemma rconcat_ok {A} (l : list (res (list A))) (ys : list (list A)) :
  Forall2 (fun x y => x = Ok y) l ys -> rconcat l = Ok (concat ys).
Proof. induction 1 as [|x y l ys E H IH]; cbn; [reflexivity|]. subst x. cbn. rewrite IH. reflexivity. Qed.
Lemma rconcat_map {A B} (f : A -> res (list B)) (h : A -> list B) l :
  (forall a, In a l -> f a = Ok (h a)) -> rconcat (map f l) = Ok (flat_map h l).
Proof.
  induction l as [|a l IH]; intros H; cbn; [reflexivity|]. rewrite (H a) by (left; reflexivity). cbn.
  rewrite IH by (intros; apply H; right; assumption). reflexivity.
Qed.

(** ** The density of a cell *)
Lemma offsets_0 D : offsets_d 0 D = [repeat 0%Z D].
Proof. induction D as [|D IH]; [reflexivity|]. cbn [offsets_d]. rewrite IH. reflexivity. Qed.
Lemma add_zeros l : map2 Z.add l (repeat 0%Z (length l)) = l.
Proof. induction l as [|a l IH]; [reflexivity|]. cbn. rewrite IH, Z.add_0_r. reflexivity. Qed.
Lemma prod_one c q : order_ c = 0%nat -> method c = SPLINE -> forall di, prod_shape c q di = 1.
Proof.
  intros Ho Hm. induction q as [|[i x] q IH]; intros [|a di]; cbn [prod_shape]; auto.
  rewrite IH. unfold shp, shapeFunction. rewrite Hm, Ho. ring.
Qed.

Section Cell.
  Variables (d : dom).
  Hypothesis Hd : sound d.
  Notation c := (moment_cfg d).

  Lemma cfg_supported : supported c.
  Proof using Hd. split; cbn; [lia|]. change (window 0) with 0%Z. apply sd_ghosts. exact Hd. Qed.

  Lemma own_index q di : in_box (map fst q) (d_n d) -> map2 Z.add (map fst q) di = map fst q ->
    cell_index c q di = loc (d_ghosts d) (map fst q).
  Proof using.
    clear Hd. intros Hb E. unfold cell_index. rewrite E. unfold loc. inversion Hb as [|a k r n Ha Hr E1 E2]; [reflexivity|].
    destruct r as [|b r]; [reflexivity|]. inversion Hr as [|b' k2 r' n2 Hb2 Hr2 E3 E4]; subst. cbn [map].
    f_equal. f_equal. unfold index2. cbn [moment_cfg cartesian axis_min axis_max ni2 ghosts]. rewrite <- E2. cbn [nth].
    destruct (d_cart d); [reflexivity|].
    destruct (Z.ltb_spec b 0); [lia|]. destruct (Z.leb_spec k2 b); [lia|]. rewrite !andb_false_r. reflexivity.
  Qed.

  Lemma kadds_cell s p y : (live p = true -> inside (d_n d) p) ->
    rsum (kadds c Rho 0 0 s p) (fun e => if list_eq_dec Z.eq_dec (loc (d_ghosts d) y) (fst e) then snd e else 0)
    = if in_cell y p then contribution c Rho s p 0 0 else 0.
  Proof using.
    clear Hd. intros Hp. unfold kadds, in_cell. destruct (live p); [|reflexivity]. destruct (Hp eq_refl) as [Hb _].
    cbn [moment_cfg order_]. change (window 0) with 0%Z. rewrite offsets_0. cbn [map]. unfold rsum. cbn [fold_right fst snd andb].
    rewrite own_index; [|exact Hb|rewrite <- (map_length fst (ppos p)); apply add_zeros].
    rewrite prod_one by reflexivity.
    destruct (list_eq_dec Z.eq_dec (map fst (ppos p)) y) as [E|E].
    - destruct list_eq_dec as [_|E1]; [ring|]. elim E1. rewrite E. reflexivity.
    - destruct list_eq_dec as [E1|_]; [|ring]. apply loc_inj in E1. congruence.
  Qed.

  Lemma contribution_cell s p y : in_cell y p = true ->
    contribution c Rho s p 0 0 =
    smass s * (if d_cart d then 1 else pweight p) * d_V0 d / (d_ppc0 d * d_vol d (centre y)).
  Proof using.
    clear Hd. unfold in_cell. intros H. apply andb_prop in H as [_ H]. destruct list_eq_dec as [E|]; [|discriminate].
    unfold contribution, quantity. cbn [moment_cfg MomentModel.use_weights inv_n0 sqrt_det_h].
    replace (map (fun q => IZR (fst q) + 1/2) (ppos p)) with (centre y)
      by (unfold centre; rewrite <- E, map_map; reflexivity).
    replace (if negb (d_cart d) then pweight p else 1) with (if d_cart d then 1 else pweight p)
      by (destruct (d_cart d); reflexivity).
    unfold Rdiv. rewrite Rinv_mult, !Rinv_mult, Rinv_inv. ring.
  Qed.

  Lemma density_at s1 s2 order : any_order order -> smass s1 <> 0 -> smass s2 <> 0 ->
    in_domain d s1 -> in_domain d s2 ->
    exists b, compute_moments c Rho [s1; s2] [1; 2]%Z 0 0 order (fun _ => 0) = Some b /\
      forall y, b (loc (d_ghosts d) y) = mass_density d y [s1; s2].
  Proof using Hd.
    intros Ho H1 H2 D1 D2.
    destruct (moments_at c Rho [s1; s2] [1; 2]%Z 0 0 [s1; s2] order (fun _ => 0)) as (b & E & H).
    - exact cfg_supported.
    - exact I.
    - repeat constructor.
    - repeat constructor; assumption.
    - exact Ho.
    - exists b. split; [exact E|]. intros z. rewrite H, Rplus_0_l. unfold mass_density, cell_density.
      apply rsum_ext. intros s Hs. unfold members. rewrite rsum_filter. apply rsum_ext. intros p Hp.
      rewrite kadds_cell.
      + destruct (in_cell z p) eqn:Ei; [|reflexivity]. apply contribution_cell. exact Ei.
      + intros Hl. destruct Hs as [<-|[<-|[]]]; auto.
  Qed.
End Cell.

(** ** Counts *)
Lemma floor_bounds r : IZR (Int_part r) <= r < IZR (Int_part r) + 1.
Proof. destruct (base_Int_part r). lra. Qed.

Lemma injected_count r u : 0 <= r < 2 ^ 32 - 1 -> 0 <= u < 1 ->
  exists k, injected_ppc r u = Ok k /\ (0 <= k)%Z /\ r - u <= IZR k < r - u + 1.
Proof.
  intros Hr Hu. unfold injected_ppc. destruct Rlt_dec; [lra|]. destruct (floor_bounds r) as [F1 F2].
  set (k := Int_part r) in *.
  assert (Hk0 : (0 <= k)%Z).
  { assert (-1 < k)%Z; [|lia]. apply lt_IZR. lra. }
  assert (Hk1 : (k + 1 < 2 ^ 32)%Z).
  { apply lt_IZR. rewrite plus_IZR. replace (IZR (2 ^ 32)) with (2 ^ 32) by exact (pow_IZR 2 32). lra. }
  destruct (Z.ltb_spec k (2 ^ 32)); [|lia]. unfold w32.
  destruct Rlt_dec as [Hlt|Hge]; eexists; (split; [reflexivity|]); rewrite Z.mod_small by lia.
  - split; [lia|]. rewrite plus_IZR. lra.
  - split; [lia|]. lra.
Qed.
Lemma injected_zero u : 0 <= u -> injected_ppc 0 u = Ok 0%Z.
Proof.
  intros Hu. unfold injected_ppc. destruct Rlt_dec; [lra|].
  replace (Int_part 0) with 0%Z by (symmetry; apply (Int_part_INR 0)).
  destruct (Z.ltb_spec 0 (2 ^ 32)); [|lia]. destruct Rlt_dec; [lra|reflexivity].
Qed.

(** ** Injection *)
Section Inject.
  Variables (d : dom) (rnd : draws).
  Hypothesis Hd : sound d.
  Hypothesis Hr : uniform d rnd.

  Definition pairs_at (k : Z) (i : list Z) : list (part * part) :=
    map (fun p =>
      ({| ptag := 1; ppos := combine i (dxs rnd i p); pvel := dv1 rnd i p; pweight := if d_cart d then 1 else 1 * (d_vol d (centre i) * (1 / d_V0 d)) |},
       {| ptag := 1; ppos := combine i (dxs rnd i p); pvel := dv2 rnd i p; pweight := if d_cart d then 1 else 1 * (d_vol d (centre i) * (1 / d_V0 d)) |}))
      (seq 0 (Z.to_nat k)).

  Lemma pairs_length k i : length (pairs_at k i) = Z.to_nat k.
  Proof using. unfold pairs_at. rewrite map_length, seq_length. reflexivity. Qed.

  Lemma fst_combine {A B} (l : list A) (m : list B) : length m = length l -> map fst (combine l m) = l.
  Proof using. clear. revert m. induction l as [|a l IH]; intros [|b m] H; try discriminate; [reflexivity|]. cbn. f_equal. auto. Qed.

  Lemma snd_combine_in {A B} (P : B -> Prop) (l : list A) (m : list B) : Forall P m -> Forall (fun q => P (snd q)) (combine l m).
  Proof using.
    clear. intros H. revert l. induction H as [|b m Hb Hm IH]; intros [|a l]; cbn; constructor; auto.
  Qed.

  Lemma pairs_in k i pq : in_box i (d_n d) -> In pq (pairs_at k i) ->
    together (fst pq) (snd pq) /\ map fst (ppos (fst pq)) = i /\ inside (d_n d) (fst pq) /\ inside (d_n d) (snd pq) /\
    pweight (fst pq) = (if d_cart d then 1 else d_vol d (centre i) / d_V0 d).
  Proof using Hr.
    intros Hi H. apply in_map_iff in H as (p & <- & _). cbn [fst snd].
    destruct (Hr i Hi) as [_ Hx]. destruct (Hx p) as [HL HF].
    assert (Hin : inside (d_n d) {| ptag := 1; ppos := combine i (dxs rnd i p); pvel := dv1 rnd i p; pweight := 1 |}).
    { split; cbn [ppos]; [rewrite fst_combine by assumption; assumption|].
      apply (snd_combine_in (fun x => 0 <= x <= 1)). eapply Forall_impl; [|exact HF]. cbn. intros; lra. }
    split; [repeat split|]. split; [cbn; apply fst_combine; assumption|]. split; [exact Hin|]. split; [exact Hin|].
    cbn [pweight]. destruct (d_cart d); [reflexivity|]. unfold Rdiv. ring.
  Qed.

  Lemma filter_all {A} (f : A -> bool) l : (forall a, In a l -> f a = true) -> filter f l = l.
  Proof using.
    clear. induction l as [|a l IH]; intros H; [reflexivity|]. cbn. rewrite (H a) by (left; reflexivity).
    f_equal. apply IH. intros; apply H; right; assumption.
  Qed.
  Lemma filter_none {A} (f : A -> bool) l : (forall a, In a l -> f a = false) -> filter f l = [].
  Proof using.
    clear. induction l as [|a l IH]; intros H; [reflexivity|]. cbn. rewrite (H a) by (left; reflexivity).
    apply IH. intros; apply H; right; assumption.
  Qed.

  Definition here (y : list Z) (pq : part * part) : bool := in_cell y (fst pq).

  Lemma here_pairs (kk : list Z -> Z) y l : in_box y (d_n d) -> NoDup l -> In y l ->
    (forall i, In i l -> in_box i (d_n d)) ->
    filter (here y) (flat_map (fun i => pairs_at (kk i) i) l) = pairs_at (kk y) y.
  Proof using Hr.
    intros Hy Hn Hin Hl. induction Hn as [|i l Hi Hn IH]; [destruct Hin|]. cbn [flat_map]. rewrite filter_app.
    assert (Hpos : forall j pq, In j (i :: l) -> In pq (pairs_at (kk j) j) -> here y pq = if list_eq_dec Z.eq_dec j y then true else false).
    { intros j pq Hj Hpq. destruct (pairs_in (kk j) j pq) as ((_ & _ & L & _) & E & _); [apply Hl; exact Hj|exact Hpq|].
      unfold here, in_cell. rewrite L, E. reflexivity. }
    destruct Hin as [<-|Hin].
    - rewrite filter_all.
      2:{ intros pq Hpq. rewrite (Hpos i pq (or_introl eq_refl) Hpq). destruct list_eq_dec; congruence. }
      rewrite filter_none; [apply app_nil_r|]. intros pq Hpq. apply in_flat_map in Hpq as (j & Hj & Hpq).
      rewrite (Hpos j pq (or_intror Hj) Hpq). destruct list_eq_dec; [subst; contradiction|reflexivity].
    - rewrite filter_none.
      2:{ intros pq Hpq. rewrite (Hpos i pq (or_introl eq_refl) Hpq). destruct list_eq_dec; [subst; contradiction|reflexivity]. }
      cbn [app]. apply IH; [exact Hin|intros; apply Hl; right; assumption].
  Qed.
End Inject.
