(** Proofs about the fields enforced inside an atmosphere: divided grids. *)
From Coq Require Import ZArith List Bool Reals Lra Lia Permutation.
From Flocq Require Import Core.Raux.
From Verif Require Import Base DecompModel DecompSpec ListLemmas FieldModel FieldProofs HaloSpec HaloProofs SyncProofs ShapeSpec InterpSpec StepSpec MeshModel MeshSpec MeshProofs
  MatchModel MatchSpec MatchProofs MatchTop AtmosModel EnfModel EnfSpec EnfProofs.
From Verif Require StatsProofs MomentTop.
Import ListNotations.
Open Scope R_scope.
Ltac Zify.zify_post_hook ::= Z.div_mod_to_equations.

Lemma cells_of filters : buffer_ncells filters = atm_cells filters.
Proof. unfold buffer_ncells, atm_cells. destruct (Z.ltb_spec 5 (filters + 2)); lia. Qed.
Lemma atm_cells_pos filters : (5 <= atm_cells filters)%Z.
Proof. unfold atm_cells. lia. Qed.

Lemma surface_first up N filters : field_surface up N filters = (if up then first_cell up N filters else first_cell up N filters - 1)%Z.
Proof. unfold field_surface, first_cell. destruct up; reflexivity. Qed.

Lemma atm_extent_layer h X up N filters : (atm_cells filters <= N < 2 ^ 32)%Z ->
  atm_extent h X up N filters = layer_of up (X, X + IZR N * h) (IZR (atm_cells filters) * h).
Proof.
  intro H. pose proof (atm_cells_pos filters). unfold atm_extent, buffer_nodes, layer_of. rewrite cells_of. destruct up; cbn [fst snd].
  - unfold w32. rewrite Z.mod_small by lia. rewrite minus_IZR. f_equal; ring.
  - f_equal; ring.
Qed.

Section All.
  Variables (eps h : R) (g : Z) (ls : list (list Z)) (x0 : list R) (o : nat) (up : bool) (filters : Z).
  Variables (tu : nat -> R -> R) (setter : comp -> option (list R -> R)) (tags : Z) (on : comp -> bool).
  Notation N := (map sumZ ls).
  Notation B := (atm_cells filters).
  Notation No := (nth o N 0%Z).
  Notation ds := (IZR B * h).
  Notation L := (first_cell up No filters).
  Notation gext := (extent_along h x0 N o).
  Hypothesis (He : 0 <= eps) (Hh : 0 < h) (HD : (1 <= length ls <= 3)%nat) (Ho : (o < length ls)%nat).
  Hypothesis (Lx : length x0 = length ls) (W : wide g ls).
  Hypothesis H32 : Forall (Forall (fun n => n + 2 * g < 2 ^ 32)%Z) ls.
  Hypothesis HN : (B <= No < 2 ^ 32)%Z.
  Hypothesis (Hs : no_slivers eps h x0 ls) (Hlay : resolved eps (layer_of up gext ds)).
  Hypothesis (Hc : clear_of_borders g ls o up L).
  Hypothesis Hon : forall c, on c = true <-> asked tags c.

  Lemma one_enf d order m : In d (domains ls) -> (forall l, Permutation (order l) l) ->
    exists m', atm_cartesian eps g h (corner h x0 (sub_offset_ncells d)) (sub_ncells d) o up (nth o x0 0) No filters tu setter tags order m = Ok m' /\
    forall F c y, in_extended g y (sub_ncells d) -> m c (loc g y) = F c (map2 Z.add (sub_offset_ncells d) y) ->
      m' c (loc g y) = enforced h x0 o up (field_surface up No filters) tu setter on F c (map2 Z.add (sub_offset_ncells d) y).
  Proof using All.
    intros Hd Po. set (s := sub_offset_ncells d). set (n := sub_ncells d).
    assert (Ls : length s = length n) by apply (StatsProofs.dom_length ls d Hd).
    assert (Ln : length n = length ls) by apply (StatsProofs.dom_length ls d Hd).
    assert (Hg : (0 <= g)%Z) by (destruct W; assumption).
    assert (Hn : forall i, (i < length n)%nat -> (0 < nth i n 0 /\ nth i n 0 + 2 * g < 2 ^ 32)%Z) by (intros i Hi; apply (dom_cells g ls W H32); [assumption|lia]).
    assert (Hr : forall i, (i < length n)%nat -> resolved eps (nth i (corner h x0 s) 0, nth i (corner h x0 s) 0 + IZR (nth i n 0%Z) * h)).
    { intros i Hi. apply (Hs d i Hd). lia. }
    assert (Lx' : length x0 = length n) by lia. assert (Ho' : (o < length n)%nat) by lia.
    pose proof (atm_cells_pos filters) as B5.
    assert (Hds : 0 < ds). { apply Rmult_lt_0_compat; [|exact Hh]. apply IZR_lt. lia. }
    assert (HL : starts up h ds No L).
    { unfold starts, first_cell. replace (ds / h) with (IZR B) by (field; lra). destruct up; [rewrite minus_IZR|]; lra. }
    unfold atm_cartesian, atm_fields_in. rewrite atm_extent_layer by exact HN.
    pose proof (Hc d Hd) as C. cbv zeta in C. fold s n in C.
    assert (C' : (if up then nth o s 0 + nth o n 0 = No /\ nth o s 0 <= L else nth o s 0 = 0 /\ L <= nth o n 0)%Z \/
                 (if up then nth o s 0 + nth o n 0 + g <= L else L <= nth o s 0 - g)%Z) by (destruct up; exact C).
    clear C. rewrite surface_first. set (LL := L) in *. destruct C' as [E|E].
    - unfold extent_along in *. rewrite (hits eps h g x0 s n o up No ds He Hh Hds Ls Lx' Ho' Hn Hr Hlay LL HL E). cbn [rbind].
      rewrite (ranges_are eps h g x0 s n o up No ds He Hh Hds Hg Ls Lx' Ho' Hn Hr Hlay LL HL E). cbn [rbind]. cbv zeta.
      assert (Er : nth o (map (rng g s n o up LL) (seq 0 (length n))) (0, 0)%Z = rng g s n o up LL o).
      { rewrite (nth_indep _ _ (rng g s n o up LL 0)) by (rewrite map_length, seq_length; exact Ho'). rewrite map_nth, seq_nth by exact Ho'. reflexivity. }
      rewrite Er. unfold rng at 1 2. rewrite Nat.eqb_refl.
      destruct (Hn o Ho') as [Hn1 Hn2].
      assert (IE : w32 ((if up then w32 (fst (if up then (LL - nth o s 0 + g, nth o n 0 + 2 * g) else (0, LL + g)) - g)
                          else w32 (snd (if up then (LL - nth o s 0 + g, nth o n 0 + 2 * g) else (0, LL + g)) - 1 - g)) + g)%Z
                   = ((if up then LL - nth o s 0 else LL - 1) + g)%Z).
      { assert (D0 : (if up then (0 <= LL - nth o s 0 <= nth o n 0)%Z else (5 <= LL <= nth o n 0)%Z)).
        { unfold LL, first_cell in *. destruct up; lia. }
        unfold w32. destruct up; cbn [fst snd]; rewrite Zplus_mod_idemp_l; rewrite Z.mod_small; lia. }
      rewrite IE. clear IE. eexists; split; [reflexivity|]. intros F c y Hy Hm.
      rewrite (enf_loop _ _ _ _ _ _ _ _ _ _ _ _ _ (nodup_box _) (Po _)).
      pose proof (in_rng g s n o up No Ls Ho' LL E y Hy) as IR.
      assert (Ly : length y = length n) by (eapply Forall2_length; exact Hy).
      assert (LX : length (map2 Z.add s y) = length n) by (rewrite map2_length; lia).
      pose proof (outside_cells up o LL c (map2 Z.add s y) ltac:(lia) ltac:(lia)) as OC.
      assert (NX : nth o (map2 Z.add s y) 0%Z = (nth o s 0 + nth o y 0)%Z) by (rewrite (nth_map2 _ s y o 0%Z 0%Z) by lia; reflexivity).
      assert (Nl : nth o (loc g y) 0%Z = (nth o y 0 + g)%Z).
      { unfold loc. rewrite (nth_indep _ 0%Z (0 + g)%Z) by (rewrite map_length; lia). apply (map_nth (fun a => a + g)%Z). }
      assert (T : tagged tags c = on c) by (apply eq_true_iff_eq; rewrite Hon; apply tagged_asked).
      unfold enforced, evalue. destruct (setter c) as [f|]; [|destruct (in_dec _ _ _); exact Hm].
      rewrite T. destruct (on c); cbn [andb]; [|destruct (in_dec _ _ _); exact Hm].
      unfold past_edge. rewrite Nl.
      assert (PE : (if up then (((if up then LL - nth o s 0 else LL - 1) + g <=? nth o y 0 + g)%Z) else (nth o y 0 + g <? (if up then LL - nth o s 0 else LL - 1) + g)%Z) = true
              <-> (if up then (LL <= nth o (map2 Z.add s y) 0)%Z else (nth o (map2 Z.add s y) 0 < LL - 1)%Z)).
      { rewrite NX. destruct up; [rewrite Z.leb_le|rewrite Z.ltb_lt]; lia. }
      destruct (in_dec cell_dec _ _) as [A|A].
      + apply IR in A. destruct (outside_dec _ _ _ _ _) as [O|O].
        * apply OC in O. destruct O as [_ O].
          assert (Q : negb (guarded o c) || (if up then (((if up then LL - nth o s 0 else LL - 1) + g <=? nth o y 0 + g)%Z) else (nth o y 0 + g <? (if up then LL - nth o s 0 else LL - 1) + g)%Z) = true).
          { destruct O as [O|O]; [rewrite O; reflexivity|]. apply orb_true_iff. right. apply PE. exact O. }
          rewrite Q. rewrite where_place by lia. rewrite point_corner by lia. assert (Nc : number c = S (axis_of c)) by (destruct c; reflexivity). rewrite Nc. reflexivity.
        * destruct (negb (guarded o c) || _) eqn:Q; [|exact Hm]. exfalso. apply O, OC. split; [exact A|].
          apply orb_true_iff in Q. destruct Q as [Q|Q]; [left; apply negb_true_iff; exact Q|right; apply PE; exact Q].
      + destruct (outside_dec _ _ _ _ _) as [O|O]; [|exact Hm]. apply OC in O. destruct O as [O _]. exfalso. apply A, IR, O.
    - unfold extent_along in *. rewrite (misses eps h g x0 s n o up No ds He Hh Hds Ls Lx' Ho' Hn Hr Hlay LL HL) by (destruct up; lia). cbn [rbind].
      eexists; split; [reflexivity|]. intros F c y Hy Hm. unfold enforced. destruct (setter c); [|exact Hm]. destruct (on c); [|exact Hm].
      destruct (outside_dec _ _ _ _ _) as [O|O]; [|exact Hm]. exfalso.
      assert (Ly : length y = length n) by (eapply Forall2_length; exact Hy).
      apply outside_cells in O; [|rewrite map2_length; lia|lia]. destruct O as [IL _].
      assert (Hyo : (- g <= nth o y 0 < nth o n 0 + g)%Z) by (apply ext_nth; assumption).
      unfold in_layer in IL. rewrite (nth_map2 _ s y o 0%Z 0%Z) in IL by lia. destruct up; [apply Z.leb_le in IL|apply Z.ltb_lt in IL]; lia.
  Qed.
End All.

Lemma divided_enf eps h g ls x0 filters o up tu setter tags on order st F :
  grid_ok eps h g ls x0 -> side_ok eps h g ls x0 filters o up ->
  (forall c, on c = true <-> asked tags c) -> (forall p l, Permutation (order p l) l) -> agree g ls st F ->
  let N := nth o (map sumZ ls) 0%Z in
  let run d := atm_cartesian eps g h (corner h x0 (sub_offset_ncells d)) (sub_ncells d) o up (nth o x0 0) N filters tu setter tags
                 (order (sub_offset_ndomains d)) (st (sub_offset_ndomains d)) in
  (forall d, In d (domains ls) -> exists m', run d = Ok m') /\
  forall st', (forall d, In d (domains ls) -> run d = Ok (st' (sub_offset_ndomains d))) ->
    agree g ls st' (enforced h x0 o up (field_surface up N filters) tu setter on F).
Proof.
  intros (He & Hh & HD & Lx & W & H32 & Hs) (Ho & HN & Hlay & Hc) Hon Po A N run. change slab with layer_of in Hlay. split.
  - intros d Hd. destruct (one_enf eps h g ls x0 o up filters tu setter tags on He Hh HD Ho Lx W H32 HN Hs Hlay Hc Hon d (order (sub_offset_ndomains d)) (st (sub_offset_ndomains d)) Hd (Po _)) as [m' [E _]].
    exists m'. exact E.
  - intros st' H d c y Hd Hy. destruct (one_enf eps h g ls x0 o up filters tu setter tags on He Hh HD Ho Lx W H32 HN Hs Hlay Hc Hon d (order (sub_offset_ndomains d)) (st (sub_offset_ndomains d)) Hd (Po _)) as [m' [E V]].
    pose proof (H d Hd) as K. unfold run, N in K. rewrite E in K. injection K as K. rewrite <- K. apply V; [exact Hy|]. apply A; assumption.
Qed.

(** ** Several sides *)
Lemma enforced_swap h x0 tu setter on o up K o' up' K' F c X :
  enforced h x0 o up K tu setter on (enforced h x0 o' up' K' tu setter on F) c X =
  enforced h x0 o' up' K' tu setter on (enforced h x0 o up K tu setter on F) c X.
Proof.
  unfold enforced. destruct (setter c); [|reflexivity]. destruct (on c); [|reflexivity].
  destruct (outside_dec up o K c X), (outside_dec up' o' K' c X); reflexivity.
Qed.
Lemma sides eps h g ls x0 filters o up o' up' tu setter tags on order1 order2 order1' order2' st F :
  grid_ok eps h g ls x0 -> side_ok eps h g ls x0 filters o up -> side_ok eps h g ls x0 filters o' up' ->
  (forall c, on c = true <-> asked tags c) -> agree g ls st F ->
  (forall p l, Permutation (order1 p l) l /\ Permutation (order2 p l) l /\ Permutation (order1' p l) l /\ Permutation (order2' p l) l) ->
  let run o up order d m := atm_cartesian eps g h (corner h x0 (sub_offset_ncells d)) (sub_ncells d) o up (nth o x0 0) (nth o (map sumZ ls) 0%Z) filters tu setter tags
                 (order (sub_offset_ndomains d)) m in
  forall s1 s2 t1 t2,
  (forall d, In d (domains ls) -> run o up order1 d (st (sub_offset_ndomains d)) = Ok (s1 (sub_offset_ndomains d)) /\
     run o' up' order2 d (s1 (sub_offset_ndomains d)) = Ok (s2 (sub_offset_ndomains d)) /\
     run o' up' order1' d (st (sub_offset_ndomains d)) = Ok (t1 (sub_offset_ndomains d)) /\
     run o up order2' d (t1 (sub_offset_ndomains d)) = Ok (t2 (sub_offset_ndomains d))) ->
  forall d c y, In d (domains ls) -> in_extended g y (sub_ncells d) ->
    s2 (sub_offset_ndomains d) c (loc g y) = t2 (sub_offset_ndomains d) c (loc g y).
Proof.
  intros G S S' Hon A Po run s1 s2 t1 t2 H d c y Hd Hy.
  assert (A1 := proj2 (divided_enf eps h g ls x0 filters o up tu setter tags on order1 st F G S Hon (fun p l => proj1 (Po p l)) A) s1 (fun d Hd => proj1 (H d Hd))).
  assert (A2 := proj2 (divided_enf eps h g ls x0 filters o' up' tu setter tags on order2 s1 _ G S' Hon (fun p l => proj1 (proj2 (Po p l))) A1) s2 (fun d Hd => proj1 (proj2 (H d Hd)))).
  assert (B1 := proj2 (divided_enf eps h g ls x0 filters o' up' tu setter tags on order1' st F G S' Hon (fun p l => proj1 (proj2 (proj2 (Po p l)))) A) t1 (fun d Hd => proj1 (proj2 (proj2 (H d Hd))))).
  assert (B2 := proj2 (divided_enf eps h g ls x0 filters o up tu setter tags on order2' t1 _ G S Hon (fun p l => proj2 (proj2 (proj2 (Po p l)))) B1) t2 (fun d Hd => proj2 (proj2 (proj2 (H d Hd))))).
  rewrite (A2 d c y Hd Hy), (B2 d c y Hd Hy). apply enforced_swap.
Qed.
Lemma enforced_twice h x0 tu setter on o up K F c X :
  enforced h x0 o up K tu setter on (enforced h x0 o up K tu setter on F) c X = enforced h x0 o up K tu setter on F c X.
Proof.
  unfold enforced. destruct (setter c); [|reflexivity]. destruct (on c); [|reflexivity]. destruct (outside_dec up o K c X); reflexivity.
Qed.

(** ** Surfaces *)
Lemma surface_particles h x N filters : (atm_cells filters <= N < 2 ^ 32)%Z ->
  IZR (field_surface true N filters) * h + x = x_surface true (fun q => q * h + x) N filters /\
  IZR (field_surface false N filters) * h + x = x_surface false (fun q => q * h + x) N filters - h.
Proof.
  intro H. pose proof (atm_cells_pos filters). unfold x_surface, buffer_nodes, field_surface. rewrite cells_of. unfold w32. rewrite Z.mod_small by lia. split; [reflexivity|].
  rewrite minus_IZR. lra.
Qed.
Lemma mirror N filters : exists c X X',
  nth 0 (place c X) 0 + nth 0 (place c X') 0 = IZR N /\
  outside true 0 (field_surface true N filters) c X /\ ~ outside false 0 (field_surface false N filters) c X'.
Proof.
  exists Ex2, [(N - atm_cells filters)%Z], [atm_cells filters]. unfold outside, field_surface. cbn. unfold node. rewrite !minus_IZR. split; [|split]; lra.
Qed.

(** ** A subdomain inside the atmosphere *)
Lemma inside_val eps order m : 0 <= eps < 1 / 10 -> (forall l, Permutation (order l) l) ->
  exists m', atm_cartesian eps 2 1 (corner 1 [0] [0%Z]) [4%Z] 0 false 0 8 0 (fun _ v => v)
    (fun c => match c with Ex1 => Some (fun _ => 1) | _ => None end) 1 order m = Ok m' /\ m' Ex1 [5%Z] = m Ex1 [5%Z].
Proof.
  intros He Po. unfold atm_cartesian, atm_fields_in. cbn [length match_box seq map Nat.eqb corner mink_ext map2].
  unfold atm_extent. change (buffer_nodes false 8 0) with (0%Z, 5%Z). cbv iota beta. cbn [fst snd].
  set (a := 0 + IZR 0 * 1). set (e := (a, a + IZR 4 * 1)).
  assert (Ha : a = 0) by (unfold a; ring).
  assert (P : proper e) by (unfold proper, e; cbn [fst snd]; lra).
  set (l0 := IZR 0 * 1 + 0). set (l1 := IZR 5 * 1 + 0). assert (L0 : l0 = 0) by (unfold l0; ring). assert (L1 : l1 = 5) by (unfold l1; ring).
  assert (K : lo e (Fin l0) = 0 /\ hi e (Fin l1) = 4).
  { unfold lo, hi, e. cbn [fst snd]. rewrite Ha, L0, L1. unfold Rmax, Rmin; repeat (destruct (Rle_dec _ _)); lra. }
  destruct K as [K1 K2].
  assert (Q : q1 eps e (Fin l0, Fin l1) = true).
  { apply (proj2 (q_fin eps e _ _ (proj1 He) P)); rewrite K1, K2; [lra|].
    unfold resolved. cbn [fst snd]. rewrite Rabs_R0, Rabs_pos_eq by lra. rewrite Rmin_left by lra. lra. }
  assert (QI : intersects eps [e] [(Fin l0, Fin l1)] = Ok true).
  { apply query_true; [reflexivity|]. intros [|[|i]] e' b' E1 E2; try discriminate. injection E1 as <-. injection E2 as <-. exact Q. }
  rewrite QI. cbn [rbind]. unfold extent_to_range. rewrite QI. cbn [length Nat.eqb andb rbind match_ghosts seq map orb ranges].
  destruct (linear_map a 1 4 Rlt_0_1 eq_refl) as [G P'].
  change (mink_cd 1 a) with (fun x => (x - a) / 1).
  rewrite (range1_value 2 _ _ 4 _ _ G P') by (try lia; reflexivity). fold e. cbn [fst snd rbind]. rewrite K1, K2.
  assert (F1 : Zfloor ((0 - a) / 1) = 0%Z) by (rewrite Ha; replace ((0 - 0) / 1) with (IZR 0) by field; apply Zfloor_IZR).
  assert (F2 : Zceil ((4 - a) / 1) = 4%Z) by (rewrite Ha; replace ((4 - 0) / 1) with (IZR 4) by field; apply Zceil_IZR).
  rewrite F1, F2. eexists; split; [reflexivity|].
  rewrite (enf_loop _ _ _ _ _ _ _ _ _ _ _ _ _ (nodup_box _) (Po _)). destruct (in_dec _ _ _) as [I|I]; [|reflexivity].
  unfold evalue. reflexivity.
Qed.
Lemma inside_refuted eps : 0 <= eps < 1 / 10 ->
  exists (ls : list (list Z)) (setter : comp -> option (list R -> R)) (st : list Z -> fields) (F : fields) d y,
  grid_ok eps 1 2 ls [0] /\ agree 2 ls st F /\ In d (domains ls) /\ in_box y (sub_ncells d) /\
  forall order, (forall p l, Permutation (order p l) l) ->
  exists m', atm_cartesian eps 2 1 (corner 1 [0] (sub_offset_ncells d)) (sub_ncells d) 0 false 0 8 0
       (fun _ v => v) setter 1 (order (sub_offset_ndomains d)) (st (sub_offset_ndomains d)) = Ok m' /\
  m' Ex1 (loc 2 y) <> enforced 1 [0] 0 false (field_surface false 8 0) (fun _ v => v) setter electric F Ex1 (map2 Z.add (sub_offset_ncells d) y).
Proof.
  intro He. destruct dom44_lo as (d0 & H0 & P0 & S0 & N0).
  exists [[4%Z; 4%Z]], (fun c => match c with Ex1 => Some (fun _ => 1) | _ => None end), (fun _ => zero_f), zero_f, d0, [3%Z].
  split.
  { split; [lra|]. split; [lra|]. split; [cbn; lia|]. split; [reflexivity|]. split; [split; [lia|]; repeat constructor; lia|].
    split; [repeat constructor|]. intros d i Hd Hi. cbn in Hi. assert (i = 0%nat) by lia. subst i.
    unfold resolved. destruct (dom44 d Hd) as [(_ & -> & ->)|(_ & -> & ->)]; cbn; rewrite !Rabs_pos_eq by lra; rewrite Rmin_left by lra; nra. }
  split; [intros d c y _ _; reflexivity|]. split; [exact H0|]. split; [rewrite N0; constructor; [lia|constructor]|].
  intros order Po. rewrite P0, S0, N0. destruct (inside_val eps (order [0%Z]) zero_f He (Po _)) as (m' & E & V). exists m'. split; [exact E|].
  change (loc 2 [3%Z]) with [5%Z]. rewrite V. unfold enforced. cbn [map2 electric]. change (0 + 3)%Z with 3%Z.
  destruct (outside_dec _ _ _ _ _) as [O|O]; [unfold zero_f; lra|]. exfalso. apply O. unfold outside, field_surface. cbn. unfold node. lra.
Qed.
(** ** A concrete case *)
Lemma dom68 d : In d (domains [[6%Z; 8%Z]]) ->
  (sub_offset_ndomains d = [0%Z] /\ sub_offset_ncells d = [0%Z] /\ sub_ncells d = [6%Z]) \/
  (sub_offset_ndomains d = [1%Z] /\ sub_offset_ncells d = [6%Z] /\ sub_ncells d = [8%Z]).
Proof. intro H. vm_compute in H. destruct H as [<-|[<-|[]]]; cbn; auto. Qed.
Lemma case_enf : let eps := 1 / 1000 in let ls := [[6%Z; 8%Z]] in
  grid_ok eps 1 2 ls [0] /\ side_ok eps 1 2 ls [0] 3 0 true /\ (forall c, electric c = true <-> asked 1 c).
Proof.
  intros eps ls. split; [|split].
  - unfold grid_ok, eps. split; [lra|]. split; [lra|]. split; [cbn; lia|]. split; [reflexivity|]. split; [split; [lia|]; repeat constructor; lia|].
    split; [repeat constructor; lia|]. intros d i Hd Hi. assert (i = 0%nat) as -> by (cbn in Hi; lia).
    unfold resolved. destruct (dom68 d Hd) as [(_ & -> & ->)|(_ & -> & ->)]; cbn [corner map2 nth fst snd];
    rewrite !Rabs_pos_eq by lra; rewrite Rmin_left by lra; lra.
  - unfold side_ok. cbv zeta. change (nth 0 (map sumZ ls) 0%Z) with 14%Z. change (atm_cells 3) with 5%Z. split; [cbn; lia|]. split; [lia|]. split.
    + unfold resolved, eps. cbn. rewrite !Rabs_pos_eq by lra. rewrite Rmin_left by lra. lra.
    + intros d Hd. destruct (dom68 d Hd) as [(_ & -> & ->)|(_ & -> & ->)]; cbn; lia.
  - intro c. split.
    + intro H. exists 0%Z. destruct c; try discriminate; split; cbn; auto; lia.
    + intros [b [Hb T]]. destruct c; try reflexivity; cbn in Hb; assert (C : (b = 3 \/ b = 4 \/ b = 5)%Z) by lia; destruct C as [->|[->| ->]]; discriminate T.
Qed.
