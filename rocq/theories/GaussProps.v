(** Property C21. *)
From Coq Require Import ZArith List Reals Lra Lia Permutation.
From Verif Require Import Base DecompModel DirsSpec HaloModel HaloSpec TopoModel TopoSpec FieldModel FieldSpec ShapeSpec DepositModel DepositSpec
  InterpSpec StepModel StepSpec FilterSpec GaussSpec GaussProofs GaussTop.
Import ListNotations.
Open Scope R_scope.

(** C21 on periodic Cartesian grids: over any number of steps, for any decomposition, any
    particles, any number of filter passes, any order of threads, atomic additions and messages,
    the divergence of E at every active node changes by the change of the filtered charge of all
    particles, exactly. *)
Theorem C21_divergence_follows_the_charge_partial :
  forall o ls gbc third inv_dt p nf l c c' eE eB em0 em em',
  wide (n_ghosts o) ls -> length gbc = length ls -> all_periodic gbc -> dimension (length ls) -> sdx p <> 0 ->
  complete ls eE -> complete ls eB -> first_exchange (n_ghosts o) ls gbc eE eB em0 = Some em ->
  Forall (good_step o ls third inv_dt nf) l -> carried ls c l c' ->
  pic_run (n_ghosts o) ls gbc p (map fst l) em = Some em' ->
  forall d y, In d (domains ls) -> in_box y (sub_ncells d) ->
  divE (em' (sub_offset_ndomains d)) (loc (n_ghosts o) y) - divE (em (sub_offset_ndomains d)) (loc (n_ghosts o) y)
  = - scur p * inv_dt * (passes nf (charge_at (charge_order o) (map sumZ ls) c') (map2 Z.add (sub_offset_ncells d) y)
                         - passes nf (charge_at (charge_order o) (map sumZ ls) c) (map2 Z.add (sub_offset_ncells d) y)).
Proof. exact gauss_run. Qed.
Print Assumptions C21_divergence_follows_the_charge_partial.

(** C21: if Gauss's law holds after the initial exchange, it holds after any number of steps. *)
Theorem C21_gauss_law_is_kept_partial :
  forall o ls gbc third inv_dt p nf l c c' eE eB em0 em em',
  wide (n_ghosts o) ls -> length gbc = length ls -> all_periodic gbc -> dimension (length ls) -> sdx p <> 0 ->
  complete ls eE -> complete ls eB -> first_exchange (n_ghosts o) ls gbc eE eB em0 = Some em ->
  Forall (good_step o ls third inv_dt nf) l -> carried ls c l c' ->
  pic_run (n_ghosts o) ls gbc p (map fst l) em = Some em' ->
  let K := - scur p * inv_dt in
  gauss (n_ghosts o) ls K nf (charge_at (charge_order o) (map sumZ ls) c) em ->
  gauss (n_ghosts o) ls K nf (charge_at (charge_order o) (map sumZ ls) c') em'.
Proof. exact gauss_kept. Qed.
Print Assumptions C21_gauss_law_is_kept_partial.

(** Runs exist for any contributions of the particles. *)
Theorem C21_a_run_completes :
  forall g ls gbc p nf cs em, length gbc = length ls -> paired_flds gbc -> dimension (length ls) ->
  exists l em', map adds l = cs /\
   Forall (fun s => good_sched ls (fs s) /\ complete ls (e_j s) /\ length (filters s) = nf /\
     Forall (fun te => any_order (fst te) /\ complete ls (snd te)) (filters s)) l /\
   pic_run g ls gbc p l em = Some em'.
Proof. exact pic_run_completes. Qed.
Print Assumptions C21_a_run_completes.

(** A particle that leaves the first of two subdomains (first-order shapes), is handed over, and
    comes to rest in the second; it has charge 2 and ends near node 5 of the grid. *)
Definition leaving : prtl :=
  {| dead := false; mvs := [{| ci := 5; cdx := 1/4; pi := 4; pdx := 3/4 |}]; vp1 := 0; vp2 := 0; qw := 2 |}.
Definition arrived : prtl :=
  {| dead := false; mvs := [{| ci := 0; cdx := 1/4; pi := 0; pdx := 1/4 |}]; vp1 := 0; vp2 := 0; qw := 2 |}.
Definition here (i : Z) (p : prtl) (o : list Z) : list prtl :=
  match o with [j] => if Z.eqb i j then [p] else [] | _ => [] end.

Example C21_case_step : forall s1 s2, good_sched [[5; 5]%Z] (fs s1) -> good_sched [[5; 5]%Z] (fs s2) ->
  complete [[5; 5]%Z] (e_j s1) -> complete [[5; 5]%Z] (e_j s2) -> filters s1 = [] -> filters s2 = [] ->
  adds s1 = (fun o => flat_map (deposit 2 1 (1/3) 1) (here 0 leaving o)) ->
  adds s2 = (fun o => flat_map (deposit 2 1 (1/3) 1) (here 1 arrived o)) ->
  Forall (good_step 1 [[5; 5]%Z] (1/3) 1 0) [(s1, here 0 leaving); (s2, here 1 arrived)] /\
  carried [[5; 5]%Z] [(2, [19/4])] [(s1, here 0 leaving); (s2, here 1 arrived)] [(2, [21/4])].
Proof.
  intros s1 s2 G1 G2 C1 C2 F1 F2 A1 A2. split.
  - repeat apply Forall_cons; try apply Forall_nil; (split; [assumption|]; split; [assumption|]);
      (split; [rewrite ?F1, ?F2; reflexivity|]); (split; [rewrite ?F1, ?F2; constructor|]);
      intros d Hd; vm_compute in Hd; destruct Hd as [<-|[<-|[]]]; (split; [rewrite ?A1, ?A2; apply Permutation_refl|]);
      cbn; repeat constructor; cbn; try lra; try lia; try discriminate; unfold now, before; cbn; try (apply Rabs_def1; lra).
  - cbn [carried]. split; [|split].
    + exists [(2, [19/4])]. split; [apply Permutation_refl|]. constructor; [|constructor]. unfold same_charge, before. cbn.
      split; [reflexivity|split; [reflexivity|]]. intros [|i] n x y H1 H2 H3; cbn in *; [|destruct i; discriminate].
      injection H1 as <-. injection H2 as <-. injection H3 as <-. exists 0%Z. cbn. lra.
    + exists (all_charges [[5; 5]%Z] now (here 0 leaving)). split; [apply Permutation_refl|].
      constructor; [|constructor]. unfold same_charge, before, now. cbn.
      split; [reflexivity|split; [reflexivity|]]. intros [|i] n x y H1 H2 H3; cbn in *; [|destruct i; discriminate].
      injection H1 as <-. injection H2 as <-. injection H3 as <-. exists 0%Z. cbn. lra.
    + exists (all_charges [[5; 5]%Z] now (here 1 arrived)). split; [apply Permutation_refl|].
      constructor; [|constructor]. unfold same_charge, before, now. cbn.
      split; [reflexivity|split; [reflexivity|]]. intros [|i] n x y H1 H2 H3; cbn in *; [|destruct i; discriminate].
      injection H1 as <-. injection H2 as <-. injection H3 as <-. exists 0%Z. cbn. lra.
Qed.
Example C21_case_charge : charge_at 1 [10%Z] [(2, [21/4])] [5%Z] = 3/2 /\ charge_at 1 [10%Z] [(2, [21/4])] [16%Z] = 1/2.
Proof.
  assert (I : Int_part (21/4) = 5%Z).
  { destruct (base_Int_part (21/4)) as [B1 B2].
    assert (Int_part (21/4) < 6)%Z by (apply lt_IZR; lra). assert (4 < Int_part (21/4))%Z by (apply lt_IZR; lra). lia. }
  unfold charge_at, node_weight, axis_weight. cbn [fst snd map rsum fold_right]. rewrite I. 
  replace (zrange (5 - 6) (5 + 8)) with [-1; 0; 1; 2; 3; 4; 5; 6; 7; 8; 9; 10; 11; 12]%Z by reflexivity.
  cbn. repeat destruct Rle_dec; repeat destruct Rlt_dec; split; lra.
Qed.
