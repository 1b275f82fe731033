(** Output section: statements in terms of the entries of the file. *)
From Coq Require Import ZArith List Bool String Reals Lra Lia.
From Verif Require Import Base RunModel RunSpec OpModel OpSpec OpProofs.
Import ListNotations.
Open Scope Z_scope.

Lemma fits_map o : fits o -> option_map u32 o = o.
Proof. destruct o as [n|]; intros F; [cbn; now rewrite (u32_fits n F)|reflexivity]. Qed.
Lemma none_steps o : (or_else o 0 =? 0) = true <-> no_steps o.
Proof. unfold no_steps. destruct o as [n|]; cbn [or_else]; [rewrite Z.eqb_eq|]; split; intros H; auto; [right; congruence|destruct H; congruence]. Qed.
Lemma none_time o : is_minus_one (or_else o (-1)%R) = true <-> no_time o.
Proof. unfold no_time. rewrite minus_one. destruct o as [n|]; cbn [or_else]; split; intros H; auto; [right; congruence|destruct H; congruence]. Qed.
Lemma low_time o : (or_else o (-1) <= 0)%R <-> no_time o \/ bad_time o.
Proof.
  unfold no_time, bad_time. destruct o as [t|]; cbn [or_else]; split.
  - intros H. destruct (Req_EM_T t (-1)) as [->|N]; [left; now right|right; now exists t].
  - intros [[H|H]|(u & H & L & _)]; [discriminate|injection H as ->; lra|injection H as ->; exact L].
  - intros _. left. now left.
  - intros _. lra.
Qed.
Theorem undefined_iff g c q qs : fits (g_interval g) -> fits (c_interval c) -> written g c (q :: qs) = UB <-> useless g c.
Proof.
  intros G C. rewrite undefined. unfold read_category, useless. rewrite (fits_map _ G), (fits_map _ C). cbv zeta.
  assert (E : or_else (c_enable c) true = true <-> c_enable c <> Some false) by (destruct (c_enable c) as [[|]|]; cbn; split; congruence).
  assert (X : no_time (c_time c) -> ~ bad_time (c_time c)). { intros [N|N] (t & H & _ & M); congruence. }
  assert (GI : or_else (g_interval g) 100 = 0 <-> g_interval g = Some 0). { destruct (g_interval g); cbn; split; try congruence; discriminate. }
  pose proof (none_steps (c_interval c)) as S. pose proof (none_time (c_time c)) as T. pose proof (low_time (c_time c)) as L. pose proof (low_time (g_time g)) as LG.
  destruct (or_else (c_interval c) 0 =? 0) eqn:E0; cbn [andb].
  - destruct (is_minus_one (or_else (c_time c) (-1)%R)) eqn:E1; cbn [enabled interval_of time_of].
    + rewrite E, GI, LG. tauto.
    + assert (N : ~ no_time (c_time c)) by (intros H; apply T in H; congruence). apply Z.eqb_eq in E0. rewrite E, L. tauto.
  - cbn [enabled interval_of time_of]. apply Z.eqb_neq in E0. assert (N : ~ no_steps (c_interval c)) by (intros H; apply S in H; congruence). tauto.
Qed.
Theorem own_time g t q qs : fits (g_interval g) -> (t <= 0)%R -> t <> (-1)%R -> written g (CategoryIn None (Some t) None) (q :: qs) = UB.
Proof.
  intros G T N. apply undefined_iff; [exact G|exact I|]. split; [discriminate|]. split; [now left|]. left. now exists t.
Qed.

Lemma listed_range dim d : in_range d -> listed dim d = match d with DList l => l | DInt z => repeat z dim | DOther => repeat 1 dim end.
Proof.
  destruct d as [l|z|]; cbn [in_range listed]; intros H; [|now rewrite u32_fits|reflexivity].
  rewrite <- (map_id l) at 2. apply map_ext_in. intros z I. apply u32_fits. rewrite Forall_forall in H. auto.
Qed.
Theorem sampling dim d ghosts l : (1 <= dim <= 3)%nat -> in_range d -> factors dim d ghosts = Ok l <->
  asked_factors dim d = Some l /\ ~ In 0 l /\ (ghosts = true -> forall z, In z l -> z = 1).
Proof.
  intros D R. rewrite factors_ok by exact D. rewrite (listed_range dim d R). destruct d as [r|z|]; cbn [asked_factors].
  - destruct (Nat.leb_spec dim (List.length r)), (Nat.leb_spec (List.length r) 3); cbn [andb]; split.
    + intros (_ & -> & H1 & H2). auto.
    + intros (E & H1 & H2). injection E as <-. repeat split; auto.
    + intros ([_ H1] & _). lia.
    + intros (E & _). discriminate.
    + intros ([H1 _] & _). lia.
    + intros (E & _). discriminate.
    + intros ([H1 _] & _). lia.
    + intros (E & _). discriminate.
  - rewrite repeat_length. rewrite firstn_all2 by (rewrite repeat_length; lia). split.
    + intros (_ & -> & H). auto.
    + intros (E & H). injection E as <-. split; [lia|auto].
  - rewrite repeat_length. rewrite firstn_all2 by (rewrite repeat_length; lia). split.
    + intros (_ & -> & H). auto.
    + intros (E & H). injection E as <-. split; [lia|auto].
Qed.
Theorem short dim l ghosts : (1 <= dim <= 3)%nat -> (List.length l < dim)%nat -> Forall (fun z => 0 < z < 2 ^ 32) l ->
  factors dim (DList l) false = UB /\ (factors dim (DList l) ghosts = UB \/ factors dim (DList l) ghosts = Err).
Proof.
  intros D L F. rewrite Forall_forall in F.
  assert (N : ~ In 0 (map u32 l)). { intros I. apply in_map_iff in I. destruct I as (z & E & I). specialize (F z I). rewrite u32_fits in E; lia. }
  split; [apply factors_ub; [exact D|]; exists l; repeat split; auto; discriminate|].
  destruct (factors dim (DList l) ghosts) as [r| |] eqn:E; auto. apply factors_ok in E; [|exact D]. cbn [listed] in E. rewrite map_length in E. lia.
Qed.
Theorem undefined_sampling dim d ghosts : (1 <= dim <= 3)%nat -> factors dim d ghosts = UB -> exists l, d = DList l /\ (List.length l < dim)%nat.
Proof. intros D H. apply factors_ub in H; [|exact D]. destruct H as (l & E & L & _). eauto. Qed.
Theorem species_unchecked n s : s = 0 \/ (Z.of_nat n < s < 256) -> declare n (read_species n (Some [s])) = UB.
Proof.
  intros H. unfold declare, read_species. cbn [option_map or_else map forallb]. unfold u8. rewrite Z.mod_small by lia.
  destruct (Z.leb_spec 1 s), (Z.leb_spec s (Z.of_nat n)); try reflexivity. lia.
Qed.
