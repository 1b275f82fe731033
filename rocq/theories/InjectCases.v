(** Witnesses: the counter wraps, one species given twice, weights of a list. *)
From Coq Require Import Reals Lra ZArith List Bool Arith Lia Permutation.
From Verif Require Import Base ListLemmas DecompModel DecompSpec TopoModel HaloModel HaloSpec HaloProofs PrtlModel PrtlSpec PrtlProofs
  PrtlCommModel PrtlCommSpec CkptModel InjectModel InjectSpec InjectProofs InjectTop.
Import ListNotations.
Open Scope nat_scope.

Definition c1 : cfg := {| dim := 1; cart := true; npld_r := 0; npld_i := 2 |}.
Definition ls1 : list (list Z) := [[8%Z]].
Definition bc1 : list (flds_bc * flds_bc) := [(F_PERIODIC, F_PERIODIC)].
Definition void (n : nat) : parts := {| np := 0; maxp := n; tg := fun _ => 0%Z; ar := fun _ _ => 0%Z |}.
Definition blank (n : nat) : pstate := {| cont := void n; counter := 0 |}.
Definition some_p : newp := {| n_i := [3%Z]; n_dx := [7%Z]; n_u := [1%Z; 2%Z; 5%Z]; n_w := 9; n_phi := 0 |}.
Definition put (w : world) (o : list Z) (s : pstate) : world := fun b => if list_eq_dec Z.eq_dec b o then s else w b.
Lemma put_rank w o s : set_rank w (put w o s) o s.
Proof.
  split; [unfold put; destruct (list_eq_dec _ _ _); congruence|].
  intros b B. unfold put. destruct (list_eq_dec _ _ _); congruence.
Qed.
Lemma put_same w o s : put w o s o = s.
Proof. apply put_rank. Qed.

Definition w1 : world := fun _ => blank 3.

Lemma create_one w s k : w [0%Z] = s -> np (cont s) = k -> k < 3 -> maxp (cont s) = 3 ->
  exists s', step ls1 bc1 c1 w [ident (cont s') k] (put w [0%Z] s') /\ np (cont s') = S k /\ maxp (cont s') = 3 /\
    counter s' = ((counter s + 1) mod 2 ^ 32)%Z /\ ident (cont s') k = (0%Z, (counter s mod 2 ^ 32)%Z) /\ tg (cont s') k = 1%Z /\
    (forall p, p < k -> same_slot (cont s') (cont s) p).
Proof.
  intros W K L M.
  destruct (inject_one_ok c1 true true 0 [some_p] [0] s) as (s' & E & A1 & A2 & A3 & A4 & A5).
  { split; [simpl; lia|]. intros _. split; [simpl; lia|]. simpl. lia. }
  { simpl. auto. } { simpl. lia. }
  cbn [length] in *. rewrite K in *.
  assert (D : nth_error (domains ls1) 0 = Some {| sub_offset_ndomains := [0%Z]; sub_offset_ncells := [0%Z]; sub_ncells := [8%Z] |}) by reflexivity.
  pose proof (st_create ls1 bc1 c1 w (put w [0%Z] s') 0 _ [some_p] [0] s' D) as ST. cbv zeta in ST. cbn [sub_offset_ndomains length seq map] in ST.
  rewrite W, K in ST. specialize (A4 0 some_p eq_refl). rewrite !Nat.add_0_r, Z.add_0_r in A4.
  destruct A4 as (C1 & _ & _ & _ & _ & C6 & C7).
  exists s'. split; [apply ST; auto; apply put_rank|]. split; [lia|]. split; [lia|]. split; [exact A3|].
  split; [unfold ident; rewrite (C6 eq_refl), (C7 eq_refl eq_refl); auto|]. split; [auto|]. intros p Hp. apply A5. auto.
Qed.

Lemma cycle n : exists ids w, history ls1 bc1 c1 w1 ids w /\ np (cont (w [0%Z])) = 1 /\ maxp (cont (w [0%Z])) = 3 /\
  tg (cont (w [0%Z])) 0 = 1%Z /\ ident (cont (w [0%Z])) 0 = (0%Z, 0%Z) /\ counter (w [0%Z]) = ((1 + Z.of_nat n) mod 2 ^ 32)%Z.
Proof.
  induction n as [|n (ids & w & H & N & M & T & I & K)].
  - destruct (create_one w1 (blank 3) 0 eq_refl eq_refl ltac:(lia) eq_refl) as (s' & ST & N & M & K & I & T & _).
    eexists _, (put w1 [0%Z] s'). split; [eapply hi_step; [apply hi_none|exact ST]|]. rewrite put_same. repeat split; auto.
  - destruct (create_one w _ 1 eq_refl N ltac:(lia) M) as (s' & ST & N' & M' & K' & _ & T' & F').
    set (wa := put w [0%Z] s') in *. assert (WA : wa [0%Z] = s') by apply put_same.
    set (q := with_tg (cont s') (upd (tg (cont s')) 1 0%Z)).
    set (wb := put wa [0%Z] {| cont := q; counter := counter s' |}).
    assert (S2 : step ls1 bc1 c1 wa [] wb).
    { apply (st_push ls1 bc1 c1 wa wb [0%Z] q); rewrite ?WA; auto.
      - intros p Hp NT. cbn [np q with_tg] in Hp. split; auto. unfold q, with_tg; cbn [tg]. unfold upd.
        destruct (Nat.eqb_spec p 1) as [-> |]; auto. contradiction.
      - unfold wb. apply put_rank. }
    destruct (F' 0 ltac:(lia)) as [F1 F2].
    assert (TQ : tg q 0 = 1%Z /\ tg q 1 = 0%Z) by (unfold q, with_tg; cbn [tg]; unfold upd; simpl; rewrite F1; auto).
    assert (NQ0 : np q = 2) by exact N'.
    assert (LQ : live q = [0]) by (unfold live; rewrite NQ0; cbn [seq filter]; rewrite (proj1 TQ), (proj2 TQ); auto).
    destruct (remove_dead_ok c1 [0; 1] q) as (q' & E & P & NQ & MQ & TG & _).
    { cbn [np q with_tg]. rewrite N'. auto. }
    { intros p Hp. cbn [np q with_tg] in Hp. rewrite N' in Hp. destruct p as [|[|]]; [right; tauto|left; tauto|lia]. }
    { cbn [np maxp q with_tg]. lia. }
    rewrite LQ in *. cbn [length] in NQ.
    set (s3 := {| cont := q'; counter := counter s' |}). set (wc := put wb [0%Z] s3).
    assert (S3 : step ls1 bc1 c1 wb [] wc).
    { apply (st_remove ls1 bc1 c1 wb wc [0%Z] [0; 1] q'); unfold wb; rewrite ?put_same; cbn [cont counter].
      - cbn [np q with_tg]. rewrite N'. auto. - exact E. - apply put_rank. }
    eexists _, wc. split; [eapply hi_step; [eapply hi_step; [eapply hi_step; [exact H|exact ST]|exact S2]|exact S3]|].
    unfold wc. rewrite put_same. cbn [cont counter s3]. split; [auto|]. split; [rewrite MQ; auto|]. split; [apply TG; lia|]. split.
    + rewrite NQ in P. cbn [seq map] in P. apply Permutation_length_1 in P.
      rewrite <- (ident_view c1) by (simpl; lia). rewrite P, ident_view by (simpl; lia).
      unfold ident in *. unfold q, with_tg; cbn [ar]. rewrite !F2. auto.
    + rewrite K', K. rewrite Zplus_mod_idemp_l. f_equal. lia.
Qed.

Theorem wrap : exists ls gbc c w0 ids w, history ls gbc c w0 ids w /\ empty_world w0 /\ (forall o, maxp (cont (w0 o)) = 3) /\
  ~ NoDup (all_idents ls w).
Proof.
  assert (NN : exists n, Z.of_nat n = (2 ^ 32 - 1)%Z).
  { destruct (IZN (2 ^ 32 - 1) ltac:(lia)) as [n ->]. exists n. auto. }
  destruct NN as [n NN]. destruct (cycle n) as (ids & w & H & N & M & T & I & K).
  destruct (create_one w _ 1 eq_refl N ltac:(lia) M) as (s' & ST & N' & M' & K' & I' & T' & F').
  exists ls1, bc1, c1, w1. eexists _, (put w [0%Z] s'). split; [eapply hi_step; [exact H|exact ST]|]. split; [intros o; auto|]. split; [auto|].
  rewrite K, NN in I'. change ((1 + (2 ^ 32 - 1)) mod 2 ^ 32)%Z with 0%Z in I'. change (0 mod 2 ^ 32)%Z with 0%Z in I'.
  destruct (F' 0 ltac:(lia)) as [F1 F2].
  assert (I0 : ident (cont s') 0 = (0%Z, 0%Z)) by (unfold ident in *; rewrite !F2; auto).
  unfold all_idents. change (ranks ls1) with [[0%Z]]. cbn [flat_map]. rewrite put_same, app_nil_r. unfold not_dead. rewrite N'. cbn [seq filter].
  rewrite F1, T, T'. cbn. rewrite I0, I'. intros ND. apply NoDup_cons_iff in ND as [X _]. apply X. left. auto.
Qed.

(** ** One species given twice *)
Definition other_p : newp := {| n_i := [4%Z]; n_dx := [8%Z]; n_u := [0%Z; 0%Z; 6%Z]; n_w := 2; n_phi := 0 |}.
Theorem twice : exists cf tr mpi dom f acq order w w', Permutation order (seq 0 (length acq)) /\
  inject_pair cf tr mpi dom f f acq order w = Ok w' /\
  np (cont (w' f)) = np (cont (w f)) + 2 * length acq /\ length (live (cont (w' f))) = length (live (cont (w f))) + length acq /\
  forall p, p < np (cont (w' f)) -> ar (cont (w' f)) Weight p <> 9%Z.
Proof.
  set (r := inject_pair (fun _ => c1) (fun _ => true) true 0 0 0 [(some_p, other_p)] [0] (fun _ => blank 4)).
  assert (O : match r with
              | Ok w' => Some (np (cont (w' 0)), length (live (cont (w' 0))), map (fun p => Z.eqb (ar (cont (w' 0)) Weight p) 9) [0; 1])
              | _ => None end = Some (2, 1, [false; false])) by (vm_compute; reflexivity).
  destruct r as [w'| |] eqn:E; try discriminate. injection O as O1 O2 O3 O4.
  exists (fun _ => c1), (fun _ => true), true, 0%Z, 0, [(some_p, other_p)], [0], (fun _ => blank 4), w'.
  split; [simpl; auto|]. split; [exact E|]. split; [rewrite O1; reflexivity|]. split; [rewrite O2; reflexivity|].
  intros p Hp. rewrite O1 in Hp. destruct p as [|[|p]]; [apply Z.eqb_neq; assumption..|lia].
Qed.
