(** C13: exchange of particles between subdomains. *)
From Coq Require Import ZArith List Bool Arith Lia Permutation.
From Verif Require Import Base DecompModel DecompSpec DirsModel DirsSpec TopoModel TopoSpec HaloModel HaloSpec
  PrtlModel PrtlSpec PrtlCommModel PrtlCommSpec PrtlCommTop.
Import ListNotations.

(** On every rank, for every thread order: the exchange ends, no send tag is left, the particles
    that stay keep their slot and everything stored about them, and the live particles afterwards
    are these and exactly those tagged for this rank elsewhere, unchanged except that their cells
    are counted from the corner of the new subdomain. *)
Theorem C13_rank_receives_exactly_what_is_sent : forall ls gbc c sc st b,
  length gbc = length ls -> paired_flds gbc -> dimension (length ls) -> dim c = length ls ->
  (forall o n, Permutation (o_prep sc o n) (seq 0 n)) ->
  (forall o dir n, Permutation (o_pop sc o dir n) (seq 0 n)) ->
  (forall o n, Permutation (o_ext sc o n) (seq 0 n)) ->
  (forall o, in_box o (counts ls) -> ready ls gbc o (st o)) ->
  in_box b (counts ls) ->
  np (st b) + length (incoming ls gbc c st b) < maxp (st b) ->
  exists s', comm_particles ls gbc c sc st b = Ok s' /\ maxp s' = maxp (st b) /\ np s' < maxp s' /\
    (forall p, p < np s' -> tg s' p = 0%Z \/ tg s' p = 1%Z) /\
    (forall p, In p (live (st b)) -> In p (live s') /\ tagged_view c s' p = tagged_view c (st b) p) /\
    Permutation (map (view c s') (live s')) (map (view c (st b)) (live (st b)) ++ incoming ls gbc c st b).
Proof. intros ls gbc c sc st b L P HD DC PP PO PE RD. exact (exchange_rank ls gbc c sc st L P HD DC PP PO PE RD b). Qed.
Print Assumptions C13_rank_receives_exactly_what_is_sent.

(** Over all subdomains no particle is lost, duplicated or altered; its cell and previous cell
    in the global periodic grid stay the same. *)
Theorem C13_exchange_conserves_particles : forall ls gbc c sc st,
  length gbc = length ls -> paired_flds gbc -> dimension (length ls) -> dim c = length ls ->
  (forall o n, Permutation (o_prep sc o n) (seq 0 n)) ->
  (forall o dir n, Permutation (o_pop sc o dir n) (seq 0 n)) ->
  (forall o n, Permutation (o_ext sc o n) (seq 0 n)) ->
  (forall o, in_box o (counts ls) -> ready ls gbc o (st o)) ->
  (forall b, in_box b (counts ls) -> np (st b) + length (incoming ls gbc c st b) < maxp (st b)) ->
  exists st', (forall b, in_box b (counts ls) -> comm_particles ls gbc c sc st b = Ok (st' b)) /\
    Permutation (everywhere ls c live st') (everywhere ls c not_dead st).
Proof. exact exchange_total. Qed.
Print Assumptions C13_exchange_conserves_particles.

(** Whatever the tags: the particles alive afterwards are those that were alive and those tagged
    for a direction in which their subdomain has somewhere to send to; only particles tagged for
    a direction without partner are lost. *)
Theorem C13_only_particles_without_partner_are_lost : forall ls gbc c sc st,
  length gbc = length ls -> paired_flds gbc -> dimension (length ls) -> dim c = length ls ->
  (forall o n, Permutation (o_prep sc o n) (seq 0 n)) ->
  (forall o dir n, Permutation (o_pop sc o dir n) (seq 0 n)) ->
  (forall o n, Permutation (o_ext sc o n) (seq 0 n)) ->
  (forall o, in_box o (counts ls) -> tagged_ok (length ls) (st o)) ->
  (forall b, in_box b (counts ls) -> np (st b) + length (incoming ls gbc c st b) < maxp (st b)) ->
  exists st', (forall b, in_box b (counts ls) -> comm_particles ls gbc c sc st b = Ok (st' b)) /\
    Permutation (everywhere ls c live st') (everywhere_at ls c (destined ls gbc) st).
Proof. exact exchange_total_any. Qed.
Print Assumptions C13_only_particles_without_partner_are_lost.
Example C13_case_without_partner :
  length (everywhere_at ex_ls ex_c (destined ex_ls lost_bc) ex_st) = 1 /\ length (everywhere ex_ls ex_c not_dead ex_st) = 3.
Proof. vm_compute. auto. Qed.

(** A particle that left its subdomain by less than the width of the neighbour, and carries the
    tag of the side it left through, is in an active cell of the subdomain that receives it. *)
Theorem C13_arrives_in_an_active_cell : forall ls gbc o b x,
  length gbc = length ls -> paired_flds gbc -> in_box o (counts ls) -> length x = length ls ->
  let dir := map2 side x (size ls o) in
  nonzero_direction (length ls) dir -> send_to (counts ls) gbc o dir = Some b ->
  Forall2 (fun a p => - snd p <= a < fst p + snd p)%Z x (combine (size ls o) (size ls b)) ->
  in_box (map2 Z.add x (map (displacement ls o b dir) (seq 0 (length ls)))) (size ls b).
Proof. exact landing_active. Qed.
Print Assumptions C13_arrives_in_an_active_cell.

(** More particles than fit are an error on the receiving rank; nothing is written past the end. *)
Theorem C13_overflow_is_an_error : forall ls gbc c sc st b,
  length gbc = length ls -> paired_flds gbc -> dimension (length ls) -> dim c = length ls ->
  (forall o n, Permutation (o_prep sc o n) (seq 0 n)) ->
  (forall o dir n, Permutation (o_pop sc o dir n) (seq 0 n)) ->
  (forall o n, Permutation (o_ext sc o n) (seq 0 n)) ->
  (forall o, in_box o (counts ls) -> ready ls gbc o (st o)) ->
  in_box b (counts ls) -> dirs_to_comm ls gbc c b <> [] ->
  maxp (st b) <= np (st b) + length (incoming ls gbc c st b) ->
  comm_particles ls gbc c sc st b = Err.
Proof. intros ls gbc c sc st b L P HD DC PP PO PE RD. exact (exchange_overflow ls gbc c sc st L P HD DC PP PO PE RD b). Qed.
Print Assumptions C13_overflow_is_an_error.

(** Two subdomains of six and five cells, periodic.  Rank 0: a live particle in cell 2, one that
    left below (cell -1) and a dead slot; rank 1: one that left above (cell 5): [ex_ls], [ex_bc], [ex_c], [ex_sc], [ex_st] in PrtlCommTop. *)
Lemma ex_ready : forall o, in_box o (counts ex_ls) -> ready ex_ls ex_bc o (ex_st o).
Proof.
  intros o H. inversion H as [|a n o' ns Ha H1]; subst. inversion H1; subst. cbn in Ha.
  assert (C : a = 0%Z \/ a = 1%Z) by lia. destruct C as [-> | ->]; intros p Hp; cbn in Hp.
  - destruct p as [|[|[|p]]]; [right; left|right; right|left|lia]; try reflexivity.
    exists [(-1)%Z], [1%Z]. split; [|split; reflexivity].
    split; [|exists (-1)%Z; split; [left; auto|lia]]. split; [reflexivity|]. repeat constructor; lia.
  - destruct p as [|p]; [|lia]. right. right. exists [1%Z], [0%Z]. split; [|split; reflexivity].
    split; [|exists 1%Z; split; [left; auto|lia]]. split; [reflexivity|]. repeat constructor; lia.
Qed.

Example C13_case_hypotheses : paired_flds ex_bc /\ dimension (length ex_ls) /\ dim ex_c = length ex_ls /\
  (forall o n, Permutation (o_prep ex_sc o n) (seq 0 n)) /\
  (forall b, In b [[0%Z]; [1%Z]] -> np (ex_st b) + length (incoming ex_ls ex_bc ex_c ex_st b) < maxp (ex_st b)).
Proof.
  split; [repeat constructor; discriminate|]. split; [split; cbn; lia|]. split; [reflexivity|]. split.
  - intros o n. apply Permutation_sym, Permutation_rev.
  - intros b [<-|[<-|[]]]; vm_compute; lia.
Qed.

Example C13_case :
  match comm_particles ex_ls ex_bc ex_c ex_sc ex_st [0%Z], comm_particles ex_ls ex_bc ex_c ex_sc ex_st [1%Z] with
  | Ok s0, Ok s1 =>
      (* the particle from rank 1 fills the dead slot; the one from rank 0 is in cell 4 of rank 1 *)
      map (fun p => (tg s0 p, ar s0 (I 1) p, ar s0 (Iprev 1) p, ar s0 (PldI 0) p)) (seq 0 (np s0))
        = [(1, 2, 1, 100); (0, 4, 5, 101); (1, 0, -1, 200)]%Z /\
      map (fun p => (tg s1 p, ar s1 (I 1) p, ar s1 (Iprev 1) p, ar s1 (PldI 0) p)) (seq 0 (np s1))
        = [(1, 4, 5, 101)]%Z
  | _, _ => False
  end.
Proof. vm_compute. repeat split. Qed.

(** The hypothesis [ready] is needed: a particle tagged for a direction in which there is nobody
    to send to is marked dead while the buffers are filled and disappears. *)
Theorem C13_without_partner_refuted : exists st st',
  (forall o, In o (ranks ex_ls) -> forall p, p < np (st o) ->
     tg (st o) p = 0%Z \/ tg (st o) p = 1%Z \/ exists dir, nonzero_direction 1 dir /\ dir2tag dir = Ok (tg (st o) p)) /\
  (forall o, In o (ranks ex_ls) -> np (st o) + length (incoming ex_ls lost_bc ex_c st o) < maxp (st o)) /\
  (forall o, In o (ranks ex_ls) -> comm_particles ex_ls lost_bc ex_c ex_sc st o = Ok (st' o)) /\
  length (everywhere ex_ls ex_c not_dead st) = 3 /\ length (everywhere ex_ls ex_c live st') = 1.
Proof. exact lost_without_partner. Qed.
Print Assumptions C13_without_partner_refuted.
