(** Properties C27, C28 and C29. *)
From Coq Require Import Reals Lra ZArith List Bool Arith Lia Permutation.
From Verif Require Import Base DecompModel DecompSpec DirsSpec TopoModel TopoSpec HaloModel HaloSpec PrtlModel PrtlSpec PrtlCommModel PrtlCommSpec
  CkptModel InjectModel InjectSpec InjectProofs InjectTop InjectGlob InjectCases InjectWeights.
Import ListNotations.
Open Scope nat_scope.

(** C27: over any history of creations on any subdomains under any schedule, removals of dead
    particles, sorts, pushes, exchanges between subdomains and restarts, starting with no
    particles, no identifier (subdomain, number) is given out twice and no two particles of the
    species carry the same one, as long as no subdomain creates more than 2^32 particles. *)
Theorem C27_identifiers_unique_partial : forall ls gbc c,
  length gbc = length ls -> paired_flds gbc -> dimension (length ls) -> dim c = length ls -> 2 <= npld_i c ->
  forall w0 ids w,
  history ls gbc c w0 ids w -> empty_world w0 ->
  (forall d, (Z.of_nat (length (filter (fun i => Z.eqb (fst i) d) ids)) <= 2 ^ 32)%Z) ->
  NoDup ids /\ NoDup (all_idents ls w) /\ incl (all_idents ls w) ids.
Proof. exact idents_unique. Qed.
Print Assumptions C27_identifiers_unique_partial.

(** A history with a creation, a death, a removal and a second creation. *)
Example C27_example : exists ids w, history ls1 bc1 c1 w1 ids w /\ empty_world w1 /\ length bc1 = length ls1 /\ paired_flds bc1 /\
  np (cont (w [0%Z])) = 1 /\ counter (w [0%Z]) = 3%Z.
Proof.
  destruct (cycle 2) as (ids & w & H & N & M & T & I & K). exists ids, w.
  split; [auto|]. split; [intros o; auto|]. split; [reflexivity|]. split; [repeat constructor; simpl; intuition congruence|]. split; [auto|]. rewrite K. reflexivity.
Qed.

(** Without that bound it fails: the number wraps, and with room for three particles a run can
    reach two living particles with the same identifier. *)
Theorem C27_counter_wrap_refuted : exists ls gbc c w0 ids w,
  history ls gbc c w0 ids w /\ empty_world w0 /\ (forall o, maxp (cont (w0 o)) = 3) /\ ~ NoDup (all_idents ls w).
Proof. exact wrap. Qed.
Print Assumptions C27_counter_wrap_refuted.

(** C28, creation within capacity: whatever the order of the threads, the particles end up in
    the next free slots, once each, and nothing else is touched. *)
Theorem C28_next_free_slots : forall c mpi track dom acq order s,
  trackable c mpi track -> Permutation order (seq 0 (length acq)) -> np (cont s) + length acq <= maxp (cont s) ->
  exists s', inject_one c mpi track dom acq order s = Ok s' /\ appended c mpi track dom acq s s'.
Proof. exact inject_one_ok. Qed.
Print Assumptions C28_next_free_slots.

(** Two species at once. *)
Theorem C28_next_free_slots_pair : forall cf tr mpi dom f s acq order w, f <> s ->
  trackable (cf f) mpi (tr f) -> trackable (cf s) mpi (tr s) -> Permutation order (seq 0 (length acq)) ->
  np (cont (w f)) + length acq <= maxp (cont (w f)) -> np (cont (w s)) + length acq <= maxp (cont (w s)) ->
  exists w', inject_pair cf tr mpi dom f s acq order w = Ok w' /\
    appended (cf f) mpi (tr f) dom (map fst acq) (w f) (w' f) /\
    appended (cf s) mpi (tr s) dom (map snd acq) (w s) (w' s) /\ (forall k, k <> f -> k <> s -> w' k = w k).
Proof. exact inject_pair_ok. Qed.
Print Assumptions C28_next_free_slots_pair.

(** Beyond capacity the injection is not rejected: the kernel has written outside the arrays
    before the number of particles is checked, under every order of the threads. *)
Theorem C28_rejected_before_writing_refuted : forall c mpi track dom acq order s,
  Permutation order (seq 0 (length acq)) -> maxp (cont s) < np (cont s) + length acq -> np (cont s) <= maxp (cont s) ->
  inject_one c mpi track dom acq order s = UB.
Proof. exact inject_one_past. Qed.
Print Assumptions C28_rejected_before_writing_refuted.
Theorem C28_rejected_before_writing_pair_refuted : forall cf tr mpi dom f s acq order w,
  Permutation order (seq 0 (length acq)) -> acq <> [] ->
  (maxp (cont (w f)) < np (cont (w f)) + length acq \/ maxp (cont (w s)) < np (cont (w s)) + length acq) ->
  inject_pair cf tr mpi dom f s acq order w = UB.
Proof. exact inject_pair_past. Qed.
Print Assumptions C28_rejected_before_writing_pair_refuted.

(** If both species of a pair are the same one, half of the slots stay empty and the first
    particle of each pair is lost. *)
Theorem C28_same_species_refuted : exists cf tr mpi dom f acq order w w', Permutation order (seq 0 (length acq)) /\
  inject_pair cf tr mpi dom f f acq order w = Ok w' /\
  np (cont (w' f)) = np (cont (w f)) + 2 * length acq /\ length (live (cont (w' f))) = length (live (cont (w f))) + length acq /\
  forall p, p < np (cont (w' f)) -> ar (cont (w' f)) Weight p <> 9%Z.
Proof. exact twice. Qed.
Print Assumptions C28_same_species_refuted.

Example C28_example : trackable c1 true true /\ Permutation [1; 0] (seq 0 (length [some_p; other_p])) /\
  np (cont (blank 2)) + length [some_p; other_p] <= maxp (cont (blank 2)) /\
  (match inject_one c1 true true 4 [some_p; other_p] [1; 0] (blank 2) with
   | Ok s' => (map (ident (cont s')) [0; 1], map (ar (cont s') (PrtlModel.I 1)) [0; 1])
   | _ => ([], [])
   end = ([(4%Z, 0%Z); (4%Z, 1%Z)], [3%Z; 4%Z])) /\
  inject_one c1 true true 4 [some_p; other_p] [1; 0] (blank 1) = UB.
Proof.
  split; [split; [simpl; lia|intros _; split; simpl; lia]|]. split; [apply perm_swap|]. split; [simpl; lia|].
  split; [vm_compute; reflexivity|vm_compute; reflexivity].
Qed.

(** C29: every listed particle inside the grid belongs to exactly one subdomain. *)
Theorem C29_exactly_one_owner : forall ls cd ph,
  Forall (Forall (fun a => 0 < a)%Z) ls -> Forall (fun l => sumZ l <= 2 ^ 31)%Z ls ->
  (forall d, d < length ls -> converts (cd d) (ph d) (nth d (map sumZ ls) 0%Z)) ->
  forall e, inside_grid ph (map sumZ ls) e ->
  exists! d, exists D, nth_error (domains ls) d = Some D /\ inside_domain ph D e.
Proof. exact one_owner. Qed.
Print Assumptions C29_exactly_one_owner.

(** Each subdomain creates exactly the listed particles inside it, at the listed positions and
    velocities; in total every listed particle is created once.  The weights are missing. *)
Theorem C29_placed_once_partial : forall ls cd ph,
  Forall (Forall (fun a => 0 < a)%Z) ls -> Forall (fun l => sumZ l <= 2 ^ 31)%Z ls ->
  (forall d, d < length ls -> converts (cd d) (ph d) (nth d (map sumZ ls) 0%Z)) ->
  forall rot enc c mpi track uw data, dim c = length ls -> (forall x p u, length u = 3 -> length (rot x p u) = 3) ->
  forall (s : nat -> pstate) (order : nat -> list nat),
  trackable c mpi track -> Forall (inside_grid ph (map sumZ ls)) data ->
  (forall d D, nth_error (domains ls) d = Some D -> Permutation (order d) (seq 0 (length data)) /\
     (uw = true -> length data <= maxp (cont (s d))) /\
     forall sel, share (inside_domain ph D) data sel -> np (cont (s d)) + length sel <= maxp (cont (s d))) ->
  exists s' : nat -> pstate,
    (forall d D, nth_error (domains ls) d = Some D ->
       inject_global cd rot enc c mpi track uw (Z.of_nat d) (phys_extent ph (sub_offset_ncells D) (sub_ncells D))
         (sub_offset_ncells D) data (order d) (s d) = Ok (s' d) /\
       (forall p, p < np (cont (s d)) -> same_slot (cont (s' d)) (cont (s d)) p) /\
       (forall p, np (cont (s d)) <= p < np (cont (s' d)) ->
          tg (cont (s' d)) p = 1%Z /\ (uw = false -> ar (cont (s' d)) Weight p = enc 1%R)) /\
       exists sel, share (inside_domain ph D) data sel /\ Permutation (created c D (s d) (s' d)) (map (asked c cd rot enc) sel)) /\
    Permutation (flat_map (fun d => match nth_error (domains ls) d with Some D => created c D (s d) (s' d) | None => [] end)
                          (seq 0 (length (domains ls))))
                (map (asked c cd rot enc) data).
Proof. exact global_all. Qed.
Print Assumptions C29_placed_once_partial.

(** Two subdomains of four cells; a particle exactly on the edge between them. *)
Example C29_example : Forall (Forall (fun a => 0 < a)%Z) [[4%Z; 4%Z]] /\
  (forall d, d < 1 -> converts (same_x d) (same_x d) (nth d [8%Z] 0%Z)) /\
  Forall (inside_grid same_x [8%Z]) [entry 4 1; entry (5 / 2) 3] /\
  (exists D, nth_error (domains [[4%Z; 4%Z]]) 1 = Some D /\ inside_domain same_x D (entry 4 1)).
Proof.
  split; [repeat constructor|]. split.
  { intros [|d] H; [|lia]. apply (same_converts 8). lia. }
  split; [constructor; [apply entry_inside; lra|constructor; [apply entry_inside; lra|constructor]]|].
  eexists. split; [reflexivity|]. intros [|d] H; simpl in *; [|lia]. unfold same_x. cbn. lra.
Qed.

(** The listed weights have no effect at all ... *)
Theorem C29_weights_ignored_refuted : forall cd rot enc c mpi track uw dom ext off data data' order s,
  Forall2 (fun e e' => l_x e = l_x e' /\ l_u e = l_u e' /\ l_phi e = l_phi e') data data' ->
  inject_global cd rot enc c mpi track uw dom ext off data order s = inject_global cd rot enc c mpi track uw dom ext off data' order s.
Proof. exact weights_ignored. Qed.
Print Assumptions C29_weights_ignored_refuted.

(** ... and a first particle listed with a weight gets the content of the empty array. *)
Theorem C29_weights_refuted : forall enc w, enc w <> 0%Z ->
  exists s', inject_global same_x keep_u enc c1 true true true 0 (phys_extent same_x [0%Z] [8%Z]) [0%Z] [entry (5 / 2) w] [0] (blank 4) = Ok s' /\
    np (cont s') = 1 /\ ar (cont s') (PrtlModel.I 1) 0 = 2%Z /\ ar (cont s') Weight 0 <> enc w.
Proof. exact weights_wrong. Qed.
Print Assumptions C29_weights_refuted.
