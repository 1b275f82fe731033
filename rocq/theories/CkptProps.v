(** Properties C30 and C31. *)
From Coq Require Import ZArith List Bool Arith Permutation Lia.
From Verif Require Import Base DecompModel DecompSpec HaloSpec PrtlModel PrtlSpec CkptModel CkptSpec CkptProofs CkptPrtl.
Import ListNotations.
Open Scope Z_scope.

(** C30: the regions of the checkpoint arrays that belong to the subdomains tile the arrays:
    every element belongs to exactly one cell (ghost cells included) of exactly one subdomain,
    and what a subdomain writes are the elements of its cells. *)
Theorem C30_regions_tile_the_array : forall G ls, storable G ls ->
  (forall x, in_box x (full_shape G ls) ->
     exists! p : subdomain * list Z, In (fst p) (domains ls) /\
       in_box (snd p) (map (fun n => n + 2 * G) (sub_ncells (fst p))) /\
       x = element G ls (sub_offset_ndomains (fst p)) (snd p)) /\
  (forall d, In d (domains ls) ->
     fits (shape_with_ghosts G (map sumZ ls) (counts ls)) (first_with_ghosts G d) (n_all G d) = true /\
     forall x, In x (selection (first_with_ghosts G d) (n_all G d)) <->
       exists y, in_box y (map (fun n => n + 2 * G) (sub_ncells d)) /\
         x = element G ls (sub_offset_ndomains d) y) /\
  shape_with_ghosts G (map sumZ ls) (counts ls) = full_shape G ls.
Proof. exact regions_tile. Qed.
Print Assumptions C30_regions_tile_the_array.

Example ex_storable : storable 2 [[3; 4]; [5]].
Proof. split; [lia|]. repeat constructor; cbn; try lia; discriminate. Qed.
Example ex_full_shape : full_shape 2 [[3; 4]; [5]] = [15; 9].
Proof. reflexivity. Qed.

(** C30: whatever was in the file before, in whatever order the ranks write: all values of all
    arrays the next step needs, ghost cells included, come back on every subdomain. *)
Theorem C30_fields_are_restored :
  forall V G gr ls (mem : farray -> subdomain -> list V) order f,
  storable G ls -> Permutation order (domains ls) ->
  (forall a d, needed gr a -> In d (domains ls) -> full_memory G a d (mem a d)) ->
  exists f', (forall a, checkpoint_fields G gr (map sumZ ls) (counts ls) mem order f a = Ok (f' a)) /\
    forall d a old, In d (domains ls) -> needed gr a ->
    restore_fields G gr (map sumZ ls) (counts ls) d f' old a = Ok (map Some (mem a d)).
Proof. exact @checkpoint_restored. Qed.
Print Assumptions C30_fields_are_restored.

Example ex_mem (a : farray) (d : subdomain) : list Z :=
  map (fun k => 1000 * hd 0 (sub_offset_ndomains d) + Z.of_nat k)
    (seq 0 (Z.to_nat (prodZ (map (fun n => n + 2) (sub_ncells d)) * components a))).
Example ex_full : forall a d, needed true a -> In d (domains [[1; 2]]) -> full_memory 1 a d (ex_mem a d).
Proof. intros a d _ Hd. cbn in Hd. destruct Hd as [<-|[<-|[]]]; destruct a; vm_compute; reflexivity. Qed.
Example ex_restored : exists f',
  checkpoint_fields 1 true [3] [2] ex_mem (rev (domains [[1; 2]])) (fun _ _ => None) Cur = Ok (f' Cur) /\
  restore_fields 1 true [3] [2] (nth 1 (domains [[1; 2]]) {| sub_offset_ndomains := []; sub_offset_ncells := []; sub_ncells := [] |})
    f' (fun _ => []) Cur = Ok (map Some [1000; 1001; 1002; 1003; 1004; 1005; 1006; 1007; 1008; 1009; 1010; 1011]).
Proof.
  exists (fun a => match checkpoint_fields 1 true [3] [2] ex_mem (rev (domains [[1; 2]])) (fun _ _ => None) a with Ok v => v | _ => fun _ => None end).
  split; [|vm_compute; reflexivity].
  destruct (checkpoint_fields 1 true [3] [2] ex_mem (rev (domains [[1; 2]])) (fun _ _ => None) Cur) eqn:E; auto;
    vm_compute in E; discriminate.
Qed.

(** C30: the sizes of the blocks at the time of the checkpoint are taken over on resuming, even
    if the input now leads to others, provided the number of subdomains per dimension is the
    same; a different total size is an error. *)
Theorem C30_layout_is_restored : forall ls cur,
  counts cur = counts ls -> Forall (fun l => l <> []) ls -> Forall (fun l => 0 <= sumZ l < 2 ^ 32) ls ->
  resume_layout (map sumZ cur) (counts cur) (domains cur) (map sub_ncells (domains ls)) =
  if list_eqb (map sumZ cur) (map sumZ ls) then Ok (domains ls) else Err.
Proof. exact resume_layout_ok. Qed.
Print Assumptions C30_layout_is_restored.

Example ex_layout : resume_layout [12; 5] [2; 1] (domains [[6; 6]; [5]]) (map sub_ncells (domains [[7; 5]; [5]])) = Ok (domains [[7; 5]; [5]]).
Proof. apply (resume_layout_ok [[7; 5]; [5]] [[6; 6]; [5]]); [reflexivity|repeat constructor; discriminate|repeat constructor; cbn; lia]. Qed.

(** C31: every rank gets back its particles in their slots, with all attributes and the counter
    of particle numbers, whatever the numbers of particles of the ranks and the order in which
    they write. *)
Theorem C31_particles_are_restored :
  forall c by_rows N ss order f0, Permutation order (seq 0 N) ->
  exists f, write_ranks c by_rows (map (fun r => Z.of_nat (np (cont (ss r)))) (seq 0 N)) ss order f0 = Ok f /\
    forall r s0, (r < N)%nat -> np (cont s0) = O -> (np (cont (ss r)) <= maxp (cont s0))%nat ->
    exists s', read_species c by_rows N r f s0 = Ok s' /\ same_particles c (cont s') (cont (ss r)) /\
      counter s' = counter (ss r) /\ maxp (cont s') = maxp (cont s0).
Proof. exact species_roundtrip. Qed.
Print Assumptions C31_particles_are_restored.

Example ex_c : cfg := {| dim := 2; cart := true; npld_r := 2; npld_i := 1 |}.
Example ex_rank (r : nat) : pstate :=
  {| cont := {| np := r; maxp := 4; tg := fun p => Z.of_nat (p mod 2);
                ar := fun a p => 100 * Z.of_nat r + 10 * Z.of_nat p + match a with PldR l => Z.of_nat l | Weight => 5 | _ => 7 end |};
     counter := 40 + Z.of_nat r |}.
Example ex_empty : pstate := {| cont := {| np := 0; maxp := 3; tg := fun _ => 0; ar := fun _ _ => -1 |}; counter := 0 |}.
Example ex_prtl_back : match write_ranks ex_c false [0; 1; 2] ex_rank [2; 0; 1]%nat (fun _ _ => None) with
  | Ok f => match read_species ex_c false 3 2 f ex_empty with
            | Ok s => np (cont s) = 2%nat /\ counter s = 42 /\ map (tg (cont s)) [0; 1]%nat = [0; 1] /\
                      map (fun l => map (ar (cont s) (PldR l)) [0; 1]%nat) [0; 1]%nat = [[200; 210]; [201; 211]]
            | _ => False end
  | _ => False end.
Proof. vm_compute. auto. Qed.

(** C31: only on a machine with the same memory layout: payloads written from arrays stored by
    rows and read into arrays stored by columns get mixed up. *)
Theorem C31_other_memory_layout_refuted : exists c ss f s0 s',
  write_ranks c true (map (fun r => Z.of_nat (np (cont (ss r)))) (seq 0 1)) ss [0%nat] (fun _ _ => None) = Ok f /\
  np (cont s0) = 0%nat /\ (np (cont (ss 0%nat)) <= maxp (cont s0))%nat /\
  read_species c false 1 0 f s0 = Ok s' /\ ~ same_particles c (cont s') (cont (ss 0%nat)).
Proof.
  assert (X : match write_ranks ex_c true (map (fun r => Z.of_nat (np (cont (ex_rank 2)))) (seq 0 1)) (fun _ => ex_rank 2) [0%nat] (fun _ _ => None) with
    | Ok f => match read_species ex_c false 1 0 f ex_empty with
              | Ok s => np (cont s) = 2%nat /\ nth 12 (view ex_c (cont s) 0) 0 <> nth 12 (view ex_c (cont (ex_rank 2)) 0) 0 \/
                        np (cont s) = 2%nat /\ nth 13 (view ex_c (cont s) 0) 0 <> nth 13 (view ex_c (cont (ex_rank 2)) 0) 0
              | _ => False end
    | _ => False end).
  { vm_compute. right. split; [reflexivity|discriminate]. }
  exists ex_c, (fun _ => ex_rank 2).
  destruct (write_ranks _ _ _ _ _ _) as [f| |]; try contradiction. exists f, ex_empty.
  destruct (read_species _ _ _ _ _ _) as [s'| |]; try contradiction. exists s'.
  split; [reflexivity|]. split; [reflexivity|]. split; [cbn; lia|]. split; [reflexivity|].
  intros [_ V]. destruct X as [[N X]|[N X]]; apply X; specialize (V 0%nat ltac:(rewrite N; lia)).
  - exact (f_equal (fun x : Z * list Z => nth 12 (snd x) 0) V).
  - exact (f_equal (fun x : Z * list Z => nth 13 (snd x) 0) V).
Qed.
Print Assumptions C31_other_memory_layout_refuted.
