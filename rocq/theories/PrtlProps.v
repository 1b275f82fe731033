(** Removal of dead particles (C11) and spatial sorting (C12). *)
From Coq Require Import ZArith List Bool Arith Lia Permutation.
From Verif Require Import Base PrtlModel PrtlSpec PrtlProofs PrtlTop.
Import ListNotations.

(** ** C11 *)

(** The live particles survive as a multiset of whole particles, occupy the first slots, are
    all that is counted; slots freed are marked dead; nothing beyond the old count changes. *)
Theorem C11_remove_dead_keeps_live_particles : forall c order s, Permutation order (seq 0 (np s)) ->
  (forall p, p < np s -> tg s p = 0%Z \/ tg s p = 1%Z) -> np s <= maxp s ->
  exists s', remove_dead c order s = Ok s' /\
  Permutation (map (view c s') (seq 0 (np s'))) (map (view c s) (live s)) /\
  np s' = length (live s) /\ maxp s' = maxp s /\
  (forall p, p < np s' -> tg s' p = 1%Z) /\
  (forall p, np s' <= p < np s -> tg s' p = 0%Z) /\
  (forall p, np s <= p -> tagged_view c s' p = tagged_view c s p).
Proof. exact remove_dead_ok. Qed.
Print Assumptions C11_remove_dead_keeps_live_particles.

(** It fails exactly when a particle still carries a send tag. *)
Theorem C11_remove_dead_fails_only_on_send_tags : forall c order s, Permutation order (seq 0 (np s)) -> np s <= maxp s ->
  (remove_dead c order s = Err <-> exists p, p < np s /\ tg s p <> 0%Z /\ tg s p <> 1%Z).
Proof. exact remove_dead_error. Qed.
Print Assumptions C11_remove_dead_fails_only_on_send_tags.

(** Five particles in 2D, two dead; threads run backwards. *)
Example ex_parts : parts := {| np := 5; maxp := 8;
  tg := fun p => nth p [1; 0; 1; 0; 1]%Z 0%Z;
  ar := fun a p => match a with
                   | I 1 => nth p [3; 9; 0; 9; 3]%Z 7%Z
                   | I 2 => nth p [2; 9; 1; 9; 0]%Z 7%Z
                   | Weight => Z.of_nat (10 + p)
                   | PldR 1 => Z.of_nat (20 + p)
                   | _ => 5%Z
                   end |}.
Example ex_cfg : cfg := {| dim := 2; cart := false; npld_r := 2; npld_i := 0 |}.
Example ex_order_ok : Permutation (rev (seq 0 5)) (seq 0 (np ex_parts)).
Proof. apply Permutation_sym, Permutation_rev. Qed.
Example ex_tags_ok : forall p, p < np ex_parts -> tg ex_parts p = 0%Z \/ tg ex_parts p = 1%Z.
Proof. intros p Hp. cbn in Hp. do 5 (destruct p as [|p]; [cbn; auto|]). lia. Qed.
Example ex_removed : exists s', remove_dead ex_cfg (rev (seq 0 5)) ex_parts = Ok s' /\ np s' = 3 /\
  map (ar s' Weight) (seq 0 3) = [14; 12; 10]%Z /\ map (ar s' (PldR 1)) (seq 0 3) = [24; 22; 20]%Z /\
  map (ar s' (I 2)) (seq 0 3) = [0; 1; 2]%Z /\ map (tg s') (seq 0 5) = [1; 1; 1; 0; 0]%Z.
Proof.
  assert (X : match remove_dead ex_cfg (rev (seq 0 5)) ex_parts with
    | Ok s' => np s' = 3 /\
               map (ar s' Weight) (seq 0 3) = [14; 12; 10]%Z /\ map (ar s' (PldR 1)) (seq 0 3) = [24; 22; 20]%Z /\
               map (ar s' (I 2)) (seq 0 3) = [0; 1; 2]%Z /\ map (tg s') (seq 0 5) = [1; 1; 1; 0; 0]%Z
    | _ => False end).
  { vm_compute. auto 6. }
  destruct (remove_dead _ _ _) as [s'| |]; [eauto|contradiction|contradiction].
Qed.

(** ** C12 *)

(** A permutation of whole particles (tags included); the live ones come first, their cells in
    lexicographic order.  The number of cells must fit a signed 32-bit integer. *)
Theorem C12_sort_permutes_and_groups_by_cell : forall c ns order s, Permutation order (seq 0 (np s)) ->
  length ns = dim c -> 1 <= dim c <= 3 -> Forall (fun n => 0 < n)%Z ns -> (prodZ ns < 2 ^ 31 - 1)%Z ->
  (forall p, In p (live s) -> Forall2 (fun n i => 0 <= i < n)%Z ns (cell c s p)) ->
  exists s', sort_spatially c ns order s = Ok s' /\
  Permutation (map (tagged_view c s') (seq 0 (np s'))) (map (tagged_view c s) (seq 0 (np s))) /\
  np s' = np s /\ maxp s' = maxp s /\
  (forall p, np s <= p -> tagged_view c s' p = tagged_view c s p) /\
  (forall p q, p < q < np s' -> tg s' q = 1%Z -> tg s' p = 1%Z /\ lex_le (cell c s' p) (cell c s' q)).
Proof. exact sort_spatially_ok. Qed.
Print Assumptions C12_sort_permutes_and_groups_by_cell.

Example ex_cells_ok : forall p, In p (live ex_parts) -> Forall2 (fun n i => 0 <= i < n)%Z [4; 3]%Z (cell ex_cfg ex_parts p).
Proof. intros p Hp. cbn in Hp. destruct Hp as [<-|[<-|[<-|[]]]]; cbn; repeat constructor; lia. Qed.
Example ex_sorted : exists s', sort_spatially ex_cfg [4; 3]%Z (rev (seq 0 5)) ex_parts = Ok s' /\ np s' = 5 /\
  map (ar s' Weight) (seq 0 5) = [12; 14; 10; 13; 11]%Z /\ map (tg s') (seq 0 5) = [1; 1; 1; 0; 0]%Z /\
  map (cell ex_cfg s') (seq 0 3) = [[0; 1]; [3; 0]; [3; 2]]%Z.
Proof.
  assert (X : match sort_spatially ex_cfg [4; 3]%Z (rev (seq 0 5)) ex_parts with
    | Ok s' => np s' = 5 /\ map (ar s' Weight) (seq 0 5) = [12; 14; 10; 13; 11]%Z /\ map (tg s') (seq 0 5) = [1; 1; 1; 0; 0]%Z /\
               map (cell ex_cfg s') (seq 0 3) = [[0; 1]; [3; 0]; [3; 2]]%Z
    | _ => False end).
  { vm_compute. auto. }
  destruct (sort_spatially _ _ _ _) as [s'| |]; [eauto|contradiction|contradiction].
Qed.

(** The pass over all species made after every step, at any step number, for any clearing and
    sorting intervals, keeps the live particles of every species. *)
Theorem C12_pass_keeps_live_particles : forall ns step ord sp, (forall k j b n, Permutation (ord k j b n) (seq 0 n)) ->
  Forall (fun n => 0 < n)%Z ns -> (prodZ ns < 2 ^ 31 - 1)%Z -> Forall (usable ns) sp ->
  exists sp', sort_particles ns step ord sp = Ok sp' /\ Forall2 (kept ns) sp sp'.
Proof. exact sort_particles_ok. Qed.
Print Assumptions C12_pass_keeps_live_particles.

Example ex_species : list species :=
  [{| scfg := ex_cfg; clear_every := 0; sort_every := 2; sparts := ex_parts |};
   {| scfg := ex_cfg; clear_every := 3; sort_every := 0; sparts := ex_parts |}].
Example ex_species_usable : Forall (usable [4; 3]%Z) ex_species.
Proof.
  assert (W : well_kept [4; 3]%Z ex_cfg ex_parts) by (split; [cbn; lia|split; [exact ex_tags_ok|exact ex_cells_ok]]).
  unfold ex_species. repeat apply Forall_cons; try apply Forall_nil; (split; [reflexivity|split; [cbn; lia|exact W]]).
Qed.

(** A species sorted in a pass need not be ordered when the pass ends: a later species whose
    clearing is due compacts all species, in the order in which threads get their slots. *)
Theorem C12_sorted_after_pass_refuted : exists ns step ord sp sp' x, (forall k j b n, Permutation (ord k j b n) (seq 0 n)) /\
  Forall (usable ns) sp /\ sort_particles ns step ord sp = Ok sp' /\ nth_error sp' 0 = Some x /\
  (step mod sort_every x = 0)%Z /\ (0 < sort_every x)%Z /\
  ~ lex_le (cell (scfg x) (sparts x) 0) (cell (scfg x) (sparts x) 1).
Proof.
  assert (X : match sort_particles [4; 3]%Z 6%Z (fun _ _ _ n => rev (seq 0 n)) ex_species with
    | Ok (x :: _) => sort_every x = 2%Z /\ cell (scfg x) (sparts x) 0 = [3; 2]%Z /\ cell (scfg x) (sparts x) 1 = [3; 0]%Z
    | _ => False end).
  { vm_compute. auto. }
  exists [4; 3]%Z, 6%Z, (fun _ _ _ n => rev (seq 0 n)), ex_species.
  destruct (sort_particles _ _ _ _) as [[|x sp]| |]; try contradiction. destruct X as (X1 & X2 & X3).
  exists (x :: sp), x. split; [intros; apply Permutation_sym, Permutation_rev|]. split; [exact ex_species_usable|].
  split; [reflexivity|]. split; [reflexivity|]. rewrite X1, X2, X3. split; [reflexivity|]. split; [reflexivity|].
  cbn. lia.
Qed.
Print Assumptions C12_sorted_after_pass_refuted.
