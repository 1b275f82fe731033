(** Vocabulary for the creation of particles. *)
From Coq Require Import Reals ZArith List Bool Arith Permutation.
From Verif Require Import Base DecompModel DecompSpec DirsSpec TopoModel HaloModel HaloSpec PrtlModel PrtlSpec PrtlCommModel PrtlCommSpec
  CkptModel CkptSpec InjectModel.
Import ListNotations.
Open Scope nat_scope.

(** Slot [p] of [s] holds the particle [x]; species with tracking also store the number [id]
    and, with MPI, the subdomain [dom] it was created in. *)
Definition contains (c : cfg) (mpi track : bool) (dom id : Z) (x : newp) (s : parts) (p : nat) : Prop :=
  tg s p = 1%Z /\
  (forall d, 1 <= d <= dim c -> ar s (I d) p = nth (d - 1) (n_i x) 0%Z /\ ar s (Dx d) p = nth (d - 1) (n_dx x) 0%Z) /\
  (forall d, 1 <= d <= 3 -> ar s (Ux d) p = nth (d - 1) (n_u x) 0%Z) /\
  ar s Weight p = n_w x /\
  (dim c = 2 -> cart c = false -> ar s Phi p = n_phi x) /\
  (track = true -> ar s (PldI 0) p = id) /\
  (track = true -> mpi = true -> ar s (PldI 1) p = dom).
(** The same contents of slot [p] in every array. *)
Definition same_slot (s s' : parts) (p : nat) : Prop := tg s p = tg s' p /\ forall a, ar s a p = ar s' a p.

(** Payload columns required for tracking. *)
Definition trackable (c : cfg) (mpi track : bool) : Prop :=
  dim c <= 3 /\ (track = true -> 1 <= npld_i c /\ (mpi = true -> 2 <= npld_i c)).

(** [s'] is [s] with the particles [xs] in the next free slots, once each and in this order,
    numbered on from the counter, and nothing else changed. *)
Definition appended (c : cfg) (mpi track : bool) (dom : Z) (xs : list newp) (s s' : pstate) : Prop :=
  np (cont s') = np (cont s) + length xs /\ maxp (cont s') = maxp (cont s) /\
  counter s' = ((counter s + Z.of_nat (length xs)) mod 2 ^ 32)%Z /\
  (forall j x, nth_error xs j = Some x ->
     contains c mpi track dom ((counter s + Z.of_nat j) mod 2 ^ 32)%Z x (cont s') (np (cont s) + j)) /\
  (forall p, p < np (cont s) \/ np (cont s) + length xs <= p -> same_slot (cont s') (cont s) p).

(** ** Identifiers over a whole history *)

(** The identifier of a particle: subdomain and number. *)
Definition ident (s : parts) (p : nat) : Z * Z := (ar s (PldI 1) p, ar s (PldI 0) p).

(** One species on all subdomains, by position; [set_rank]: another content of one of them. *)
Definition world := list Z -> pstate.
Definition set_rank (w w' : world) (o : list Z) (s : pstate) : Prop :=
  w' o = s /\ forall b, b <> o -> w' b = w b.
Definition conts (w : world) : list Z -> parts := fun o => cont (w o).

(** What can happen to the species, with the identifiers given out.
    - particles are created on subdomain number [d] (by any of the injectors or by emission);
    - dead particles are removed on a subdomain; its particles are sorted;
    - particles move: those alive change in any array but their identifiers and may die or be
      tagged for another subdomain;
    - particles are exchanged between the subdomains;
    - the run stops and all subdomains are read back from the files just written. *)
Inductive step (ls : list (list Z)) (gbc : list (flds_bc * flds_bc)) (c : cfg) : world -> list (Z * Z) -> world -> Prop :=
| st_create : forall w w' d D acq order s',
    nth_error (domains ls) d = Some D -> Permutation order (seq 0 (length acq)) ->
    let o := sub_offset_ndomains D in
    inject_one c true true (Z.of_nat d) acq order (w o) = Ok s' -> set_rank w w' o s' ->
    step ls gbc c w (map (ident (cont s')) (seq (np (cont (w o))) (length acq))) w'
| st_remove : forall w w' o order q, Permutation order (seq 0 (np (cont (w o)))) ->
    remove_dead c order (cont (w o)) = Ok q -> set_rank w w' o {| cont := q; counter := counter (w o) |} ->
    step ls gbc c w [] w'
| st_sort : forall w w' o ns order q, Permutation order (seq 0 (np (cont (w o)))) ->
    length ns = dim c -> Forall (fun n => 0 < n)%Z ns -> (prodZ ns < 2 ^ 31 - 1)%Z ->
    (forall p, In p (live (cont (w o))) -> Forall2 (fun n i => 0 <= i < n)%Z ns (cell c (cont (w o)) p)) ->
    sort_spatially c ns order (cont (w o)) = Ok q -> set_rank w w' o {| cont := q; counter := counter (w o) |} ->
    step ls gbc c w [] w'
| st_push : forall w w' o q, np q = np (cont (w o)) -> maxp q = maxp (cont (w o)) ->
    (forall p, p < np q -> tg (cont (w o)) p <> 1%Z -> same_slot q (cont (w o)) p) ->
    (forall p, p < np q -> tg (cont (w o)) p = 1%Z -> ident q p = ident (cont (w o)) p) ->
    set_rank w w' o {| cont := q; counter := counter (w o) |} ->
    step ls gbc c w [] w'
| st_exchange : forall w w' sc,
    (forall o n, Permutation (o_prep sc o n) (seq 0 n)) ->
    (forall o dir n, Permutation (o_pop sc o dir n) (seq 0 n)) ->
    (forall o n, Permutation (o_ext sc o n) (seq 0 n)) ->
    (forall o, in_box o (counts ls) -> ready ls gbc o (conts w o)) ->
    (forall b, in_box b (counts ls) -> np (conts w b) + length (incoming ls gbc c (conts w) b) < maxp (conts w b)) ->
    (forall b, in_box b (counts ls) -> comm_particles ls gbc c sc (conts w) b = Ok (conts w' b)) ->
    (forall b, counter (w' b) = counter (w b)) ->
    step ls gbc c w [] w'
| st_restart : forall w w' by_rows order f0 f s0,
    let N := length (domains ls) in
    let rank r := nth r (ranks ls) [] in
    Permutation order (seq 0 N) ->
    write_ranks c by_rows (map (fun r => Z.of_nat (np (cont (w (rank r))))) (seq 0 N)) (fun r => w (rank r)) order f0 = Ok f ->
    (forall r, r < N -> np (cont (s0 r)) = 0 /\ np (cont (w (rank r))) <= maxp (cont (s0 r)) /\
       read_species c by_rows N r f (s0 r) = Ok (w' (rank r))) ->
    step ls gbc c w [] w'.

(** Any number of steps, with all identifiers given out. *)
Inductive history (ls : list (list Z)) (gbc : list (flds_bc * flds_bc)) (c : cfg) : world -> list (Z * Z) -> world -> Prop :=
| hi_none : forall w, history ls gbc c w [] w
| hi_step : forall w ids w' ids' w'', history ls gbc c w ids w' -> step ls gbc c w' ids' w'' ->
    history ls gbc c w (ids ++ ids') w''.

(** No particles yet. *)
Definition empty_world (w : world) : Prop := forall o, np (cont (w o)) = 0 /\ counter (w o) = 0%Z.
(** Identifiers of all particles that are not dead, on all subdomains. *)
Definition all_idents (ls : list (list Z)) (w : world) : list (Z * Z) :=
  flat_map (fun o => map (ident (cont (w o))) (not_dead (cont (w o)))) (ranks ls).

(** ** Global injection *)

(** Position in the grid, in cells and as bit patterns, velocity and azimuth of the particle in a
    slot of the subdomain with offset [off]. *)
Definition placed (c : cfg) (off : list Z) (s : parts) (p : nat) : list Z * list Z * list Z * Z :=
  (map2 Z.add off (map (fun d => ar s (I d) p) (seq 1 (dim c))), map (fun d => ar s (Dx d) p) (seq 1 (dim c)),
   map (fun d => ar s (Ux d) p) (seq 1 3), if Nat.eqb (dim c) 2 && negb (cart c) then ar s Phi p else 0%Z).
(** The same asked for by the user; [cd d] converts coordinate [d] to cells. *)
Definition asked (c : cfg) (cd : nat -> R -> R) (rot : list R -> R -> list R -> list R) (enc : R -> Z) (e : listed)
  : list Z * list Z * list Z * Z :=
  let xs := map2 cd (seq 0 (dim c)) (l_x e) in
  (map Int_part xs, map (fun x => enc (frac_part x)) xs, map enc (rot (l_x e) (l_phi e) (l_u e)),
   if Nat.eqb (dim c) 2 && negb (cart c) then enc (l_phi e) else 0%Z).
(** Physical extent of a subdomain; [ph d] converts coordinate [d] from cells. *)
Definition phys_extent (ph : nat -> R -> R) (off n : list Z) : list (R * R) :=
  map2 (fun d '(o, k) => (ph d (IZR o), ph d (IZR (o + k)))) (seq 0 (length off)) (combine off n).

(** [cd] and [ph] convert between physical coordinates and cells of a grid with [N] cells. *)
Definition converts (cd ph : R -> R) (N : Z) : Prop :=
  (forall x y, ph 0 <= x -> x < y -> y <= ph (IZR N) -> cd x < cd y)%R /\
  (forall k, (0 <= k <= N)%Z -> (ph 0 <= ph (IZR k) <= ph (IZR N))%R /\ cd (ph (IZR k)) = IZR k).
(** The entry has as many coordinates as there are dimensions and lies inside the grid. *)
Definition inside_grid (ph : nat -> R -> R) (Ns : list Z) (e : listed) : Prop :=
  length (l_x e) = length Ns /\ length (l_u e) = 3 /\
  forall d, d < length Ns -> (ph d 0 <= nth d (l_x e) 0 < ph d (IZR (nth d Ns 0%Z)))%R.
(** The entry belongs to the subdomain [D]: its coordinates lie between those of the edges. *)
Definition inside_domain (ph : nat -> R -> R) (D : subdomain) (e : listed) : Prop :=
  forall d, d < length (l_x e) ->
    (ph d (IZR (nth d (sub_offset_ncells D) 0%Z)) <= nth d (l_x e) 0 <
     ph d (IZR (nth d (sub_offset_ncells D) 0 + nth d (sub_ncells D) 0)%Z))%R.
(** [sel] are the members of [data] with the property [P]. *)
Definition share {A} (P : A -> Prop) (data sel : list A) : Prop :=
  exists rest, Permutation (sel ++ rest) data /\ Forall P sel /\ Forall (fun a => ~ P a) rest.
(** The particles created on subdomain [D]. *)
Definition created (c : cfg) (D : subdomain) (s s' : pstate) : list (list Z * list Z * list Z * Z) :=
  map (placed c (sub_offset_ncells D) (cont s')) (seq (np (cont s)) (np (cont s') - np (cont s))).
