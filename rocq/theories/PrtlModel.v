(** Particle arrays of one species and their local reorderings:
    src/framework/containers/particles.cpp, particles_sort.cpp, src/global/utils/sorting.h,
    src/framework/domain/metadomain_sort.cpp.

    All arrays hold integers; floating point contents are opaque bit patterns, which these
    functions only copy.  Parallel loops are sequences of loop bodies in an arbitrary order
    [order] (a permutation of the range), atomics are ordinary updates. *)
From Coq Require Import ZArith List Bool Arith.
From Verif Require Import Base.
Import ListNotations.

(** Dimension, Cartesian coordinates or not, numbers of real and integer payloads. *)
Record cfg := { dim : nat; cart : bool; npld_r : nat; npld_i : nat }.

(** The arrays, by name: i1.., i1_prev.., dx1.., dx1_prev.., ux1.., weight, phi, payloads. *)
Inductive attr :=
| I (d : nat) | Iprev (d : nat) | Dx (d : nat) | Dxprev (d : nat)
| Ux (d : nat) | Weight | Phi | PldR (l : nat) | PldI (l : nat).
Definition attr_eq_dec (a b : attr) : {a = b} + {a <> b}.
Proof. decide equality; apply Nat.eq_dec. Defined.

(** Particles<D, C>: npart, maxnpart, tag array and the other arrays. *)
Record parts := { np : nat; maxp : nat; tg : nat -> Z; ar : attr -> nat -> Z }.

(** src/global/enums.h, ParticleTag. *)
Definition dead_tag : Z := 0.
Definition alive_tag : Z := 1.

Definition when {A} (b : bool) (l : list A) : list A := if b then l else [].
Definition ge_dim (c : cfg) (d : nat) : bool := Nat.leb d (dim c).
Definition has_phi (c : cfg) : bool := Nat.eqb (dim c) 2 && negb (cart c).

(** particles.cpp:47-85, arrays that exist. *)
Definition attrs (c : cfg) : list attr :=
  when (ge_dim c 1) [I 1; Dx 1; Iprev 1; Dxprev 1] ++
  when (ge_dim c 2) [I 2; Dx 2; Iprev 2; Dxprev 2] ++
  when (ge_dim c 3) [I 3; Dx 3; Iprev 3; Dxprev 3] ++
  [Ux 1; Ux 2; Ux 3; Weight] ++
  map PldR (seq 0 (npld_r c)) ++ map PldI (seq 0 (npld_i c)) ++
  when (has_phi c) [Phi].

Definition upd {V} (f : nat -> V) (i : nat) (v : V) : nat -> V := fun j => if Nat.eqb j i then v else f j.
Definition upd_attr (f : attr -> nat -> Z) (a : attr) (g : nat -> Z) : attr -> nat -> Z :=
  fun b => if attr_eq_dec b a then g else f b.
Definition with_ar (s : parts) (f : attr -> nat -> Z) : parts := {| np := np s; maxp := maxp s; tg := tg s; ar := f |}.
Definition with_tg (s : parts) (f : nat -> Z) : parts := {| np := np s; maxp := maxp s; tg := f; ar := ar s |}.

(** particles.h:248-257. *)
Definition set_npart (s : parts) (n : nat) : res parts :=
  if Nat.ltb (maxp s) n then Err else Ok {| np := n; maxp := maxp s; tg := tg s; ar := ar s |}.

Fixpoint set_nth {A} (l : list A) (i : nat) (v : A) : list A :=
  match l, i with
  | [], _ => []
  | _ :: l', O => v :: l'
  | a :: l', S i' => a :: set_nth l' i' v
  end.

(** A loop in which thread [p], if [bin p = Some b], takes the next free slot of bin [b]
    with an atomic counter and stores [p] at [off b] plus that slot in an array of [size]
    elements.  Writing past the end is undefined. *)
Definition fill_step (bin : nat -> option nat) (off : nat -> nat) (size : nat)
    (acc : res ((nat -> nat) * list nat)) (p : nat) : res ((nat -> nat) * list nat) :=
  rbind acc (fun '(cur, arr) =>
    match bin p with
    | None => Ok (cur, arr)
    | Some b =>
        let idx := (off b + cur b)%nat in
        if Nat.ltb idx size then Ok (upd cur b (S (cur b)), set_nth arr idx p) else UB
    end).
Definition fill (bin : nat -> option nat) (off : nat -> nat) (size : nat) (order : list nat)
  : res ((nat -> nat) * list nat) :=
  fold_left (fill_step bin off size) order (Ok (fun _ => O, repeat O size)).

Definition is_tag (s : parts) (t : Z) (p : nat) : bool := Z.eqb (tg s p) t.
Definition count (f : nat -> bool) (n : nat) : nat := length (filter f (seq 0 n)).

(** ** RemoveDead *)

(** particles_sort.cpp:68-99: [buffer(p) = arr(indices(p))], then copied back. *)
Definition gather (idx : list nat) (s : parts) (a : attr) : parts :=
  let buffer := map (ar s a) idx in
  with_ar s (upd_attr (ar s) a
    (fun q => match nth_error buffer q with Some v => v | None => ar s a q end)).

(** particles_sort.cpp:147-182, the arrays that are compacted, in order. *)
Definition compacted (c : cfg) : list attr :=
  when (ge_dim c 1) [I 1; Iprev 1; Dx 1; Dxprev 1] ++
  when (ge_dim c 2) [I 2; Iprev 2; Dx 2; Dxprev 2] ++
  when (ge_dim c 3) [I 3; Iprev 3; Dx 3; Dxprev 3] ++
  [Ux 1; Ux 2; Ux 3; Weight] ++
  when (has_phi c) [Phi] ++
  when (Nat.ltb 0 (npld_r c)) (map PldR (seq 0 (npld_r c))) ++
  when (Nat.ltb 0 (npld_i c)) (map PldI (seq 0 (npld_i c))).

(** particles_sort.cpp:102-198.  [order]: order of the threads of "AliveIndices".  A tag other
    than dead or alive is a kernel error (line 113). *)
Definition remove_dead (c : cfg) (order : list nat) (s : parts) : res parts :=
  let n_alive := count (is_tag s alive_tag) (np s) in
  let n_dead := count (is_tag s dead_tag) (np s) in
  if negb (forallb (fun p => is_tag s alive_tag p || is_tag s dead_tag p) (seq 0 (np s))) then Err
  else
  rbind (fill (fun p => if is_tag s alive_tag p then Some O else None) (fun _ => O) n_alive order)
    (fun '(counter, indices_alive) =>
  if negb (Nat.eqb (counter O) n_alive) then Err
  else
  let s1 := fold_left (gather indices_alive) (compacted c) s in
  let s2 := with_tg s1 (fun q => if Nat.ltb q n_alive then alive_tag
                                 else if Nat.ltb q (n_alive + n_dead) then dead_tag else tg s1 q) in
  set_npart s2 n_alive).

(** ** SortSpatially *)

(** sorting.h:85-131 with [tile_size = 1]: row-major number of the cell of particle [p], in
    unsigned 32-bit arithmetic; particles that are not alive come after all cells. *)
Open Scope Z_scope.
Definition total_tiles (ncells : list Z) : Z := fold_left (fun a n => w32 (a * n)) ncells 1.
Definition tile_index (ncells : list Z) (s : parts) (p : nat) : Z :=
  if negb (is_tag s alive_tag p) then w32 (total_tiles ncells + 1)
  else match ncells with
  | [_] => w32 (ar s (I 1) p)
  | [_; n2] => w32 (w32 (ar s (I 1) p) * n2 + w32 (ar s (I 2) p))
  | [_; n2; n3] => w32 (w32 (w32 (ar s (I 1) p) * n2 + w32 (ar s (I 2) p)) * n3 + w32 (ar s (I 3) p))
  | _ => 0
  end.
Open Scope nat_scope.

(** Kokkos::BinSort with BinOp1D over [0, total + 1] in total + 1 steps (particles_sort.cpp:220-226):
    key [k] belongs to bin [k] of total + 2 bins.  Keys outside are undefined.  Offsets are the
    prefix sums of the bin counts; the permute vector is filled as in [fill]. *)
Definition bin_offset (bin : nat -> nat) (n b : nat) : nat := count (fun p => Nat.ltb (bin p) b) n.
Definition permute_vector (total : Z) (key : nat -> Z) (n : nat) (order : list nat) : res (list nat) :=
  if forallb (fun p => Z.leb 0 (key p) && Z.ltb (key p) (total + 2)) (seq 0 n) then
    let bin p := Z.to_nat (key p) in
    rbind (fill (fun p => Some (bin p)) (bin_offset bin n) n order) (fun '(_, v) => Ok v)
  else UB.

(** particles_sort.cpp:227-257, the arrays that are sorted. *)
Definition sorted_arrays (c : cfg) : list attr :=
  when (ge_dim c 1) [I 1; Iprev 1; Dx 1; Dxprev 1] ++
  when (ge_dim c 2) [I 2; Iprev 2; Dx 2; Dxprev 2] ++
  when (ge_dim c 3) [I 3; Iprev 3; Dx 3; Dxprev 3] ++
  [Ux 1; Ux 2; Ux 3; Weight] ++
  when (has_phi c) [Phi] ++
  map PldR (seq 0 (npld_r c)) ++
  map PldI (seq 0 (npld_i c)).

(** particles_sort.cpp:201-257. *)
Definition sort_spatially (c : cfg) (ncells : list Z) (order : list nat) (s : parts) : res parts :=
  rbind (permute_vector (total_tiles ncells) (tile_index ncells s) (np s) order) (fun perm =>
  let s1 := fold_left (gather perm) (sorted_arrays c) s in
  let buffer := map (tg s1) perm in
  Ok (with_tg s1 (fun q => match nth_error buffer q with Some v => v | None => tg s1 q end))).

(** ** SortParticles *)

(** src/framework/domain/metadomain_sort.cpp:16-36.  A species is its configuration, its two
    intervals and its arrays; [ord k j b n] is the order of the [n] threads
    of the launch for species [j] in iteration [k] of the loop, [b]: sorting or removal. *)
Record species := { scfg : cfg; clear_every : Z; sort_every : Z; sparts : parts }.
Definition with_parts (x : species) (s : parts) : species :=
  {| scfg := scfg x; clear_every := clear_every x; sort_every := sort_every x; sparts := s |}.

Fixpoint res_mapi {A B} (f : nat -> A -> res B) (i : nat) (l : list A) : res (list B) :=
  match l with
  | [] => Ok []
  | a :: l' => rbind (f i a) (fun b => rbind (res_mapi f (S i) l') (fun bs => Ok (b :: bs)))
  end.

Definition sort_one (ncells : list Z) (step : Z) (ord : nat -> nat -> bool -> nat -> list nat) (k : nat) (sp : list species)
  : res (list species) :=
  match nth_error sp k with
  | None => Ok sp
  | Some x =>
      rbind
        (if (Z.ltb 0 (clear_every x) && Z.eqb (step mod clear_every x) 0 && Z.ltb 0 step)%Z
         then res_mapi (fun j y => rbind (remove_dead (scfg y) (ord k j false (np (sparts y))) (sparts y))
                                      (fun s => Ok (with_parts y s))) 0 sp
         else Ok sp)
        (fun sp1 =>
      if (Z.ltb 0 (sort_every x) && Z.eqb (step mod sort_every x) 0)%Z
      then match nth_error sp1 k with
           | None => Ok sp1
           | Some y => rbind (sort_spatially (scfg y) ncells (ord k k true (np (sparts y))) (sparts y))
                             (fun s => Ok (set_nth sp1 k (with_parts y s)))
           end
      else Ok sp1)
  end.
Definition sort_particles (ncells : list Z) (step : Z) (ord : nat -> nat -> bool -> nat -> list nat) (sp : list species)
  : res (list species) :=
  fold_left (fun acc k => rbind acc (sort_one ncells step ord k)) (seq 0 (length sp)) (Ok sp).
