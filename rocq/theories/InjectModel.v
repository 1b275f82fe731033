(** Creation of particles: src/kernels/injectors.hpp, src/archetypes/particle_injector.h,
    src/engines/srpic/particle_pusher.h:161-183 and src/archetypes/emission/.

    Conventions as in PrtlModel: array contents are bit patterns, parallel loops run in an
    arbitrary order.  Slot numbers are unbounded, the identifiers (payloads of type npart_t)
    are 32-bit. *)
From Coq Require Import Reals ZArith List Bool Arith.
From Verif Require Import Base PrtlModel CkptModel.
Import ListNotations.

(** What a thread hands to InjectParticle: cell, offset in the cell, velocity, weight, azimuth. *)
Record newp := { n_i : list Z; n_dx : list Z; n_u : list Z; n_w : Z; n_phi : Z }.

Definition set_at (p : nat) (v : Z) (a : attr) (s : parts) : parts :=
  with_ar s (upd_attr (ar s) a (upd (ar s a) p v)).

(** injectors.hpp:30-80, InjectParticle.  [mpi]: MPI_ENABLED, [track]: the template parameter T.
    Slots past the end of the arrays and missing payload columns are undefined.  The previous
    position is not written. *)
Definition inject_particle (c : cfg) (mpi track : bool) (dom id : Z) (x : newp) (p : nat) (s : parts) : res parts :=
  if Nat.leb (maxp s) p then UB
  else if track && Nat.ltb (npld_i c) (if mpi then 2 else 1) then UB
  else
  let s := if ge_dim c 1 then set_at p (nth 0 (n_dx x) 0%Z) (Dx 1) (set_at p (nth 0 (n_i x) 0%Z) (I 1) s) else s in
  let s := if ge_dim c 2 then set_at p (nth 1 (n_dx x) 0%Z) (Dx 2) (set_at p (nth 1 (n_i x) 0%Z) (I 2) s) else s in
  let s := if ge_dim c 3 then set_at p (nth 2 (n_dx x) 0%Z) (Dx 3) (set_at p (nth 2 (n_i x) 0%Z) (I 3) s) else s in
  let s := if has_phi c then set_at p (n_phi x) Phi s else s in
  let s := set_at p (nth 0 (n_u x) 0%Z) (Ux 1) s in
  let s := set_at p (nth 1 (n_u x) 0%Z) (Ux 2) s in
  let s := set_at p (nth 2 (n_u x) 0%Z) (Ux 3) s in
  let s := with_tg s (upd (tg s) p alive_tag) in
  let s := set_at p (n_w x) Weight s in
  if track then
    let s := set_at p id (PldI 0) s in
    Ok (if mpi then set_at p dom (PldI 1) s else s)
  else Ok s.

(** Number of the [j]-th particle created when the counter stands at [k] (npart_t). *)
Definition number (k : Z) (j : nat) : Z := w32 (k + Z.of_nat j).

(** particle_injector.h:257-261, 290-293, 382-385 and particle_pusher.h:176-180: set_npart, which
    rejects more than maxnpart particles, then set_counter. *)
Definition advance (n : nat) (s : pstate) : res pstate :=
  rbind (set_npart (cont s) (np (cont s) + n)) (fun q =>
  Ok {| cont := q; counter := w32 (counter s + Z.of_nat n) |}).

(** One species: a kernel creating the particles [acq], numbered in the order in which their
    threads obtained an index from the atomic counter (or by thread index); [order] is the
    order of the writes.  Offset and counter are those at launch.  Used by the emission kernels
    (compton.h:160-213, synchrotron.h:228-281 with particle_pusher.h:161-183). *)
Definition launch (c : cfg) (mpi track : bool) (dom : Z) (acq : list newp) (order : list nat) (s : pstate) : res parts :=
  fold_left (fun acc j => rbind acc (fun q =>
    match nth_error acq j with
    | None => UB
    | Some x => inject_particle c mpi track dom (number (counter s) j) x (np (cont s) + j) q
    end)) order (Ok (cont s)).
Definition inject_one (c : cfg) (mpi track : bool) (dom : Z) (acq : list newp) (order : list nat) (s : pstate) : res pstate :=
  rbind (launch c mpi track dom acq order s) (fun q =>
  advance (length acq) {| cont := q; counter := counter s |}).

(** ** Two species at once: InjectUniform (particle_injector.h:235-263 with injectors.hpp:82-292),
    InjectNonUniform (particle_injector.h:362-387 with injectors.hpp:522-860).  In the first the
    index is the thread number, in the second it comes from an atomic counter. *)
Section Pair.
  Variables (cf : nat -> cfg) (tr : nat -> bool) (mpi : bool) (dom : Z).
  (** The species of the subdomain, by index (from 0). *)
  Definition put_species (w : nat -> pstate) (k : nat) (q : parts) : nat -> pstate :=
    upd w k {| cont := q; counter := counter (w k) |}.
  Definition pair_write (w0 : nat -> pstate) (k j : nat) (x : newp) (w : nat -> pstate) : res (nat -> pstate) :=
    rbind (inject_particle (cf k) mpi (tr k) dom (number (counter (w0 k)) j) x (np (cont (w0 k)) + j) (cont (w k)))
      (fun q => Ok (put_species w k q)).
  Definition pair_thread (f s : nat) (acq : list (newp * newp)) (w0 : nat -> pstate)
      (acc : res (nat -> pstate)) (j : nat) : res (nat -> pstate) :=
    rbind acc (fun w =>
    match nth_error acq j with
    | None => UB
    | Some (x, y) => rbind (pair_write w0 f j x w) (pair_write w0 s j y)
    end).
  Definition pair_advance (n : nat) (acc : res (nat -> pstate)) (k : nat) : res (nat -> pstate) :=
    rbind acc (fun w => rbind (advance n (w k)) (fun s => Ok (upd w k s))).
  Definition inject_pair (f s : nat) (acq : list (newp * newp)) (order : list nat) (w : nat -> pstate)
    : res (nat -> pstate) :=
    fold_left (pair_advance (length acq)) [f; s]
      (fold_left (pair_thread f s acq w) order (Ok w)).
End Pair.

(** ** InjectGlobally (particle_injector.h:275-294 with injectors.hpp:294-520) *)

(** static_cast<int> of an unsigned 32-bit value. *)
Definition s32 (x : Z) : Z := if Z.ltb x (2 ^ 31) then x else (x - 2 ^ 32)%Z.

(** One entry of the lists given by the user: physical position, velocity, azimuth, weight. *)
Record listed := { l_x : list R; l_u : list R; l_phi : R; l_w : R }.

Section Global.
  (** [cd d]: the conversion of coordinate [d] from physical to code units by the metric of the
      whole grid, [rot]: its transformation of velocities (at a position and azimuth), [enc]: the bit pattern of a number. *)
  Variables (cd : nat -> R -> R) (rot : list R -> R -> list R -> list R) (enc : R -> Z).
  Variables (c : cfg) (mpi track use_weights : bool) (dom : Z).
  (** Extent of the subdomain, its offset in cells, the lists. *)
  Variables (ext : list (R * R)) (off : list Z) (data : list listed).

  Definition within (e : R * R) (x : R) : bool :=
    (if Rle_dec (fst e) x then true else false) && (if Rlt_dec x (snd e) then true else false).
  Fixpoint within_all (es : list (R * R)) (xs : list R) : bool :=
    match es, xs with
    | e :: es', x :: xs' => within e x && within_all es' xs'
    | _, _ => true
    end.

  (** static_cast<ncells_t> of a real: truncation; out of range is undefined. *)
  Definition to_cells (x : R) : res Z :=
    if Rle_dec 0 x then let k := Int_part x in if Z.ltb k (2 ^ 32) then Ok k else UB else UB.
  (** Cell and offset in the cell in one dimension. *)
  Definition locate (o : Z) (x_Cd : R) : res (Z * R) :=
    rbind (to_cells x_Cd) (fun k =>
    let xi := s32 (w32 (k - o)) in
    Ok (xi, (x_Cd - IZR (w32 (xi + o)))%R)).
  Fixpoint locate_all (d : nat) (os : list Z) (xs : list R) : res (list (Z * R)) :=
    match os, xs with
    | o :: os', x :: xs' => rbind (locate o (cd d x)) (fun a => rbind (locate_all (S d) os' xs') (fun l => Ok (a :: l)))
    | _, _ => Ok []
    end.

  (** Thread [p]: the current index and the arrays.  With weights the code reads entry [p] of the
      species' own weight array (lines 416, 451, 488). *)
  Definition global_thread (n0 : nat) (k0 : Z) (acc : res (nat * parts)) (p : nat) : res (nat * parts) :=
    rbind acc (fun '(k, q) =>
    match nth_error data p with
    | None => UB
    | Some e =>
        if within_all ext (l_x e) then
          rbind (locate_all 0 off (l_x e)) (fun loc =>
          rbind (if use_weights then (if Nat.leb (maxp q) p then UB else Ok (ar q Weight p)) else Ok (enc 1%R)) (fun w =>
          let x := {| n_i := map fst loc; n_dx := map (fun a => enc (snd a)) loc;
                      n_u := map enc (rot (l_x e) (l_phi e) (l_u e)); n_w := w; n_phi := enc (l_phi e) |} in
          rbind (inject_particle c mpi track dom (number k0 k) x (n0 + k) q) (fun q' => Ok (S k, q'))))
        else Ok (k, q)
    end).
  Definition inject_global (order : list nat) (s : pstate) : res pstate :=
    rbind (fold_left (global_thread (np (cont s)) (counter s)) order (Ok (0%nat, cont s))) (fun '(k, q) =>
    advance k {| cont := q; counter := counter s |}).
End Global.
