(** Output of particles: src/framework/containers/particles_io.cpp:33-353 (OutputDeclare,
    OutputWrite), src/kernels/prtls_to_phys.hpp and the launch in
    src/framework/domain/metadomain_io.cpp:783-797.  Contents of arrays are opaque as in PrtlModel;
    the conversions to physical units are arbitrary functions of what the kernel passes to them. *)
From Coq Require Import ZArith List Bool Arith.
From Verif Require Import Base PrtlModel.
Import ListNotations.

(** Variables of the file: pX.., pU.., pW, pPLDR.., pIDX, pRNK, pPLDI.. *)
Inductive column := PX (d : nat) | PU (d : nat) | PW | PPLDR (l : nat) | PIDX | PRNK | PPLDI (l : nat).
Definition column_eq_dec (a b : column) : {a = b} + {a <> b}.
Proof. decide equality; apply Nat.eq_dec. Defined.

(** The file: shape and contents of each variable ([None]: nothing written there). *)
Record ofile := { shape : column -> option nat; data : column -> nat -> option Z }.
Definition no_file : ofile := {| shape := fun _ => None; data := fun _ _ => None |}.
(** src/output/utils/writers.cpp:28-45 (and Write1DSubArray): the first [n] entries of [buf] at [first]. *)
Definition put (k : column) (n total first : nat) (buf : nat -> Z) (f : ofile) : ofile :=
  {| shape := fun k' => if column_eq_dec k' k then Some total else shape f k';
     data := fun k' q => if column_eq_dec k' k then
                           if Nat.leb first q && Nat.ltb q (first + n) then Some (buf (q - first)) else data f k' q
                         else data f k' q |}.

Fixpoint mapM {A B} (f : A -> res B) (l : list A) : res (list B) :=
  match l with
  | [] => Ok []
  | a :: l' => rbind (f a) (fun b => rbind (mapM f l') (fun bs => Ok (b :: bs)))
  end.

Section Output.
  (** [xph d i dx]: metric.convert<d, Cd, Ph>(i + dx); [uph d pos u]: component d of the transformed
      velocity; [gr]: the engine; [mpi]: compiled with MPI. *)
  Variables (c : cfg) (gr tracked mpi : bool) (xph : nat -> Z -> Z -> Z) (uph : nat -> list Z -> list Z -> Z).

  Definition num_track_plds : nat := if tracked then if mpi then 2 else 1 else 0.
  (** particles_io.cpp:33-86. *)
  Definition declared : list column :=
    map (fun d => PX (d + 1)) (seq 0 (dim c + if has_phi c then 1 else 0)) ++
    map (fun d => PU (d + 1)) (seq 0 3) ++ [PW] ++
    when (Nat.ltb 0 (npld_r c)) (map PPLDR (seq 0 (npld_r c))) ++
    when tracked (PIDX :: when mpi [PRNK]) ++
    when (Nat.ltb num_track_plds (npld_i c)) (map (fun pr => PPLDI (pr - num_track_plds)) (seq num_track_plds (npld_i c - num_track_plds))).
  (** particles_io.cpp:219-351, in order. *)
  Definition written : list column :=
    [PW; PU 1; PU 2; PU 3] ++ when (ge_dim c 1) [PX 1] ++ when (ge_dim c 2) [PX 2] ++
    when (Nat.eqb (dim c) 3 || has_phi c) [PX 3] ++
    when (Nat.ltb 0 (npld_r c)) (map PPLDR (seq 0 (npld_r c))) ++
    when tracked (PIDX :: when mpi [PRNK]) ++
    when (Nat.ltb num_track_plds (npld_i c)) (map (fun pr => PPLDI (pr - num_track_plds)) (seq num_track_plds (npld_i c - num_track_plds))).

  (** particles_io.cpp:109-116: alive and its counter a multiple of the stride. *)
  Definition chosen (stride : nat) (s : parts) (p : nat) : bool :=
    is_tag s alive_tag p && Z.eqb (ar s (PldI 0) p mod Z.of_nat stride) 0.
  (** particles_io.cpp:100-129: which slots go to the output; division by zero is undefined. *)
  Definition select (stride : nat) (order : list nat -> list nat) (s : parts) : res (list nat) :=
    if tracked then
      if Nat.eqb stride 0 then (if existsb (is_tag s alive_tag) (seq 0 (np s)) then UB else Ok [])
      else rbind (fill (fun p => if chosen stride s p then Some O else None) (fun _ => O)
                       (count (chosen stride s) (np s)) (order (seq 0 (np s)))) (fun '(_, idx) => Ok idx)
    else if Nat.eqb stride 0 then UB else Ok (map (fun p => p * stride) (seq 0 (np s / stride))).

  (** The position handed to the metric with the velocity: prtls_to_phys.hpp:153-199. *)
  Definition kernel_pos (s : parts) (p : nat) : list Z :=
    flat_map (fun d => [ar s (I d) p; ar s (Dx d) p]) (seq 1 (dim c)) ++ when (has_phi c && negb gr) [ar s Phi p].
  (** What thread [q] stores for the slot [p]: prtls_to_phys.hpp:120-212; the column of a payload is
      the one the host writes under that name. *)
  Definition kernel_value (s : parts) (p : nat) (k : column) : Z :=
    match k with
    | PX d => if has_phi c && Nat.eqb d 3 then ar s Phi p else xph d (ar s (I d) p) (ar s (Dx d) p)
    | PU d => uph d (kernel_pos s p) [ar s (Ux 1) p; ar s (Ux 2) p; ar s (Ux 3) p]
    | PW => ar s Weight p
    | PPLDR l => ar s (PldR l) p
    | PIDX => ar s (PldI 0) p
    | PRNK => ar s (PldI 1) p
    | PPLDI l => ar s (PldI (l + num_track_plds)) p
    end.
  Definition buffers (order : list nat -> list nat) (s : parts) (idx : list nat) : column -> nat -> Z :=
    fun k => fold_left (fun b q => upd b q (kernel_value s (nth q idx O) k)) (order (seq 0 (length idx))) (fun _ => 0%Z).

  (** One rank up to the gathering of the counts, particles_io.cpp:97-129: the flag is m_is_sorted. *)
  Definition prepare (stride : nat) (order : list nat -> list nat) (rank : bool * parts) : res (parts * list nat) :=
    let '(sorted, s) := rank in
    rbind (if sorted then Ok s else remove_dead c (order (seq 0 (np s))) s) (fun s1 =>
    rbind (select stride order s1) (fun idx => Ok (s1, idx))).
  (** particles_io.cpp:131-158: offsets and total over all ranks (64-bit sums). *)
  Definition offset_of (nouts : list nat) (r : nat) : nat := list_sum (firstn r nouts).
  (** All ranks; [order r]: schedule of rank r's threads; [turns]: the order in which ranks write. *)
  Definition output (stride : nat) (order : nat -> list nat -> list nat) (turns : list nat -> list nat) (ranks : list (bool * parts)) : res ofile :=
    rbind (mapM (fun '(r, rank) => prepare stride (order r) rank) (combine (seq 0 (length ranks)) ranks)) (fun prep =>
    let nouts := map (fun x => length (snd x)) prep in
    Ok (fold_left (fun f r =>
          match nth_error prep r with
          | Some (s, idx) =>
              let b := buffers (order r) s idx in
              fold_left (fun f k => put k (length idx) (list_sum nouts) (offset_of nouts r) (b k) f) written f
          | None => f
          end) (turns (seq 0 (length ranks))) no_file)).
End Output.

(** The flag m_is_sorted and the tags over the life of a species: the pushers clear the flag
    (srpic/particle_pusher.h:85, grpic/particle_pusher.h:32) and may mark particles dead; RemoveDead
    sets it (particles_sort.cpp:193); user code called after the step may mark particles dead and has
    no obligation to touch the flag (engine.hpp:270-277, for instance pgens/shock/pgen.hpp:291). *)
Inductive life := Pushed (killed : nat -> bool) | Cleared (order : list nat) | UserKills (killed : nat -> bool).
Definition kill (killed : nat -> bool) (s : parts) : parts := with_tg s (fun p => if killed p then dead_tag else tg s p).
Definition live_step (c : cfg) (r : bool * parts) (e : life) : res (bool * parts) :=
  let '(sorted, s) := r in
  match e with
  | Pushed k => if Nat.eqb (np s) 0 then Ok (sorted, s) else Ok (false, kill k s)
  | Cleared o => rbind (remove_dead c o s) (fun s' => Ok (true, s'))
  | UserKills k => Ok (sorted, kill k s)
  end.
Fixpoint lives (c : cfg) (r : bool * parts) (l : list life) : res (bool * parts) :=
  match l with [] => Ok r | e :: l' => rbind (live_step c r e) (fun r' => lives c r' l') end.
