(** Contents of a checkpoint: src/framework/domain/metadomain_chckpt.cpp,
    src/framework/containers/fields_io.cpp, particles_io.cpp,
    src/output/utils/writers.cpp and readers.cpp.

    A variable of the file is an array of optional values ([None]: never written).  The ranks
    write in an arbitrary order.  Values are opaque; they are only copied.  The arrays of a
    rank are given in memory order, so nothing depends on the memory layout of the fields. *)
From Coq Require Import ZArith List Bool Arith.
From Verif Require Import Base DecompModel PrtlModel.
Import ListNotations.
Open Scope Z_scope.

(** ** Fields *)

(** Elements of an ADIOS selection with corner [first] and [count] elements per dimension, in
    the (row-major) order in which ADIOS associates them with the user's memory. *)
Fixpoint selection (first count : list Z) : list (list Z) :=
  match first, count with
  | a :: first', n :: count' =>
      flat_map (fun i => map (cons (a + Z.of_nat i)) (selection first' count')) (seq 0 (Z.to_nat n))
  | _, _ => [[]]
  end.

(** The selection lies inside the declared shape; ADIOS rejects it otherwise. *)
Fixpoint fits (shape first count : list Z) : bool :=
  match shape, first, count with
  | [], [], [] => true
  | s :: shape', a :: first', n :: count' => (0 <=? a) && (a + n <=? s) && fits shape' first' count'
  | _, _, _ => false
  end.

Section Arrays.
  Variable V : Type.
  Definition variable := list Z -> option V.

  Definition store (v : variable) (x : list Z) (a : V) : variable :=
    fun y => if list_eqb y x then Some a else v y.

  (** writers.cpp:78-86 with the declaration fields_io.cpp:19-44: the memory of the array goes,
      element by element, to the declared selection. *)
  Definition put (shape first count : list Z) (mem : list V) (v : variable) : res variable :=
    if fits shape first count
    then Ok (fold_left (fun v p => store v (fst p) (snd p)) (combine (selection first count) mem) v)
    else Err.

  (** readers.cpp:88-104. *)
  Definition get (shape first count : list Z) (v : variable) : res (list (option V)) :=
    if fits shape first count then Ok (map v (selection first count)) else Err.

  Variable G : Z.  (* N_GHOSTS *)

  (** metadomain_chckpt.cpp:44-48 and 327-331: first element of a subdomain, 32-bit. *)
  Definition first_with_ghosts (d : subdomain) : list Z :=
    map2 (fun c n => w32 (c + 2 * G * n)) (sub_offset_ncells d) (sub_offset_ndomains d).
  (** metadomain_chckpt.cpp:49-50, with [resolution] and [ndomains] per dimension. *)
  Definition shape_with_ghosts (resolution ndomains : list Z) : list Z :=
    map2 (fun r n => w32 (r + 2 * G * n)) resolution ndomains.
  (** grid.h:165-173, [n_all]. *)
  Definition n_all (d : subdomain) : list Z := map (fun n => n + 2 * G) (sub_ncells d).

  (** Fields::CheckpointDeclare and CheckpointWrite for one variable with [nc] components
      (fields_io.cpp:26-42,66-73): the component is the last dimension. *)
  Definition write_field (resolution ndomains : list Z) (nc : Z) (d : subdomain) (mem : list V)
    : variable -> res variable :=
    put (shape_with_ghosts resolution ndomains ++ [nc]) (first_with_ghosts d ++ [0]) (n_all d ++ [nc]) mem.

  (** Fields::CheckpointRead for one variable (fields_io.cpp:46-63). *)
  Definition read_field (resolution ndomains : list Z) (nc : Z) (d : subdomain) (v : variable)
    : res (list (option V)) :=
    get (shape_with_ghosts resolution ndomains ++ [nc]) (first_with_ghosts d ++ [0]) (n_all d ++ [nc]) v.

  (** All ranks of [order] write their memory. *)
  Fixpoint write_fields (resolution ndomains : list Z) (nc : Z) (mem : subdomain -> list V)
      (order : list subdomain) (v : variable) : res variable :=
    match order with
    | [] => Ok v
    | d :: order' =>
        rbind (write_field resolution ndomains nc d (mem d) v)
          (write_fields resolution ndomains nc mem order')
    end.
End Arrays.
Arguments put {V}. Arguments get {V}. Arguments store {V}.
Arguments write_field {V}. Arguments read_field {V}. Arguments write_fields {V}.

(** fields_io.cpp:66-73 and 53-62: the arrays written and read back; GRPIC or not. *)
Inductive farray := Em | Em0 | Cur.
Definition fields_written (gr : bool) : list (farray * Z) := (Em, 6) :: (if gr then [(Em0, 6); (Cur, 3)] else []).
Definition fields_read (gr : bool) : list (farray * Z) := (Em, 6) :: (if gr then [(Em0, 6); (Cur, 3)] else []).

Definition farray_eqb (a b : farray) : bool :=
  match a, b with Em, Em | Em0, Em0 | Cur, Cur => true | _, _ => false end.
Definition listed (a : farray) (l : list (farray * Z)) : option Z :=
  option_map snd (find (fun p => farray_eqb a (fst p)) l).

(** Fields::CheckpointWrite on all ranks of [order]; [mem a d] is the memory of array [a] of
    subdomain [d]. *)
Definition checkpoint_fields {V} (G : Z) (gr : bool) (resolution ndomains : list Z)
    (mem : farray -> subdomain -> list V) (order : list subdomain) (f : farray -> variable V)
  : farray -> res (variable V) :=
  fun a => match listed a (fields_written gr) with
           | Some nc => write_fields G resolution ndomains nc (mem a) order (f a)
           | None => Ok (f a)
           end.

(** Fields::CheckpointRead on subdomain [d]; arrays that are not read keep their content. *)
Definition restore_fields {V} (G : Z) (gr : bool) (resolution ndomains : list Z) (d : subdomain)
    (f : farray -> variable V) (old : farray -> list (option V)) : farray -> res (list (option V)) :=
  fun a => match listed a (fields_read gr) with
           | Some nc => read_field G resolution ndomains nc d (f a)
           | None => Ok (old a)
           end.

(** ** Layout of the subdomains on resuming *)

(** metadomain_chckpt.cpp:180-183: sizes by position in the grid of subdomains. *)
Definition ncells_at_pos (count : Z) (d : nat) (positions saved : list (list Z)) : list Z :=
  fold_left (fun acc p => set_nth acc (Z.to_nat (nth d (fst p) 0)) (nth d (snd p) 0))
    (combine positions saved) (repeat 0 (Z.to_nat count)).

(** metadomain_chckpt.cpp:169-250, [redecomposeFromCheckpoint]: [ndomains] and [resolution] per
    dimension, [positions] of the subdomains and the [saved] sizes. *)
Definition redecompose (resolution ndomains : list Z) (positions saved : list (list Z)) : res (list subdomain) :=
  let sizes := map (fun d => ncells_at_pos (nth d ndomains 0) d positions saved) (seq 0 (length ndomains)) in
  if negb (list_eqb (map (fun l => w32 (sumZ l)) sizes) resolution) then Err
  else Ok (map2 (fun o n =>
         {| sub_offset_ndomains := o;
            sub_offset_ncells := map2 (fun l a => nth (Z.to_nat a) (running 0 l) 0) sizes o;
            sub_ncells := n |}) positions saved).

(** metadomain_chckpt.cpp:306-324: the layout is rebuilt if any size differs. *)
Definition resume_layout (resolution ndomains : list Z) (current : list subdomain) (saved : list (list Z))
  : res (list subdomain) :=
  if forallb (fun p => list_eqb (sub_ncells (fst p)) (snd p)) (combine current saved)
  then Ok current
  else redecompose resolution ndomains (map sub_offset_ndomains current) saved.

(** ** Particles of one species *)

(** Variables of the file: npart, counter, tag, one-dimensional arrays, payload arrays. *)
Inductive pvar := Vnpart | Vcounter | Vtag | Varr (a : attr) | VpldR | VpldI.
Definition pvar_eq_dec (a b : pvar) : {a = b} + {a <> b}.
Proof. decide equality. apply attr_eq_dec. Defined.

Definition pfile := pvar -> Z -> option Z.

(** writers.cpp:15-76: [vals] go to the elements from [first] on, in a variable of [size]
    elements. *)
Definition pput (name : pvar) (size first : Z) (vals : list Z) (f : pfile) : res pfile :=
  if (0 <=? first) && (first + Z.of_nat (length vals) <=? size)
  then Ok (fun v i => if pvar_eq_dec v name
                      then if (first <=? i) && (i <? first + Z.of_nat (length vals))
                           then nth_error vals (Z.to_nat (i - first)) else f v i
                      else f v i)
  else Err.

(** readers.cpp:17-86: elements that were never written are an error here. *)
Fixpoint all_some {A} (l : list (option A)) : res (list A) :=
  match l with
  | [] => Ok []
  | Some a :: l' => rbind (all_some l') (fun r => Ok (a :: r))
  | None :: _ => Err
  end.
Definition pget (name : pvar) (first : Z) (count : nat) (f : pfile) : res (list Z) :=
  all_some (map (fun k => f name (first + Z.of_nat k)) (seq 0 count)).

(** Order of the elements of an [n] x [w] payload array in the buffer handed to ADIOS
    (writers.cpp:61-75, readers.cpp:69-82): row by row, or column by column if the array is
    stored by columns, with or without the copy to a contiguous buffer. *)
Definition raw (by_rows : bool) (n w : nat) (x : nat -> nat -> Z) : list Z :=
  map (fun k => if by_rows then x (k / w)%nat (k mod w)%nat else x (k mod n)%nat (k / n)%nat)
    (seq 0 (n * w)).
Definition unraw (by_rows : bool) (n w : nat) (vals : list Z) (q l : nat) : Z :=
  nth (if by_rows then q * w + l else q + l * n)%nat vals 0.

(** An array of the container, as the input/output code sees it. *)
Inductive parr := Tag | One (a : attr) | TwoR | TwoI.

(** particles_io.cpp:661-851, in order. *)
Definition written (c : cfg) : list parr :=
  when (ge_dim c 1) [One (I 1); One (Dx 1); One (Iprev 1); One (Dxprev 1)] ++
  when (ge_dim c 2) [One (I 2); One (Dx 2); One (Iprev 2); One (Dxprev 2)] ++
  when (ge_dim c 3) [One (I 3); One (Dx 3); One (Iprev 3); One (Dxprev 3)] ++
  when (has_phi c) [One Phi] ++
  [One (Ux 1); One (Ux 2); One (Ux 3); Tag; One Weight] ++
  when (Nat.ltb 0 (npld_r c)) [TwoR] ++ when (Nat.ltb 0 (npld_i c)) [TwoI].
(** particles_io.cpp:473-615, in order. *)
Definition read_back (c : cfg) : list parr :=
  when (ge_dim c 1) [One (I 1); One (Dx 1); One (Iprev 1); One (Dxprev 1)] ++
  when (ge_dim c 2) [One (I 2); One (Dx 2); One (Iprev 2); One (Dxprev 2)] ++
  when (ge_dim c 3) [One (I 3); One (Dx 3); One (Iprev 3); One (Dxprev 3)] ++
  when (has_phi c) [One Phi] ++
  [One (Ux 1); One (Ux 2); One (Ux 3); Tag; One Weight] ++
  when (Nat.ltb 0 (npld_r c)) [TwoR] ++ when (Nat.ltb 0 (npld_i c)) [TwoI].

(** Write1DArray / Write2DArray of one array: [n] particles here, [total] on all ranks, [first]
    on the ranks before this one. *)
Definition write_arr (c : cfg) (by_rows : bool) (total first : Z) (s : parts) (a : parr) (f : pfile) : res pfile :=
  let n := np s in
  match a with
  | Tag => pput Vtag total first (map (tg s) (seq 0 n)) f
  | One b => pput (Varr b) total first (map (ar s b) (seq 0 n)) f
  | TwoR => let w := npld_r c in
      pput VpldR (total * Z.of_nat w) (first * Z.of_nat w) (raw by_rows n w (fun q l => ar s (PldR l) q)) f
  | TwoI => let w := npld_i c in
      pput VpldI (total * Z.of_nat w) (first * Z.of_nat w) (raw by_rows n w (fun q l => ar s (PldI l) q)) f
  end.

Fixpoint write_arrs (c : cfg) (by_rows : bool) (total first : Z) (s : parts) (l : list parr) (f : pfile) : res pfile :=
  match l with
  | [] => Ok f
  | a :: l' => rbind (write_arr c by_rows total first s a f) (write_arrs c by_rows total first s l')
  end.

(** Sum of the entries before position [r]: the offset loops, particles_io.cpp:463-465,643-649. *)
Definition before (r : nat) (nparts : list Z) : Z := sumZ (firstn r nparts).

(** What one rank holds of a species: the container and the counter of particle numbers. *)
Record pstate := { cont : parts; counter : Z }.

(** particles_io.cpp:618-851, CheckpointWrite of rank [r]; [nparts] is the result of the
    MPI_Allgather of the particle numbers. *)
Definition write_species (c : cfg) (by_rows : bool) (nparts : list Z) (r : nat) (s : pstate) (f : pfile) : res pfile :=
  let ranks := Z.of_nat (length nparts) in
  rbind (pput Vnpart ranks (Z.of_nat r) [Z.of_nat (np (cont s))] f) (fun f =>
  rbind (pput Vcounter ranks (Z.of_nat r) [counter s] f) (fun f =>
  write_arrs c by_rows (sumZ nparts) (before r nparts) (cont s) (written c) f)).

(** All ranks of [order] write. *)
Fixpoint write_ranks (c : cfg) (by_rows : bool) (nparts : list Z) (ss : nat -> pstate) (order : list nat)
    (f : pfile) : res pfile :=
  match order with
  | [] => Ok f
  | r :: order' => rbind (write_species c by_rows nparts r (ss r) f) (write_ranks c by_rows nparts ss order')
  end.

(** Overwrite the first [n] entries of an array. *)
Definition overwrite (n : nat) (new old : nat -> Z) : nat -> Z := fun q => if Nat.ltb q n then new q else old q.
Definition overwrite_attr (f : attr -> nat -> Z) (pick : attr -> option (nat -> Z)) (n : nat) : attr -> nat -> Z :=
  fun a => match pick a with Some new => overwrite n new (f a) | None => f a end.

(** Read1DArray / Read2DArray of one array. *)
Definition read_arr (c : cfg) (by_rows : bool) (first : Z) (f : pfile) (s : parts) (a : parr) : res parts :=
  let n := np s in
  match a with
  | Tag => rbind (pget Vtag first n f) (fun v =>
      Ok (with_tg s (overwrite n (fun q => nth q v 0) (tg s))))
  | One b => rbind (pget (Varr b) first n f) (fun v =>
      Ok (with_ar s (overwrite_attr (ar s)
        (fun a => if attr_eq_dec a b then Some (fun q => nth q v 0) else None) n)))
  | TwoR => let w := npld_r c in
      rbind (pget VpldR (first * Z.of_nat w) (n * w) f) (fun v =>
      Ok (with_ar s (overwrite_attr (ar s)
        (fun a => match a with PldR l => if Nat.ltb l w then Some (fun q => unraw by_rows n w v q l) else None
                  | _ => None end) n)))
  | TwoI => let w := npld_i c in
      rbind (pget VpldI (first * Z.of_nat w) (n * w) f) (fun v =>
      Ok (with_ar s (overwrite_attr (ar s)
        (fun a => match a with PldI l => if Nat.ltb l w then Some (fun q => unraw by_rows n w v q l) else None
                  | _ => None end) n)))
  end.
Fixpoint read_arrs (c : cfg) (by_rows : bool) (first : Z) (f : pfile) (l : list parr) (s : parts) : res parts :=
  match l with
  | [] => Ok s
  | a :: l' => rbind (read_arr c by_rows first f s a) (read_arrs c by_rows first f l')
  end.

(** particles_io.cpp:436-447, the number of particles of rank [r]. *)
Definition read_npart (f : pfile) (r : nat) : res Z :=
  rbind (pget Vnpart (Z.of_nat r) 1 f) (fun v => Ok (nth 0 v 0)).
Fixpoint read_nparts (f : pfile) (ranks : list nat) : res (list Z) :=
  match ranks with
  | [] => Ok []
  | r :: ranks' => rbind (read_npart f r) (fun n => rbind (read_nparts f ranks') (fun l => Ok (n :: l)))
  end.

(** particles_io.cpp:427-615, CheckpointRead of rank [r] of [ranks] into the container [s]; the
    numbers of particles of all ranks come from the MPI_Allgather of the values read. *)
Definition read_species (c : cfg) (by_rows : bool) (ranks r : nat) (f : pfile) (s : pstate) : res pstate :=
  if Nat.ltb 0 (np (cont s)) then Err
  else
  rbind (read_npart f r) (fun n =>
  rbind (set_npart (cont s) (Z.to_nat n)) (fun s1 =>
  rbind (read_nparts f (seq 0 ranks)) (fun nparts =>
  rbind (pget Vcounter (Z.of_nat r) 1 f) (fun k =>
  rbind (read_arrs c by_rows (before r nparts) f (read_back c) s1) (fun s2 =>
  Ok {| cont := s2; counter := nth 0 k 0 |}))))).
