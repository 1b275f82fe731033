(** Output section of the input file, and the command line.
    src/framework/parameters/output.cpp:20-136, 175-187, src/framework/domain/metadomain_io.cpp:80-118, 370-390,
    src/output/writer.cpp:76-98, src/global/utils/cargs.cpp, src/framework/simulation.cpp:21-30.
    Integers of the file are converted to unsigned 32-bit ones. *)
From Coq Require Import ZArith List Bool String Reals.
From Verif Require Import Base RunModel.
Import ListNotations.
Open Scope Z_scope.

Definition u32 (z : Z) : Z := z mod 2 ^ 32.
Definition or_else {A} (o : option A) (d : A) : A := match o with Some a => a | None => d end.

(** A table of the file: the entries that are present. *)
Record global_in := GlobalIn { g_interval : option Z; g_time : option R }.
Record category_in := CategoryIn { c_interval : option Z; c_time : option R; c_enable : option bool }.
(** What is stored for a category. *)
Record category := Category { interval_of : Z; time_of : R; enabled : bool }.

Definition is_minus_one (t : R) : bool := if Req_EM_T t (-1)%R then true else false.
(** output.cpp:22-60; defaults.h:69 *)
Definition read_category (g : global_in) (c : category_in) : category :=
  let gi := or_else (option_map u32 (g_interval g)) 100 in
  let gt := or_else (g_time g) (-1)%R in
  let q_int := or_else (option_map u32 (c_interval c)) 0 in
  let q_int_time := or_else (c_time c) (-1)%R in
  let en := or_else (c_enable c) true in
  if ((q_int =? 0) && is_minus_one q_int_time)%bool then Category gi gt en else Category q_int q_int_time en.

(** metadomain_io.cpp:112-118, 370-384: at the end of each step a category that is enabled asks its tracker. *)
Definition written (g : global_in) (c : category_in) (qs : list (Z * R * R)) : res (list bool) :=
  let k := read_category g c in
  if enabled k then rbind (queries (new_tracker (interval_of k) (time_of k) None) qs) (fun r => Ok (fst r))
  else Ok (map (fun _ => false) qs).

(** The entry [output.fields.downsampling]: a list of integers, an integer, or anything else (or nothing). *)
Inductive down_in := DList (l : list Z) | DInt (z : Z) | DOther.
(** output.cpp:88-121, 178-186 *)
Definition read_down (dim : nat) (d : down_in) (ghosts : bool) : res (list Z) :=
  let l := match d with DList l => map u32 l | DInt z => repeat (u32 z) dim | DOther => repeat 1 dim end in
  if (3 <? List.length l)%nat then Err
  else let l := firstn dim l in
    if existsb (fun z => z =? 0) l then Err
    else if ghosts && existsb (fun z => negb (z =? 1)) l then Err else Ok l.
(** writer.cpp:90-98: the factor of direction [i]; reading past the end of the vector is undefined. *)
Fixpoint layout (dim : nat) (ghosts : bool) (dwn : list Z) : res (list Z) :=
  match dim, dwn with
  | O, _ => Ok []
  | S _, [] => UB
  | S n, d :: r => if (negb (d =? 1) && ghosts)%bool then Err else rbind (layout n ghosts r) (fun l => Ok (d :: l))
  end.
Definition factors (dim : nat) (d : down_in) (ghosts : bool) : res (list Z) :=
  rbind (read_down dim d ghosts) (layout dim ghosts).

(** output.cpp:124-132 and metadomain_io.cpp:97-103: species written; each one is looked up in the list of [n] species. *)
Definition u8 (z : Z) : Z := z mod 256.
Definition read_species (n : nat) (l : option (list Z)) : list Z :=
  or_else (option_map (map u8) l) (map (fun i => Z.of_nat (i + 1) mod 256) (seq 0 n)).
Definition declare (n : nat) (l : list Z) : res (list Z) :=
  if forallb (fun s => (1 <=? s) && (s <=? Z.of_nat n))%bool l then Ok l else UB.

(** cargs.cpp:21-35: std::next of the end is undefined. *)
Fixpoint find_arg (args : list string) (key : string) : option (list string) :=
  match args with [] => None | a :: r => if String.eqb a key then Some r else find_arg r key end.
Definition getArgument (argv : list string) (key def : string) : res string :=
  match find_arg (tl argv) key with
  | None => UB
  | Some [] => Ok def
  | Some (v :: _) => Ok v
  end.
(** cargs.cpp:46-49 *)
Definition isSpecified (argv : list string) (key : string) : bool := existsb (String.eqb key) (tl argv).
(** simulation.cpp:24-30 *)
Definition input_file (argv : list string) : res string := getArgument argv "-input" "input".
Definition is_resuming (argv : list string) : bool :=
  (isSpecified argv "-continue" || isSpecified argv "-restart" || isSpecified argv "-resume" || isSpecified argv "-checkpoint")%bool.
