(** Field output: src/framework/domain/metadomain_io.cpp:40-84 (InitWriter) and 396-466 (Write,
    coordinates), src/output/writer.cpp:77-142 (defineMeshLayout), 212-308 (WriteField) and
    409-430 (writeMesh), src/framework/parameters/output.cpp:89-121 (downsampling factors).

    Arithmetic of the layout is in double precision, as in the code.  A file variable is a
    function of the global index; [None] marks elements nobody has written.  Cell indices
    are unbounded integers; they stay below the extent of the arrays. *)
From Coq Require Import ZArith List Bool Reals.
From Flocq Require Import Core.
From Verif Require Import Base DecompModel DoubleQuot.
Import ListNotations.
Open Scope Z_scope.

(** [static_cast<ncells_t>] of a double with an integer value. *)
Definition cast32 (z : Z) : res Z := if (0 <=? z) && (z <? 2 ^ 32) then Ok z else UB.

(** writer.cpp:96-104 (and metadomain_io.cpp:417-425): [f]. *)
Definition lay_f (l d : Z) : R :=
  round_double (round_double (IZR (Zceil (round_double (IZR l / IZR d))) * IZR d) - IZR l).
(** The same lines: [ceil((n - f) / d)]. *)
Definition lay_size (n : Z) (f : R) (d : Z) : Z := Zceil (round_double (round_double (IZR n - f) / IZR d)).

(** Layout of one dimension. *)
Record lay := { g_dwn : Z; corner_dwn : Z; l_first : Z; shape_dwn : Z }.
(** writer.cpp:91-105, one pass of the loop; [g]: global size, [l]: corner, [n]: local size. *)
Definition layout1 (ghosts : bool) (g l n d : Z) : res lay :=
  if negb (d =? 1) && ghosts then Err
  else if d =? 0 then UB
  else
  rbind (cast32 (Zceil (round_double (IZR g / IZR d)))) (fun gd =>
  rbind (cast32 (Zceil (round_double (IZR l / IZR d)))) (fun cd =>
  rbind (cast32 (Ztrunc (lay_f l d))) (fun f =>
  rbind (cast32 (lay_size n (lay_f l d) d)) (fun sd =>
  Ok {| g_dwn := gd; corner_dwn := cd; l_first := f; shape_dwn := sd |})))).

(** writer.cpp:91: the loop over the dimensions of the global shape; an index past the end of one
    of the vectors is undefined. *)
Fixpoint layouts (ghosts : bool) (g l n d : list Z) : res (list lay) :=
  match g, l, n, d with
  | [], _, _, _ => Ok []
  | g1 :: g', l1 :: l', n1 :: n', d1 :: d' =>
      rbind (layout1 ghosts g1 l1 n1 d1) (fun a =>
      rbind (layouts ghosts g' l' n' d') (fun r => Ok (a :: r)))
  | _, _, _, _ => UB
  end.

(** metadomain_io.cpp:58-64: [for (d = 0; d <= Dim; ++d) v[d] += ...], the vectors have Dim entries. *)
Fixpoint add_at (v : list Z) (k : nat) (a : Z) : res (list Z) :=
  match v, k with
  | [], _ => UB
  | x :: v', O => Ok (x + a :: v')
  | x :: v', S k' => rbind (add_at v' k' a) (fun r => Ok (x :: r))
  end.
Definition add_ghosts (w : Z) (mult v : list Z) : res (list Z) :=
  fold_left (fun acc k => rbind acc (fun v =>
    match nth_error mult k with None => UB | Some m => add_at v k (2 * w * m) end))
    (seq 0 (S (length v))) (Ok v).

(** InitWriter for one subdomain: [w]: N_GHOSTS, [N]: global cells, [ns]: subdomains per
    dimension. *)
Definition init_layout (w : Z) (ghosts : bool) (N ns dwn : list Z) (s : subdomain) : res (list lay) :=
  if ghosts then
    rbind (add_ghosts w ns N) (fun g =>
    rbind (add_ghosts w (sub_offset_ndomains s) (sub_offset_ncells s)) (fun l =>
    rbind (add_ghosts w (repeat 1 (S (length N))) (sub_ncells s)) (fun n =>
    layouts true g l n dwn)))
  else layouts false N (sub_offset_ncells s) (sub_ncells s) dwn.

(** A block of data. *)
Record block (V : Type) := { b_shape : list Z; b_data : list Z -> V }.
Arguments b_shape {V}. Arguments b_data {V}.

(** writer.cpp:212-308: the array handed to ADIOS2; [n]: active cells, [F]: the array with ghost
    cells.  One body per dimension of the grid, differing in the number of indices. *)
Definition write_field {V} (w : Z) (ghosts : bool) (n dwn first : list Z) (F : list Z -> V) : block V :=
  if ghosts || forallb (fun d => d =? 1) dwn then
    let gh := if ghosts then 0 else w in
    {| b_shape := map (fun k => k + 2 * w - 2 * gh) n; b_data := fun i => F (map (fun a => a + gh) i) |}
  else
    {| b_shape := map2 (fun n fd => lay_size n (IZR (fst fd)) (snd fd)) n (combine first dwn);
       b_data := fun i => F (map2 (fun a fd => fst fd + a * snd fd + w) i (combine first dwn)) |}.

Definition in_boxb (i shape : list Z) : bool :=
  Nat.eqb (length i) (length shape) && forallb (fun '(a, b) => (0 <=? a) && (a <? b)) (combine i shape).
(** ADIOS2 [Put] of a block to the selection (corner, shape) declared with the variable; an array
    of another size is undefined. *)
Definition put {V} (L : list lay) (b : block V) (file : list Z -> option V) : res (list Z -> option V) :=
  if list_eqb (b_shape b) (map shape_dwn L) then
    Ok (fun j => let i := map2 Z.sub j (map corner_dwn L) in if in_boxb i (b_shape b) then Some (b_data b i) else file j)
  else UB.

(** One variable, written by the subdomains in the order given; [F]: their arrays, by position.
    The result has the shape declared by every subdomain and the contents of the file. *)
Definition write_one {V} (w : Z) (ghosts : bool) (N ns dwn : list Z) (F : list Z -> list Z -> V) (s : subdomain)
    (file : list Z -> option V) : res (list Z -> option V) :=
  rbind (init_layout w ghosts N ns dwn s) (fun L =>
  put L (write_field w ghosts (sub_ncells s) dwn (map l_first L) (F (sub_offset_ndomains s))) file).
Definition write_var {V} (w : Z) (ghosts : bool) (N ns dwn : list Z) (F : list Z -> list Z -> V) (order : list subdomain)
  : res (list Z -> option V) :=
  fold_left (fun acc s => rbind acc (write_one w ghosts N ns dwn F s)) order (Ok (fun _ => None)).

(** ** Coordinates of one dimension, metadomain_io.cpp:412-466: cell centres (X1) and edges (X1e).
    Positions are global code coordinates, to which the metric's conversion is applied; [None]: an
    element of the array which the kernel leaves at its initial value, physical coordinate 0. *)
Definition centres (l n d : Z) : res (block (option R)) :=
  rbind (cast32 (Ztrunc (lay_f l d))) (fun first =>
  rbind (cast32 (lay_size n (lay_f l d) d)) (fun size =>
  Ok {| b_shape := [size]; b_data := fun i => Some (IZR l + IZR (first + nth 0 i 0%Z * d) + / 2)%R |})).
Definition edges (N l n d : Z) : res (block (option R)) :=
  rbind (cast32 (Ztrunc (lay_f l d))) (fun first =>
  rbind (cast32 (lay_size n (lay_f l d) d)) (fun size =>
  let last := l + n =? N in
  Ok {| b_shape := [size + if last then 1 else 0];
        b_data := fun i =>
          let i := nth 0 i 0 in
          if i <? size then Some (IZR l + IZR (first + i * d))%R
          else if 1 <=? size then Some (IZR l + IZR (first + (size - 1) * d) + 1)%R
          else None |})).
(** writer.cpp:110-125: the selections of X1 and X1e. *)
Definition put1 {V} (corner shape : Z) (b : block V) (file : Z -> option V) : res (Z -> option V) :=
  match b_shape b with
  | [s] => if s =? shape then Ok (fun j => if (0 <=? j - corner) && (j - corner <? s) then Some (b_data b [j - corner]) else file j) else UB
  | _ => UB
  end.
Definition write_coords (N d : Z) (blocks : list (Z * Z)) : res ((Z -> option (option R)) * (Z -> option (option R))) :=
  fold_left (fun acc '(l, n) => rbind acc (fun '(xc, xe) =>
    rbind (layout1 false N l n d) (fun L =>
    rbind (centres l n d) (fun bc =>
    rbind (edges N l n d) (fun be =>
    rbind (put1 (corner_dwn L) (shape_dwn L) bc xc) (fun xc' =>
    rbind (put1 (corner_dwn L) (shape_dwn L + if l + n =? N then 1 else 0) be xe) (fun xe' =>
    Ok (xc', xe')))))))) blocks (Ok (fun _ => None, fun _ => None)).
