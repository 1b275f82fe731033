(** Domain decomposition: src/global/utils/tools.h and the part of
    src/framework/domain/metadomain.cpp that creates the subdomains and links
    them to their neighbours. *)
From Coq Require Import ZArith List Bool.
From Verif Require Import Base.
Import ListNotations.
Open Scope Z_scope.

(** src/global/utils/tools.h:62-77, [TensorProduct].  The outer loop runs over
    the elements of the new dimension, the inner one over the partial results, so
    the first dimension varies fastest. *)
Definition tensor_product {T} (ls : list (list T)) : list (list T) :=
  fold_left
    (fun result sub =>
       flat_map (fun e => map (fun r => r ++ [e]) result) sub)
    ls [[]].

(** src/global/utils/tools.h:86, the truncated quotient.  The code divides two
    doubles and casts to [ncells_t]; here it is the integer quotient.  The two agree
    for all 32-bit arguments, see [C01_double_quotient_exact]. *)
Definition quot_cells (ncells ndomains : Z) : Z := ncells / ndomains.

(** src/global/utils/tools.h:88-90, the loop adding one cell to the first [k]
    entries; writing past the end of the vector is undefined. *)
Fixpoint bump (k : nat) (l : list Z) : res (list Z) :=
  match k, l with
  | O, _ => Ok l
  | S _, [] => UB
  | S k', a :: l' => rbind (bump k' l') (fun r => Ok (w32 (a + 1) :: r))
  end.

(** src/global/utils/tools.h:84-102, [decompose1D]. *)
Definition decompose1D (ndomains ncells : Z) : res (list Z) :=
  if ndomains =? 0 then UB (* cast of an infinite or NaN double *)
  else
    let size := quot_cells ncells ndomains in
    let extra := w32 (ncells - w32 (size * ndomains)) in
    rbind (bump (Z.to_nat extra) (repeat size (Z.to_nat ndomains)))
      (fun l =>
         if negb (w32 (sumZ l) =? ncells) then Err
         else if negb (Z.of_nat (length l) =? ndomains) then Err
         else if existsb (fun n => n <? 5) l then Err
         else Ok l).

(** src/global/utils/tools.h:118-121 and 146-149: the search loop for a divisor.
    [fuel] bounds the number of iterations; running out of it is reported as [UB]
    so that termination is part of every statement that excludes [UB]. *)
Fixpoint next_divisor (fuel : nat) (ntot n1 : Z) : res Z :=
  match fuel with
  | O => UB
  | S f =>
      if ntot mod n1 =? 0 then Ok n1
      else if ntot <? w32 (n1 + 1) then Err
      else next_divisor f ntot (w32 (n1 + 1))
  end.

(** Values of the floating-point expressions [(unsigned int)sqrt(ntot * s1 / s2)]
    (line 112) and [(unsigned int)cbrt(ntot * SQR(s1) / (s2 * s3))] (lines 138-139) for
    non-zero denominators.  They are parameters, so that statements range over every
    value (below 2^32) the floating-point library may return. *)
Record fp_seeds := {
  fp_sqrt : forall (ntot s1 s2 : Z), Z;
  fp_cbrt : forall (ntot s1sq s2s3 : Z), Z
}.

(** Values in exact arithmetic, used for examples. *)
Fixpoint icbrt_below (fuel : nat) (x r : Z) : Z :=
  match fuel with
  | O => r
  | S f => if (r + 1) * (r + 1) * (r + 1) <=? x then icbrt_below f x (r + 1) else r
  end.
Definition exact_seeds : fp_seeds :=
  {| fp_sqrt := fun ntot s1 s2 => Z.sqrt (ntot * s1 / s2);
     fp_cbrt := fun ntot a b => icbrt_below (Z.to_nat ntot) (ntot * a / b) 0 |}.

(** src/global/utils/tools.h:110-124, [divideInProportions2D].  With a zero denominator the
    double is infinite or NaN and the cast at line 112 is undefined. *)
Definition divide2D (fp : fp_seeds) (ntot s1 s2 : Z) : res (Z * Z) :=
  if s2 =? 0 then UB
  else
    let n1 := fp_sqrt fp ntot s1 s2 in
    if n1 =? 0 then Ok (1, ntot)
    else if ntot <? n1 then Ok (ntot, 1)
    else rbind (next_divisor (S (Z.to_nat (ntot - n1))) ntot n1)
           (fun n1 => Ok (n1, ntot / n1)).

(** src/global/utils/tools.h:133-153, [divideInProportions3D].  [SQR(s1)] and [s2 * s3]
    are 32-bit products. *)
Definition divide3D (fp : fp_seeds) (ntot s1 s2 s3 : Z) : res (Z * Z * Z) :=
  if w32 (s2 * s3) =? 0 then UB
  else
    let n1 := fp_cbrt fp ntot (w32 (s1 * s1)) (w32 (s2 * s3)) in
    if ntot <? n1 then Ok (ntot, 1, 1)
    else
      let n1 := if n1 =? 0 then 1 else n1 in
      rbind (next_divisor (S (Z.to_nat (ntot - n1))) ntot n1)
        (fun n1 => rbind (divide2D fp (ntot / n1) s2 s3)
           (fun p => Ok (n1, fst p, snd p))).

(** src/global/utils/tools.h:177-204, two dimensions: the counts (n1, n2). *)
Definition counts2 (fp : fp_seeds) (ndomains s1 s2 d1 d2 : Z) : res (Z * Z) :=
  let checked n1 n2 :=
    if negb (w32 (n1 * n2) =? ndomains) then Err else Ok (n1, n2) in
  if (0 <? d1) && (0 <? d2) then checked d1 d2
  else if (0 <? d1) && (d2 <? 0) then
    if negb (ndomains mod d1 =? 0) then Err else checked d1 (ndomains / d1)
  else if (d1 <? 0) && (0 <? d2) then
    if negb (ndomains mod d2 =? 0) then Err else Ok (ndomains / d2, d2)
  else if (d1 <? 0) && (d2 <? 0) then
    rbind (divide2D fp ndomains s1 s2) (fun p => checked (fst p) (snd p))
  else Err.

(** src/global/utils/tools.h:216-219 (and 224-227, 232-235, 239, 247, 255): reject the
    request unless the 32-bit product [p] divides the number of subdomains, then go on with
    the quotient; a zero divisor is undefined. *)
Definition divided (ndomains p : Z) (k : Z -> res (Z * Z * Z)) : res (Z * Z * Z) :=
  if w32 p =? 0 then UB
  else if negb (ndomains mod w32 p =? 0) then Err else k (ndomains / w32 p).

(** src/global/utils/tools.h:267-269, the final check of the 32-bit product. *)
Definition checked3 (ndomains n1 n2 n3 : Z) : res (Z * Z * Z) :=
  if negb (w32 (w32 (n1 * n2) * n3) =? ndomains) then Err else Ok (n1, n2, n3).

(** src/global/utils/tools.h:207-269, three dimensions: the counts (n1, n2, n3). *)
Definition counts3 (fp : fp_seeds) (ndomains s1 s2 s3 d1 d2 d3 : Z) : res (Z * Z * Z) :=
  let checked := checked3 ndomains in
  let divided := divided ndomains in
  let pos d := 0 <? d in
  let neg d := d <? 0 in
  if pos d1 && pos d2 && pos d3 then checked d1 d2 d3
  else if neg d1 && pos d2 && pos d3 then divided (d2 * d3) (fun q => checked q d2 d3)
  else if pos d1 && neg d2 && pos d3 then divided (d1 * d3) (fun q => checked d1 q d3)
  else if pos d1 && pos d2 && neg d3 then divided (d1 * d2) (fun q => checked d1 d2 q)
  else if neg d1 && neg d2 && pos d3 then
    divided d3 (fun q => rbind (divide2D fp q s1 s2)
                           (fun p => checked (fst p) (snd p) d3))
  else if neg d1 && pos d2 && neg d3 then
    divided d2 (fun q => rbind (divide2D fp q s1 s3)
                           (fun p => checked (fst p) d2 (snd p)))
  else if pos d1 && neg d2 && neg d3 then
    divided d1 (fun q => rbind (divide2D fp q s2 s3)
                           (fun p => checked d1 (fst p) (snd p)))
  else if neg d1 && neg d2 && neg d3 then
    rbind (divide3D fp ndomains s1 s2 s3)
      (fun p => checked (fst (fst p)) (snd (fst p)) (snd p))
  else checked 0 0 0.

(** src/global/utils/tools.h:166-274, [Decompose].  The C++ [else] branch at line 205 also
    catches dimension counts other than 1, 2, 3, which never occur ([Dimension] has
    three values); they are [UB] here. *)
Definition decompose (fp : fp_seeds) (ndomains : Z) (ncells decomposition : list Z)
  : res (list (list Z)) :=
  if negb (Nat.eqb (length ncells) (length decomposition)) then Err
  else match ncells, decomposition with
  | [c1], [_] => rbind (decompose1D ndomains c1) (fun l1 => Ok [l1])
  | [c1; c2], [d1; d2] =>
      rbind (counts2 fp ndomains c1 c2 d1 d2) (fun n =>
      rbind (decompose1D (fst n) c1) (fun l1 =>
      rbind (decompose1D (snd n) c2) (fun l2 => Ok [l1; l2])))
  | [c1; c2; c3], [d1; d2; d3] =>
      rbind (counts3 fp ndomains c1 c2 c3 d1 d2 d3) (fun n =>
      rbind (decompose1D (fst (fst n)) c1) (fun l1 =>
      rbind (decompose1D (snd (fst n)) c2) (fun l2 =>
      rbind (decompose1D (snd n) c3) (fun l3 => Ok [l1; l2; l3]))))
  | _, _ => UB
  end.

(** src/framework/domain/metadomain.cpp:111-117: starting cell of each block of one
    dimension (running sum, one entry per block). *)
Fixpoint running (acc : Z) (l : list Z) : list Z :=
  match l with
  | [] => []
  | a :: l' => acc :: running (acc + a) l'
  end.

(** src/framework/domain/metadomain.cpp:112-116: 0, 1, 2, ... *)
Definition dom_numbers (l : list Z) : list Z := map Z.of_nat (seq 0 (length l)).

(** What the constructor of a subdomain receives
    (src/framework/domain/metadomain.cpp:137-139,160-188).  The physical extent is left
    out here (see MetricModel). *)
Record subdomain := {
  sub_offset_ndomains : list Z;  (* position in the grid of subdomains *)
  sub_offset_ncells   : list Z;  (* global index of the first active cell *)
  sub_ncells          : list Z   (* number of active cells *)
}.

(** src/framework/domain/metadomain.cpp:101-193, [createEmptyDomains]. *)
Definition create_domains (ndomains : Z) (d_ncells : list (list Z))
  : list subdomain :=
  let domain_ncells := tensor_product d_ncells in
  let domain_offset_ncells := tensor_product (map (running 0) d_ncells) in
  let domain_offset_ndoms := tensor_product (map dom_numbers d_ncells) in
  map (fun idx =>
         {| sub_offset_ndomains := nth idx domain_offset_ndoms [];
            sub_offset_ncells := nth idx domain_offset_ncells [];
            sub_ncells := nth idx domain_ncells [] |})
      (seq 0 (Z.to_nat ndomains)).

Definition list_eqb (a b : list Z) : bool :=
  if list_eq_dec Z.eq_dec a b then true else false.

(** src/framework/domain/metadomain.cpp:191, the map from offsets to indices: a later
    assignment to the same key overwrites, so the last matching index wins. *)
Fixpoint offset2index_from (i : nat) (doms : list subdomain) (o : list Z) : option nat :=
  match doms with
  | [] => None
  | d :: ds =>
      match offset2index_from (S i) ds o with
      | Some k => Some k
      | None => if list_eqb (sub_offset_ndomains d) o then Some i else None
      end
  end.
Definition offset2index := offset2index_from 0.

(** src/framework/domain/metadomain.cpp:205-219: neighbour offset in one dimension, [n]
    the number of subdomains in that dimension, [o] the own offset. *)
Definition neighbor1 (n o dir : Z) : Z :=
  if (dir =? -1) && (o =? 0) then n - 1
  else if (dir =? 1) && (o =? n - 1) then 0
  else o + dir.

Definition neighbor_offset (ns o dir : list Z) : list Z :=
  map2 (fun no d => neighbor1 (fst no) (snd no) d) (combine ns o) dir.

(** src/framework/domain/metadomain.cpp:196-233, [redefineNeighbors] for one subdomain and
    one direction. *)
Definition neighbor_index (ns : list Z) (doms : list subdomain) (idx : nat)
    (dir : list Z) : res nat :=
  match nth_error doms idx with
  | None => UB
  | Some d =>
      match offset2index doms (neighbor_offset ns (sub_offset_ndomains d) dir) with
      | None => Err
      | Some k => if Nat.leb (length doms) k then Err else Ok k
      end
  end.
