(** Properties C01, C02 and C03. *)
From Coq Require Import ZArith List Reals.
From Verif Require Import Base DecompModel DecompSpec DecompProofs DecompTop DoubleQuot.
Import ListNotations.
Open Scope Z_scope.

(** C01.  Whenever a decomposition request is accepted, the blocks of every dimension add up
    to the resolution, have at least five cells and differ by at most one; there are
    exactly [n] subdomains; every global cell is exactly one active cell of exactly one
    subdomain, and every active cell is a global cell.  The hypothesis on the product says
    that the number of blocks did not wrap around 2^32 (see [C02_product_wrap_refuted]). *)
Theorem C01_decomposition_tiles_the_grid :
  forall fp n ncells dec ls,
  unsigned_seeds fp -> valid_request n ncells dec ->
  decompose fp n ncells dec = Ok ls -> prodZ (counts ls) < 2 ^ 32 ->
  Forall2 good_blocks ls ncells /\
  Z.of_nat (length (create_domains n ls)) = n /\
  (forall g, in_box g ncells ->
     exists! p : nat * list Z, exists d,
       nth_error (create_domains n ls) (fst p) = Some d /\ is_global_cell d (snd p) g) /\
  (forall idx d x g, nth_error (create_domains n ls) idx = Some d ->
     is_global_cell d x g -> in_box g ncells).
Proof. exact C01_main. Qed.
Print Assumptions C01_decomposition_tiles_the_grid.

Example C01_case :
  decompose exact_seeds 6 [32; 17] [-1; -1] = Ok [[11; 11; 10]; [9; 8]] /\
  prodZ (counts [[11; 11; 10]; [9; 8]]) < 2 ^ 32.
Proof. vm_compute. auto. Qed.

(** C01.  The double-precision quotient of the code is the integer quotient of the model. *)
Theorem C01_double_quotient_exact :
  forall c n, 0 <= c < 2 ^ 32 -> 1 <= n < 2 ^ 32 ->
  double_quotient c n = quot_cells c n.
Proof. exact double_quotient_exact. Qed.
Print Assumptions C01_double_quotient_exact.

(** C02 in one dimension: exactly the requested number, rejected only for small blocks. *)
Theorem C02_free_decomposition_1d :
  forall fp n c d, 1 <= n < 2 ^ 32 -> 0 <= c < 2 ^ 32 ->
  decompose fp n [c] [d] <> UB /\
  (5 * n <= c -> exists l, decompose fp n [c] [d] = Ok [l] /\ Z.of_nat (length l) = n).
Proof. exact C02_1d. Qed.
Print Assumptions C02_free_decomposition_1d.

(** C02 in two dimensions, for every value of the floating-point seed. *)
Theorem C02_free_decomposition_2d :
  forall fp n c1 c2 d1 d2,
  unsigned_seeds fp -> 1 <= n < 2 ^ 32 -> 1 <= c1 < 2 ^ 32 -> 1 <= c2 < 2 ^ 32 ->
  d1 < 0 -> d2 < 0 ->
  exists n1 n2, 1 <= n1 /\ 1 <= n2 /\ n1 * n2 = n /\
    decompose fp n [c1; c2] [d1; d2] <> UB /\
    (5 * n1 <= c1 -> 5 * n2 <= c2 -> exists l1 l2,
       decompose fp n [c1; c2] [d1; d2] = Ok [l1; l2] /\
       Z.of_nat (length l1) = n1 /\ Z.of_nat (length l2) = n2).
Proof. exact C02_2d. Qed.
Print Assumptions C02_free_decomposition_2d.

(** C02 in three dimensions.  Full statement: as in two dimensions, for every resolution.
    Missing: resolutions whose 32-bit product [c2 * c3] is zero, where the code divides by
    zero and casts the result (see the refutation below). *)
Theorem C02_free_decomposition_3d_partial :
  forall fp n c1 c2 c3 d1 d2 d3,
  unsigned_seeds fp -> 1 <= n < 2 ^ 32 ->
  1 <= c1 < 2 ^ 32 -> 1 <= c2 < 2 ^ 32 -> 1 <= c3 < 2 ^ 32 -> w32 (c2 * c3) <> 0 ->
  d1 < 0 -> d2 < 0 -> d3 < 0 ->
  exists n1 n2 n3, 1 <= n1 /\ 1 <= n2 /\ 1 <= n3 /\ n1 * n2 * n3 = n /\
    decompose fp n [c1; c2; c3] [d1; d2; d3] <> UB /\
    (5 * n1 <= c1 -> 5 * n2 <= c2 -> 5 * n3 <= c3 -> exists l1 l2 l3,
       decompose fp n [c1; c2; c3] [d1; d2; d3] = Ok [l1; l2; l3] /\
       Z.of_nat (length l1) = n1 /\ Z.of_nat (length l2) = n2 /\ Z.of_nat (length l3) = n3).
Proof. exact C02_3d. Qed.
Print Assumptions C02_free_decomposition_3d_partial.

(** C02 with some of the counts requested: the requests are met, the free counts complete them,
    and the decomposition is rejected only for small blocks. *)
Theorem C02_requests_are_met_2d :
  forall fp n c1 c2 d1 d2,
  unsigned_seeds fp -> 1 <= n < 2 ^ 32 -> 1 <= c1 < 2 ^ 32 -> 1 <= c2 < 2 ^ 32 ->
  d1 <> 0 -> d2 <> 0 -> (fixed d1 * fixed d2 | n) -> (0 < d1 -> 0 < d2 -> d1 * d2 = n) ->
  exists n1 n2, respects d1 n1 /\ respects d2 n2 /\ n1 * n2 = n /\
    decompose fp n [c1; c2] [d1; d2] <> UB /\
    (5 * n1 <= c1 -> 5 * n2 <= c2 -> exists l1 l2,
       decompose fp n [c1; c2] [d1; d2] = Ok [l1; l2] /\
       Z.of_nat (length l1) = n1 /\ Z.of_nat (length l2) = n2).
Proof. exact requests_2d. Qed.
Print Assumptions C02_requests_are_met_2d.

Theorem C02_requests_are_met_3d :
  forall fp n c1 c2 c3 d1 d2 d3,
  unsigned_seeds fp -> 1 <= n < 2 ^ 32 ->
  1 <= c1 < 2 ^ 32 -> 1 <= c2 < 2 ^ 32 -> 1 <= c3 < 2 ^ 32 ->
  d1 <> 0 -> d2 <> 0 -> d3 <> 0 ->
  (d1 < 0 -> d2 < 0 -> d3 < 0 -> w32 (c2 * c3) <> 0) ->
  (fixed d1 * fixed d2 * fixed d3 | n) -> (0 < d1 -> 0 < d2 -> 0 < d3 -> d1 * d2 * d3 = n) ->
  exists n1 n2 n3, respects d1 n1 /\ respects d2 n2 /\ respects d3 n3 /\ n1 * n2 * n3 = n /\
    decompose fp n [c1; c2; c3] [d1; d2; d3] <> UB /\
    (5 * n1 <= c1 -> 5 * n2 <= c2 -> 5 * n3 <= c3 -> exists l1 l2 l3,
       decompose fp n [c1; c2; c3] [d1; d2; d3] = Ok [l1; l2; l3] /\
       Z.of_nat (length l1) = n1 /\ Z.of_nat (length l2) = n2 /\ Z.of_nat (length l3) = n3).
Proof. exact requests_3d. Qed.
Print Assumptions C02_requests_are_met_3d.

Example C02_case_request :
  decompose exact_seeds 12 [64; 64; 64] [-1; 3; -1] =
  Ok [[32; 32]; [22; 21; 21]; [32; 32]].
Proof. vm_compute. reflexivity. Qed.

(** C02 fails for a 65536 x 65536 cross-section: undefined behaviour for every number of
    subdomains and every result of the floating-point library. *)
Theorem C02_free_decomposition_3d_refuted :
  forall fp n c1 d1 d2 d3, d1 < 0 -> d2 < 0 -> d3 < 0 ->
  decompose fp n [c1; 65536; 65536] [d1; d2; d3] = UB.
Proof. exact C02_3d_witness. Qed.
Print Assumptions C02_free_decomposition_3d_refuted.

(** C02: the 32-bit product check accepts an explicit decomposition with the wrong number of
    subdomains when the product wraps. *)
Theorem C02_product_wrap_refuted :
  forall fp, exists l1 l2,
    decompose fp 65536 [400000; 400000] [65536; 65537] = Ok [l1; l2] /\
    Z.of_nat (length l1) * Z.of_nat (length l2) <> 65536.
Proof. exact C02_wrap_witness. Qed.
Print Assumptions C02_product_wrap_refuted.

Example C02_case_2d : decompose exact_seeds 12 [100; 30] [-1; -1] =
  Ok [[17; 17; 17; 17; 16; 16]; [15; 15]].
Proof. vm_compute. reflexivity. Qed.
Example C02_case_3d : exists l, decompose exact_seeds 24 [64; 32; 32] [-1; -1; -1] = Ok l /\
  counts l = [4; 2; 3].
Proof. eexists. vm_compute. split; reflexivity. Qed.

(** C03: subdomain indices and grid positions are in bijection. *)
Theorem C03_numbering_is_a_bijection :
  forall ls n, n = prodZ (counts ls) ->
  (forall idx, (Z.of_nat idx < n) -> exists d,
     nth_error (create_domains n ls) idx = Some d /\
     in_box (sub_offset_ndomains d) (counts ls) /\
     offset2index (create_domains n ls) (sub_offset_ndomains d) = Some idx) /\
  (forall o, in_box o (counts ls) -> exists idx d,
     offset2index (create_domains n ls) o = Some idx /\
     nth_error (create_domains n ls) idx = Some d /\ sub_offset_ndomains d = o).
Proof. exact C03_bijection. Qed.
Print Assumptions C03_numbering_is_a_bijection.

(** C03: every subdomain has a neighbour in every direction, whose neighbour in the opposite
    direction is the subdomain itself, and it sits one position further modulo the
    number of subdomains. *)
Theorem C03_neighbours_are_symmetric :
  forall ls n, n = prodZ (counts ls) ->
  forall idx dir, Z.of_nat idx < n -> direction (length ls) dir ->
  exists nb da db,
    neighbor_index (counts ls) (create_domains n ls) idx dir = Ok nb /\
    neighbor_index (counts ls) (create_domains n ls) nb (map Z.opp dir) = Ok idx /\
    nth_error (create_domains n ls) idx = Some da /\
    nth_error (create_domains n ls) nb = Some db /\
    Forall2 (fun od nm => fst od = (fst nm + snd od) mod snd nm)
      (combine (sub_offset_ndomains db) dir)
      (combine (sub_offset_ndomains da) (counts ls)).
Proof. exact C03_neighbors. Qed.
Print Assumptions C03_neighbours_are_symmetric.

Example C03_case :
  let ls := [[11; 11; 10]; [9; 8]] in
  6 = prodZ (counts ls) /\ direction (length ls) [-1; 1] /\
  neighbor_index (counts ls) (create_domains 6 ls) 3 [-1; 1] = Ok 2%nat /\
  neighbor_index (counts ls) (create_domains 6 ls) 2 [1; -1] = Ok 3%nat.
Proof. vm_compute. repeat split; repeat constructor; congruence. Qed.
