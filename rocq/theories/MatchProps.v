(** Properties: matching layers (C74). *)
From Coq Require Import ZArith List Bool Reals Lra Permutation.
From Verif Require Import Base DecompModel DecompSpec FieldModel FieldProofs HaloSpec InterpSpec StepSpec MatchModel MatchSpec MatchProofs MatchTop.
Import ListNotations.
Open Scope R_scope.

(** C74. The weight of the old value vanishes at the edge of the grid, rises towards the inside and
    is within a percent of one where the layer ends. *)
Theorem C74_weight : forall ds d, 0 < ds -> 0 <= d ->
  0 <= weight ds d < 1 /\ (forall d', d < d' -> weight ds d < weight ds d') /\ weight ds 0 = 0 /\ 99 / 100 < weight ds ds.
Proof. intros ds d Hs Hd. exact (conj (weight_range ds d Hs Hd) (conj (fun d' => weight_grows ds d d' Hs) (conj (weight_edge ds) (weight_inner ds Hs)))). Qed.
Print Assumptions C74_weight.

(** C74. The loop over a set of cells, in any order and in any metric: each component asked for
    moves from its old value to the user's, by the weight at its own position; on a polar axis the
    third electric component is damped towards zero; nothing else changes. *)
Theorem C74_update : forall g o gr ph phi tu setter edge ds tags axlo axhi n2 cells order m c y on,
  ds <> 0 -> (1 <= length y <= 3)%nat -> NoDup cells -> Permutation order (map (loc g) cells) -> (forall c', on c' = true <-> asked tags c') ->
  par_for (match_body g o gr ph phi tu setter edge ds tags axlo axhi (n2 + 2 * g)) order m c (loc g y) =
  match setter c with
  | Some f =>
      if on c && (if in_dec cell_dec y cells then true else false) then
        let p := place c y in let w := weight ds (Rabs (phi (nth o p 0) - edge)) in
        if on_axis axlo axhi n2 c y then w * m c (loc g y)
        else blend w (m c (loc g y)) (if gr then f (ph p) else tu (S (axis_of c)) p (f (ph p)))
      else m c (loc g y)
  | None => m c (loc g y)
  end.
Proof. exact update. Qed.
Print Assumptions C74_update.

Example C74_update_case : (2 <> 0 :> R) /\ NoDup [[0%Z; 1%Z]; [1%Z; 1%Z]] /\
  Permutation [[3%Z; 3%Z]; [2%Z; 3%Z]] (map (loc 2) [[0%Z; 1%Z]; [1%Z; 1%Z]]).
Proof.
  split; [lra|]. split; [repeat constructor; cbn; intuition discriminate|]. cbn. apply perm_swap.
Qed.

(** C74. A matched value lies between the old one and the user's; after [k] passes the distance to
    the user's value is the initial one times the [k]-th power of the weight. *)
Theorem C74_relaxation : forall ds d old target k, 0 < ds -> 0 <= d -> let w := weight ds d in
  Rmin old target <= blend w old target <= Rmax old target /\
  Nat.iter k (fun v => blend w v target) old - target = w ^ k * (old - target).
Proof.
  intros ds d old target k Hs Hd. destruct (weight_range ds d Hs Hd) as [A B].
  exact (conj (blend_between _ old target (conj A (Rlt_le _ _ B))) (blend_iter _ target k old)).
Qed.
Print Assumptions C74_relaxation.

(** C74 (Cartesian; layers that stay clear of the borders between subdomains): on a divided grid
    each subdomain's call succeeds, and together they make of any global field the matched one, in
    all cells, ghost cells included, whatever the division.
    Missing: layers that reach a border between subdomains or the ghost cells there, for which it
    is false (below). *)
Theorem C74_divided_partial : forall eps h g ls x0 o up ds L tu setter tags on order st F,
  0 <= eps -> 0 < h -> 0 < ds -> (1 <= length ls <= 3)%nat -> (o < length ls)%nat -> length x0 = length ls -> wide g ls ->
  Forall (Forall (fun n => n + 2 * g < 2 ^ 32)%Z) ls -> no_slivers eps h x0 ls ->
  resolved eps (slab up (extent_along h x0 (map sumZ ls) o) ds) ->
  starts up h ds (nth o (map sumZ ls) 0%Z) L -> clear_of_borders g ls o up L ->
  (forall c, on c = true <-> asked tags c) -> (forall p l, Permutation (order p l) l) -> agree g ls st F ->
  let gext := extent_along h x0 (map sumZ ls) o in
  let run d := match_cartesian eps g h (corner h x0 (sub_offset_ncells d)) (sub_ncells d) o up gext ds tu setter tags
                 (order (sub_offset_ndomains d)) (st (sub_offset_ndomains d)) in
  (forall d, In d (domains ls) -> exists m', run d = Ok m') /\
  forall st', (forall d, In d (domains ls) -> run d = Ok (st' (sub_offset_ndomains d))) ->
    agree g ls st' (matched h x0 o up L (edge_pos up gext) ds tu setter on F).
Proof. exact divided. Qed.
Print Assumptions C74_divided_partial.

Example C74_divided_case : let eps := 1 / 1000 in let ls := [[4%Z; 4%Z]] in
  wide 2 ls /\ Forall (Forall (fun n => n + 2 * 2 < 2 ^ 32)%Z) ls /\ no_slivers eps 1 [0] ls /\
  resolved eps (slab true (extent_along 1 [0] (map sumZ ls) 0) 2) /\ starts true 1 2 (nth 0 (map sumZ ls) 0%Z) 6 /\ clear_of_borders 2 ls 0 true 6 /\
  (forall c, (match c with Ex1 | Ex2 | Ex3 => true | _ => false end) = true <-> asked 1 c).
Proof. exact case_layer. Qed.

(** C74, refuted for a layer over several subdomains (six cells of eight, two subdomains): the calls
    succeed, yet a cell and its copy in the neighbour's ghost cells end up with different values. *)
Theorem C74_thick_layer_refuted : forall eps, 0 <= eps < 1 / 10 ->
  exists (ls : list (list Z)) (up : bool) (ds : R) (setter : comp -> option (list R -> R)) (st : list Z -> fields) (F : fields),
  wide 2 ls /\ agree 2 ls st F /\
  (forall order, (forall p l, Permutation (order p l) l) ->
   (forall d, In d (domains ls) -> exists m', match_cartesian eps 2 1 (corner 1 [0] (sub_offset_ncells d)) (sub_ncells d) 0 up (0, 8) ds
        (fun _ v => v) setter 1 (order (sub_offset_ndomains d)) (st (sub_offset_ndomains d)) = Ok m') /\
   forall st', (forall d, In d (domains ls) -> match_cartesian eps 2 1 (corner 1 [0] (sub_offset_ncells d)) (sub_ncells d) 0 up (0, 8) ds
        (fun _ v => v) setter 1 (order (sub_offset_ndomains d)) (st (sub_offset_ndomains d)) = Ok (st' (sub_offset_ndomains d))) ->
   ~ exists F', agree 2 ls st' F').
Proof. exact thick_refuted. Qed.
Print Assumptions C74_thick_layer_refuted.
