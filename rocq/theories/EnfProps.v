(** Properties: fields enforced inside an atmosphere (C77). *)
From Coq Require Import ZArith List Bool Reals Lra Lia Permutation.
From Verif Require Import Base DecompModel DecompSpec FieldModel FieldProofs HaloSpec InterpSpec StepSpec MatchModel MatchSpec AtmosModel EnfModel EnfSpec EnfProofs EnfTop.
Import ListNotations.
Open Scope R_scope.

(** C77. The loop over a set of cells on the outer side of node [K], in any order and in any metric:
    a component that was asked for and for which the user gives a field gets that field, taken at the
    component's own position, where that position lies on node [K] or further out; nothing else
    changes. *)
Theorem C77_values : forall g o (up : bool) ph tu setter K tags cells order m c y (on : comp -> bool),
  (1 <= length y <= 3)%nat -> (o < length y)%nat -> NoDup cells -> Permutation order (map (loc g) cells) -> (forall c', on c' = true <-> asked tags c') ->
  (forall z, In z cells -> if up then (K <= nth o z 0)%Z else (nth o z 0 <= K)%Z) ->
  par_for (enf_body g o up ph tu setter (K + g) tags) order m c (loc g y) =
  match setter c with
  | Some f =>
      if on c && (if in_dec cell_dec y cells then true else false) then
        if outside_dec up o K c y then tu (S (axis_of c)) (place c y) (f (ph (place c y))) else m c (loc g y)
      else m c (loc g y)
  | None => m c (loc g y)
  end.
Proof. exact values. Qed.
Print Assumptions C77_values.

Example C77_values_case : NoDup [[3%Z; 1%Z]; [4%Z; 1%Z]] /\ Permutation [[6%Z; 3%Z]; [5%Z; 3%Z]] (map (loc 2) [[3%Z; 1%Z]; [4%Z; 1%Z]]) /\
  (forall z, In z [[3%Z; 1%Z]; [4%Z; 1%Z]] -> (nth 0 z 0 <= 4)%Z) /\
  outside false 0 4 Ex1 [3%Z; 1%Z] /\ ~ outside false 0 4 Ex1 [4%Z; 1%Z] /\ outside false 0 4 Ex2 [4%Z; 1%Z].
Proof.
  split; [repeat constructor; cbn; intuition discriminate|]. split; [cbn; apply perm_swap|].
  split; [intros z [<-|[<-|[]]]; cbn; lia|]. unfold outside; cbn; unfold ShapeSpec.node; repeat split; lra.
Qed.

(** C77 (Cartesian; atmospheres that stay clear of the borders between subdomains): on a divided grid
    each subdomain's call succeeds, and together they make of any global field the one with the
    user's values outside the surface, in all cells, ghost cells included, whatever the division.
    Missing: atmospheres that reach a border between subdomains or the ghost cells there, for which
    it is false (below). *)
Theorem C77_divided_partial : forall eps h g ls x0 filters o up tu setter tags on order st F,
  grid_ok eps h g ls x0 -> side_ok eps h g ls x0 filters o up ->
  (forall c, on c = true <-> asked tags c) -> (forall p l, Permutation (order p l) l) -> agree g ls st F ->
  let N := nth o (map sumZ ls) 0%Z in
  let run d := atm_cartesian eps g h (corner h x0 (sub_offset_ncells d)) (sub_ncells d) o up (nth o x0 0) N filters tu setter tags
                 (order (sub_offset_ndomains d)) (st (sub_offset_ndomains d)) in
  (forall d, In d (domains ls) -> exists m', run d = Ok m') /\
  forall st', (forall d, In d (domains ls) -> run d = Ok (st' (sub_offset_ndomains d))) ->
    agree g ls st' (enforced h x0 o up (field_surface up N filters) tu setter on F).
Proof. exact divided_enf. Qed.
Print Assumptions C77_divided_partial.

Example C77_divided_case : let eps := 1 / 1000 in let ls := [[6%Z; 8%Z]] in
  grid_ok eps 1 2 ls [0] /\ side_ok eps 1 2 ls [0] 3 0 true /\ (forall c, electric c = true <-> asked 1 c).
Proof. exact case_enf. Qed.

(** C77. With atmospheres on two sides the result does not depend on which side is treated first,
    nor on the order of the cells. *)
Theorem C77_sides_partial : forall eps h g ls x0 filters o up o' up' tu setter tags on order1 order2 order1' order2' st F,
  grid_ok eps h g ls x0 -> side_ok eps h g ls x0 filters o up -> side_ok eps h g ls x0 filters o' up' ->
  (forall c, on c = true <-> asked tags c) -> agree g ls st F ->
  (forall p l, Permutation (order1 p l) l /\ Permutation (order2 p l) l /\ Permutation (order1' p l) l /\ Permutation (order2' p l) l) ->
  let run o up order d m := atm_cartesian eps g h (corner h x0 (sub_offset_ncells d)) (sub_ncells d) o up (nth o x0 0) (nth o (map sumZ ls) 0%Z) filters tu setter tags
                 (order (sub_offset_ndomains d)) m in
  forall s1 s2 t1 t2,
  (forall d, In d (domains ls) -> run o up order1 d (st (sub_offset_ndomains d)) = Ok (s1 (sub_offset_ndomains d)) /\
     run o' up' order2 d (s1 (sub_offset_ndomains d)) = Ok (s2 (sub_offset_ndomains d)) /\
     run o' up' order1' d (st (sub_offset_ndomains d)) = Ok (t1 (sub_offset_ndomains d)) /\
     run o up order2' d (t1 (sub_offset_ndomains d)) = Ok (t2 (sub_offset_ndomains d))) ->
  forall d c y, In d (domains ls) -> in_extended g y (sub_ncells d) ->
    s2 (sub_offset_ndomains d) c (loc g y) = t2 (sub_offset_ndomains d) c (loc g y).
Proof. exact sides. Qed.
Print Assumptions C77_sides_partial.

(** C77. Enforcing once more changes nothing. *)
Theorem C77_idempotent : forall h x0 tu setter on o up K F c X,
  enforced h x0 o up K tu setter on (enforced h x0 o up K tu setter on F) c X = enforced h x0 o up K tu setter on F c X.
Proof. exact enforced_twice. Qed.
Print Assumptions C77_idempotent.

(** C77. Where the enforced fields end: at the surface that holds the particles on the upper side,
    one cell below it on the lower side. *)
Theorem C77_surface : forall h x N filters, (atm_cells filters <= N < 2 ^ 32)%Z ->
  IZR (field_surface true N filters) * h + x = x_surface true (fun q => q * h + x) N filters /\
  IZR (field_surface false N filters) * h + x = x_surface false (fun q => q * h + x) N filters - h.
Proof. exact surface_particles. Qed.
Print Assumptions C77_surface.

Example C77_surface_case : (atm_cells 7 <= 64 < 2 ^ 32)%Z.
Proof. vm_compute. split; [discriminate|reflexivity]. Qed.

(** C77, refuted: the two sides are mirror images.  On a grid of any size there is an element that
    is enforced on the upper side though its mirror image is not on the lower side. *)
Theorem C77_mirror_refuted : forall N filters, exists c X X',
  nth 0 (place c X) 0 + nth 0 (place c X') 0 = IZR N /\
  outside true 0 (field_surface true N filters) c X /\ ~ outside false 0 (field_surface false N filters) c X'.
Proof. exact mirror. Qed.
Print Assumptions C77_mirror_refuted.

(** C77, refuted for a subdomain inside the atmosphere (five cells of eight, two subdomains of four):
    an active element that lies outside the surface keeps its old value. *)
Theorem C77_inside_refuted : forall eps, 0 <= eps < 1 / 10 ->
  exists (ls : list (list Z)) (setter : comp -> option (list R -> R)) (st : list Z -> fields) (F : fields) d y,
  grid_ok eps 1 2 ls [0] /\ agree 2 ls st F /\ In d (domains ls) /\ in_box y (sub_ncells d) /\
  forall order, (forall p l, Permutation (order p l) l) ->
  exists m', atm_cartesian eps 2 1 (corner 1 [0] (sub_offset_ncells d)) (sub_ncells d) 0 false 0 8 0
       (fun _ v => v) setter 1 (order (sub_offset_ndomains d)) (st (sub_offset_ndomains d)) = Ok m' /\
  m' Ex1 (loc 2 y) <> enforced 1 [0] 0 false (field_surface false 8 0) (fun _ v => v) setter electric F Ex1 (map2 Z.add (sub_offset_ncells d) y).
Proof. exact inside_refuted. Qed.
Print Assumptions C77_inside_refuted.
