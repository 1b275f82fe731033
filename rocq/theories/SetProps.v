(** Properties: fields set by the problem generator (C80). *)
From Coq Require Import ZArith List Bool Reals Lra Lia Permutation.
From Verif Require Import Base DecompModel DecompSpec FieldModel HaloSpec InterpSpec StepSpec MatchModel SetModel SetSpec SetProofs.
Import ListNotations.
Open Scope R_scope.

(** C80. Initial fields in any metric of special relativity and one to three dimensions: in the active
    cells each component the generator has a function for becomes that function at the component's
    own position, converted there; no other component and no other cell changes, in whatever order
    the cells run. *)
Theorem C80_initial : forall g ph tu setter n order m, (1 <= length n <= 3)%nat -> (forall l, Permutation (order l) l) ->
  exists m', init_fields false g ph tu setter n order m = Ok m' /\
  (forall c y, in_box y n -> m' c (loc g y) = match setter c with Some f => tu (S (axis_of c)) (place c y) (f (ph (place c y))) | None => m c (loc g y) end) /\
  (forall c y, ~ in_box y n -> m' c (loc g y) = m c (loc g y)).
Proof. exact initial_sr. Qed.
Print Assumptions C80_initial.

Example C80_initial_case : in_box [1%Z; 0%Z] [2%Z; 2%Z] /\ place Ex1 [1%Z; 0%Z] = [3 / 2; 0] /\ place Bx3 [1%Z; 0%Z] = [3 / 2; 1 / 2].
Proof. split; [repeat constructor; lia|]. unfold place; cbn; unfold ShapeSpec.node. split; repeat (apply f_equal2; [lra|]); reflexivity. Qed.

(** C80. However the grid is divided: the active cells together hold the user's functions on the whole
    grid. *)
Theorem C80_divided : forall g ls PH TU ph tu setter order st F, (1 <= length ls <= 3)%nat ->
  (forall d p, ph d p = PH (shifted (sub_offset_ncells d) p)) -> (forall d a p v, tu d a p v = TU a (shifted (sub_offset_ncells d) p) v) ->
  (forall p l, Permutation (order p l) l) -> agree_active g ls st F ->
  let run d := init_fields false g (ph d) (tu d) setter (sub_ncells d) (order (sub_offset_ndomains d)) (st (sub_offset_ndomains d)) in
  (forall d, In d (domains ls) -> exists m, run d = Ok m) /\
  forall st', (forall d, In d (domains ls) -> run d = Ok (st' (sub_offset_ndomains d))) -> agree_active g ls st' (initial PH TU setter F).
Proof. exact divided_initial. Qed.
Print Assumptions C80_divided.

Example C80_divided_case : forall p, shifted [4%Z] [p] = [4 + p] /\ initial (fun x => x) (fun _ _ v => v) (fun c => match c with Bx1 => Some (fun x => 2 * nth 0 x 0) | _ => None end) (fun _ _ => 7) Bx1 [3%Z] = 6 /\
  initial (fun x => x) (fun _ _ v => v) (fun c => match c with Bx1 => Some (fun x => 2 * nth 0 x 0) | _ => None end) (fun _ _ => 7) Ex1 [3%Z] = 7.
Proof. intro p. split; [reflexivity|]. split; [|reflexivity]. unfold initial, place; cbn; unfold ShapeSpec.node; lra. Qed.

(** C80. General relativity: the same without conversion, for the electric and for the magnetic
    components separately, provided the generator has all three functions. *)
Theorem C80_initial_gr : forall g ph tu setter n order m, (2 <= length n <= 3)%nat -> (forall l, Permutation (order l) l) ->
  exists m', init_fields true g ph tu setter n order m = Ok m' /\
  (forall c y, in_box y n -> m' c (loc g y) =
     if forallb (has setter) (if electric c then [Ex1; Ex2; Ex3] else [Bx1; Bx2; Bx3]) then match setter c with Some f => f (ph (place c y)) | None => m c (loc g y) end else m c (loc g y)) /\
  (forall c y, ~ in_box y n -> m' c (loc g y) = m c (loc g y)).
Proof. exact initial_gr. Qed.
Print Assumptions C80_initial_gr.

Example C80_initial_gr_case : forallb (has (fun c => match c with Bx1 | Bx2 | Bx3 => Some (fun _ : list R => 1) | _ => None end)) [Bx1; Bx2; Bx3] = true.
Proof. reflexivity. Qed.

(** C80, refuted in general relativity for each component by itself: with two of the three functions
    nothing is set. *)
Theorem C80_gr_subset_refuted : exists (setter : comp -> option (list R -> R)), setter Bx1 <> None /\ setter Bx2 <> None /\
  forall g ph tu n order m, (2 <= length n <= 3)%nat -> (forall l, Permutation (order l) l) ->
  exists m', init_fields true g ph tu setter n order m = Ok m' /\ forall c y, m' c (loc g y) = m c (loc g y).
Proof. exact gr_subset. Qed.
Print Assumptions C80_gr_subset_refuted.

(** C80, refuted for updates during the run: the kernel never keeps the copy of the fields it is
    given, and any update of any component reads an array that does not exist. *)
Theorem C80_update_refuted : forall g ph tu tt setter n order em c f, setter c = Some f -> (forall l, Permutation (order l) l) -> (exists y, in_box y n) ->
  update_em_fields g ph tu tt setter n order em = UB.
Proof. exact update_undefined. Qed.
Print Assumptions C80_update_refuted.

Example C80_update_case : exists y, in_box y [3%Z; 2%Z].
Proof. exists [2%Z; 1%Z]. repeat constructor; lia. Qed.

(** C80. With the copy in place the update is right: on a divided grid, in any order, each component
    is decided from all fields as they were before, brought to its own position, and set where the
    user's function says so; the other values of the active cells stay. *)
Theorem C80_update_with_copy : forall g ls PH TU TT ph tu tt setter order st F, (1 <= length ls <= 3)%nat -> (1 <= g)%Z ->
  (forall d p, ph d p = PH (shifted (sub_offset_ncells d) p)) -> (forall d a p v, tu d a p v = TU a (shifted (sub_offset_ncells d) p) v) ->
  (forall d p v, tt d p v = TT (shifted (sub_offset_ncells d) p) v) ->
  (forall p l, Permutation (order p l) l) -> agree g ls st F ->
  let run d := custom_run g (ph d) (tu d) (tt d) setter (Some (st (sub_offset_ndomains d))) (order (sub_offset_ndomains d) (active_cells g (sub_ncells d))) (st (sub_offset_ndomains d)) in
  (forall d, In d (domains ls) -> exists m, run d = Ok m) /\
  forall st', (forall d, In d (domains ls) -> run d = Ok (st' (sub_offset_ndomains d))) -> agree_active g ls st' (updated PH TU TT setter F).
Proof. exact divided_update. Qed.
Print Assumptions C80_update_with_copy.

(** C80. What is brought to a component's position is exact for fields that vary linearly. *)
Theorem C80_interpolation : forall t s y a b (f : list Z -> R), (forall k, length k = length y -> f k = affine a b (place s k)) -> length b = length y ->
  brought t s 0 f y = affine a b (place t y).
Proof. exact (fun t s y => brought_affine t s y 0). Qed.
Print Assumptions C80_interpolation.

Example C80_interpolation_case : brought Ex1 Bx1 0 (fun k => affine 1 [2; 3; 5] (place Bx1 k)) [0%Z; 0%Z; 0%Z] = 2.
Proof. rewrite (C80_interpolation Ex1 Bx1 [0%Z; 0%Z; 0%Z] 1 [2; 3; 5]); [|reflexivity|reflexivity]. unfold place; cbn; unfold ShapeSpec.node; lra. Qed.
