(** Properties: fixed fields at a boundary (C79). *)
From Coq Require Import ZArith List Bool Reals Lra Lia.
From Verif Require Import Base DecompModel DecompSpec FieldModel HaloSpec InterpSpec StepSpec MatchModel MatchSpec MetModel TopoModel HorModel FixModel FixSpec FixProofs.
Import ListNotations.
Open Scope R_scope.

(** C79. On one subdomain: every component that is asked for and that the user fixes takes the user's
    value, converted at the origin of the grid, in every cell beyond the side, ghost cells of the
    other directions included; nothing else changes.  In curvilinear coordinates only the first
    direction is accepted. *)
Theorem C79_values : forall g cartesian o up n tags (on : comp -> bool) tu fix_ F,
  (forall c, on c = true <-> asked tags c) -> (0 <= g)%Z -> (o < length n)%nat ->
  (cartesian = true \/ o = 0%nat -> exists F', fixed_fields_in g cartesian o up n tags tu fix_ F = Ok F' /\
   forall c y, in_extended g y n -> F' c (loc g y) =
     if on c && snd (fix_ c) && past up o (nth o n 0%Z) y then tu (S (axis_of c)) (repeat 0 (length n)) (fst (fix_ c)) else F c (loc g y)) /\
  (cartesian = false -> o <> 0%nat -> fixed_fields_in g cartesian o up n tags tu fix_ F = Err).
Proof. exact fixed_pass. Qed.
Print Assumptions C79_values.

Example C79_values_case : in_extended 2 [5%Z; (-1)%Z] [4%Z; 3%Z] /\ past true 0 4 [5%Z; (-1)%Z] = true /\ past true 0 4 [3%Z; 1%Z] = false /\
  past false 0 4 [(-1)%Z; 4%Z] = true.
Proof. repeat split; repeat constructor; lia. Qed.

(** C79. On a divided grid whose blocks are at least as wide as the ghost layer, the subdomains that
    touch the side together make of any global field the one with the user's values beyond the side,
    in all cells, ghost cells included, whatever the division. *)
Theorem C79_divided : forall g cartesian ls o up tags on tu fix_ st F, wide g ls -> (o < length ls)%nat -> (cartesian = true \/ o = 0%nat) ->
  (forall c, on c = true <-> asked tags c) -> agree g ls st F ->
  let N := nth o (map sumZ ls) 0%Z in
  let run d := if touches up o N d then fixed_fields_in g cartesian o up (sub_ncells d) tags tu fix_ (st (sub_offset_ndomains d)) else Ok (st (sub_offset_ndomains d)) in
  (forall d, In d (domains ls) -> exists m, run d = Ok m) /\
  forall st', (forall d, In d (domains ls) -> run d = Ok (st' (sub_offset_ndomains d))) ->
    agree g ls st' (fixed_past up o N on (fun c => if snd (fix_ c) then Some (tu (S (axis_of c)) (repeat 0 (length ls)) (fst (fix_ c))) else None) F).
Proof. exact divided_fixed. Qed.
Print Assumptions C79_divided.

Example C79_divided_case : let ls := [[4%Z; 3%Z]; [2%Z; 2%Z]] in wide 2 ls /\
  (exists d, In d (domains ls) /\ touches true 0 7 d = true) /\ (exists d, In d (domains ls) /\ touches true 0 7 d = false) /\
  fixed_past true 0 7 (fun c => match c with Ex1 => true | _ => false end) (fun _ => Some 5) (fun _ _ => 1) Ex1 [8%Z; 1%Z] = 5 /\
  fixed_past true 0 7 (fun c => match c with Ex1 => true | _ => false end) (fun _ => Some 5) (fun _ _ => 1) Ex1 [6%Z; 1%Z] = 1.
Proof.
  cbv zeta. split; [split; [lia|repeat constructor; lia]|]. unfold domains. split; [|split; [|split; reflexivity]].
  - eexists. split; [right; left; reflexivity|reflexivity].
  - eexists. split; [left; reflexivity|reflexivity].
Qed.

(** C79. The same for all sides together: the update runs over the sides in a fixed order, and in a
    corner the value of the last side stays. *)
Theorem C79_all_sides : forall g cartesian ls tags on tu (fix_ : nat * bool -> comp -> R * bool) k global local st F,
  wide g ls -> (1 <= length ls <= 3)%nat -> (forall c, on c = true <-> asked tags c) -> agree g ls st F ->
  (forall d s m, k d F_FIXED s m = fixed_fields_in g cartesian (fst s) (snd s) (sub_ncells d) tags tu (fix_ s) m) ->
  (forall s, global s = F_FIXED \/ global s = F_PERIODIC) ->
  (forall d s, global s = F_FIXED -> (cartesian = true \/ fst s = 0%nat) /\
     local d s = if touches (snd s) (fst s) (nth (fst s) (map sumZ ls) 0%Z) d then F_FIXED else F_SYNC) ->
  let run d := sr_field_boundaries (k d) global (local d) (sr_orth (length ls)) (st (sub_offset_ndomains d)) in
  (forall d, In d (domains ls) -> exists m, run d = Ok m) /\
  forall st', (forall d, In d (domains ls) -> run d = Ok (st' (sub_offset_ndomains d))) ->
    agree g ls st' (fold_left (fun F s => match global s with
      | F_FIXED => fixed_past (snd s) (fst s) (nth (fst s) (map sumZ ls) 0%Z) on
          (fun c => if snd (fix_ s c) then Some (tu (S (axis_of c)) (repeat 0%R (length ls)) (fst (fix_ s c))) else None) F
      | _ => F end) (sr_orth (length ls)) F).
Proof. exact divided_sides. Qed.
Print Assumptions C79_all_sides.

Example C79_all_sides_case : sr_orth 3 = [(0, false); (1, false); (2, false); (2, true); (1, true); (0, true)]%nat.
Proof. reflexivity. Qed.

(** C79. A second application of the same values changes nothing. *)
Theorem C79_idempotent : forall up o N on value F, fixed_past up o N on value (fixed_past up o N on value F) = fixed_past up o N on value F.
Proof. exact fixed_twice. Qed.
Print Assumptions C79_idempotent.

Example C79_idempotent_case : fixed_past false 0 7 (fun _ => true) (fun _ => Some 5) (fun _ _ => 1) Bx1 [(-1)%Z] = 5.
Proof. reflexivity. Qed.

(** C79. The two sides are not treated alike: a component on the upper boundary itself is fixed, its
    mirror image on the lower boundary is not. *)
Theorem C79_mirror_refuted : forall N, exists c X X', nth 0 (place c X) 0 + nth 0 (place c X') 0 = IZR N /\ past true 0 N X = true /\ past false 0 N X' = false.
Proof. exact not_mirror. Qed.
Print Assumptions C79_mirror_refuted.

(** C79. In spherical coordinates the value is converted at the innermost radius and on the axis: at
    the outer boundary the second component is not the value the user gave, and the conversion of the
    third divides by zero. *)
Theorem C79_curvilinear_refuted : forall (gh : Z) (g : grid) n1 n2 v F, (1 <= gh)%Z -> (0 < n2)%Z -> nx1 g = n1 -> 0 < x1_min g < x1_max g -> (0 < n1)%Z ->
  0 < s_dth g -> v <> 0 ->
  forall fix_ : comp -> R * bool, fix_ Ex2 = (v, true) -> exists F', fixed_fields_in gh false 0 true [n1; n2] tag_e (spherical_tu g) fix_ F = Ok F' /\
    s_transform1 g 2 IU IT (IZR n1, 0) (F' Ex2 (loc gh [n1; 0%Z])) = Some (v * (x1_max g / x1_min g)) /\ v * (x1_max g / x1_min g) <> v.
Proof. exact curvilinear. Qed.
Print Assumptions C79_curvilinear_refuted.

Theorem C79_axis_refuted : forall g : grid, x2_min g = 0 -> s_sqrt_h g 3 (0, 0) = 0.
Proof. exact third_divisor. Qed.
Print Assumptions C79_axis_refuted.

Example C79_curvilinear_case : let g := Grid 10 8 1 1 2 0 PI 0 1 in nx1 g = 10%Z /\ 0 < x1_min g < x1_max g /\ 0 < s_dth g /\ x2_min g = 0.
Proof. cbv zeta. unfold s_dth; cbn. pose proof PI_RGT_0. repeat split; try lra; apply Rdiv_lt_0_compat; lra. Qed.
