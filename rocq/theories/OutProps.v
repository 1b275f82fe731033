(** C37: downsampled field output. *)
From Coq Require Import ZArith List Bool Reals Lra Lia Permutation.
From Verif Require Import Base DecompModel DecompSpec HaloSpec OutModel OutSpec OutProofs OutTop.
Import ListNotations.
Open Scope Z_scope.

(** The subdomains hold the global field [G] in their active cells and write, in any order:
    element [j] of the file is the field at cell [j * dwn], for every multiple inside the
    grid, and no other element is written. *)
Theorem C37_file_is_strided : forall (V : Type) w ls dwn (F : list Z -> list Z -> V) G order,
  Forall (Forall (fun a => 0 < a)) ls -> Forall (fun l => sumZ l < 2 ^ 32) ls ->
  length dwn = length ls -> Forall (fun d => 1 <= d < 2 ^ 32) dwn ->
  holds w ls F G -> Permutation order (domains ls) ->
  exists file, write_var w false (map sumZ ls) (counts ls) dwn F order = Ok file /\
    (forall j, length j = length dwn -> in_box (sampled dwn j) (map sumZ ls) -> file j = Some (G (sampled dwn j))) /\
    (forall j, length j = length dwn -> ~ in_box (sampled dwn j) (map sumZ ls) -> file j = None).
Proof. exact (fun V w ls dwn F G order POS SMALL LD DW HG => file_is_strided w ls dwn F G POS SMALL LD DW HG order). Qed.
Print Assumptions C37_file_is_strided.

(** Every element of the file lies in the block of exactly one subdomain. *)
Theorem C37_written_once : forall w ls dwn,
  Forall (Forall (fun a => 0 < a)) ls -> Forall (fun l => sumZ l < 2 ^ 32) ls ->
  length dwn = length ls -> Forall (fun d => 1 <= d < 2 ^ 32) dwn ->
  forall j, length j = length dwn -> in_box (sampled dwn j) (map sumZ ls) ->
  exists! p : nat * list Z, exists s L, nth_error (domains ls) (fst p) = Some s /\
    init_layout w false (map sumZ ls) (counts ls) dwn s = Ok L /\
    in_box (snd p) (map shape_dwn L) /\ j = map2 Z.add (map corner_dwn L) (snd p).
Proof. exact once. Qed.
Print Assumptions C37_written_once.

(** All subdomains declare the same shape: the elements that exist are those written. *)
Theorem C37_declared_shape : forall w ls dwn s L,
  Forall (Forall (fun a => 0 < a)) ls -> Forall (fun l => sumZ l < 2 ^ 32) ls ->
  length dwn = length ls -> Forall (fun d => 1 <= d < 2 ^ 32) dwn ->
  In s (domains ls) -> init_layout w false (map sumZ ls) (counts ls) dwn s = Ok L ->
  forall j, length j = length dwn -> (in_box j (map g_dwn L) <-> in_box (sampled dwn j) (map sumZ ls)).
Proof. exact declared. Qed.
Print Assumptions C37_declared_shape.

(** Coordinates of dimension [k]: centres and lower edges are those of the sampled cells.
    Missing: the last edge, see the refutations. *)
Theorem C37_coordinates_partial : forall ls k d,
  Forall (Forall (fun a => 0 < a)) ls -> Forall (fun l => l <> []) ls -> Forall (fun l => sumZ l < 2 ^ 32) ls ->
  (k < length ls)%nat -> 1 <= d < 2 ^ 32 ->
  forall order, Permutation order (domains ls) ->
  let N := sumZ (nth k ls []) in
  exists xc xe, write_coords N d (map (extent k) order) = Ok (xc, xe) /\
    (forall j, 0 <= j * d < N -> xc j = Some (Some (IZR (j * d) + / 2)%R) /\ xe j = Some (Some (IZR (j * d)))) /\
    (forall j, ~ (0 <= j * d < N) -> xc j = None) /\
    xe (samples N d) = Some (if N - last (nth k ls []) 0 <=? (samples N d - 1) * d then Some (IZR ((samples N d - 1) * d + 1)) else None).
Proof. exact coordinates. Qed.
Print Assumptions C37_coordinates_partial.

(** The last edge is never computed if the last subdomain contains no sampled cell. *)
Theorem C37_last_edge_missing_refuted : exists l d xc xe, Forall (fun a => 5 <= a) l /\ 0 < d /\
  write_coords (sumZ l) d (map (extent 0) (domains [l])) = Ok (xc, xe) /\ xe (samples (sumZ l) d) = Some None.
Proof. exact last_edge_missing. Qed.
Print Assumptions C37_last_edge_missing_refuted.

(** The last edge is not the end of the grid. *)
Theorem C37_last_edge_short_refuted : exists l d xc xe e, Forall (fun a => 5 <= a) l /\ 0 < d /\
  write_coords (sumZ l) d (map (extent 0) (domains [l])) = Ok (xc, xe) /\ xe (samples (sumZ l) d) = Some (Some e) /\ (e < IZR (sumZ l))%R.
Proof. exact last_edge_short. Qed.
Print Assumptions C37_last_edge_short_refuted.

(** output.debug.ghosts always writes past the end of a vector. *)
Theorem C37_ghosts_refuted : forall w N ns dwn s, init_layout w true N ns dwn s = UB.
Proof. exact ghosts_init. Qed.
Print Assumptions C37_ghosts_refuted.

(** A list of factors shorter than the dimension is accepted by the parameter check and read past
    its end. *)
Theorem C37_short_factor_list_refuted : forall w N ns dwn s, (length dwn < length N)%nat ->
  init_layout w false N ns dwn s = UB.
Proof. exact short_dwn. Qed.
Print Assumptions C37_short_factor_list_refuted.

(** A 21 x 8 grid on two subdomains, factors 4 and 3; the second subdomain starts at cell 11. *)
Definition ex_ls : list (list Z) := [[11; 10]; [8]].
Definition ex_F (o x : list Z) : Z := (nth 0 x 0 - 2 + 11 * nth 0 o 0) + 100 * (nth 1 x 0 - 2).
Example ex_case : exists file, write_var 2 false [21; 8] [2; 1] [4; 3] ex_F (domains ex_ls) = Ok file /\
  file [3; 2] = Some 612 /\ file [5; 0] = Some 20 /\ file [6; 0] = None.
Proof.
  destruct (C37_file_is_strided Z 2 ex_ls [4; 3] ex_F (fun c => nth 0 c 0 + 100 * nth 1 c 0) (domains ex_ls)) as (file & E & A & B).
  - repeat constructor; lia.
  - repeat constructor; vm_compute; reflexivity.
  - reflexivity.
  - repeat constructor; vm_compute; congruence.
  - intros s z [<- | [<- | []]] Hz; cbn in Hz; inversion Hz as [|a ? z1 ? A1 B1]; subst; inversion B1 as [|b ? z2 ? A2 B2]; subst; inversion B2; subst; unfold ex_F, loc; cbn -[Z.add Z.mul Z.sub]; lia.
  - apply Permutation_refl.
  - exists file. split; [exact E|]. split; [rewrite A; [reflexivity|reflexivity|]|split; [rewrite A; [reflexivity|reflexivity|]|apply B; [reflexivity|]]].
    + repeat constructor; cbn; lia.
    + repeat constructor; cbn; lia.
    + intros H. inversion H; subst. cbn in *. lia.
Qed.
