(** C39: moving the window. *)
From Coq Require Import ZArith List Bool Lia Permutation Reals.
From Verif Require Import Base DecompModel DecompSpec DirsModel DirsSpec TopoModel TopoSpec HaloModel HaloSpec HaloTop
  PrtlModel PrtlSpec PrtlCommModel PrtlCommSpec PrtlCommTop WindowModel WindowSpec WindowFields WindowTop WindowPrtl.
Import ListNotations.
Open Scope Z_scope.

(** Fields.  [G] is the field on the grid when the window is moved by [s] cells, at most the ghost
    width, along dimension [k]; ghost cells have been exchanged.  On every subdomain, for every
    decomposition, every order of the loops and every interleaving of the two exchanges: an active
    cell ends up with the value [s] cells higher on the grid; next to an upper boundary that is
    not periodic, with what that boundary's ghost cell held. *)
Theorem C39_fields_move_by_the_shift_partial :
  forall (V : Type) g ls gbc k s, wide g ls -> length gbc = length ls -> paired_flds gbc -> dimension (length ls) ->
  (k < length ls)%nat -> 0 <= s <= g -> Forall (Forall (fun n => n + 2 * g < 2 ^ 32)) ls ->
  forall (s0 s1 : hstate V) (G : list Z -> V) es, fresh s0 -> holds g ls (fld s0) G ->
  Forall (wf_event ls) es -> all_received ls es -> hexec g ls gbc s0 es = Some s1 ->
  forall order F, (forall o, in_box o (counts ls) -> full_loop g k s (size ls o) (order o)) ->
  (forall o, in_box o (counts ls) -> shift_fields g k s (size ls o) (order o) (fld s1 o) = Ok (F o)) ->
  forall s2 es', Forall (wf_event ls) es' ->
  hexec g ls gbc {| fld := F; msg := fun _ _ => None |} es' = Some s2 ->
  forall d z, In d (domains ls) -> in_box z (sub_ncells d) ->
  let o := sub_offset_ndomains d in
  let c := map2 Z.add (sub_offset_ncells d) z in
  (nth k c 0 + s < nth k (map sumZ ls) 1 \/ periodic_in gbc k = true ->
     fld s2 o (loc g z) = G (above_wrapped (map sumZ ls) k s c)) /\
  (nth k (map sumZ ls) 1 <= nth k c 0 + s -> periodic_in gbc k = false ->
     fld s2 o (loc g z) = fld s0 o (loc g (above k s z))).
Proof. exact @window_fields. Qed.
Print Assumptions C39_fields_move_by_the_shift_partial.

(** On a periodic grid all cells, ghost cells included, end up with the field moved by [s]. *)
Theorem C39_periodic_fields_move_partial :
  forall (V : Type) g ls gbc k s, wide g ls -> length gbc = length ls -> paired_flds gbc ->
  (k < length ls)%nat -> 0 <= s <= g -> Forall (Forall (fun n => n + 2 * g < 2 ^ 32)) ls ->
  forall (s0 s1 : hstate V) (G : list Z -> V) es, fresh s0 -> holds g ls (fld s0) G ->
  Forall (wf_event ls) es -> all_received ls es -> hexec g ls gbc s0 es = Some s1 ->
  forall order F, (forall o, in_box o (counts ls) -> full_loop g k s (size ls o) (order o)) ->
  (forall o, in_box o (counts ls) -> shift_fields g k s (size ls o) (order o) (fld s1 o) = Ok (F o)) ->
  forall s2 es', Forall (wf_event ls) es' ->
  hexec g ls gbc {| fld := F; msg := fun _ _ => None |} es' = Some s2 ->
  all_periodic gbc -> all_received ls es' ->
  forall d y, In d (domains ls) -> in_extended g y (sub_ncells d) ->
  fld s2 (sub_offset_ndomains d) (loc g y) = G (above_wrapped (map sumZ ls) k s (wrapped ls d y)).
Proof. exact @window_periodic. Qed.
Print Assumptions C39_periodic_fields_move_partial.

(** The loop is defined exactly for shifts from 0 to the extended width of the subdomain. *)
Theorem C39_shift_is_defined :
  forall (V : Type) g k s n, (k < length n)%nat -> forall order (f : list Z -> V),
  0 <= s <= nth k n 0 + 2 * g -> nth k n 0 + 2 * g < 2 ^ 32 -> full_loop g k s n order ->
  exists F, shift_fields g k s n order f = Ok F /\
    forall z, in_extended g z n ->
      F (loc g z) = if nth k z 0 + s <? nth k n 0 + g then f (loc g (above k s z)) else f (loc g z).
Proof. exact @shift_defined. Qed.
Print Assumptions C39_shift_is_defined.
Theorem C39_other_shifts_are_undefined :
  forall (V : Type) g k s n, (k < length n)%nat -> forall order (f : list Z -> V),
  0 <= g -> Forall (fun a => 0 < a) n ->
  nth k n 0 + 2 * g < 2 ^ 31 -> - 2 ^ 31 <= s < 2 ^ 31 -> ~ 0 <= s <= nth k n 0 + 2 * g ->
  full_loop g k s n order -> shift_fields g k s n order f = UB.
Proof. exact @shift_undefined. Qed.
Print Assumptions C39_other_shifts_are_undefined.

(** A shift larger than the ghost width is not carried out: the cells of a subdomain within
    [s - g] of its upper side keep their old value, on interior subdomains too. *)
Theorem C39_larger_shifts_leave_stale_cells :
  forall (V : Type) g ls gbc k s, wide g ls -> length gbc = length ls -> paired_flds gbc -> dimension (length ls) ->
  (k < length ls)%nat -> Forall (Forall (fun n => n + 2 * g < 2 ^ 32)) ls ->
  forall (s1 s2 : hstate V) order F es',
  (forall o, in_box o (counts ls) -> 0 <= s <= nth k (size ls o) 0 + 2 * g) ->
  (forall o, in_box o (counts ls) -> full_loop g k s (size ls o) (order o)) ->
  (forall o, in_box o (counts ls) -> shift_fields g k s (size ls o) (order o) (fld s1 o) = Ok (F o)) ->
  Forall (wf_event ls) es' -> hexec g ls gbc {| fld := F; msg := fun _ _ => None |} es' = Some s2 ->
  forall d z, In d (domains ls) -> in_box z (sub_ncells d) ->
  nth k (sub_ncells d) 0 + g <= nth k z 0 + s ->
  fld s2 (sub_offset_ndomains d) (loc g z) = fld s1 (sub_offset_ndomains d) (loc g z).
Proof. exact @stale_cells. Qed.
Print Assumptions C39_larger_shifts_leave_stale_cells.

(** Two subdomains of five cells, [G c = c].  Shift 2: cell 3 of rank 0 gets 5, cell 4 of rank 1
    gets 1 (periodic).  Shift 3 with two ghost cells: cell 4 of rank 0 keeps 4 instead of 7. *)
Definition win_order (s : Z) : list (list Z) := box (map (pair 0) (ends 2 0 s [5])).
Definition win_run (s : Z) : option (hstate Z) :=
  let ls := [[5; 5]] in
  let gbc := [(F_PERIODIC, F_PERIODIC)] in
  match hexec 2 ls gbc {| fld := fun o x => nth 0 x 0 - 2 + 5 * nth 0 o 0; msg := fun _ _ => None |} (rounds ls (all_dirs 1)) with
  | Some s1 => hexec 2 ls gbc {| fld := fun o => match shift_fields 2 0 s (size ls o) (win_order s) (fld s1 o) with Ok f => f | _ => fun _ => -1 end;
                                  msg := fun _ _ => None |} (rounds ls (all_dirs 1))
  | None => None
  end.
Example C39_fields_case :
  wide 2 [[5; 5]] /\ full_loop 2 0 2 [5] (win_order 2) /\
  match win_run 2 with Some s => fld s [0] [5] = 5 /\ fld s [1] [6] = 1 /\ fld s [0] [7] = 7 | None => False end /\
  match win_run 3 with Some s => fld s [0] [6] = 4 | None => False end.
Proof.
  split; [split; [lia|]; repeat (apply Forall_cons || apply Forall_nil); split; (discriminate || reflexivity)|].
  split; [apply Permutation_refl|]. split; vm_compute; auto.
Qed.

(** Particles.  Every subdomain at least [s] cells wide along [k], capacity for what arrives.
    For every decomposition and thread order: the live particles of all subdomains afterwards are
    those of before, [s] cells lower on the grid and otherwise the same, without those that leave
    through a boundary that is not periodic; each lies in an active cell of its subdomain; and,
    if the direction is periodic or cut into at least two subdomains, no send tag is left. *)
Theorem C39_particles_move_by_the_shift_partial :
  forall ls gbc c sc k s st order order',
  length gbc = length ls -> paired_flds gbc -> dimension (length ls) -> dim c = length ls ->
  (k < length ls)%nat -> 0 <= s -> wide 0 ls -> Forall (fun n => s <= n) (nth k ls []) ->
  (forall o, in_box o (counts ls) -> well_kept (size ls o) c (st o)) ->
  (forall o, in_box o (counts ls) -> Permutation (order o) (seq 0 (np (st o)))) ->
  (forall o, in_box o (counts ls) -> Permutation (order' o) (seq 0 (np (st o)))) ->
  (forall o n, Permutation (o_prep sc o n) (seq 0 n)) ->
  (forall o dir n, Permutation (o_pop sc o dir n) (seq 0 n)) ->
  (forall o n, Permutation (o_ext sc o n) (seq 0 n)) ->
  exists st1,
  (forall o, in_box o (counts ls) -> move_particles c k s (size ls o) (order o) (order' o) (st o) = Ok (st1 o)) /\
  ((forall b, in_box b (counts ls) -> (np (st b) + length (incoming ls gbc c st1 b) < maxp (st b))%nat) ->
   exists st', (forall b, in_box b (counts ls) -> comm_particles ls gbc c sc st1 b = Ok (st' b)) /\
     Permutation (everywhere ls c live st') (windowed ls gbc c k s st) /\
     (forall b p, in_box b (counts ls) -> In p (live (st' b)) -> in_box (cell c (st' b) p) (size ls b)) /\
     (periodic_in gbc k = true \/ (1 < length (nth k ls []))%nat ->
      forall b, in_box b (counts ls) -> well_kept (size ls b) c (st' b))).
Proof. exact window_particles_ex. Qed.
Print Assumptions C39_particles_move_by_the_shift_partial.

(** Two subdomains of six and five cells with particles in cells 0 and 4 of each, moved by two:
    with open boundaries one particle leaves, with periodic ones none. *)
Example C39_particles_case :
  well_kept (size ex_ls [1]) ex_c (win_st [1]) /\
  (forall b, In b [[0]; [1]] -> (np (win_st b) + length (incoming ex_ls lost_bc ex_c (win_moved ex_ls) b) < maxp (win_st b))%nat) /\
  map (fun v => (nth 0 v 0, nth 8 v 0)) (windowed ex_ls lost_bc ex_c 0 2 win_st) = [(2, 1); (4, 100); (8, 101)] /\
  map (fun v => (nth 0 v 0, nth 8 v 0)) (windowed ex_ls ex_bc ex_c 0 2 win_st) = [(9, 0); (2, 1); (4, 100); (8, 101)].
Proof.
  split; [|split; [|split; vm_compute; reflexivity]].
  - change (size ex_ls [1]) with [5]. split; [cbn; lia|]. split; [auto|]. intros p Hp. unfold live in Hp. apply filter_In in Hp as [Hp _]. apply in_seq in Hp.
    cbn in Hp. cbn. constructor; [|constructor]. destruct (Nat.eqb p 0); lia.
  - intros b [<-|[<-|[]]]; vm_compute; lia.
Qed.

(** One subdomain along an open direction: nothing is exchanged there, and a particle that leaves
    the window keeps a tag that is neither dead nor alive, which the next push and the next
    removal of dead particles report as an error. *)
Theorem C39_single_subdomain_keeps_tag_refuted : exists st',
  well_kept [6] ex_c (win_st [0]) /\
  comm_particles [[6]] lost_bc ex_c ex_sc (win_moved [[6]]) [0] = Ok st' /\
  (0 < np st')%nat /\ tg st' 0 <> 0 /\ tg st' 0 <> 1.
Proof. exact single_rank_tag. Qed.
Print Assumptions C39_single_subdomain_keeps_tag_refuted.

(** Extents.  After any history of non-zero shifts, what is [n] cells lower on the mesh is at the
    same place in space, and the cell size is unchanged. *)
Theorem C39_places_are_kept : forall hist m,
  Forall (fun h => fst h <> 0 /\ (snd h < length (ext m))%nat) hist ->
  exists m', shifts_mesh hist m = Ok m' /\ length (ext m') = length (ext m) /\ mdx m' = mdx m /\
  forall j x, (j < length (ext m))%nat -> place_of m' j (x - IZR (total_shift hist j))%R = place_of m j x.
Proof. exact shifts_mesh_keep. Qed.
Print Assumptions C39_places_are_kept.

Example C39_places_case :
  let hist := [(2, 0%nat); (3, 1%nat); (2, 0%nat)] in
  Forall (fun h => fst h <> 0 /\ (snd h < 2)%nat) hist /\ total_shift hist 0 = 4 /\ total_shift hist 1 = 3.
Proof. cbv zeta. split; [|auto]. repeat (apply Forall_cons || apply Forall_nil); cbn; lia. Qed.
