(** Vocabulary for the exchange of particles. *)
From Coq Require Import ZArith List Bool Arith Permutation.
From Verif Require Import Base DecompModel DecompSpec DirsModel DirsSpec TopoModel HaloModel HaloSpec
  PrtlModel PrtlSpec.
Import ListNotations.

(** Positions of the subdomains. *)
Definition ranks (ls : list (list Z)) : list (list Z) := map sub_offset_ndomains (domains ls).

(** Slots whose particle carries the tag of [dir]. *)
Definition movers (s : parts) (dir : list Z) : list nat :=
  filter (fun p => match dir2tag dir with Ok t => Z.eqb (tg s p) t | _ => false end) (seq 0 (np s)).

(** Cell index of the same place relative to [b], the neighbour of [o] in [dir], minus the one
    relative to [o]. *)
Definition displacement (ls : list (list Z)) (o b dir : list Z) (k : nat) : Z :=
  (if nth k dir 0 =? -1 then nth k (size ls b) 0
   else if nth k dir 0 =? 1 then - nth k (size ls o) 0 else 0)%Z.
(** A particle with its current and its previous cell displaced. *)
Definition arrived (c : cfg) (disp : nat -> Z) (s : parts) (p : nat) : list Z :=
  map (fun a => (ar s a p + match a with I d | Iprev d => disp (d - 1)%nat | _ => 0 end)%Z) (attrs c).

(** What [b] is to receive. *)
Definition incoming (ls : list (list Z)) (gbc : list (flds_bc * flds_bc)) (c : cfg)
    (st : list Z -> parts) (b : list Z) : list (list Z) :=
  flat_map (fun dir =>
    match recv_from (counts ls) gbc b dir with
    | Some o => map (arrived c (displacement ls o b dir) (st o)) (movers (st o) dir)
    | None => []
    end) (all_dirs (dim c)).

(** A rank ready for the exchange: every particle is dead, alive or tagged for a direction in
    which the rank has somewhere to send to. *)
Definition ready (ls : list (list Z)) (gbc : list (flds_bc * flds_bc)) (o : list Z) (s : parts) : Prop :=
  forall p, p < np s -> tg s p = 0%Z \/ tg s p = 1%Z \/
    exists dir b, nonzero_direction (length ls) dir /\ dir2tag dir = Ok (tg s p) /\
      send_to (counts ls) gbc o dir = Some b.

(** Weaker: the tag is that of some direction. *)
Definition tagged_ok (D : nat) (s : parts) : Prop :=
  forall p, p < np s -> tg s p = 0%Z \/ tg s p = 1%Z \/
    exists dir, nonzero_direction D dir /\ dir2tag dir = Ok (tg s p).
(** [t] is the tag of a direction in which [o] has somewhere to send to. *)
Definition has_partner (ls : list (list Z)) (gbc : list (flds_bc * flds_bc)) (o : list Z) (t : Z) : bool :=
  existsb (fun dir => match dir2tag dir, send_to (counts ls) gbc o dir with
                      | Ok t', Some _ => Z.eqb t t' | _, _ => false end) (all_dirs (length ls)).
(** [t] is the tag of a direction in which [o] sends or receives. *)
Definition in_traffic (ls : list (list Z)) (gbc : list (flds_bc * flds_bc)) (o : list Z) (t : Z) : bool :=
  existsb (fun dir => match dir2tag dir with
                      | Ok t' => Z.eqb t t' && (match send_to (counts ls) gbc o dir with Some _ => true | None => false end
                                             || match recv_from (counts ls) gbc o dir with Some _ => true | None => false end)
                      | _ => false end) (all_dirs (length ls)).
(** The particles that are alive or about to be sent to somebody. *)
Definition destined (ls : list (list Z)) (gbc : list (flds_bc * flds_bc)) (o : list Z) (s : parts) : list nat :=
  filter (fun p => Z.eqb (tg s p) 1 || has_partner ls gbc o (tg s p)) (seq 0 (np s)).

(** The particle with its cells counted in the global periodic grid. *)
Definition in_grid (ls : list (list Z)) (off : list Z) (a : attr) (x : Z) : Z :=
  match a with
  | I d | Iprev d => ((nth (d - 1) off 0 + x) mod nth (d - 1) (map sumZ ls) 1)%Z
  | _ => x
  end.
Definition grid_view (ls : list (list Z)) (c : cfg) (off : list Z) (s : parts) (p : nat) : list Z :=
  map2 (in_grid ls off) (attrs c) (view c s p).
(** Particles that are not dead. *)
Definition not_dead (s : parts) : list nat := filter (fun p => negb (Z.eqb (tg s p) 0)) (seq 0 (np s)).
(** All particles selected by [sel] of all subdomains, with their place in the global grid. *)
Definition everywhere (ls : list (list Z)) (c : cfg) (sel : parts -> list nat) (st : list Z -> parts) : list (list Z) :=
  flat_map (fun d => let o := sub_offset_ndomains d in
     map (grid_view ls c (sub_offset_ncells d) (st o)) (sel (st o))) (domains ls).
Definition everywhere_at (ls : list (list Z)) (c : cfg) (sel : list Z -> parts -> list nat) (st : list Z -> parts) : list (list Z) :=
  flat_map (fun d => let o := sub_offset_ndomains d in
     map (grid_view ls c (sub_offset_ncells d) (st o)) (sel o (st o))) (domains ls).
