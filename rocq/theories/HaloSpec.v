(** Vocabulary for ghost exchange and synchronisation. *)
From Coq Require Import ZArith List Reals.
From Verif Require Import Base DecompModel DecompSpec DirsSpec TopoModel HaloModel.
Import ListNotations.
Open Scope Z_scope.

(** Array index of the cell with coordinates [y] relative to the first active cell. *)
Definition loc (g : Z) (y : list Z) : list Z := map (fun a => a + g) y.

(** [y] is a cell of a subdomain with [n] active cells per dimension, ghosts included. *)
Definition in_extended (g : Z) (y n : list Z) : Prop :=
  Forall2 (fun a b => - g <= a < b + g) y n.

(** Subdomains of a block structure. *)
Definition domains (ls : list (list Z)) : list subdomain := create_domains (prodZ (counts ls)) ls.

(** The active cells of the subdomains hold the global array [G]. *)
Definition holds {V} (g : Z) (ls : list (list Z)) (F : list Z -> list Z -> V) (G : list Z -> V) : Prop :=
  forall d z, In d (domains ls) -> in_box z (sub_ncells d) ->
    F (sub_offset_ndomains d) (loc g z) = G (map2 Z.add (sub_offset_ncells d) z).

(** Periodically wrapped global index of a local cell; [ls] gives the resolution. *)
Definition wrapped (ls : list (list Z)) (d : subdomain) (y : list Z) : list Z :=
  map2 (fun c N => c mod N) (map2 Z.add (sub_offset_ncells d) y) (map sumZ ls).

(** Every subdomain has received the message of every direction of the table. *)
Definition all_received (ls : list (list Z)) (es : list hevent) : Prop :=
  forall d dir, In d (domains ls) -> nonzero_direction (length ls) dir ->
    In (Unpack (sub_offset_ndomains d) dir) es.

(** No message is on its way; events name existing subdomains and directions. *)
Definition fresh {V} (s : hstate V) : Prop := forall o dir, msg s o dir = None.
Definition wf_event (ls : list (list Z)) (e : hevent) : Prop :=
  match e with
  | Pack o dir | Unpack o dir => in_box o (counts ls) /\ nonzero_direction (length ls) dir
  end.

(** Every block is at least as wide as the ghost zone. *)
Definition wide (g : Z) (ls : list (list Z)) : Prop :=
  0 <= g /\ Forall (Forall (fun n => g <= n /\ 0 < n)) ls.

(** The ghost zone in which a cell lies: per dimension -1 (below), 0 (active), 1 (above). *)
Definition zone (y n : list Z) : list Z := map2 side y n.

(** Finite sums of reals. *)
Definition rsum {A} (l : list A) (f : A -> R) : R := fold_right (fun a acc => (f a + acc)%R) 0%R l.

(** lo, lo + 1, ..., hi - 1; and all multi-indices of a box. *)
Definition zrange (lo hi : Z) : list Z :=
  map (fun i => lo + Z.of_nat i) (seq 0 (Z.to_nat (hi - lo))).
Fixpoint box (b : list (Z * Z)) : list (list Z) :=
  match b with
  | [] => [[]]
  | (lo, hi) :: b' => flat_map (fun x => map (cons x) (box b')) (zrange lo hi)
  end.

(** All cells of all subdomains including [g] ghost cells on every side; [cells 0] are the
    active cells. *)
Definition cells (g : Z) (ls : list (list Z)) : list (subdomain * list Z) :=
  flat_map (fun d => map (pair d) (box (map (fun n => (- g, n + g)) (sub_ncells d)))) (domains ls).

(** Two local cells are the same cell of the periodic grid. *)
Definition same_cell (ls : list (list Z)) (c c' : subdomain * list Z) : bool :=
  if list_eq_dec Z.eq_dec (wrapped ls (fst c) (snd c)) (wrapped ls (fst c') (snd c'))
  then true else false.
