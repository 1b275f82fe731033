(** Vocabulary for the moving window. *)
From Coq Require Import ZArith List Bool Reals Permutation.
From Verif Require Import Base DecompModel DecompSpec DirsModel DirsSpec TopoModel TopoSpec HaloModel HaloSpec
  PrtlModel PrtlSpec PrtlCommModel PrtlCommSpec WindowModel.
Import ListNotations.
Open Scope Z_scope.

(** The cell [s] higher in dimension [k], and the same in a periodic grid with [Ns] cells per dimension. *)
Definition above (k : nat) (s : Z) (x : list Z) : list Z := at_dim k (fun a => a + s) x.
Definition above_wrapped (Ns : list Z) (k : nat) (s : Z) (x : list Z) : list Z :=
  at_dim k (fun a => (a + s) mod nth k Ns 1) x.

(** The loop of the kernel runs over all cells from which the shift can be copied, in any order. *)
Definition full_loop (g : Z) (k : nat) (s : Z) (n : list Z) (order : list (list Z)) : Prop :=
  Permutation order (box (map (pair 0) (ends g k s n))).

Definition periodic_in (gbc : list (flds_bc * flds_bc)) (k : nat) : bool :=
  if flds_bc_eq_dec (fst (nth k gbc (F_INVALID, F_INVALID))) F_PERIODIC then true else false.

(** The particle in slot [p] as it should be after the shift, on the global periodic grid: its cell
    in dimension [k] is [s] lower. *)
Definition window_view (ls : list (list Z)) (c : cfg) (k : nat) (s : Z) (off : list Z) (st : parts) (p : nat) : list Z :=
  map (fun a => in_grid ls off a (if attr_eq_dec a (I (S k)) then ar st a p - s else ar st a p)) (attrs c).
(** It stays in the window. *)
Definition stays (gbc : list (flds_bc * flds_bc)) (k : nat) (s : Z) (off : list Z) (st : parts) (p : nat) : bool :=
  periodic_in gbc k || (s <=? nth k off 0 + ar st (I (S k)) p).
(** All live particles of all subdomains that stay, after the shift. *)
Definition windowed (ls : list (list Z)) (gbc : list (flds_bc * flds_bc)) (c : cfg) (k : nat) (s : Z)
    (st : list Z -> parts) : list (list Z) :=
  flat_map (fun d => let o := sub_offset_ndomains d in let off := sub_offset_ncells d in
    map (window_view ls c k s off (st o)) (filter (stays gbc k s off (st o)) (live (st o)))) (domains ls).

(** Place in space of code coordinate [x] in dimension [j]. *)
Definition place_of (m : emesh) (j : nat) (x : R) : R := (fst (nth j (ext m) (0, 0)) + x * mdx m)%R.
(** A history of window moves. *)
Fixpoint shifts_mesh (hist : list (Z * nat)) (m : emesh) : res emesh :=
  match hist with
  | [] => Ok m
  | (n, k) :: hist' => rbind (shift_mesh n k m) (shifts_mesh hist')
  end.
Definition total_shift (hist : list (Z * nat)) (j : nat) : Z :=
  sumZ (map (fun h => if Nat.eqb (snd h) j then fst h else 0) hist).
