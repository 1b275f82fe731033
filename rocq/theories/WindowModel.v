(** The moving window: src/archetypes/moving_window.h and
    src/framework/domain/metadomain_reshape.cpp.

    One component of the field array is modelled (the six are copied by the same statements) and
    one species.  Every rank holds one subdomain.  The exchanges at the end of the function are
    those of HaloModel and PrtlCommModel.  Dimension [k] is the template argument [o], from 0. *)
From Coq Require Import ZArith List Bool Reals.
From Verif Require Import Base DecompModel DirsModel HaloModel PrtlModel PrtlCommModel.
Import ListNotations.
Open Scope Z_scope.

(** Entry [k] of a list. *)
Fixpoint at_dim {A} (k : nat) (f : A -> A) (x : list A) : list A :=
  match x, k with
  | [], _ => []
  | a :: x', O => f a :: x'
  | a :: x', S k' => a :: at_dim k' f x'
  end.

Section Fields.
  Context {V : Type}.
  (** Ghost width, dimension, [window_shift], active cells of the subdomain. *)
  Variables (g : Z) (k : nat) (s : Z) (n : list Z).
  Definition n_all : list Z := map (fun a => a + 2 * g) n.
  (** moving_window.h:246-257: upper ends of the loop, in unsigned arithmetic. *)
  Definition ends : list Z := at_dim k (fun a => w32 (a - s)) n_all.
  Definition inside (x : list Z) : bool := in_slices x (map (pair 0) n_all).

  (** moving_window.h:48-134: the body of the loop, [bckp] the copy taken at line 279. *)
  Definition shift_cell (bckp : list Z -> V) (acc : res (list Z -> V)) (x : list Z) : res (list Z -> V) :=
    rbind acc (fun f =>
      let src := at_dim k (fun a => a + s) x in
      if inside x && inside src then Ok (fun y => if list_eqb y x then bckp src else f y) else UB).
  (** moving_window.h:258-313; [order]: the loop over [0, ends) in any order. *)
  Definition shift_fields (order : list (list Z)) (f : list Z -> V) : res (list Z -> V) :=
    if Nat.ltb k (length n) then fold_left (shift_cell f) order (Ok f) else Err.
End Fields.

(** moving_window.h:150-204: [i(p) -= window_shift]. *)
Definition move_one (k : nat) (s : Z) (st : parts) (p : nat) : parts := shift_at p (- s) st (I (S k)).
(** moving_window.h:206-242 (MPI builds). *)
Definition retag_one (c : cfg) (n : list Z) (acc : res parts) (p : nat) : res parts :=
  rbind acc (fun st =>
  rbind (retag (tg st p) (map (fun d => ar st (I d) p) (seq 1 (dim c))) n) (fun t =>
  Ok (with_tg st (upd (tg st) p t)))).
(** [n]: active cells; the thread orders of the two loops. *)
Definition move_particles (c : cfg) (k : nat) (s : Z) (n : list Z) (order order' : list nat) (st : parts) : res parts :=
  if Nat.ltb k (dim c) then fold_left (retag_one c n) order' (Ok (fold_left (move_one k s) order st)) else Err.

(** metadomain_reshape.cpp:14-44, for one mesh: extent per dimension and resolution in x1.
    minkowski.h: the cell size is that of the first dimension. *)
Record emesh := { ext : list (R * R); res1 : Z }.
Definition mdx (m : emesh) : R :=
  match ext m with (lo, hi) :: _ => ((hi - lo) / IZR (res1 m))%R | [] => 0%R end.
Definition shift_mesh (ncells : Z) (k : nat) (m : emesh) : res emesh :=
  if ncells =? 0 then Err
  else let d := (IZR ncells * mdx m)%R in
    Ok {| ext := at_dim k (fun e => (fst e + d, snd e + d)%R) (ext m); res1 := res1 m |}.
