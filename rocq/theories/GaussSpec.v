(** Charge of all particles on the periodic grid, and what a run of the engine does with them. *)
From Coq Require Import ZArith List Reals Permutation.
From Verif Require Import Base DecompModel HaloModel HaloSpec TopoModel FieldModel FieldSpec ShapeSpec DepositModel DepositSpec
  InterpSpec StepModel StepSpec EnergySpec FilterSpec.
Import ListNotations.
Open Scope R_scope.

(** Weight of a particle at [x] on node [X] of a periodic axis with [n] cells: the spline at
    every node near the particle that is an image of [X]. *)
Definition axis_weight (o : nat) (n : Z) (x : R) (X : Z) : R :=
  rsum (zrange (Int_part x - 6) (Int_part x + 8))
       (fun k => if Z.eqb (k mod n) (X mod n) then bspline o (x - IZR k) else 0).
Fixpoint node_weight (o : nat) (N : list Z) (x : list R) (X : list Z) : R :=
  match N, x, X with
  | n :: N', a :: x', b :: X' => axis_weight o n a b * node_weight o N' x' X'
  | _, _, _ => 1
  end.

(** A charge and its position on the whole grid; charge collected by node [X]. *)
Definition charge : Type := R * list R.
Definition charge_at (o : nat) (N : list Z) (l : list charge) (X : list Z) : R :=
  rsum l (fun c => fst c * node_weight o N (snd c) X).

(** The charges of all subdomains, before or after the move of the step. *)
Definition placed (pos : mv -> R) (d : subdomain) (p : prtl) : charge :=
  (qw p, map2 (fun o m => IZR o + pos m) (sub_offset_ncells d) (mvs p)).
Definition all_charges (ls : list (list Z)) (pos : mv -> R) (ps : list Z -> list prtl) : list charge :=
  flat_map (fun d => map (placed pos d) (filter (fun p => negb (dead p)) (ps (sub_offset_ndomains d)))) (domains ls).

(** The same charges, listed in any order; positions may differ by whole periods. *)
Definition same_charge (N : list Z) (a b : charge) : Prop :=
  fst a = fst b /\ length (snd a) = length (snd b) /\
  forall i n x y, nth_error N i = Some n -> nth_error (snd a) i = Some x -> nth_error (snd b) i = Some y ->
    exists k : Z, x = y + IZR (k * n).
Definition same_charges (N : list Z) (l l' : list charge) : Prop :=
  exists l'', Permutation l l'' /\ Forall2 (same_charge N) l'' l'.

(** Spline of the charge that the deposit of the build conserves, and the moves for which it
    does: zig-zag (order 0) in one and two dimensions, Esirkepov for orders 1 to 11. *)
Definition charge_order (o : nat) : nat := match o with O => 1 | _ => o end.
Definition good_move (o D : nat) (third : R) (m : mv) : Prop :=
  match o with
  | O => (D <= 2)%nat /\ valid_move m
  | _ => (o <= 11)%nat /\ (D = 3%nat -> third = 1/3) /\ short_move m
  end.

(** One step: the particles that deposit, and the schedule.  Every particle is in its subdomain
    or in the cell next to it, before and after the move (see C19). *)
Definition reachable (o : nat) (n : Z) (m : mv) : Prop :=
  inside_or_next o n (ci m, cdx m) /\ inside_or_next o n (pi m, pdx m).
Definition good_step (o : nat) (ls : list (list Z)) (third inv_dt : R) (nf : nat)
    (q : step_sched * (list Z -> list prtl)) : Prop :=
  let (s, ps) := q in
  good_sched ls (fs s) /\ complete ls (e_j s) /\ length (filters s) = nf /\
  Forall (fun te => any_order (fst te) /\ complete ls (snd te)) (filters s) /\
  forall d, In d (domains ls) ->
    let pd := ps (sub_offset_ndomains d) in
    Permutation (adds s (sub_offset_ndomains d)) (flat_map (deposit (n_ghosts o) o third inv_dt) pd) /\
    Forall (fun p => Forall2 (fun n m => good_move o (length ls) third m /\ reachable o n m) (sub_ncells d) (mvs p)) pd.

(** Between two steps particles may change subdomain and place in their arrays, but none is
    lost, created or moved (C11, C12, C13, C15). *)
Fixpoint carried (ls : list (list Z)) (c : list charge) (l : list (step_sched * (list Z -> list prtl)))
    (c' : list charge) : Prop :=
  match l with
  | [] => same_charges (map sumZ ls) c c'
  | (_, ps) :: l' => same_charges (map sumZ ls) c (all_charges ls before ps)
                     /\ carried ls (all_charges ls now ps) l' c'
  end.

(** Gauss's law on every active node: divergence of E proportional to the filtered charge. *)
Definition gauss (g : Z) (ls : list (list Z)) (K : R) (nf : nat) (rho : list Z -> R) (em : list Z -> fields) : Prop :=
  forall d y, In d (domains ls) -> in_box y (sub_ncells d) ->
  divE (em (sub_offset_ndomains d)) (loc g y) = K * passes nf rho (map2 Z.add (sub_offset_ncells d) y).
