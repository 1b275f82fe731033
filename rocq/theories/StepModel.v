(** One step of the special-relativistic engine on a decomposed Cartesian grid, fields and
    currents: src/engines/srpic/srpic.hpp:64-187 ([step_forward]),
    src/engines/srpic/fieldsolvers.h:36-194, src/engines/srpic/currents.h:30-119.

    The state of all subdomains is a function of their position.  Kernels run on every
    subdomain separately; what one subdomain does between two exchanges does not depend on the
    others, so the subdomains are advanced phase by phase.  Inside a phase the threads
    of a kernel run in any order and the events of an exchange are interleaved arbitrarily.
    The particle push, the particle exchange, field boundary conditions (there are none on a
    periodic box) and the injector do not touch the arrays modelled here. *)
From Coq Require Import ZArith List Bool Reals.
From Verif Require Import Base DecompModel DirsModel TopoModel HaloModel FieldModel DepositModel
  FilterModel.
Import ListNotations.
Open Scope R_scope.

Definition obind {A B} (x : option A) (f : A -> option B) : option B :=
  match x with Some a => f a | None => None end.

(** Order in which the threads of a kernel run, by subdomain. *)
Definition threads := list Z -> list (list Z) -> list (list Z).

(** src/framework/domain/grid.cpp:28-86, rangeActiveCells of a grid with [n] active cells:
    i_min .. i_max - 1 in every dimension. *)
Fixpoint range_active (g : Z) (n : list Z) : list (list Z) :=
  match n with
  | [] => [[]]
  | a :: n' => flat_map (fun i => map (cons (i_min g + Z.of_nat i)%Z) (range_active g n'))
                        (seq 0 (Z.to_nat (i_max g a - i_min g)))
  end.

Section Step.
  Variables (g : Z) (ls : list (list Z)) (gbc : list (flds_bc * flds_bc)).
  Let ns := map (fun l => Z.of_nat (length l)) ls.
  Let D := length ls.

  (** Kokkos::parallel_for over the active cells, on every subdomain. *)
  Definition launch {K} (body : list Z -> mem K -> list Z -> mem K) (thr : threads)
      (st : list Z -> mem K) : list Z -> mem K :=
    fun o => par_for (body o) (thr o (range_active g (size ls o))) (st o).

  (** metadomain_comm.cpp:204-367, CommunicateFields for the components [sel]. *)
  Definition communicate {K} (sel : K -> bool) (es : list hevent) (st : list Z -> mem K)
    : option (list Z -> mem K) :=
    match hexec g ls gbc {| fld := fun o x c => st o c x; msg := fun _ _ => None |} es with
    | Some s => Some (fun o c x => if sel c then fld s o x c else st o c x)
    | None => None
    end.
  Definition comm_E (c : comp) : bool := match c with Ex1 | Ex2 | Ex3 => true | _ => false end.
  Definition comm_B (c : comp) : bool := match c with Bx1 | Bx2 | Bx3 => true | _ => false end.

  (** srpic.hpp:69-81: exchange before the first step. *)
  Definition first_exchange (esE esB : list hevent) (em : list Z -> fields) : option (list Z -> fields) :=
    obind (communicate comm_B esB em) (communicate comm_E esE).

  (** Physical inputs of the solver: tuning of the Faraday stencil, [correction * dt], cell
      size, and the coefficient of the currents (fieldsolvers.h:157, -dt q0 / (B0 V0)). *)
  Record solver := { tune : fcoef; sdt : R; sdx : R; scur : R }.
  (** fieldsolvers.h:44-93: arguments of the Faraday kernel; [fraction] of the step. *)
  Definition faraday_args (p : solver) (fraction : R) : fcoef :=
    let dT := fraction * sdt p in
    let k := tune p in
    {| coeff1 := solver_c1 D dT (sdx p); coeff2 := solver_c2 D dT;
       deltax := deltax k; deltay := deltay k; betaxy := betaxy k; betayx := betayx k;
       deltaz := deltaz k; betaxz := betaxz k; betazx := betazx k; betayz := betayz k; betazy := betazy k |}.
  Definition faraday (p : solver) (fraction : R) (thr : threads) (em : list Z -> fields) : list Z -> fields :=
    launch (fun _ => faraday_mink (faraday_args p fraction)) thr em.
  Definition ampere (p : solver) (fraction : R) (thr : threads) (em : list Z -> fields) : list Z -> fields :=
    let dT := fraction * sdt p in
    launch (fun _ => ampere_mink (solver_c1 D dT (sdx p)) (solver_c2 D dT)) thr em.
  Definition currents_ampere (p : solver) (thr : threads) (cur : list Z -> currents) (em : list Z -> fields)
    : list Z -> fields :=
    launch (fun o => currents_mink (scur p) (cur o)) thr em.

  (** Schedules of one field-solver step. *)
  Record field_sched := {
    t_far1 : threads; e_b1 : list hevent; t_far2 : threads; e_b2 : list hevent;
    t_amp : threads; t_cur : threads; e_e : list hevent
  }.
  (** srpic.hpp:83-103 and 136-168: first and second half, with the currents of this step. *)
  Definition field_step (p : solver) (s : field_sched) (cur : list Z -> currents) (em : list Z -> fields)
    : option (list Z -> fields) :=
    obind (communicate comm_B (e_b1 s) (faraday p (/ 2) (t_far1 s) em)) (fun em =>
    obind (communicate comm_B (e_b2 s) (faraday p (/ 2) (t_far2 s) em)) (fun em =>
    communicate comm_E (e_e s) (currents_ampere p (t_cur s) cur (ampere p 1 (t_amp s) em)))).

  Fixpoint field_run (p : solver) (l : list (field_sched * (list Z -> currents))) (em : list Z -> fields)
    : option (list Z -> fields) :=
    match l with
    | [] => Some em
    | (s, cur) :: l' => obind (field_step p s cur em) (field_run p l')
    end.

  (** ** Currents *)

  (** currents.h:30-62, 64-88: deposit of one subdomain, [cs]: the atomic additions of all
      particles of all species, in the order they happen; the array starts at zero. *)
  Definition deposited (cs : list Z -> list contrib) : list Z -> currents :=
    fun o => scatter (cs o) (fun _ _ => 0).
  (** metadomain_comm.cpp:408-562, SynchronizeFields(Comm::J). *)
  Definition sync_currents (cur : list Z -> currents) : list Z -> currents :=
    fun o c x => synchronize g ls gbc (fun o' x' => cur o' c x') D o x.

  (** grid.cpp:165-187, Mesh::flds_bc() of the subdomain at [o]: conditions of its faces. *)
  Definition face (k : nat) (s : Z) : list Z := repeat 0%Z k ++ [s] ++ repeat 0%Z (D - S k).
  Definition is_bc (b : flds_bc) (o dir : list Z) : bool :=
    if flds_bc_eq_dec (flds_bc_in ns gbc o dir) b then true else false.
  (** currents.h:97-108 and digital_filter.hpp:71-101. *)
  Definition filter_args (o : list Z) : filter_cfg :=
    {| fcart := true;
       faxis := (Nat.eqb D 2 && is_bc F_AXIS o (face 1 (-1)), Nat.eqb D 2 && is_bc F_AXIS o (face 1 1));
       fcond := map (fun k => (is_bc F_CONDUCTOR o (face k (-1)), is_bc F_CONDUCTOR o (face k 1))) (seq 0 D);
       fmin := g; fmax := map (fun n => (n + g)%Z) (size ls o) |}.
  (** currents.h:107-117: one pass. *)
  Definition filter_pass (thr : threads) (es : list hevent) (cur : list Z -> currents) : option (list Z -> currents) :=
    communicate (fun _ => true) es (launch (fun o => filter_body (filter_args o) (cur o)) thr cur).
  Fixpoint filter_passes (l : list (threads * list hevent)) (cur : list Z -> currents) : option (list Z -> currents) :=
    match l with
    | [] => Some cur
    | (thr, es) :: l' => obind (filter_pass thr es cur) (filter_passes l')
    end.

  (** srpic.hpp:114-127. *)
  Definition current_phase (cs : list Z -> list contrib) (es : list hevent) (l : list (threads * list hevent))
    : option (list Z -> currents) :=
    obind (communicate (fun _ => true) es (sync_currents (deposited cs))) (filter_passes l).

  (** A whole step: the currents enter the second half. *)
  Record step_sched := { adds : list Z -> list contrib; e_j : list hevent;
                         filters : list (threads * list hevent); fs : field_sched }.
  Definition pic_step (p : solver) (s : step_sched) (em : list Z -> fields) : option (list Z -> fields) :=
    obind (current_phase (adds s) (e_j s) (filters s)) (fun cur => field_step p (fs s) cur em).
  Fixpoint pic_run (p : solver) (l : list step_sched) (em : list Z -> fields) : option (list Z -> fields) :=
    match l with
    | [] => Some em
    | s :: l' => obind (pic_step p s em) (pic_run p l')
    end.
End Step.
