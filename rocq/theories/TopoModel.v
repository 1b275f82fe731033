(** Boundary conditions of subdomains and choice of communication partners:
    src/framework/domain/metadomain.cpp:235-322 and
    src/framework/domain/metadomain_comm.cpp:35-202.

    A subdomain is identified by its position [o] in the grid of subdomains (one integer
    per dimension); [ns] is the number of subdomains per dimension.  DecompProps proves that
    positions and subdomain indices are in bijection. *)
From Coq Require Import ZArith List Bool.
From Verif Require Import Base DecompModel DirsModel.
Import ListNotations.
Open Scope Z_scope.

(** src/global/enums.h, [FldsBC::type]. *)
Inductive flds_bc :=
  F_INVALID | F_PERIODIC | F_MATCH | F_FIXED | F_ATMOSPHERE | F_CUSTOM | F_HORIZON
| F_AXIS | F_CONDUCTOR | F_SYNC.
(** src/global/enums.h, [PrtlBC::type]. *)
Inductive prtl_bc :=
  P_INVALID | P_PERIODIC | P_ABSORB | P_ATMOSPHERE | P_CUSTOM | P_REFLECT | P_HORIZON
| P_AXIS | P_SYNC.

Definition flds_bc_eq_dec (a b : flds_bc) : {a = b} + {a <> b}.
Proof. decide equality. Defined.
Definition prtl_bc_eq_dec (a b : prtl_bc) : {a = b} + {a <> b}.
Proof. decide equality. Defined.

(** The code treats field and particle conditions by the same statements; the model is
    written once for a type [B] of conditions with its special values. *)
Section BC.
  Context {B : Type} (eq_dec : forall a b : B, {a = b} + {a <> b})
          (INVALID PERIODIC SYNC : B).

  (** src/framework/domain/metadomain.cpp:242-269: the first non-zero entry of an
      axis-aligned direction decides; [gbc] are the conditions of the global grid. *)
  Fixpoint edge_bc (ns o dir : list Z) (gbc : list (B * B)) : B :=
    match ns, o, dir, gbc with
    | n :: ns', a :: o', d :: dir', (lo, hi) :: gbc' =>
        if d =? -1 then (if a =? 0 then lo else SYNC)
        else if d =? 1 then (if a =? n - 1 then hi else SYNC)
        else edge_bc ns' o' dir' gbc'
    | _, _, _, _ => INVALID
    end.

  (** src/framework/domain/metadomain.cpp:241-282: face directions.  The neighbour is
      compared by position instead of by index. *)
  Definition face_bc (ns : list Z) (gbc : list (B * B)) (o dir : list Z) : B :=
    let bc := edge_bc ns o dir gbc in
    if list_eqb (neighbor_offset ns o dir) o then bc
    else if eq_dec bc PERIODIC then SYNC else bc.

  (** src/framework/domain/metadomain.cpp:292-301 and 302-311: the first condition that is
      not periodic, otherwise periodic. *)
  Fixpoint first_nonperiodic (l : list B) (acc : B) : B :=
    match l with
    | [] => acc
    | b :: l' => if eq_dec b PERIODIC then first_nonperiodic l' PERIODIC else b
    end.

  (** src/framework/domain/metadomain.cpp:236-322, the condition stored for any direction
      and read back by [mesh.flds_bc_in] / [mesh.prtl_bc_in]. *)
  Definition bc_in (ns : list Z) (gbc : list (B * B)) (o dir : list Z) : B :=
    let orth := assoc_orth dir in
    if Nat.eqb (length orth) 1 then face_bc ns gbc o dir
    else first_nonperiodic (map (face_bc ns gbc o) orth) INVALID.
End BC.

Definition flds_bc_in := bc_in flds_bc_eq_dec F_INVALID F_PERIODIC F_SYNC.
Definition prtl_bc_in := bc_in prtl_bc_eq_dec P_INVALID P_PERIODIC P_SYNC.

(** src/framework/domain/metadomain_comm.cpp:35-116, [GetSendRecvRanks]: position of the
    subdomain to send to and to receive from ([None]: no partner, rank -1). *)
Definition partners (ns : list Z) (gbc : list (flds_bc * flds_bc)) (o dir : list Z)
  : res (option (list Z) * option (list Z)) :=
  let bc d := flds_bc_in ns gbc o d in
  let nb d := neighbor_offset ns o d in
  let is b c := if flds_bc_eq_dec b c then true else false in
  if is (bc dir) F_PERIODIC then
    if negb (list_eqb (nb dir) o) then Err
    else if negb (is (bc (opp_dir dir)) F_PERIODIC) then Err
    else Ok (Some o, Some o)
  else if is (bc dir) F_SYNC then
    if list_eqb (nb dir) o then Err
    else if is (bc (opp_dir dir)) F_SYNC then
      if list_eqb (nb (opp_dir dir)) o then Err
      else Ok (Some (nb dir), Some (nb (opp_dir dir)))
    else Ok (Some (nb dir), None)
  else if is (bc (opp_dir dir)) F_SYNC then
    if list_eqb (nb (opp_dir dir)) o then Err
    else Ok (None, Some (nb (opp_dir dir)))
  else Ok (None, None).

Definition send_to ns gbc o dir : option (list Z) :=
  match partners ns gbc o dir with Ok p => fst p | _ => None end.
Definition recv_from ns gbc o dir : option (list Z) :=
  match partners ns gbc o dir with Ok p => snd p | _ => None end.

(** Index of the first active cell is the ghost width [g]; a mesh of [n] active cells has
    indices 0 .. n + 2g - 1 (src/framework/domain/grid.h:106-190).  Slices are half-open
    intervals. *)
Section Slices.
  Variable g : Z. (* N_GHOSTS *)
  Definition i_min : Z := g.
  Definition i_max (n : Z) : Z := n + g.

  (** src/framework/domain/metadomain_comm.cpp:146-156 (ghost exchange). *)
  Definition send_slice (n dir : Z) : Z * Z :=
    if dir =? 0 then (i_min, i_max n)
    else if dir =? 1 then (i_max n - g, i_max n)
    else (i_min, i_min + g).

  (** src/framework/domain/metadomain_comm.cpp:157-167. *)
  Definition recv_slice (n dir : Z) : Z * Z :=
    if - dir =? 0 then (i_min, i_max n)
    else if - dir =? 1 then (i_max n, i_max n + g)
    else (i_min - g, i_min).

  (** src/framework/domain/metadomain_comm.cpp:171-182 (synchronisation). *)
  Definition send_slice_sync (n dir : Z) : Z * Z :=
    if dir =? 0 then (i_min - g, i_max n + g)
    else if dir =? 1 then (i_max n - g, i_max n + g)
    else (i_min - g, i_min + g).

  (** src/framework/domain/metadomain_comm.cpp:183-194. *)
  Definition recv_slice_sync (n dir : Z) : Z * Z :=
    if - dir =? 0 then (i_min - g, i_max n + g)
    else if - dir =? 1 then (i_max n - g, i_max n + g)
    else (i_min - g, i_min + g).
End Slices.

(** src/framework/domain/comm_mpi.hpp:161-166: a subdomain that would send to itself copies
    locally instead of calling MPI; otherwise the partner of the message. *)
Definition remote (o : list Z) (p : option (list Z)) : option (list Z) :=
  match p with
  | Some b => if list_eqb b o then None else Some b
  | None => None
  end.

(** src/framework/domain/metadomain_comm.cpp:278-366 (and 471-530, 585-652): the exchange
    runs through a list [prog] of directions, the same on every rank; destination and source of
    the message of subdomain [o] in round [k].  One subdomain per rank. *)
Definition exch_dst ns gbc (prog : list (list Z)) (o : list Z) (k : nat) : option (list Z) :=
  match nth_error prog k with
  | Some d => remote o (send_to ns gbc o d)
  | None => None
  end.
Definition exch_src ns gbc (prog : list (list Z)) (o : list Z) (k : nat) : option (list Z) :=
  match nth_error prog k with
  | Some d => remote o (recv_from ns gbc o d)
  | None => None
  end.
