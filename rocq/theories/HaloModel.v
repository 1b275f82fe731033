(** Ghost-cell exchange and additive synchronisation of one field component:
    src/framework/domain/metadomain_comm.cpp:118-202 ([GetSendRecvParams]), 204-367
    ([CommunicateFields]), 369-562 ([AddBufferedFields], [SynchronizeFields]) and
    src/framework/domain/comm_mpi.hpp:141-366 ([CommunicateField]).

    All components of a field array are copied by the same index arithmetic, so one
    component is modelled.  Subdomains are identified by position; a local multi-index
    includes the ghost cells (0 .. n + 2g - 1 in every dimension). *)
From Coq Require Import ZArith List Bool Reals.
From Verif Require Import Base DecompModel DirsModel TopoModel.
Import ListNotations.
Open Scope Z_scope.

(** Number of active cells of the subdomain at position [o]: src/framework/domain/mesh.h
    [n_active], set from the block sizes in metadomain.cpp:160-188. *)
Definition size (ls : list (list Z)) (o : list Z) : list Z :=
  map2 (fun l a => nth (Z.to_nat a) l 0) ls o.

Definition slices (slice : Z -> Z -> Z * Z) (n dir : list Z) : list (Z * Z) :=
  map2 slice n dir.

Fixpoint in_slices (x : list Z) (sl : list (Z * Z)) : bool :=
  match x, sl with
  | [], [] => true
  | a :: x', (lo, hi) :: sl' => (lo <=? a) && (a <? hi) && in_slices x' sl'
  | _, _ => false
  end.

Section Exchange.
  Context {V : Type}.
  Variables (g : Z) (ls : list (list Z)) (gbc : list (flds_bc * flds_bc)).
  Let ns := map (fun l => Z.of_nat (length l)) ls.

  (** Field arrays of all subdomains, and the messages on the way: contents by
      sender and direction, indexed relative to the corner of the slice. *)
  Record hstate := {
    fld : list Z -> list Z -> V;
    msg : list Z -> list Z -> option (list Z -> V)
  }.

  (** A rank packs and sends (comm_mpi.hpp:228-260) or receives and unpacks
      (comm_mpi.hpp:262-307) the message of one direction.  The copy of a subdomain to
      itself (comm_mpi.hpp:166-182) is a pack followed by an unpack. *)
  Inductive hevent := Pack (o dir : list Z) | Unpack (o dir : list Z).

  Definition pack (s : hstate) (o dir : list Z) : hstate :=
    let corner := map fst (slices (send_slice g) (size ls o) dir) in
    {| fld := fld s;
       msg := fun o' dir' =>
         if list_eqb o' o && list_eqb dir' dir
         then Some (fun r => fld s o (map2 Z.add corner r))
         else msg s o' dir' |}.

  Definition unpack (s : hstate) (m : list Z -> V) (o dir : list Z) : hstate :=
    let sl := slices (recv_slice g) (size ls o) dir in
    {| fld := fun o' x =>
         if list_eqb o' o && in_slices x sl
         then m (map2 Z.sub x (map fst sl))
         else fld s o' x;
       msg := msg s |}.

  (** [None]: the receive is still blocked because nothing has been sent. *)
  Definition hstep (s : hstate) (e : hevent) : option hstate :=
    match e with
    | Pack o dir =>
        match send_to ns gbc o dir with
        | Some _ => Some (pack s o dir)
        | None => Some s
        end
    | Unpack o dir =>
        match recv_from ns gbc o dir with
        | Some a =>
            match msg s a dir with
            | Some m => Some (unpack s m o dir)
            | None => None
            end
        | None => Some s
        end
    end.

  Fixpoint hexec (s : hstate) (es : list hevent) : option hstate :=
    match es with
    | [] => Some s
    | e :: es' =>
        match hstep s e with
        | Some s' => hexec s' es'
        | None => None
        end
    end.
End Exchange.
Arguments hstate : clear implicits.
Arguments hevent : clear implicits.

Section Sync.
  Variables (g : Z) (ls : list (list Z)) (gbc : list (flds_bc * flds_bc)).
  Let ns := map (fun l => Z.of_nat (length l)) ls.
  Local Open Scope R_scope.

  (** comm_mpi.hpp:183-227, 285-363 with [additive]: what direction [dir] adds to the buffer
      of [o] at index [x].  The array [f] that is sent is only read during the exchange
      (additions go to a separate buffer), so it does not matter when messages are packed. *)
  Definition sync_add (f : list Z -> list Z -> R) (o x dir : list Z) : R :=
    match recv_from ns gbc o dir with
    | Some a =>
        let rsl := slices (recv_slice_sync g) (size ls o) dir in
        let ssl := slices (send_slice_sync g) (size ls a) dir in
        if in_slices x rsl
        then f a (map2 Z.add (map fst ssl) (map2 Z.sub x (map fst rsl)))
        else 0
    | None => 0
    end.

  (** The buffer starts at zero (metadomain_comm.cpp:438, 441-469) and collects every
      direction of the table (metadomain_comm.cpp:471-530). *)
  Definition sync_buff (f : list Z -> list Z -> R) (D : nat) (o x : list Z) : R :=
    fold_left (fun acc dir => acc + sync_add f o x dir) (all_dirs D) 0.

  (** metadomain_comm.cpp:531-561: added on active cells only. *)
  Definition synchronize (f : list Z -> list Z -> R) (D : nat) (o x : list Z) : R :=
    if in_slices x (map (fun n => (i_min g, i_max g n)) (size ls o))
    then f o x + sync_buff f D o x
    else f o x.
End Sync.
