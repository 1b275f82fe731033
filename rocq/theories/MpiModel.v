(** Blocking message passing between ranks as used by the exchanges:
    src/framework/domain/comm_mpi.hpp:28-137 ([send_recv], [send], [recv], [communicate]).

    Every rank runs the same sequence of rounds (one per direction of the loop in
    src/framework/domain/metadomain_comm.cpp:278-366, 471-530).  In round [k] rank [r] has at most
    one destination [dst r k] and at most one source [src r k]; with both it calls
    MPI_Sendrecv, otherwise MPI_Send or MPI_Recv, and goes on when the call returns.  All
    messages carry tag 0, so a receive from [a] takes the oldest message [a] has sent to
    this rank (MPI's non-overtaking rule).  Whether a send returns before it is received
    (buffered) or only afterwards is up to the MPI library: [eager] decides it, separately
    for every rank and round. *)
From Coq Require Import List Arith.
Import ListNotations.

Section Semantics.
  Context {rank : Type} (rank_eq_dec : forall a b : rank, {a = b} + {a <> b}).
  Variables (ranks : list rank) (K : nat).       (* ranks and number of rounds *)
  Variables (dst src : rank -> nat -> option rank).
  Variable eager : rank -> nat -> Prop.

  Record state := {
    rnd : rank -> nat;                    (* current round *)
    posted : rank -> bool;                (* the send of this round has been issued *)
    sent : rank -> bool;                  (* ... and its buffer may be reused *)
    recvd : rank -> bool;                 (* the receive of this round is complete *)
    chan : rank -> rank -> list nat       (* messages on the way, oldest first, each
                                             labelled with the round of its sender *)
  }.

  Definition init : state :=
    {| rnd := fun _ => 0; posted := fun _ => false; sent := fun _ => false;
       recvd := fun _ => false; chan := fun _ _ => [] |}.

  Definition upd {V} (f : rank -> V) (a : rank) (v : V) : rank -> V :=
    fun x => if rank_eq_dec x a then v else f x.
  Definition upd2 {V} (f : rank -> rank -> V) (a b : rank) (v : V) : rank -> rank -> V :=
    fun x y => if rank_eq_dec x a then (if rank_eq_dec y b then v else f x y) else f x y.

  (** Events: the send is issued, a message is received, the send returns, the call
      returns and the next round begins. *)
  Inductive event :=
  | Post (a b : rank) (k : nat)
  | Deliver (a b : rank) (sent_in received_in : nat)
  | Complete (a : rank) (k : nat)
  | Advance (a : rank) (k : nat).

  Inductive step : state -> event -> state -> Prop :=
  | step_post s a b :
      In a ranks -> rnd s a < K -> dst a (rnd s a) = Some b -> posted s a = false ->
      step s (Post a b (rnd s a))
        {| rnd := rnd s; posted := upd (posted s) a true; sent := sent s; recvd := recvd s;
           chan := upd2 (chan s) a b (chan s a b ++ [rnd s a]) |}
  | step_deliver s a b m ms :
      In b ranks -> rnd s b < K -> src b (rnd s b) = Some a -> recvd s b = false ->
      chan s a b = m :: ms ->
      step s (Deliver a b m (rnd s b))
        {| rnd := rnd s; posted := posted s; sent := sent s; recvd := upd (recvd s) b true;
           chan := upd2 (chan s) a b ms |}
  | step_complete s a b :
      In a ranks -> rnd s a < K -> dst a (rnd s a) = Some b -> posted s a = true ->
      sent s a = false -> eager a (rnd s a) \/ ~ In (rnd s a) (chan s a b) ->
      step s (Complete a (rnd s a))
        {| rnd := rnd s; posted := posted s; sent := upd (sent s) a true; recvd := recvd s;
           chan := chan s |}
  | step_advance s a :
      In a ranks -> rnd s a < K ->
      (dst a (rnd s a) = None \/ sent s a = true) ->
      (src a (rnd s a) = None \/ recvd s a = true) ->
      step s (Advance a (rnd s a))
        {| rnd := upd (rnd s) a (S (rnd s a)); posted := upd (posted s) a false;
           sent := upd (sent s) a false; recvd := upd (recvd s) a false; chan := chan s |}.

  Inductive steps : state -> list event -> state -> Prop :=
  | steps_nil s : steps s [] s
  | steps_cons s e s' es s'' : step s e s' -> steps s' es s'' -> steps s (e :: es) s''.

  (** Every rank has left the exchange. *)
  Definition finished (s : state) : Prop := forall a, In a ranks -> rnd s a = K.
End Semantics.
