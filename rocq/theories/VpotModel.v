(** Output of the vector potential A_3 in 2D GR: src/framework/domain/metadomain_io.cpp:201-262
    (ComputeVectorPotential, CommunicateVectorPotential, ExtractVectorPotential).  Exact reals.

    Rank [r] owns subdomain [r] of the list made by createEmptyDomains.  MPI_Send deposits its
    message, MPI_Recv blocks until the message of its source is there; the ranks are interleaved
    by an arbitrary schedule.  Buffer indices count from the first active cell. *)
From Coq Require Import ZArith List Bool Reals.
From Verif Require Import Base DecompModel HaloSpec.
Import ListNotations.
Open Scope R_scope.

(** One row of the array of a rank. *)
Definition row := Z -> R.
Inductive vop := VSend (dst : Z) | VRecv (src : Z).

Record vstate := {
  vbuf : Z -> Z -> Z -> R;         (* bckp(i1, i2, buff_idx) of each rank *)
  vtodo : Z -> list vop;           (* what is left of the loop of each rank *)
  vchan : Z -> Z -> option row     (* message from a rank to a rank *)
}.

Section Vpot.
  (** Active cells of each rank, sqrt(det h) of its metric at a position in its code units, and
      em(i1, i2, bx1); [n1], [n2]: ndomains_per_dim. *)
  Variables (nx1 nx2 : Z -> Z) (sd : Z -> R -> R -> R) (B1 : Z -> Z -> Z -> R) (n1 n2 : Z).

  (** Lines 208-224: k from 0 to i2 - N_GHOSTS. *)
  Definition compute (r i1 i2 : Z) : R :=
    rsum (zrange 0 (i2 + 1)) (fun k =>
      / 2 * (sd r (IZR i1) (IZR k - / 2) * B1 r i1 (k - 1)%Z + sd r (IZR i1) (IZR k + / 2) * B1 r i1 k)).
  Definition active (r i1 i2 : Z) : bool :=
    (0 <=? i1)%Z && (i1 <? nx1 r)%Z && (0 <=? i2)%Z && (i2 <? nx2 r)%Z.

  (** Lines 286-343: the iterations of the double loop in which a rank does something. *)
  Definition program (r : Z) : list vop :=
    flat_map (fun nr2 =>
      let send_pre := ((nr2 - 1) * n1)%Z in let recv_pre := (nr2 * n1)%Z in
      flat_map (fun nr1 =>
        let s := (send_pre + nr1)%Z in let d := (recv_pre + nr1)%Z in
        if (r =? s)%Z then [VSend d] else if (r =? d)%Z then [VRecv s] else []) (zrange 0 n1)) (zrange 1 n2).

  Definition vstart : vstate :=
    {| vbuf := fun r i1 i2 => if active r i1 i2 then compute r i1 i2 else 0;
       vtodo := program; vchan := fun _ _ => None |}.

  (** Lines 293-300 and 265-274: the last active row; added to all active rows. *)
  Definition last_row (st : vstate) (r : Z) : row := fun i1 => vbuf st r i1 (nx2 r - 1)%Z.
  Definition upd_at {A} (f : Z -> A) (r : Z) (v : A) : Z -> A := fun q => if (q =? r)%Z then v else f q.
  (** The next operation of rank [r], if it has one and is not blocked. *)
  Definition vstep (st : vstate) (r : Z) : vstate :=
    match vtodo st r with
    | [] => st
    | VSend d :: t =>
        {| vbuf := vbuf st; vtodo := upd_at (vtodo st) r t;
           vchan := upd_at (vchan st) r (upd_at (vchan st r) d (Some (last_row st r))) |}
    | VRecv s :: t =>
        match vchan st s r with
        | None => st
        | Some m =>
            {| vbuf := upd_at (vbuf st) r (fun i1 i2 => if active r i1 i2 then vbuf st r i1 i2 + m i1 else vbuf st r i1 i2);
               vtodo := upd_at (vtodo st) r t;
               vchan := upd_at (vchan st) s (upd_at (vchan st s) r None) |}
        end
    end.
  Definition vexec (sched : list Z) (st : vstate) : vstate := fold_left vstep sched st.
  Definition vdone (st : vstate) : Prop := forall r, (0 <= r < n1 * n2)%Z -> vtodo st r = [].
End Vpot.

(** The subdomain of a rank: metadomain.cpp:137-193. *)
Definition no_sub : subdomain := {| sub_offset_ndomains := []; sub_offset_ncells := []; sub_ncells := [] |}.
Definition sub_of (ls : list (list Z)) (r : Z) : subdomain := nth (Z.to_nat r) (domains ls) no_sub.
