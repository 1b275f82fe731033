(** Exchange of particles between subdomains:
    src/framework/containers/particles_comm.cpp:176-389, src/kernels/comm.hpp:76-364,
    src/framework/containers/particles_sort.cpp:21-65 and
    src/framework/domain/metadomain_comm.cpp:564-653.

    Conventions as in PrtlModel.  Counts and offsets are unbounded; the code keeps them in
    32 bits.  The messages of a rank depend only on its own particles: receiving writes to
    separate buffers until all directions have been dealt with.  The model therefore runs all
    sends of a rank ([send_phase]) before its receives ([recv_phase]); that every receive
    meets its send is C05. *)
From Coq Require Import ZArith List Bool Arith.
From Verif Require Import Base DecompModel DirsModel TopoModel HaloModel PrtlModel.
Import ListNotations.

(** ** Counts (particles_sort.cpp:21-65) *)
Definition cnt (s : parts) (t : nat) : nat := count (is_tag s (Z.of_nat t)) (np s).
(** Sum over the tags except "alive". *)
Definition non_alive (T : nat) (s : parts) : nat :=
  fold_left (fun a t => if Nat.eqb t 1 then a else a + cnt s t) (seq 0 T) 0.
Definition n_alive (T : nat) (s : parts) : nat := np s - non_alive T s.
(** tag_offsets(j): offset of tag j + 3 among the particles to be sent. *)
Fixpoint tag_offset (s : parts) (j : nat) : nat :=
  match j with O => cnt s 2 | S j' => cnt s (j + 2) + tag_offset s j' end.
Definition valid_tags (T : nat) (s : parts) : bool :=
  forallb (fun p => Z.leb 0 (tg s p) && Z.ltb (tg s p) (Z.of_nat T)) (seq 0 (np s)).

(** ** PrepareOutgoingPrtls (comm.hpp:76-108) *)
Definition out_bin (s : parts) (p : nat) : option nat :=
  if is_tag s alive_tag p then None else Some (Z.to_nat (tg s p)).
Definition out_off (s : parts) (b : nat) : nat :=
  (if Nat.eqb b 0 then 0 else cnt s 0) + (if Nat.ltb 2 b then tag_offset s (b - 3) else 0).
(** [sh d t]: shifts_in_x[d](t). *)
Definition shift_at (p : nat) (v : Z) (s : parts) (a : attr) : parts :=
  with_ar s (upd_attr (ar s) a (upd (ar s a) p (ar s a p + v)%Z)).
Definition shift_one (c : cfg) (sh : nat -> nat -> Z) (s : parts) (p : nat) : parts :=
  if is_tag s alive_tag p || is_tag s dead_tag p then s
  else let t := Z.to_nat (tg s p) - 2 in
  let s := if ge_dim c 1 then shift_at p (sh 1 t) (shift_at p (sh 1 t) s (I 1)) (Iprev 1) else s in
  let s := if ge_dim c 2 then shift_at p (sh 2 t) (shift_at p (sh 2 t) s (I 2)) (Iprev 2) else s in
  if ge_dim c 3 then shift_at p (sh 3 t) (shift_at p (sh 3 t) s (I 3)) (Iprev 3) else s.
Definition prepare (c : cfg) (T : nat) (sh : nat -> nat -> Z) (order : list nat) (s : parts) : res (parts * list nat) :=
  if negb (valid_tags T s) then Err
  else rbind (fill (out_bin s) (out_off s) (np s - n_alive T s) order) (fun '(_, outgoing) =>
    Ok (fold_left (shift_one c sh) order s, outgoing)).

(** ** Buffers *)
Inductive grp := GInt | GDx | GReal | GPldR | GPldI.
Definition grp_eq_dec (a b : grp) : {a = b} + {a <> b}.
Proof. decide equality. Defined.
Definition buffers := grp -> nat -> Z.
Definition put (b : buffers) (g : grp) (i : nat) (v : Z) : buffers :=
  fun g' i' => if grp_eq_dec g' g then (if Nat.eqb i' i then v else b g' i') else b g' i'.

(** particles_comm.cpp:241-248, NINTS, NPRTLDX, NREALS, NPLDS_R, NPLDS_I. *)
Definition width (c : cfg) (g : grp) : nat :=
  match g with
  | GInt => 2 * dim c
  | GDx => 2 * dim c
  | GReal => 4 + (if has_phi c then 1 else 0)
  | GPldR => npld_r c
  | GPldI => npld_i c
  end.

(** comm.hpp:183-228: what PopulatePrtlSendBuffer stores where. *)
Definition pack_layout (c : cfg) : list (grp * nat * attr) :=
  when (ge_dim c 1) [(GInt, 0, I 1); (GInt, 1, Iprev 1); (GDx, 0, Dx 1); (GDx, 1, Dxprev 1)] ++
  when (ge_dim c 2) [(GInt, 2, I 2); (GInt, 3, Iprev 2); (GDx, 2, Dx 2); (GDx, 3, Dxprev 2)] ++
  when (ge_dim c 3) [(GInt, 4, I 3); (GInt, 5, Iprev 3); (GDx, 4, Dx 3); (GDx, 5, Dxprev 3)] ++
  [(GReal, 0, Ux 1); (GReal, 1, Ux 2); (GReal, 2, Ux 3); (GReal, 3, Weight)] ++
  when (has_phi c) [(GReal, 4, Phi)] ++
  map (fun l => (GPldR, l, PldR l)) (seq 0 (npld_r c)) ++
  map (fun l => (GPldI, l, PldI l)) (seq 0 (npld_i c)).
(** comm.hpp:327-362: what ExtractReceivedPrtls reads from where. *)
Definition unpack_layout (c : cfg) : list (grp * nat * attr) :=
  when (ge_dim c 1) [(GInt, 0, I 1); (GInt, 1, Iprev 1); (GDx, 0, Dx 1); (GDx, 1, Dxprev 1)] ++
  when (ge_dim c 2) [(GInt, 2, I 2); (GInt, 3, Iprev 2); (GDx, 2, Dx 2); (GDx, 3, Dxprev 2)] ++
  when (ge_dim c 3) [(GInt, 4, I 3); (GInt, 5, Iprev 3); (GDx, 4, Dx 3); (GDx, 5, Dxprev 3)] ++
  [(GReal, 0, Ux 1); (GReal, 1, Ux 2); (GReal, 2, Ux 3); (GReal, 3, Weight)] ++
  when (has_phi c) [(GReal, 4, Phi)] ++
  map (fun l => (GPldR, l, PldR l)) (seq 0 (npld_r c)) ++
  map (fun l => (GPldI, l, PldI l)) (seq 0 (npld_i c)).

Record message := { mcount : nat; mbuf : buffers }.

(** ** PopulatePrtlSendBuffer (comm.hpp:182-230) *)
Definition populate_one (c : cfg) (outgoing : list nat) (off : nat) (acc : res (parts * buffers)) (p : nat)
  : res (parts * buffers) :=
  rbind acc (fun '(s, b) =>
    match nth_error outgoing (off + p) with
    | None => UB
    | Some idx =>
        Ok (with_tg s (upd (tg s) idx dead_tag),
            fold_left (fun b '(g, k, a) => put b g (width c g * p + k) (ar s a idx)) (pack_layout c) b)
    end).
Definition populate (c : cfg) (outgoing : list nat) (off : nat) (order : list nat) (s : parts) : res (parts * buffers) :=
  fold_left (populate_one c outgoing off) order (Ok (s, fun _ _ => 0%Z)).

(** particles_comm.cpp:273-318: one direction.  Counts are those of the start, [s0];
    [ord dir n] is the thread order. *)
Definition send_one (c : cfg) (s0 : parts) (outgoing : list nat) (ord : list Z -> nat -> list nat)
    (acc : res (parts * list (list Z * message))) (dir : list Z) : res (parts * list (list Z * message)) :=
  rbind acc (fun '(s, ms) =>
  rbind (dir2tag dir) (fun t =>
  let t := Z.to_nat t in
  let n := cnt s0 t in
  let off := cnt s0 0 + (if Nat.ltb 2 t then tag_offset s0 (t - 3) else 0) in
  rbind (populate c outgoing off (ord dir n) s) (fun '(s', b) =>
  Ok (s', ms ++ [(dir, {| mcount := n; mbuf := b |})])))).
Definition send_phase (c : cfg) (T : nat) (sh : nat -> nat -> Z) (dirs : list (list Z))
    (ord_prep : list nat) (ord : list Z -> nat -> list nat) (s : parts)
  : res (parts * list nat * list (list Z * message)) :=
  rbind (prepare c T sh ord_prep s) (fun '(s1, outgoing) =>
  rbind (fold_left (send_one c s outgoing ord) dirs (Ok (s1, []))) (fun '(s2, ms) =>
  Ok (s2, outgoing, ms))).

(** ** Receiving *)

(** particles_comm.cpp:190-216: counts of received particles, by tag; [inc dir] is the message
    arriving in the round of [dir], none if there is no partner to receive from. *)
Definition nrecv_of (inc : list Z -> option message) (dir : list Z) : nat :=
  match inc dir with Some m => mcount m | None => 0 end.
Definition recv_count (s : parts) (inc : list Z -> option message)
    (acc : res ((nat -> nat) * nat)) (dir : list Z) : res ((nat -> nat) * nat) :=
  rbind acc (fun '(vec, tot) =>
  rbind (dir2tag (opp_dir dir)) (fun t =>
  let nrecv := nrecv_of inc dir in
  if Nat.leb (maxp s) (np s + (tot + nrecv)) then Err
  else Ok (upd vec (Z.to_nat t - 2) nrecv, tot + nrecv))).

(** particles_comm.cpp:40-51, 313-352: the message is placed after what has been received. *)
Definition store (c : cfg) (b : buffers) (cur n : nat) (m : buffers) : buffers :=
  fun g i => if Nat.leb (cur * width c g) i && Nat.ltb i (cur * width c g + n * width c g)
             then m g (i - cur * width c g) else b g i.
Definition recv_one (c : cfg) (vec : nat -> nat) (inc : list Z -> option message)
    (acc : res (nat * buffers)) (dir : list Z) : res (nat * buffers) :=
  rbind acc (fun '(cur, b) =>
  rbind (dir2tag (opp_dir dir)) (fun t =>
  let n := vec (Z.to_nat t - 2) in
  Ok (cur + n, match inc dir with Some m => store c b cur n (mbuf m) | None => b end))).

(** comm.hpp:319-363, ExtractReceivedPrtls. *)
Definition extract_one (c : cfg) (n : nat) (outgoing : list nat) (b : buffers) (acc : res parts) (p : nat) : res parts :=
  rbind acc (fun s =>
  match (if Nat.leb (length outgoing) p then Some (n + p - length outgoing) else nth_error outgoing p) with
  | None => UB
  | Some idx =>
      if Nat.leb (maxp s) idx then UB else
      let s1 := fold_left (fun s '(g, k, a) =>
        with_ar s (upd_attr (ar s) a (upd (ar s a) idx (b g (width c g * p + k))))) (unpack_layout c) s in
      Ok (with_tg s1 (upd (tg s1) idx alive_tag))
  end).

(** particles_comm.cpp:190-216, 250-254, 357-387; [ord n]: thread order of the extraction. *)
Definition recv_phase (c : cfg) (T : nat) (dirs : list (list Z)) (inc : list Z -> option message)
    (ord : nat -> list nat) (outgoing : list nat) (s : parts) : res parts :=
  rbind (fold_left (recv_count s inc) dirs (Ok (fun _ => 0, 0))) (fun '(vec, _) =>
  let npart_recv := fold_left (fun a t => a + vec t) (seq 0 (T - 2)) 0 in
  rbind (fold_left (recv_one c vec inc) dirs (Ok (0, fun _ _ => 0%Z))) (fun '(_, b) =>
  rbind (fold_left (extract_one c (np s) outgoing b) (ord npart_recv) (Ok s)) (fun s' =>
  if Nat.ltb (length outgoing) npart_recv then set_npart s' (np s + npart_recv - length outgoing) else Ok s'))).

(** ** CommunicateParticles (metadomain_comm.cpp:564-653) *)
Section Global.
  Variables (ls : list (list Z)) (gbc : list (flds_bc * flds_bc)) (c : cfg).
  Let ns := map (fun l => Z.of_nat (length l)) ls.
  Definition ntags : nat := 2 + length (all_dirs (dim c)).

  Definition is_some {A} (x : option A) : bool := match x with Some _ => true | None => false end.
  Definition dirs_to_comm (o : list Z) : list (list Z) :=
    filter (fun d => is_some (send_to ns gbc o d) || is_some (recv_from ns gbc o d)) (all_dirs (dim c)).

  (** Lines 604-634, the shifts in dimension [d] (from 1), by tag minus 2: arrays of zeros,
      filled in a loop over the directions. *)
  Definition shifts (o : list Z) (d : nat) : nat -> Z :=
    fold_left (fun v dir =>
      match dir2tag dir, send_to ns gbc o dir with
      | Ok t, Some b =>
          if Z.eqb (nth (d - 1) dir 0%Z) (-1) then upd v (Z.to_nat t - 2) (nth (d - 1) (size ls b) 0%Z)
          else if Z.eqb (nth (d - 1) dir 0%Z) 1 then upd v (Z.to_nat t - 2) (- nth (d - 1) (size ls o) 0)%Z
          else v
      | _, _ => v
      end) (all_dirs (dim c)) (fun _ => 0%Z).

  Fixpoint lookup_msg (ms : list (list Z * message)) (dir : list Z) : option message :=
    match ms with
    | [] => None
    | (d, m) :: ms' => if list_eqb d dir then Some m else lookup_msg ms' dir
    end.

  (** Thread orders of the three kernels on every rank. *)
  Record sched := { o_prep : list Z -> nat -> list nat;
                    o_pop : list Z -> list Z -> nat -> list nat;
                    o_ext : list Z -> nat -> list nat }.

  Definition rank_sends (sc : sched) (st : list Z -> parts) (o : list Z) :=
    send_phase c ntags (shifts o) (dirs_to_comm o) (o_prep sc o (np (st o))) (o_pop sc o) (st o).
  (** What arrives at [b] in the round of [dir]. *)
  Definition arriving (sc : sched) (st : list Z -> parts) (b dir : list Z) : option message :=
    match recv_from ns gbc b dir with
    | Some o => match rank_sends sc st o with Ok (_, _, ms) => lookup_msg ms dir | _ => None end
    | None => None
    end.
  (** The exchange as seen by rank [b]. *)
  Definition comm_particles (sc : sched) (st : list Z -> parts) (b : list Z) : res parts :=
    rbind (rank_sends sc st b) (fun '(s, outgoing, _) =>
    recv_phase c ntags (dirs_to_comm b) (arriving sc st b) (o_ext sc b) outgoing s).
End Global.
