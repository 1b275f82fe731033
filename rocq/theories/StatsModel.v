(** Statistics file: src/kernels/reduced_stats.hpp, src/framework/domain/metadomain_stats.cpp,
    src/output/stats.h, stats.cpp.

    Exact reals.  parallel_reduce and MPI_Reduce sum in an arbitrary order.  Components of [em]
    and [cur] are numbered as in PhysModel. *)
From Coq Require Import ZArith List Bool Reals.
From Verif Require Import Base FieldModel HaloSpec MomentModel PhysModel.
Import ListNotations.
Open Scope R_scope.

(** ** ReducedFields_kernel, lines 26-383 *)
Section Fields.
  (** [down a x v], [hat a x v]: metric.transform<a, U, D> and <a, U, T> of one component;
      [hatv]: transform<U, T> of a vector; [sd]: sqrt_det_h. *)
  Variables (g : Z) (down hat : nat -> list R -> R -> R) (hatv : list R -> vec -> vec) (sd : list R -> R).
  Variables (em cur : mem Z).

  (** COORD(i). *)
  Definition co (i : Z) : R := IZR (i - g).
  Definition ch (i : Z) : R := co i + / 2.
  (** b_u * b_d * sqrt_det_h at a position. *)
  Definition squared (a : nat) (k : Z) (x : list Z) (p : list R) : R := em k x * down a p (em k x) * sd p.

  (** Lines 43-62, 147-170, 261-284. *)
  Definition b2 (I : nat) (x : list Z) : R :=
    match x, I with
    | [i1], 1%nat => squared 0 3 x [co i1]
    | [i1], 2%nat => squared 1 4 x [ch i1]
    | [i1], _ => squared 2 5 x [ch i1]
    | [i1; i2], 1%nat => squared 0 3 x [co i1; ch i2]
    | [i1; i2], 2%nat => squared 1 4 x [ch i1; co i2]
    | [i1; i2], _ => squared 2 5 x [ch i1; ch i2]
    | [i1; i2; i3], 1%nat => squared 0 3 x [co i1; ch i2; ch i3]
    | [i1; i2; i3], 2%nat => squared 1 4 x [ch i1; co i2; ch i3]
    | [i1; i2; i3], _ => squared 2 5 x [ch i1; ch i2; co i3]
    | _, _ => 0
    end.
  (** Lines 63-82, 171-191, 285-304. *)
  Definition e2 (I : nat) (x : list Z) : R :=
    match x, I with
    | [i1], 1%nat => squared 0 0 x [ch i1]
    | [i1], 2%nat => squared 1 1 x [co i1]
    | [i1], _ => squared 2 2 x [co i1]
    | [i1; i2], 1%nat => squared 0 0 x [ch i1; co i2]
    | [i1; i2], 2%nat => squared 1 1 x [co i1; ch i2]
    | [i1; i2], _ => squared 2 2 x [co i1; co i2]
    | [i1; i2; i3], 1%nat => squared 0 0 x [ch i1; co i2; co i3]
    | [i1; i2; i3], 2%nat => squared 1 1 x [co i1; ch i2; co i3]
    | [i1; i2; i3], _ => squared 2 2 x [co i1; co i2; ch i3]
    | _, _ => 0
    end.

  (** The averages written out in the branches for ExB and J.E: edge components ([F]: ex or jx)
      and face components; the same expressions for all I. *)
  Definition edge_c (F : mem Z) (x : list Z) : vec :=
    match x with
    | [i] => let p := (i + 1)%Z in
        (F 0%Z [i], / 2 * (F 1%Z [i] + F 1%Z [p]), / 2 * (F 2%Z [i] + F 2%Z [p]))
    | [i; j] => let p := (i + 1)%Z in let q := (j + 1)%Z in
        (/ 2 * (F 0%Z [i; j] + F 0%Z [i; q]),
         / 2 * (F 1%Z [i; j] + F 1%Z [p; j]),
         / 4 * (F 2%Z [i; j] + F 2%Z [p; j] + F 2%Z [i; q] + F 2%Z [p; q]))
    | [i; j; k] => let p := (i + 1)%Z in let q := (j + 1)%Z in let r := (k + 1)%Z in
        (/ 4 * (F 0%Z [i; j; k] + F 0%Z [i; q; k] + F 0%Z [i; j; r] + F 0%Z [i; q; r]),
         / 4 * (F 1%Z [i; j; k] + F 1%Z [p; j; k] + F 1%Z [i; j; r] + F 1%Z [p; j; r]),
         / 4 * (F 2%Z [i; j; k] + F 2%Z [p; j; k] + F 2%Z [i; q; k] + F 2%Z [p; q; k]))
    | _ => (0, 0, 0)
    end.
  Definition face_c (F : mem Z) (x : list Z) : vec :=
    match x with
    | [i] => (/ 2 * (F 3%Z [i] + F 3%Z [(i + 1)%Z]), F 4%Z [i], F 5%Z [i])
    | [i; j] =>
        (/ 2 * (F 3%Z [i; j] + F 3%Z [(i + 1)%Z; j]), / 2 * (F 4%Z [i; j] + F 4%Z [i; (j + 1)%Z]), F 5%Z [i; j])
    | [i; j; k] =>
        (/ 2 * (F 3%Z [i; j; k] + F 3%Z [(i + 1)%Z; j; k]), / 2 * (F 4%Z [i; j; k] + F 4%Z [i; (j + 1)%Z; k]),
         / 2 * (F 5%Z [i; j; k] + F 5%Z [i; j; (k + 1)%Z]))
    | _ => (0, 0, 0)
    end.
  Definition middle (x : list Z) : list R := map ch x.
  Definition hats (p : list R) (v : vec) : vec := let '(a, b, c) := v in (hat 0 p a, hat 1 p b, hat 2 p c).
  (** Lines 83-121, 192-236, 305-357. *)
  Definition exb (I : nat) (x : list Z) : R :=
    let p := middle x in
    let '(e1_t, e2_t, e3_t) := hats p (edge_c em x) in
    let '(b1_t, b2_t, b3_t) := hats p (face_c em x) in
    match I with
    | 1%nat => (e2_t * b3_t - e3_t * b2_t) * sd p
    | 2%nat => (e3_t * b1_t - e1_t * b3_t) * sd p
    | _ => (e1_t * b2_t - e2_t * b1_t) * sd p
    end.
  (** Lines 122-139, 237-255, 358-382. *)
  Definition jdote (x : list Z) : R :=
    let p := middle x in
    let '(e1, e2, e3) := hatv p (edge_c em x) in
    let '(j1, j2, j3) := hatv p (edge_c cur x) in
    (e1 * j1 + e2 * j2 + e3 * j3) * sd p.
End Fields.

(** The columns of the file. *)
Inductive stat := SE2 (I : nat) | SB2 (I : nat) | SExB (I : nat) | SJdotE.

Definition field_kernel g down hat hatv sd em cur (q : stat) (x : list Z) : R :=
  match q with
  | SE2 c => e2 g down sd em c x
  | SB2 c => b2 g down sd em c x
  | SExB c => exb g hat sd em c x
  | SJdotE => jdote g hatv sd em cur x
  end.
(** ReduceFields, metadomain_stats.cpp:122-182; [order]: the active cells of the rank. *)
Definition reduce_fields g down hat hatv sd em cur (V : R) (q : stat) (order : list (list Z)) : R :=
  rsum order (field_kernel g down hat hatv sd em cur q) / V.

(** ** ReducedParticleMoments_kernel, lines 385-531 *)
Inductive pstat := PN | PNpart | PRho | PCharge | PT (c1 c2 : nat).

Section Particles.
  (** [phys p]: u_Phys; [usq p]: its square in the metric; [eps] of AlmostZero_host. *)
  Variables (sd : list R -> R) (phys : part -> vec) (usq : part -> R) (weights : bool) (eps : R).

  Definition contrib (q : pstat) (s : species) : R :=
    match q with PRho => smass s | PCharge => scharge s | _ => 1 end.
  Definition p_energy (s : species) (p : part) : R :=
    if Req_EM_T (smass s) 0 then sqrt (usq p) else smass s * sqrt (1 + usq p).
  Definition p_component (s : species) (p : part) (c : nat) : R :=
    let '(u1, u2, u3) := phys p in
    match c with O => p_energy s p | 1%nat => u1 | 2%nat => u2 | _ => u3 end.
  Definition red_kernel (q : pstat) (s : species) (p : part) : R :=
    if negb (ptag p =? 1)%Z then 0
    else match q with
         | PNpart => 1
         | PT c1 c2 => sd (map (fun a => IZR (fst a) + snd a) (ppos p)) * (1 * p_component s p c1 * p_component s p c2) / p_energy s p
         | _ => sd (map (fun a => IZR (fst a) + snd a) (ppos p)) * (if weights then pweight p else contrib q s)
         end.
  Definition almost_zero (x : R) : bool := if Rle_dec (Rabs x) eps then true else false.
  (** metadomain_stats.cpp:96-101. *)
  Definition skipped (q : pstat) (s : species) : bool :=
    match q with PCharge => almost_zero (scharge s) | PRho => almost_zero (smass s) | _ => false end.
  (** reduced_stats.hpp:428-431. *)
  Definition accepted (q : pstat) (s : species) : bool :=
    match q with PRho | PCharge => if Req_EM_T (smass s) 0 then false else true | _ => true end.
  (** ComputeMoments, metadomain_stats.cpp:72-119. *)
  Definition reduce_moments (V ppc0 : R) (q : pstat) (all : list species) (specs : list Z) : option R :=
    match selected all specs with
    | None => None
    | Some ss =>
        let used := filter (fun s => negb (skipped q s)) ss in
        if forallb (accepted q) used
        then let buffer := rsum used (fun s => rsum (sparts s) (red_kernel q s)) in
             Some (match q with PNpart => buffer | _ => buffer / (V * ppc0) end)
        else None
    end.
End Particles.

(** totVolume of the metrics: minkowski.h:90-98 and spherical.h, qspherical.h, kerr_schild_0.h
    (two dimensions); kerr_schild.h:134-137 and qkerr_schild.h:138-141 return zero. *)
Definition tot_volume_minkowski (ext : list (R * R)) : R := fold_right (fun e a => (snd e - fst e) * a) 1 ext.
Definition tot_volume_spherical (r1 r2 t1 t2 : R) : R := (r2 * r2 - r1 * r1) * (t2 - t1).
Definition tot_volume_kerr_schild : R := 0.

(** ** Columns: stats.cpp:25-58, 81-103; metadomain_stats.cpp:204-270 *)
(** One request.  T with its two index characters. *)
Inductive idxc := Ii | Ij | In_ (n : Z).
Inductive request := RqN | RqNpart | RqRho | RqCharge | RqT (a b : idxc) | RqJdotE | RqE2 | RqB2 | RqExB | RqCustom.
(** InterpretComponents, interpret_prompt.cpp:56-92, two characters. *)
Definition components_of (a b : idxc) : list (list Z) :=
  match a with
  | In_ c1 => match b with
              | In_ c2 => [[c1; c2]]
              | _ => map (fun j => [c1; (j + 1)%Z]) (zrange 0 3)
              end
  | _ => flat_map (fun i =>
           match b with
           | In_ c2 => [[(i + 1)%Z; c2]]
           | _ => match a, b with
                  | Ii, Ii | Ij, Ij => [[(i + 1)%Z; (i + 1)%Z]]
                  | _, _ => map (fun j => [(i + 1)%Z; (j + 1)%Z]) (zrange i 3)
                  end
           end) (zrange 0 3)
  end.
Definition comps (q : request) : list (list Z) :=
  match q with RqE2 | RqB2 | RqExB => [[1]; [2]; [3]]%Z | RqT a b => components_of a b | _ => [] end.
Definition is_vector (q : request) : bool := match q with RqE2 | RqB2 | RqExB => true | _ => false end.
(** Entries of the header line and of a data line, step and time included. *)
Definition header_width (l : list request) : nat :=
  2 + list_sum (map (fun q => if is_vector q then length (comps q) else 1%nat) l).
Definition row_width (l : list request) : nat :=
  2 + list_sum (map (fun q => match q with RqT _ _ | RqE2 | RqB2 | RqExB => length (comps q) | _ => 1%nat end) l).
