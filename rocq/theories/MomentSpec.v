(** Vocabulary for particle moments. *)
From Coq Require Import ZArith List Bool Reals Permutation.
From Verif Require Import Base DecompModel ShapeSpec HaloSpec MomentModel.
Import ListNotations.
Open Scope R_scope.

(** The order of the additions is arbitrary. *)
Definition any_order (sched : list (list Z * R) -> list (list Z * R)) : Prop :=
  forall l, Permutation l (sched l).

(** Four-velocity component as a total function. *)
Definition u_ (u : R * R * R * R) (c : Z) : R :=
  let '(u0, u1, u2, u3) := u in
  if Z.eqb c 0 then u0 else if Z.eqb c 1 then u1 else if Z.eqb c 2 then u2 else u3.

(** What a particle contributes, before any smoothing: the moment's quantity, times the weight,
    divided by n0 and the volume of its cell; one for the number of particles per cell. *)
Definition quantity (c : mcfg) (F : moment) (s : species) (p : part) (c1 c2 : Z) : R :=
  let u := frame c (smass s) p in
  let m := if Req_EM_T (smass s) 0 then 1 else smass s in
  match F with
  | Rho => smass s
  | Charge => scharge s
  | N | Nppc => 1
  | T => m * u_ u c1 * u_ u c2 / u_ u 0
  | V => m * u_ u c1 / u_ u 0
  end.
Definition contribution (c : mcfg) (F : moment) (s : species) (p : part) (c1 c2 : Z) : R :=
  match F with
  | Nppc => 1
  | _ => quantity c F s p c1 c2 * (if use_weights c then pweight p else 1)
         * inv_n0 c / sqrt_det_h c (map (fun q => IZR (fst q) + 1/2) (ppos p))
  end.

Definition live (p : part) : bool := negb (Z.eqb (ptag p) 0).

(** Sum over the live particles of the species. *)
Definition total (c : mcfg) (F : moment) (ss : list species) (c1 c2 : Z) : R :=
  rsum ss (fun s => rsum (sparts s) (fun p => if live p then contribution c F s p c1 c2 else 0)).

(** Particles inside a domain with [n] cells, offsets inside the cell. *)
Definition inside (n : list Z) (p : part) : Prop :=
  in_box (map fst (ppos p)) n /\ Forall (fun q => 0 <= snd q <= 1) (ppos p).

(** Configurations for which the result is defined: a supported order that fits the ghost zone;
    component numbers that exist; no mass or charge density of massless particles. *)
Definition supported (c : mcfg) : Prop :=
  (method c = SPLINE -> (order_ c <= 11)%nat) /\ (window (order_ c) <= ghosts c)%Z.
Definition components_ok (F : moment) (c1 c2 : Z) : Prop :=
  match F with
  | T => (0 <= c1 <= 3 /\ 0 <= c2 <= 3)%Z
  | V => (1 <= c1 <= 3)%Z
  | _ => True
  end.
Definition species_ok (F : moment) (s : species) : Prop :=
  match F with Rho | Charge => smass s <> 0 | _ => True end.

(** The species selected by a list of indices. *)
Definition selects (all : list species) (specs : list Z) (ss : list species) : Prop :=
  match specs with
  | [] => ss = filter (fun s => if Rlt_dec 0 (smass s) then true else false) all
  | _ => Forall2 (fun sp s => (0 < sp)%Z /\ nth_error all (Z.to_nat (sp - 1)) = Some s) specs ss
  end.

(** All cells of the arrays of a domain with [n] active cells, ghosts included; the active ones. *)
Definition storage (g : Z) (n : list Z) : list (list Z) := box (map (fun k => (0, k + 2 * g)%Z) n).
Definition active (g : Z) (n : list Z) : list (list Z) := box (map (fun k => (g, k + g)%Z) n).

(** Smoothing weight of one dimension: spline, nearest cell (order 0) or flat, as a function of
    the distance [x] from the particle to the centre of the cell and of the number of cells [d]
    between the cell and the particle's cell. *)
Definition weight1 (c : mcfg) (x : R) (d : Z) : R :=
  match method c with
  | SPLINE => if Nat.eqb (order_ c) 0 then (if Z.eqb d 0 then 1 else 0) else bspline (order_ c) x
  | CONST => if (Z.abs d <=? window (order_ c))%Z then 1 / (2 * IZR (window (order_ c)) + 1) else 0
  end.
Fixpoint weight_d (c : mcfg) (q : list (Z * R)) (k : list Z) : R :=
  match q, k with
  | (i, dx) :: q', a :: k' => weight1 c (IZR i + dx - (IZR a + 1/2)) (a - i) * weight_d c q' k'
  | _, _ => 1
  end.

(** All columns, but only the active rows along x2. *)
Definition rows (g : Z) (n : list Z) : list (list Z) :=
  match n with
  | n1 :: n2 :: r => box ((0, n1 + 2 * g)%Z :: (g, n2 + g)%Z :: map (fun k => (0, k + 2 * g)%Z) r)
  | _ => []
  end.

(** ** Several domains, periodic grid *)
(** Position of a particle on the global grid. *)
Definition globally (d : subdomain) (q : list (Z * R)) : list (Z * R) :=
  map2 (fun o a => (o + fst a, snd a)%Z) (sub_offset_ncells d) q.

(** The live particles of all domains, with what they contribute. *)
Definition deposited (c : mcfg) (F : moment) (c1 c2 : Z) (ds : list subdomain)
    (sp : list Z -> list species) : list (list (Z * R) * R) :=
  flat_map (fun d => flat_map (fun s => map (fun p => (globally d (ppos p), contribution c F s p c1 c2))
    (filter live (sparts s))) (sp (sub_offset_ndomains d))) ds.

(** Share of a particle at global position [q] that belongs to cell [z] of the periodic grid with
    [Ns] cells: over the cells of the smoothing window. *)
Definition spread (c : mcfg) (Ns : list Z) (q : list (Z * R)) (z : list Z) : R :=
  rsum (box (map (fun _ => (- window (order_ c), window (order_ c) + 1)%Z) Ns)) (fun di =>
    let k := map2 Z.add (map fst q) di in
    if list_eq_dec Z.eq_dec (map2 Z.modulo k Ns) z then weight_d c q k else 0).
