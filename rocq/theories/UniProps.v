(** C92: uniform injection into a region. *)
From Coq Require Import ZArith List Bool Reals Lra Lia.
From Flocq Require Import Core.Raux.
From Coquelicot Require Import Hierarchy RInt.
From Verif Require Import Base MeshModel MeshSpec UniModel UniSpec UniProofs UniTop UniCases.
Import ListNotations.
Open Scope R_scope.

(** The number of pairs is the density asked for, times the particles per cell of unit density,
    halved, times the number of cells in the part of the box on this subdomain, rounded down;
    nothing is injected if that part is thinner than a rounding error. *)
Theorem C92_number :
  forall eps convs cart sqrt_det_h ppc0 V0 ext ns density box full us V,
  0 <= eps -> mesh_ok convs ext ns -> continues (length ext) box full -> code_volume convs ext full V ->
  0 <= ppc0 * density -> ppc0 * density / 2 * V < IZR (2 ^ 32) ->
  exists l, inject_uniform eps convs cart sqrt_det_h (negb cart) ppc0 V0 ext density (negb cart) box us = Ok l /\
    (Z.of_nat (length l) = Zfloor (ppc0 * density / 2 * V) \/ l = [] /\ thin eps ext full).
Proof. exact count_ok. Qed.
Print Assumptions C92_number.
Example C92_number_ex : exists V,
  mesh_ok [shift 3] [(3, 3 + IZR 10)] [10%Z] /\ continues 1 [(Fin 5, PInf)] [(Fin 5, PInf)] /\
  code_volume [shift 3] [(3, 3 + IZR 10)] [(Fin 5, PInf)] V /\ V = 8 /\ 0 <= 4 * 2 /\ 4 * 2 / 2 * V < IZR (2 ^ 32).
Proof.
  exists 8. split; [apply shift_ok; lia|]. split; [split; [auto|intros [|d] D; [auto|lia]]|]. split; [|repeat split; try lra].
  apply shift_volume; [lia|]. unfold len, shift. cbn [MeshProofs.lo MeshProofs.hi fst snd]. unfold Rmin, Rmax.
  destruct (Rle_dec 3 5); [|lra]. destruct (Rle_dec (3 + 10) 5); [lra|]. destruct (Rlt_dec _ _); lra.
Qed.

(** Every particle lies inside the box and inside this subdomain, in a cell of its grid; the two
    species of a pair coincide, with unit weight, or that of the volume element there. *)
Theorem C92_places :
  forall eps convs cart sqrt_det_h ppc0 V0 ext ns density box full us l V q1 q2,
  0 <= eps -> mesh_ok convs ext ns -> continues (length ext) box full -> code_volume convs ext full V ->
  0 <= ppc0 * density -> ppc0 * density / 2 * V < IZR (2 ^ 32) ->
  (forall p, length (us p) = length ext /\ Forall (fun u => 0 <= u < 1) (us p)) ->
  inject_uniform eps convs cart sqrt_det_h (negb cart) ppc0 V0 ext density (negb cart) box us = Ok l -> In (q1, q2) l ->
  q1 = q2 /\ length (p_cells q1) = length ext /\
  p_weight q1 = (if cart then 1 else sqrt_det_h (map (fun ij => IZR (fst ij) + snd ij) (p_cells q1)) / V0) /\
  forall d c e n b, nth_error convs d = Some c -> nth_error ext d = Some e -> nth_error ns d = Some n -> nth_error full d = Some b ->
  exists i dx, nth_error (p_cells q1) d = Some (i, dx) /\
    (0 <= i < n)%Z /\ 0 <= dx < 1 /\ exists x, within_ext e x /\ within b x /\ c x = IZR i + dx.
Proof. exact inside_ok. Qed.
Print Assumptions C92_places.
Example C92_places_ex : exists q,
  inject_uniform 0 [shift 0] true (fun _ => 1) false 1 1 [(0, 0 + 2)] 1 false [] (fun _ => [3 / 4]) = Ok [q] /\
  Forall (fun u => 0 <= u < 1) [3 / 4].
Proof.
  destruct (cut_loses 0 (fun _ => [3 / 4]) ltac:(lra)) as ((q & E) & _). exists q. split; auto. constructor; [lra|constructor].
Qed.

(** The numbers of cells of the parts of the box on the subdomains add up to that on the whole grid. *)
Theorem C92_regions_tile :
  forall Gs cuts box V f,
  Forall increasing cuts -> Forall (fun c => (2 <= length c)%nat) cuts -> Forall ordered box ->
  code_volume Gs (whole cuts) box V ->
  (forall e, In e (subdomains cuts) -> code_volume (locals Gs e) e box (f e)) ->
  totalR f (subdomains cuts) = V.
Proof. exact tiled. Qed.
Print Assumptions C92_regions_tile.
Example C92_regions_tile_ex :
  subdomains [[0; 1; 2]; [5; 6]] = [[(0, 1); (5, 6)]; [(1, 2); (5, 6)]] /\ whole [[0; 1; 2]; [5; 6]] = [(0, 2); (5, 6)] /\
  Forall increasing [[0; 1; 2]; [5; 6]] /\ Forall ordered [(Fin (1 / 2), PInf); (NInf, PInf)].
Proof.
  split; [reflexivity|]. split; [reflexivity|].
  split; repeat constructor; cbn; lra.
Qed.

(** On a grid cut into subdomains the total number is at most that asked for, and falls short of it
    by less than one per subdomain.  _partial: the claim would be the number asked for, rounded. *)
Theorem C92_total_number_partial :
  forall eps Gs cuts cart sqrt_det_h ppc0 V0 density box full us V f l,
  0 <= eps -> Forall increasing cuts -> Forall (fun c => (2 <= length c)%nat) cuts ->
  continues (length cuts) box full -> Forall ordered full ->
  code_volume Gs (whole cuts) full V ->
  (forall e, In e (subdomains cuts) -> code_volume (locals Gs e) e full (f e) /\ exists ns, mesh_ok (locals Gs e) e ns) ->
  0 <= ppc0 * density -> ppc0 * density / 2 * V < IZR (2 ^ 32) ->
  (forall e, In e (subdomains cuts) ->
     inject_uniform eps (locals Gs e) cart sqrt_det_h (negb cart) ppc0 V0 e density (negb cart) box (us e) = Ok (l e)) ->
  let n := totalZ (fun e => Z.of_nat (length (l e))) (subdomains cuts) in
  IZR n <= ppc0 * density / 2 * V /\
  ((forall e, In e (subdomains cuts) -> ~ thin eps e full) ->
   ppc0 * density / 2 * V - INR (length (subdomains cuts)) < IZR n).
Proof. exact total_number. Qed.
Print Assumptions C92_total_number_partial.
Example C92_total_number_ex : forall e, In e (subdomains [[0; 0 + 1; 0 + 1 + 1]]) ->
  exists ns, mesh_ok (locals [fun x => x] e) e ns.
Proof.
  intros e [<-|[<-|[]]]; exists [1%Z]; cbn; unfold proper, grid_map, local, within_ext; cbn;
    (split; [lra|]); (split; [|auto]); (split; [intros; lra|]); (split; [lra|]); (split; [lra|]).
  - intros c C. exists c. lra.
  - intros c C. exists (c + 1). lra.
Qed.

(** The total number depends on the decomposition: a line of two cells gets a pair as one
    subdomain and none as two.  The same holds at every call, so that a slow steady injection
    with less than one pair per call and subdomain never injects anything. *)
Theorem C92_total_number_refuted :
  exists convs ext convs1 ext1 convs2 ext2 ppc0 density, forall eps us, 0 <= eps < 1 ->
  (exists V, code_volume convs ext [(NInf, PInf)] V /\ ppc0 * density / 2 * V = 1) /\
  subdomains [[0; 0 + 1; 0 + 1 + 1]] = [ext1; ext2] /\
  (exists q, inject_uniform eps convs true (fun _ => 1) false ppc0 1 ext density false [] us = Ok [q]) /\
  inject_uniform eps convs1 true (fun _ => 1) false ppc0 1 ext1 density false [] us = Ok [] /\
  inject_uniform eps convs2 true (fun _ => 1) false ppc0 1 ext2 density false [] us = Ok [].
Proof.
  exists [shift 0], [(0, 0 + 2)], [shift 0], [(0, 0 + 1)], [shift 1], [(0 + 1, 0 + 1 + 1)], 1, 1. intros eps us He.
  split; [exists 2; split; [exact (all_volume 0 2 ltac:(lia))|lra]|]. split; [reflexivity|].
  replace (0 + 1 + 1) with (1 + 1) by ring. destruct (cut_loses eps us He) as (A & B & C).
  split; [exact A|]. split; [exact B|]. replace (0 + 1) with 1 by ring. exact C.
Qed.
Print Assumptions C92_total_number_refuted.

(** The mean weight landing between two places, over uniform random numbers, is the volume between
    them, in units of V0, over the length of the region: the density is uniform in physical volume. *)
Theorem C92_mean_weight :
  forall sqrt_det_h V0 s pre post ua ub I, fst s < snd s ->
  is_RInt (V := R_NormedModule) (fun x => sqrt_det_h (pre ++ x :: post)) (draw s ua) (draw s ub) I ->
  is_RInt (V := R_NormedModule) (fun u => weight_of false sqrt_det_h (1 / V0) (pre ++ draw s u :: post)) ua ub
    (I / V0 / (snd s - fst s)).
Proof. exact mean_weight. Qed.
Print Assumptions C92_mean_weight.
Example C92_mean_weight_ex : (draw (2, 6) 0 = 2 /\ draw (2, 6) 1 = 6) /\
  is_RInt (V := R_NormedModule) (fun _ : R => 5) 2 6 (scal (6 - 2) 5).
Proof. split; [unfold draw; cbn; lra|]. exact (is_RInt_const (V := R_NormedModule) 2 6 5). Qed.

(** Weights not asked for where they are needed, asked for where they are not, or not enabled. *)
Theorem C92_refusals :
  forall eps convs cart sqrt_det_h enabled ppc0 V0 ext density use_weights box us,
  use_weights <> negb cart \/ enabled <> use_weights ->
  inject_uniform eps convs cart sqrt_det_h enabled ppc0 V0 ext density use_weights box us = Err.
Proof. exact refuses. Qed.
Print Assumptions C92_refusals.
Example C92_refusals_ex : true <> negb true.
Proof. discriminate. Qed.
