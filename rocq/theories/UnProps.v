(** C88: total current and physical units. *)
From Coq Require Import ZArith List Reals Lra Permutation.
From Coquelicot Require Import Hierarchy Derive.
From Verif Require Import Base FieldModel DepositModel DepositSpec VelModel UnModel UnSpec UnProofs UnTop.
Import ListNotations.
Open Scope R_scope.

(** Whatever the order of the shape function, the number of dimensions and the order of the additions, the current
    deposited in all nodes together is the sum over the particles of charge times velocity. *)
Theorem C88_total_current o g third t ps cs J X c : (o <= 11)%nat -> (o <> 0%nat -> third = 1 / 3) ->
  List.Forall (fun p => (1 <= length (mvs p) <= 3)%nat /\ List.Forall short_move (mvs p)) ps ->
  Permutation cs (flat_map (deposit g o third t) ps) -> NoDup X -> List.Forall (fun d => In (snd (fst d)) X) cs ->
  sumf (scatter cs J c) X = sumf (J c) X + flux t c ps.
Proof. exact (total_current o g third t ps cs J X c). Qed.
Print Assumptions C88_total_current.

Definition pa : prtl := {| dead := false; mvs := [{| ci := 3%Z; cdx := 1 / 4; pi := 2%Z; pdx := 3 / 4 |}; {| ci := 7%Z; cdx := 1 / 8; pi := 7%Z; pdx := 3 / 8 |}]; vp1 := 5; vp2 := 1 / 3; qw := - 2 |}.
Example C88_total_case : (1 <= length (mvs pa) <= 3)%nat /\ List.Forall short_move (mvs pa) /\ flux (1 / 10) Jx1 [pa] = - 1 / 10
  /\ flux (1 / 10) Jx2 [pa] = 1 / 20 /\ flux (1 / 10) Jx3 [pa] = - 2 / 3.
Proof.
  split; [cbn; split; repeat constructor|]. split.
  - apply List.Forall_cons; [|apply List.Forall_cons; [|apply List.Forall_nil]]; (split; [unfold valid_move; cbn; repeat split; try lra; discriminate|]);
      unfold now, before; cbn; unfold Rabs; destruct (Rcase_abs _); lra.
  - unfold flux, speed, now, before, pa; cbn; repeat split; lra.
Qed.
Example C88_nodes (cs : list contrib) : exists X, NoDup X /\ List.Forall (fun d => In (snd (fst d)) X) cs.
Proof.
  exists (nodup (list_eq_dec Z.eq_dec) (map (fun d => snd (fst d)) cs)). split; [apply NoDup_nodup|].
  apply List.Forall_forall. intros d I. apply nodup_In, in_map_iff. now exists d.
Qed.

(** What is read: exactly the positive inputs are accepted, and sigma0 is the square of the ratio of the gyration
    frequency of a unit field to the plasma frequency of a unit density. *)
Theorem C88_read l d p v : (exists s, read_scales l d p v = Ok s) <-> 0 < l /\ 0 < d /\ 0 < p.
Proof. exact (read_ok l d p v). Qed.
Print Assumptions C88_read.

Theorem C88_sigma l d p v s : read_scales l d p v = Ok s -> sigma0 s = (1 / l) * (1 / l) / wp2 d [Kind 1 1 1].
Proof. exact (sigma_is l d p v s). Qed.
Print Assumptions C88_sigma.

(** After the step, the field summed over the nodes has changed by - dt larmor0 / skindepth0^2 times the sum of charge
    times velocity in units of ppc0: the volume of the cell has dropped out. *)
Theorem C88_mean_field l d p v s o g third dt ps cs E X c : read_scales l d p v = Ok s -> 0 < v -> (o <= 11)%nat -> (o <> 0%nat -> third = 1 / 3) ->
  List.Forall (fun p => (1 <= length (mvs p) <= 3)%nat /\ List.Forall short_move (mvs p)) ps ->
  Permutation cs (flat_map (deposit g o third (1 / dt)) ps) -> NoDup X -> List.Forall (fun t => In (snd (fst t)) X) cs ->
  sumf (fun x => fst (mink_currents s dt 0 (E x) (scatter cs (fun _ _ => 0) c x))) X
  = sumf E X - dt * (l / (d * d)) * (flux (1 / dt) c ps / p).
Proof. exact (mean_field l d p v s o g third dt ps cs E X c). Qed.
Print Assumptions C88_mean_field.

(** Current and field updates of the three engines: deposited current over the volume and over n0, the same coefficient. *)
Theorem C88_engines l d p v s dt a E J : read_scales l d p v = Ok s -> 0 < v -> 0 < a ->
  mink_currents s dt 0 E J = (E - dt * (l / (d * d)) * (J / v / (p / v)), J / v / (p / v))
  /\ sr_currents s dt a E J = (E - dt * (l / (d * d)) * (J / a / (p / v)), J / a / (p / v))
  /\ gr_currents s dt a E J = E - dt * (l / (d * d)) * (J / a / (p / v)).
Proof. exact (engines l d p v s dt a E J). Qed.
Print Assumptions C88_engines.

(** An external current j acts, and is reported, as ppc0 particles in every cell with charge times velocity j. *)
Theorem C88_external l d p v s dt j E J : read_scales l d p v = Ok s -> 0 < v ->
  mink_currents s dt j E J = mink_currents s dt 0 E (J + p * j) /\ snd (mink_currents s dt j E J) = J / p + j.
Proof. exact (external l d p v s dt j E J). Qed.
Print Assumptions C88_external.

(** A field of unit strength accelerates charge q and mass m at q / m / larmor0. *)
Theorem C88_acceleration l d p v s dt q m u e : read_scales l d p v = Ok s -> m <> 0 ->
  push s dt q m u e (0, 0, 0) = vadd u (vscale (q / m * (dt / l)) e).
Proof. exact (kick l d p v s dt q m u e). Qed.
Print Assumptions C88_acceleration.

(** In a magnetic field the momentum turns about the field, by an angle whose rate is q b / (m larmor0 gamma). *)
Theorem C88_gyration l d p v s dt q m u b : read_scales l d p v = Ok s -> m <> 0 ->
  push s dt q m u (0, 0, 0) (0, 0, b) = turn (2 * atan (1 / 2 * (q / m) * b * dt / (l * u2gamma u))) u.
Proof. exact (gyration l d p v s dt q m u b). Qed.
Print Assumptions C88_gyration.

Theorem C88_frequency l g q m b : l * g <> 0 ->
  is_derive (fun dt => 2 * atan (1 / 2 * (q / m) * b * dt / (l * g))) 0 (q / m * b / (l * g)).
Proof. exact (frequency l g q m b). Qed.
Print Assumptions C88_frequency.

(** larmor0 is the radius of the circle of a particle with q = m and unit momentum across a unit field: speed over rate. *)
Theorem C88_larmor l u : 0 < l -> v3 u = 0 -> norm_sqr u = 1 ->
  sqrt (norm_sqr (velocity u)) / (1 / 1 * 1 / (l * u2gamma u)) = l.
Proof. exact (larmor l u). Qed.
Print Assumptions C88_larmor.

(** In a uniform plasma the field obeys the equation of the plasma oscillation, with the square of the frequency summed
    over the kinds as density times q^2 / m / skindepth0^2, and mass gamma^3 m at a momentum passed through in the step. *)
Theorem C88_plasma_frequency l d p v s dt E0 st0 E1 st1 E2 st2 : read_scales l d p v = Ok s -> 0 < v ->
  List.Forall (fun ku => mss (fst ku) <> 0) st0 ->
  plasma_step s dt (E0, st0) = (E1, st1) -> plasma_step s dt (E1, st1) = (E2, st2) ->
  exists xs, Forall2 (fun kk x => Rmin (snd (fst kk)) (snd (snd kk)) <= x <= Rmax (snd (fst kk)) (snd (snd kk))) (combine st1 st2) xs
    /\ E2 - 2 * E1 + E0 = - (dt * dt) * E1
         * wp2 d (map (fun kx => let '(k, u, x) := kx in Kind (dens k) (chg k) (mss k * cubed (sqrt (1 + x * x)))) (combine st1 xs)).
Proof. exact (plasma_frequency l d p v s dt E0 st0 E1 st1 E2 st2). Qed.
Print Assumptions C88_plasma_frequency.

(** What the field loses at given velocities, sigma0 E dE, the particles gain, m v du, both in units of n0 m c^2. *)
Theorem C88_power l d p v s dt e st : read_scales l d p v = Ok s -> 0 < v -> List.Forall (fun k => mss (fst (fst k)) <> 0) st ->
  sigma0 s * (e * (fst (mink_currents s dt 0 e (sumf (fun k => p * dens (fst (fst k)) * chg (fst (fst k)) * snd k) st)) - e))
  + sumf (fun k => dens (fst (fst k)) * mss (fst (fst k))
                   * (snd k * (v1 (push s dt (chg (fst (fst k))) (mss (fst (fst k))) (snd (fst k), 0, 0) (e, 0, 0) (0, 0, 0)) - snd (fst k)))) st = 0.
Proof. exact (power l d p v s dt e st). Qed.
Print Assumptions C88_power.

(** Numbers: larmor0 = 1/2, skindepth0 = 2, ppc0 = 16, a cell of 1/100. *)
Definition sc : scales := Scales (1 / 2) 2 16 (1 / 100) 16 2 2 1600 (1 / 6400).
Example C88_case : read_scales (1 / 2) 2 16 (1 / 100) = Ok sc /\ 0 < 1 / 100 /\ read_scales 0 2 16 1 = Err
  /\ mink_currents sc (1 / 10) 0 3 8 = (3 - 1 / 160, 1 / 2) /\ wp2 2 [Kind (1 / 2) 1 1; Kind (1 / 2) (-1) 1] = 1 / 4.
Proof.
  split; [|split; [lra|split; [|split]]].
  - apply scales_ok. repeat split; try lra. unfold sc. f_equal; field.
  - unfold read_scales. destruct (Rle_dec 0 0); [reflexivity|lra].
  - unfold mink_currents, mink_coeff, sc. cbn. f_equal; field.
  - unfold wp2. cbn. field.
Qed.
Example C88_plasma_case : exists E1 st1, plasma_step sc (1 / 10) (1, [(Kind (1 / 2) 1 1, 0); (Kind (1 / 2) (-1) 1, 0)]) = (E1, st1)
  /\ map snd st1 = [1 / 5; - 1 / 5].
Proof.
  eexists. eexists. split; [reflexivity|]. cbn [map fst snd chg mss].
  assert (H : read_scales (1 / 2) 2 16 (1 / 100) = Ok sc) by apply C88_case.
  rewrite !(kick _ _ _ _ _ _ _ _ _ _ H) by lra. unfold vadd, vscale, v1, v2, v3. cbn [fst snd]. f_equal; [field|f_equal; field].
Qed.
