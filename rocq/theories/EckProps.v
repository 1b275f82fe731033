(** C84: bulk four-velocity of the GR engine. *)
From Coq Require Import Reals ZArith List Bool Lra Lia.
From Verif Require Import Base MetModel MetSpec KsModel KsSpec EckModel EckSpec EckProofs EckTop.
Import ListNotations.
Open Scope R_scope.

(** What is summed is the flux m u^i / u^0 of the particles: every particle has exactly one
    four-velocity, and the sum is over those. *)
Theorem C84_flux : forall M ps, (forall p, In p ps -> engine_metric M (q_x p) /\ moves p) ->
  (forall p, In p ps -> exists v, four_velocity M p v) /\
  forall up, (forall p, In p ps -> four_velocity M p (up p)) -> is_total up ps (cell_flux M ps).
Proof. exact flux_total. Qed.
Print Assumptions C84_flux.

(** Whatever the particles, and in empty cells, the result is the four-velocity of an observer. *)
Theorem C84_unit : forall eps M i1 i2 ps, engine_metric M (centre i1 i2) -> 0 <= eps -> (forall p, In p ps -> counted p) ->
  future_unit M (centre i1 i2) (normalize eps M (centre i1 i2) (cell_flux M ps)).
Proof. intros eps M i1 i2 ps EM He H. exact (normalize_unit eps M _ _ EM He (flux_nonneg M ps H)). Qed.
Print Assumptions C84_unit.

(** A timelike flux above the thresholds is the proper density times the velocity, and no other
    velocity has that property. *)
Theorem C84_direction : forall eps M x N, engine_metric M x -> 0 <= eps -> eps < at4 N 0 -> inner M x N N < - (eps * eps) ->
  N = scale4 (sqrt (- inner M x N N)) (normalize eps M x N) /\
  forall k V, future_unit M x V -> N = scale4 k V -> V = normalize eps M x N /\ k = sqrt (- inner M x N N).
Proof. exact normalize_direction. Qed.
Print Assumptions C84_direction.

(** Every other flux gives the observer at rest in the slices of constant time. *)
Theorem C84_fallback : forall eps M x N, engine_metric M x -> 0 <= eps -> 0 <= at4 N 0 ->
  at4 N 0 <= eps \/ - (eps * eps) <= inner M x N N -> normal_observer M x (normalize eps M x N).
Proof. exact normalize_fallback. Qed.
Print Assumptions C84_fallback.

(** The flux is timelike when the velocities of the particles, carried to the centre of the cell as
    they are, are not faster than light there, and one of them is slower. *)
Theorem C84_timelike : forall M x ps up, engine_metric M x ->
  (forall p, In p ps -> engine_metric M (q_x p) /\ moves p /\ counted p /\ four_velocity M p (up p) /\ inner M x (up p) (up p) <= 0) ->
  (exists p, In p ps /\ 0 < q_share p /\ inner M x (up p) (up p) < 0) ->
  inner M x (cell_flux M ps) (cell_flux M ps) < 0 /\ 0 < at4 (cell_flux M ps) 0.
Proof. exact cone. Qed.
Print Assumptions C84_timelike.

(** Particles with one common four-velocity: that is the result. *)
Theorem C84_cold : forall eps M x ps V, engine_metric M x -> 0 <= eps -> future_unit M x V ->
  (forall p, In p ps -> engine_metric M (q_x p) /\ moves p /\ counted p /\ four_velocity M p V) ->
  let n := sum_list (map (fun p => q_share p * (if Req_EM_T (q_mass p) 0 then 1 else q_mass p)) ps) in
  eps < n -> eps < n / at4 V 0 -> normalize eps M x (cell_flux M ps) = V.
Proof. exact cold. Qed.
Print Assumptions C84_cold.

(** What is written is the rate of change of time, radius, polar angle and azimuth. *)
Theorem C84_physical : forall eps M i1 i2 ps d1 d2, let x := centre i1 i2 in
  engine_metric M x -> derivable_pt_lim (m_r M) (fst x) d1 -> derivable_pt_lim (m_th M) (snd x) d2 ->
  let V := normalize eps M x (cell_flux M ps) in
  bulk_velocity4 eps M i1 i2 ps = Some (at4 V 0, d1 * at4 V 1, d2 * at4 V 2, at4 V 3).
Proof. intros eps M i1 i2 ps d1 d2 x EM D1 D2 V. exact (physical M x V d1 d2 EM D1 D2). Qed.
Print Assumptions C84_physical.

(** A massive particle of the cell that is closer to the axis than the centre, and fast enough for
    its azimuthal velocity dphi/dt to exceed that of light at the centre: the cell is reported at
    rest.  Here without a black hole; the Lorentz factor is sqrt (1 + w^2). *)
Theorem C84_displaced_refuted : forall eps g i1 i2 y1 u3, sensible g -> 0 <= eps -> eps < 1 ->
  let M := ks0 g in let x := centre i1 i2 in
  gr_regular M x -> gr_regular M (y1, snd x) -> 0 < u3 ->
  let r := m_r M (fst x) in let r' := m_r M y1 in let w := u3 / (r' * sin (m_th M (snd x))) in
  1 <= w ^ 2 * (r ^ 2 / r' ^ 2 - 1) ->
  let p := Con (y1, snd x) (0, 0, u3) 1 1 in
  exists v, four_velocity M p v /\ 0 < at4 v 3 /\ at4 v 0 = sqrt (1 + w ^ 2) /\
  normalize eps M x (cell_flux M [p]) = (1, 0, 0, 0).
Proof.
  intros eps g i1 i2 y1 u3 S He He1 M x Rx Ry Hu r r' w HW p. exists (up4 M p).
  split; [apply up4_is; [apply em_ks0; assumption|left; cbn; lra]|]. exact (displaced eps g i1 i2 y1 u3 S He He1 Rx Ry Hu HW).
Qed.
Print Assumptions C84_displaced_refuted.

(** Radii 1..3 in two cells, no black hole; a particle at rest and one moving radially. *)
Definition exg : grid := Grid 2 1 1 1 3 0 PI 0 1.
Definition exM := ks0 exg.
Lemma ex_sensible : sensible exg.
Proof. unfold sensible, exg. cbn. pose proof PI_RGT_0. repeat split; lra || lia. Qed.
Lemma ex_regular y : 0 <= y -> gr_regular exM (y, 1 / 2).
Proof.
  intros Hy. unfold gr_regular, exM, exg. cbn [ks0 m_r m_th fst snd]. unfold k_r, k_th, s_dr, s_dth. cbn.
  pose proof PI_RGT_0. split; [|split]; lra.
Qed.
Example ex_metric : engine_metric exM (centre 0 0).
Proof. replace (centre 0 0) with (1 / 2, 1 / 2) by (unfold centre; f_equal; lra). apply em_ks0; [exact ex_sensible|apply ex_regular; lra]. Qed.
Definition ex_ps : list contributor := [Con (1/2, 1/2) (0, 0, 0) 1 2; Con (1/4, 1/2) (1, 0, 0) 3 1].
Example ex_counted : forall p, In p ex_ps -> engine_metric exM (q_x p) /\ moves p /\ counted p.
Proof.
  intros p [<-|[<-|[]]]; cbn [q_x]; (split; [apply em_ks0; [exact ex_sensible|apply ex_regular; lra]|]);
    (split; [left; cbn; lra|split; cbn; lra]).
Qed.
(** A particle at radius 5/4 with w = 4 (Lorentz factor about 4.1), the centre being at 3/2. *)
Example ex_displaced : 1 <= 4 ^ 2 * ((3 / 2) ^ 2 / (5 / 4) ^ 2 - 1).
Proof. lra. Qed.
