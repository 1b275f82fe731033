(** Physical units: the scales derived from the input, and where they enter.
    src/framework/parameters/parameters.cpp:47-78, src/engines/srpic/fieldsolvers.h:141-199,
    src/engines/grpic/fieldsolvers.h:220-260, src/kernels/ampere_mink.hpp:133-215,
    src/kernels/ampere_sr.hpp:163-208, src/kernels/ampere_gr.hpp:143-170, src/kernels/pushers/sr.hpp:111.

    Exact reals.  Kernels are given for one node and one component; [area] is [sqrt_det_h] at the node of the
    component, or twice [polar_area] on the axis. *)
From Coq Require Import Reals List.
From Verif Require Import Base VelModel.
Import ListNotations.
Open Scope R_scope.

Record scales := Scales { larmor0 : R; skindepth0 : R; ppc0 : R; V0 : R; sigma0 : R; B0 : R; omegaB0 : R; n0 : R; q0 : R }.

(** parameters.cpp:47-78 *)
Definition read_scales (l d p v : R) : res scales :=
  if Rle_dec l 0 then Err else if Rle_dec d 0 then Err
  else if Rle_dec p 0 then Err
  else Ok (Scales l d p v ((d / l) * (d / l)) (1 / l) (1 / l) (p / v) (v / (p * (d * d)))).

(** srpic/fieldsolvers.h:157 and ampere_mink.hpp:134-150: E and J afterwards.  [ext] is the external current. *)
Definition mink_coeff (s : scales) (dt : R) : R := - dt * q0 s / (B0 s * V0 s).
Definition mink_currents (s : scales) (dt ext E J : R) : R * R :=
  let J := J + ppc0 s * ext in (E + J * mink_coeff s dt, J / ppc0 s).

(** srpic/fieldsolvers.h:186-196 and ampere_sr.hpp:171-201 *)
Definition sr_coeff (s : scales) (dt : R) : R := - dt * q0 s * n0 s / B0 s.
Definition sr_currents (s : scales) (dt area E J : R) : R * R :=
  let J := J * (1 / n0 s / area) in (E + J * sr_coeff s dt, J).

(** grpic/fieldsolvers.h:229-231 and ampere_gr.hpp:151-169 *)
Definition gr_coeff (s : scales) (dt : R) : R := - dt * q0 s / B0 s.
Definition gr_currents (s : scales) (dt area D J : R) : R := D + J * gr_coeff s dt / area.

(** sr.hpp:111 with the Boris push *)
Definition push (s : scales) (dt q m : R) (u e b : vec) : vec := boris (normalized_dt_half q m (omegaB0 s) dt) u e b.
