(** Energy spectra: ParticleDistribution_kernel (src/kernels/particle_moments.hpp:708-790), its launch
    and the bins in src/framework/domain/metadomain_io.cpp:799-843, Writer::writeSpectrum
    (src/output/writer.cpp:353-384).  Exact real arithmetic, with the non-finite values that log10
    returns made explicit. *)
From Coq Require Import Reals ZArith List Bool.
From Verif Require Import Base MetModel KsModel PoutModel Fp32.
Import ListNotations.
Open Scope R_scope.

Record prt := Prt { p_tag : Z; p_x : coord2; p_u : vec3; p_w : R }.
Inductive engine := SRPIC | GRPIC (M : grmet).

(** particle_moments.hpp:749-776. *)
Definition energy (e : engine) (massive : bool) (p : prt) : R :=
  let '(u1, u2, u3) := p_u p in
  match e with
  | SRPIC => if massive then sqrt (1 + (u1 * u1 + u2 * u2 + u3 * u3)) - 1 else sqrt (u1 * u1 + u2 * u2 + u3 * u3)
  | GRPIC M =>
      let u_0_cov := gr_u_0 M (p_x p) (u1, u2, u3) (if massive then 1 else 0) in
      let '(u0, _, _, _) := gr_cov_to_cntrv4 M (p_x p) (u_0_cov, u1, u2, u3) in
      let Gamma := m_alpha M (p_x p) * u0 in
      if massive then Gamma - 1 else Gamma
  end.

(** Values of math::log10. *)
Inductive ext := Fin (r : R) | MInf | NaN.
Definition log10 (x : R) : ext :=
  if Rlt_dec 0 x then Fin (ln x / ln 10) else if Req_EM_T x 0 then MInf else NaN.
Definition ext_le (a b : ext) : bool :=
  match a, b with
  | Fin x, Fin y => if Rle_dec x y then true else false
  | MInf, Fin _ | MInf, MInf => true
  | _, _ => false
  end.

(** particle_moments.hpp:777-789: conversion of a value that is not finite is undefined. *)
Definition bin_of (n : nat) (e_min e_max en : ext) : res nat :=
  if ext_le en e_min then Ok O
  else if ext_le e_max en then Ok n
  else match en, e_min, e_max with
       | Fin v, Fin lo, Fin hi => Ok (Z.to_nat (Int_part (INR n * (v - lo) / (hi - lo))))
       | _, _, _ => UB
       end.

Section Spectrum.
  Variables (en : prt -> R) (log_bins : bool) (n_bins : nat) (e_min e_max : R).
  Definition scale (x : R) : ext := if log_bins then log10 x else Fin x.
  (** One thread: metadomain_io.cpp:827 allocates n_bins entries; an index past them is undefined. *)
  Definition tally (dn : nat -> R) (p : prt) : res (nat -> R) :=
    if Z.eqb (p_tag p) 1 then
      rbind (bin_of n_bins (scale e_min) (scale e_max) (scale (en p))) (fun e =>
      if Nat.ltb e n_bins then Ok (fun b => if Nat.eqb b e then dn b + p_w p else dn b) else UB)
    else Ok dn.
  Fixpoint tallies (ps : list prt) (dn : nat -> R) : res (nat -> R) :=
    match ps with [] => Ok dn | p :: ps' => rbind (tally dn p) (tallies ps') end.
  (** All ranks; [order]: in which the additions happen; then MPI_Reduce, writer.cpp:363-369. *)
  Definition spectrum (order : list prt -> list prt) (ranks : list (list prt)) : res (nat -> R) :=
    rbind (mapM (fun ps => tallies (order ps) (fun _ => 0)) ranks) (fun all =>
    Ok (fun b => fold_left (fun s dn => s + dn b) all 0)).
  (** metadomain_io.cpp:806-823, the edges that are written. *)
  Definition edge (k : nat) : option R :=
    match scale e_min, scale e_max with
    | Fin lo, Fin hi =>
        if Nat.eqb n_bins 0 then None
        else let v := lo + (hi - lo) * INR k / INR n_bins in Some (if log_bins then Rpower 10 v else v)
    | _, _ => None
    end.
End Spectrum.

(** particle_moments.hpp:784-785 in single precision, on values already in single precision. *)
Definition index32 (n : nat) (lo hi v : R) : Z := Int_part (rnd32 (rnd32 (INR n * rnd32 (v - lo)) / rnd32 (hi - lo))).
