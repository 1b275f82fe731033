(** Particle species of the input file and how the engines push them.
    src/framework/parameters/particles.cpp:25-225 (getRadiativeDragFlags, getPusherFlags,
    getEmissionPolicyFlag, GetParticleSpecies), parameters.cpp:80-99 and 233-255,
    extra.cpp:18-162, algorithms.cpp:106-130 and setParams (the keys they set), containers/species.h:86-125,
    engines/srpic/particle_pusher.h:81-184, kernels/pushers/sr_policies.h:53-125 and 161-219,
    kernels/pushers/sr.hpp:99-303 (choice of the algorithm), engines/grpic/particle_pusher.h:27-88.

    Masses and charges are rational numbers (every float is one).  A bit mask is a record of
    Booleans.  Values of parameters other than the photon species are not modelled, only which keys
    are set and read.  The label of a species has no effect here and is left out. *)
From Coq Require Import ZArith QArith Qabs List Bool String Ascii.
From Verif Require Import Base.
Import ListNotations.
Open Scope string_scope.

Inductive engine := SRPIC | GRPIC.

(** fmt::toLower, formatting.h:118-122, "C" locale. *)
Definition lower1 (c : ascii) : ascii :=
  let n := nat_of_ascii c in if (Nat.leb 65 n && Nat.leb n 90)%bool then ascii_of_nat (n + 32) else c.
Fixpoint toLower (s : string) : string :=
  match s with EmptyString => EmptyString | String c r => String (lower1 c) (toLower r) end.

(** The loop [while (std::getline(tokenStream, token, ','))]: the text between the commas; nothing
    after a comma that ends the text, and nothing in an empty text. *)
Fixpoint pieces (s : string) : string * list string :=
  match s with
  | EmptyString => ("", [])
  | String c r => let (h, t) := pieces r in if Ascii.eqb c "," then ("", h :: t) else (String c h, t)
  end.
Fixpoint drop_empty_last (l : list string) : list string :=
  match l with
  | [] => []
  | [x] => match x with EmptyString => [] | _ => [x] end
  | x :: r => x :: drop_empty_last r
  end.
Definition tokens (s : string) : list string := let (h, t) := pieces s in drop_empty_last (h :: t).

(** enums.h:317-403. *)
Record pusher_flags := PF { f_photon : bool; f_boris : bool; f_vay : bool; f_gca : bool }.
Record drag_flags := DF { f_synch : bool; f_compton : bool }.
Inductive emission_flag := ENone | ESynchrotron | ECompton | ECustom.
Definition no_pusher : pusher_flags := PF false false false false.
Definition no_drag : drag_flags := DF false false.
Definition is_none (f : pusher_flags) : bool := negb (f_photon f || f_boris f || f_vay f || f_gca f).
(** flags == PHOTON, flags == BORIS *)
Definition is_photon (f : pusher_flags) : bool := f_photon f && negb (f_boris f || f_vay f || f_gca f).
Definition is_boris (f : pusher_flags) : bool := f_boris f && negb (f_photon f || f_vay f || f_gca f).

(** particles.cpp:25-48. *)
Definition getRadiativeDragFlags (s : string) : res drag_flags :=
  if String.eqb (toLower s) "none" then Ok no_drag
  else fold_left (fun acc token =>
    rbind acc (fun f =>
      let t := toLower token in
      if String.eqb t "synchrotron" then Ok (DF true (f_compton f))
      else if String.eqb t "compton" then Ok (DF (f_synch f) true)
      else Err)) (tokens s) (Ok no_drag).

(** particles.cpp:50-80. *)
Definition getPusherFlags (s : string) : res pusher_flags :=
  if String.eqb (toLower s) "none" then Ok no_pusher
  else rbind (fold_left (fun acc token =>
    rbind acc (fun f =>
      let t := toLower token in
      if String.eqb t "photon" then Ok (PF true (f_boris f) (f_vay f) (f_gca f))
      else if String.eqb t "boris" then Ok (PF (f_photon f) true (f_vay f) (f_gca f))
      else if String.eqb t "vay" then Ok (PF (f_photon f) (f_boris f) true (f_gca f))
      else if String.eqb t "gca" then Ok (PF (f_photon f) (f_boris f) (f_vay f) true)
      else Err)) (tokens s) (Ok no_pusher))
    (fun f => if f_photon f && f_gca f then Err else Ok f).

(** particles.cpp:82-98. *)
Definition getEmissionPolicyFlag (s : string) : res emission_flag :=
  let t := toLower s in
  if String.eqb t "none" then Ok ENone
  else if String.eqb t "synchrotron" then Ok ESynchrotron
  else if String.eqb t "compton" then Ok ECompton
  else if String.eqb t "custom" then Ok ECustom
  else Err.

(** One table [[particles.species]]; [None] is an absent key. *)
Record table := Tab {
  t_mass : Q; t_charge : Q; t_maxnpart : Q; t_clear : option Z; t_sort : option Z;
  t_pusher : option string; t_nreal : option Z; t_tracking : option bool; t_nint : option Z;
  t_drag : option string; t_emission : option string
}.

(** containers/species.h. *)
Record species := Spc {
  sp_index : Z; sp_mass : Q; sp_charge : Q; sp_maxnpart : Z; sp_clear : Z; sp_sort : Z;
  sp_pusher : pusher_flags; sp_tracking : bool; sp_drag : drag_flags; sp_emission : emission_flag;
  sp_npld_r : Z; sp_npld_i : Z
}.

Definition or_else {A} (o : option A) (d : A) : A := match o with Some a => a | None => d end.
Definition guard {A} (bad : bool) (k : res A) : res A := if bad then Err else k.
Definition is0 (q : Q) : bool := Qeq_bool q 0.
(** static_cast<npart_t>(double): undefined when the integer part does not fit. *)
Definition to_npart (q : Q) : res Z :=
  let z := Z.quot (Qnum q) (Zpos (Qden q)) in if (0 <=? z)%Z && (z <? 2 ^ 32)%Z then Ok z else UB.

Definition k_sync := "radiation.drag.synchrotron.gamma_rad".
Definition k_comp := "radiation.drag.compton.gamma_rad".
Definition k_gca1 := "algorithms.gca.e_ovr_b_max".
Definition k_gca2 := "algorithms.gca.larmor_max".
Definition k_esync := "radiation.emission.synchrotron.photon_species".
Definition k_ecomp := "radiation.emission.compton.photon_species".

(** particles.cpp:100-225.  [mpi]: built with MPI.  Also returns the keys promised. *)
Definition GetParticleSpecies (mpi : bool) (e : engine) (idx clear sort : Z) (t : table) : res (species * list string) :=
  let mass := t_mass t in
  let charge := t_charge t in
  guard (negb (is0 charge) && is0 mass) (
  let is_massless := is0 mass && is0 charge in
  let def_pusher := if is_massless then "Photon" else "Boris" in
  rbind (to_npart (t_maxnpart t)) (fun maxnpart =>
  let pusher_str := or_else (t_pusher t) def_pusher in
  let npayloads_real := ((or_else (t_nreal t) 0) mod 2 ^ 16)%Z in
  let use_tracking := or_else (t_tracking t) false in
  let ni := ((or_else (t_nint t) 0) mod 2 ^ 16)%Z in
  let npayloads_int := if use_tracking then ((ni + (if mpi then 2 else 1)) mod 2 ^ 16)%Z else ni in
  let drag0 := or_else (t_drag t) "default" in
  let defaulted := String.eqb (toLower drag0) "default" in
  let drag_str := if defaulted then "none" else drag0 in
  let emission_str := or_else (t_emission t) "none" in
  guard (negb (String.eqb (toLower drag_str) "none") && is_massless) (
  guard (String.eqb (toLower pusher_str) "photon" && negb is_massless) (
  rbind (getPusherFlags pusher_str) (fun pf =>
  rbind (getRadiativeDragFlags drag_str) (fun df =>
  rbind (getEmissionPolicyFlag emission_str) (fun ef =>
  guard (match ef with ESynchrotron | ECompton => is_massless | _ => false end) (
  let df := if defaulted then
              match ef with
              | ESynchrotron => DF true (f_compton df)
              | ECompton => DF (f_synch df) true
              | _ => df
              end else df in
  let gr := match e with SRPIC => false | GRPIC => true end in
  guard (f_synch df && gr) (
  guard (f_compton df && gr) (
  guard (f_gca pf && gr) (
  let promises :=
    ((if f_synch df then [k_sync] else []) ++ (if f_compton df then [k_comp] else [])
    ++ (if f_gca pf then [k_gca1; k_gca2] else [])
    ++ match ef with ESynchrotron => [k_esync; k_sync] | ECompton => [k_ecomp; k_comp] | _ => [] end)%list in
  (* species.h:112-123 *)
  guard (use_tracking && (npayloads_int <? (if mpi then 2 else 1))%Z) (
  Ok (Spc idx mass charge maxnpart (or_else (t_clear t) clear) (or_else (t_sort t) sort) pf use_tracking df ef
        npayloads_real npayloads_int, promises))))))))))))).

(** parameters.cpp:82-98; the index is an 8-bit number. *)
Fixpoint read_species (mpi : bool) (e : engine) (idx clear sort : Z) (ts : list table) : res (list species * list string) :=
  match ts with
  | [] => Ok ([], [])
  | t :: r =>
      rbind (GetParticleSpecies mpi e idx clear sort t) (fun '(s, p) =>
      rbind (read_species mpi e ((idx + 1) mod 256)%Z clear sort r) (fun '(ss, ps) => Ok (s :: ss, p ++ ps)%list))
  end.

Definition promised (ps : list string) (k : string) : bool := existsb (String.eqb k) ps.

(** The part of the input that [Extra::read] requires: photon species of the two processes. *)
Record extra := Ext { x_sync : option Z; x_comp : option Z }.

Definition emission_keys (p : string) : list string :=
  map (fun k => "radiation.emission." ++ p ++ k)
    [".gamma_qed"; ".photon_energy_min"; ".photon_weight"; ".photon_species"; ".nominal_probability"; ".nominal_photon_energy"].

(** parameters.cpp:233-255 with algorithms.cpp and extra.cpp: the keys set.  toml::find throws when
    the photon species is absent. *)
Definition set_keys (e : engine) (ps : list string) (x : extra) : res (list string) :=
  guard (promised ps k_esync && match x_sync x with None => true | _ => false end) (
  guard (promised ps k_ecomp && match x_comp x with None => true | _ => false end) (
  Ok ((match e with GRPIC => ["algorithms.gr.pusher_eps"; "algorithms.gr.pusher_niter"] | SRPIC => [] end)
      ++ (if promised ps k_gca1 then [k_gca1; k_gca2] else [])
      ++ (if promised ps k_sync then [k_sync] else [])
      ++ (if promised ps k_comp then [k_comp] else [])
      ++ (if promised ps k_esync then k_sync :: emission_keys "synchrotron" else [])
      ++ (if promised ps k_ecomp then k_comp :: emission_keys "compton" else []))%list)).

(** What a step does to the velocity of a particle. *)
Inductive motion := Free | Boris | Vay | Gca.

(** sr.hpp:126, 251-303: [gca_applies] is the test on the fields of the particle, 260-261. *)
Definition sr_motion (f : pusher_flags) (gca_applies : bool) : res motion :=
  let conventional := if f_boris f then Ok Boris else if f_vay f then Ok Vay else Err in
  if is_photon f then Ok Free
  else if f_gca f then (if gca_applies then Ok Gca else conventional)
  else conventional.

(** prm::Parameters::get of every key; throws when one is absent. *)
Definition need {A} (keys ks : list string) (k : res A) : res A := guard (negb (forallb (promised keys) ks)) k.

(** AlmostZero_host of a float. *)
Definition tiny (q : Q) : bool := Qle_bool (Qabs q) (1 # 8388608).

(** MakePusherPolicyEmission, sr_policies.h:53-103; the index is an 8-bit number, and 0 - 1 is outside
    the vector. *)
Definition emission_policy (all : list species) (keys : list string) (p : string) (ph : option Z) : res (list Z) :=
  need keys ["radiation.emission." ++ p ++ ".photon_species"] (
  let i := ((or_else ph 0) mod 256)%Z in
  guard (Z.of_nat (List.length all) <? i)%Z (
  if (i =? 0)%Z then UB
  else match nth_error all (Z.to_nat (i - 1)) with
       | None => UB
       | Some s =>
           guard (negb (tiny (sp_mass s))) (
           guard (negb (tiny (sp_charge s))) (
           need keys (map (fun k => "radiation.emission." ++ p ++ k)
             [".photon_weight"; ".photon_energy_min"; ".nominal_probability"; ".nominal_photon_energy"])
           (Ok [i])))
       end)).

(** What one step does for one species: nothing, or a motion per particle and the species that may
    receive emitted particles; [ratio] is charge/mass as the kernel uses it, [None] for a division by
    zero. *)
Inductive pushed := Skipped | Pushed (how : bool -> res motion) (ratio : option Q) (emits : list Z).

Definition ratio_of (s : species) : option Q := if is0 (sp_mass s) then None else Some (sp_charge s / sp_mass s)%Q.

(** srpic/particle_pusher.h:81-184.  [pgen]: species the problem generator's emission policy emits. *)
Definition sr_push (all : list species) (keys : list string) (x : extra) (pgen : option (list Z)) (npart : Z) (s : species) : res pushed :=
  if is_none (sp_pusher s) || (npart =? 0)%Z then Ok Skipped
  else
    need keys (if f_gca (sp_pusher s) then [k_gca2; k_gca1] else []) (
    need keys (if f_synch (sp_drag s) then [k_sync] else []) (
    need keys (if f_compton (sp_drag s) then [k_comp] else []) (
    rbind (match sp_emission s with
           | ESynchrotron => emission_policy all keys "synchrotron" (x_sync x)
           | ECompton => emission_policy all keys "compton" (x_comp x)
           | ECustom => match pgen with Some l => Ok l | None => Err end
           | ENone => Ok []
           end) (fun emits =>
    Ok (Pushed (sr_motion (sp_pusher s)) (ratio_of s) emits))))).

(** grpic/particle_pusher.h:31-88. *)
Definition gr_push (keys : list string) (npart : Z) (s : species) : res pushed :=
  if (npart =? 0)%Z || is_none (sp_pusher s) then Ok Skipped
  else
    need keys ["algorithms.gr.pusher_eps"; "algorithms.gr.pusher_niter"] (
    if is_photon (sp_pusher s) then Ok (Pushed (fun _ => Ok Free) (ratio_of s) [])
    else if is_boris (sp_pusher s) then Ok (Pushed (fun _ => Ok Boris) (ratio_of s) [])
    else Err).

(** Input, parameters and one step of one species, as a whole.  [which] is the position of the species
    in the file. *)
Definition run (mpi : bool) (e : engine) (clear sort : Z) (ts : list table) (x : extra) (pgen : option (list Z))
    (which : nat) (npart : Z) : res pushed :=
  rbind (read_species mpi e 1 clear sort ts) (fun '(all, ps) =>
  rbind (set_keys e ps x) (fun keys =>
  match nth_error all which with
  | None => Err
  | Some s => match e with
              | SRPIC => sr_push all keys x pgen npart s
              | GRPIC => gr_push keys npart s
              end
  end)).
