(** C85: the species of the input file. *)
From Coq Require Import ZArith QArith Qround List Bool String Ascii Lia.
From Verif Require Import Base SpcsModel SpcsSpec SpcsProofs SpcsTop.
Import ListNotations.
Open Scope string_scope.

(** A comma separated list of pushers, in any case, selects exactly the pushers named; photon together
    with gca is refused. *)
Theorem C85_pusher_names : forall l, l <> [] -> Forall (word pusher_words) l ->
  getPusherFlags (String.concat "," l) =
  if names "photon" l && names "gca" l then Err
  else Ok (PF (names "photon" l) (names "boris" l) (names "vay" l) (names "gca" l)).
Proof. exact pusher_names. Qed.
Print Assumptions C85_pusher_names.
Example C85_pusher_names_ex : getPusherFlags "Vay,GCA" = Ok (PF false false true true) /\ getPusherFlags "photon,gca" = Err.
Proof. split; reflexivity. Qed.

(** A list with any other word, a blank included, is refused. *)
Theorem C85_pusher_refused : forall l, l <> [] -> Forall (fun y => no_comma y = true) l -> last l "x" <> "" ->
  ~ Forall (word pusher_words) l -> toLower (String.concat "," l) <> "none" -> getPusherFlags (String.concat "," l) = Err.
Proof. exact pusher_refused. Qed.
Print Assumptions C85_pusher_refused.
Example C85_pusher_refused_ex : getPusherFlags "boris, gca" = Err /\ getPusherFlags ",boris" = Err /\ getPusherFlags "boris,none" = Err.
Proof. repeat split. Qed.

Theorem C85_drag_names : forall l, l <> [] -> Forall (word drag_words) l ->
  getRadiativeDragFlags (String.concat "," l) = Ok (DF (names "synchrotron" l) (names "compton" l)).
Proof. exact drag_names. Qed.
Print Assumptions C85_drag_names.
Example C85_drag_names_ex : getRadiativeDragFlags "Compton,synchrotron" = Ok (DF true true) /\ getRadiativeDragFlags "compton" = Ok (DF false true).
Proof. split; reflexivity. Qed.

(** Whatever the file: if it is accepted, then its species, in order and numbered from 1, are sound. *)
Theorem C85_accepted : forall mpi e cl so ts ss ps i t, (List.length ts <= 255)%nat ->
  read_species mpi e 1 cl so ts = Ok (ss, ps) -> nth_error ts i = Some t ->
  exists s, nth_error ss i = Some s /\ sound mpi e s /\ sp_index s = (Z.of_nat i + 1)%Z
    /\ sp_mass s = t_mass t /\ sp_charge s = t_charge t
    /\ sp_clear s = or_else (t_clear t) cl /\ sp_sort s = or_else (t_sort t) so
    /\ sp_tracking s = or_else (t_tracking t) false.
Proof. exact accepted. Qed.
Print Assumptions C85_accepted.
Example C85_accepted_ex : exists ss ps, read_species true SRPIC 1 100 0
  [Tab 1 (-1) 10 None (Some 5%Z) (Some "vay") None (Some true) None (Some "compton") None; Tab 0 0 10 (Some 7%Z) None None None None None None None]
  = Ok (ss, ps) /\ map sp_index ss = [1; 2]%Z /\ map sp_npld_i ss = [2; 0]%Z /\ map sp_clear ss = [100; 7]%Z /\ ps = [k_comp].
Proof. do 2 eexists. split; [reflexivity|]. repeat split. Qed.

(** Every parameter promised while the species are read is set afterwards. *)
Theorem C85_promises : forall mpi e cl so ts ss ps x keys, read_species mpi e 1 cl so ts = Ok (ss, ps) ->
  set_keys e ps x = Ok keys -> incl ps keys.
Proof. exact promises_kept. Qed.
Print Assumptions C85_promises.
Example C85_promises_ex : exists ss ps keys, read_species false SRPIC 1 1 1
  [Tab 1 (-1) 10 None None (Some "boris,gca") None None None None (Some "compton"); Tab 0 0 10 None None None None None None None None] = Ok (ss, ps)
  /\ set_keys SRPIC ps (Ext None (Some 2%Z)) = Ok keys /\ List.length ps = 5%nat /\ promised keys "radiation.emission.compton.photon_weight" = true.
Proof. do 3 eexists. split; [reflexivity|]. repeat split. Qed.

(** Every meaningful file runs in special relativity: each species moves as the file says. *)
Theorem C85_runs : forall mpi cl so ds x pgen i d npart, Forall (meaningful SRPIC) ds -> photons_given ds x ->
  nth_error ds i = Some d -> (emission_is d "custom" -> pgen <> None) -> (0 < npart)%Z -> d_pushers d <> Some [] ->
  exists how ratio l, run mpi SRPIC cl so (map write ds) x pgen i npart = Ok (Pushed how ratio l)
    /\ (forall b, how b = Ok (intended d b))
    /\ (~ massless d -> ratio = Some (d_charge d / d_mass d)%Q)
    /\ receives d x pgen l.
Proof. exact sr_runs. Qed.
Print Assumptions C85_runs.

Definition electrons := Desc 1 (-1) 1000 (Some ["Boris"; "GCA"]) None (Some "Synchrotron") (Some true) None None None None.
Definition light := Desc 0 0 500 None None None None None None None None.
Lemma electrons_ok : meaningful SRPIC electrons.
Proof.
  constructor; unfold massless, emission_is; cbn; try (intros; discriminate).
  - split; [discriminate|reflexivity].
  - intros l H. injection H as <-. constructor; [right; left; reflexivity|]. constructor; [do 3 right; left; reflexivity|]. constructor.
  - intros l H Z0 _ . injection H as <-. split; reflexivity.
  - intros s H. injection H as <-. cbn. auto.
Qed.
Lemma light_ok : meaningful SRPIC light.
Proof.
  constructor; unfold massless, emission_is; cbn; try (intros; discriminate); try reflexivity.
  - split; [discriminate|reflexivity].
  - intros [(s & H & _)|(s & H & _)]; discriminate H.
Qed.
Example C85_runs_ex : exists how ratio l,
  run true SRPIC 100 0 (map write [electrons; light]) (Ext (Some 2%Z) None) None 0 7 = Ok (Pushed how ratio l)
  /\ how true = Ok Gca /\ how false = Ok Boris /\ ratio = Some (-1 / 1)%Q /\ l = [2%Z].
Proof.
  destruct (C85_runs true 100 0 [electrons; light] (Ext (Some 2%Z) None) None 0 electrons 7) as (how & r & l & E & H1 & H2 & H3).
  - exact (Forall_cons _ electrons_ok (Forall_cons _ light_ok (Forall_nil _))).
  - split.
    + intros _. exists 2%Z. split; [reflexivity|]. split; [lia|]. exists light. repeat split.
    + intros (d & [<-|[<-|[]]] & s & H & H'); discriminate H || (injection H as <-; discriminate H').
  - reflexivity.
  - intros (s & H & H'). injection H as <-. discriminate H'.
  - lia.
  - discriminate.
  - exists how, r, l. split; [exact E|]. rewrite !H1. repeat split.
    + apply H2. unfold massless. cbn. discriminate.
    + destruct H3 as (H3 & _). destruct H3 as (k & Hk & ->); [exists "Synchrotron"; split; reflexivity|].
      injection Hk as <-. reflexivity.
Qed.

(** The drags, the capacity and the payloads of a meaningful file. *)
Theorem C85_read : forall mpi e cl so ds i d, Forall (meaningful e) ds -> nth_error ds i = Some d ->
  exists ss ps s, read_species mpi e 1 cl so (map write ds) = Ok (ss, ps) /\ nth_error ss i = Some s
    /\ (f_synch (sp_drag s) = true <-> dragged d "synchrotron") /\ (f_compton (sp_drag s) = true <-> dragged d "compton")
    /\ sp_maxnpart s = Qfloor (d_max d)
    /\ sp_npld_i s = (or_else (d_nint d) 0 + if or_else (d_tracking d) false then (if mpi then 2 else 1) else 0)%Z.
Proof. exact desc_fields. Qed.
Print Assumptions C85_read.
Example C85_read_ex : dragged electrons "synchrotron" /\ ~ dragged electrons "compton".
Proof.
  split; [exists "Synchrotron"; split; reflexivity|]. intros (s & H & H'). injection H as <-. discriminate H'.
Qed.

(** And in general relativity, where only Boris and photon can be asked for. *)
Theorem C85_runs_gr : forall mpi cl so ds x pgen i d npart, Forall (meaningful GRPIC) ds ->
  nth_error ds i = Some d -> (0 < npart)%Z -> d_pushers d <> Some [] ->
  exists how ratio, run mpi GRPIC cl so (map write ds) x pgen i npart = Ok (Pushed how ratio [])
    /\ (forall b, how b = Ok (intended d b))
    /\ (~ massless d -> ratio = Some (d_charge d / d_mass d)%Q).
Proof. exact gr_runs. Qed.
Print Assumptions C85_runs_gr.
Example C85_runs_gr_ex : meaningful GRPIC (Desc 1 (-1) 1000 None None None None None None None None).
Proof.
  constructor; unfold massless, emission_is; cbn; try (intros; discriminate); try reflexivity.
  - split; [discriminate|reflexivity].
  - intros _. repeat split; intros; try discriminate; intros (s & H & _); discriminate H.
Qed.

(** Species without particles, or with the pusher "none", are left alone. *)
Theorem C85_skipped : forall mpi e cl so ds x pgen i d npart, Forall (meaningful e) ds -> photons_given ds x ->
  nth_error ds i = Some d -> npart = 0%Z \/ d_pushers d = Some [] ->
  run mpi e cl so (map write ds) x pgen i npart = Ok Skipped.
Proof. exact none_skipped. Qed.
Print Assumptions C85_skipped.

(** What the checks let through.  A charged massive species that no field acts on: *)
Definition tab (m q : Q) (p dr em : option string) := Tab m q 1000 None None p None None None dr em.
Theorem C85_massive_photon_refuted : exists t how r l, ~ (t_mass t == 0)%Q /\ ~ (t_charge t == 0)%Q
  /\ run false SRPIC 1 1 [t] (Ext None None) None 0 1 = Ok (Pushed how r l) /\ forall b, how b = Ok Free.
Proof.
  exists (tab 1 (-1) (Some "photon,") None None). do 3 eexists.
  split; [discriminate|]. split; [discriminate|]. split; [reflexivity|]. intros b. reflexivity.
Qed.
Print Assumptions C85_massive_photon_refuted.

(** A massless species pushed with charge over mass, 0/0: *)
Theorem C85_massless_boris_refuted : exists t how l, (t_mass t == 0)%Q
  /\ run false SRPIC 1 1 [t] (Ext None None) None 0 1 = Ok (Pushed how None l) /\ forall b, how b = Ok Boris.
Proof. exists (tab 0 0 (Some "boris") None None). do 2 eexists. split; [reflexivity|]. split; [reflexivity|]. intros b. reflexivity. Qed.
Print Assumptions C85_massless_boris_refuted.

(** A species that moves along field lines and aborts the run where there are none: *)
Theorem C85_gca_alone_refuted : exists t how r l,
  run false SRPIC 1 1 [t] (Ext None None) None 0 1 = Ok (Pushed how r l) /\ how true = Ok Gca /\ how false = Err.
Proof. exists (tab 1 1 (Some "gca") None None). do 3 eexists. split; [reflexivity|]. split; reflexivity. Qed.
Print Assumptions C85_gca_alone_refuted.

(** A file the general-relativistic engine accepts and cannot push: *)
Theorem C85_gr_vay_refuted : exists t ss ps keys, read_species false GRPIC 1 1 1 [t] = Ok (ss, ps)
  /\ set_keys GRPIC ps (Ext None None) = Ok keys
  /\ run false GRPIC 1 1 [t] (Ext None None) None 0 1 = Err.
Proof. exists (tab 1 1 (Some "vay") None None). do 3 eexists. split; [reflexivity|]. split; reflexivity. Qed.
Print Assumptions C85_gr_vay_refuted.

(** Emission asked for in general relativity: accepted, with its parameters set, and nothing is emitted: *)
Theorem C85_gr_emission_refuted : exists ts how r,
  (exists t, nth_error ts 0 = Some t /\ t_emission t = Some "synchrotron")
  /\ run false GRPIC 1 1 ts (Ext (Some 2%Z) None) None 0 1 = Ok (Pushed how r []).
Proof.
  exists [tab 1 1 None (Some "none") (Some "synchrotron"); tab 0 0 None None None]. do 2 eexists.
  split; [eexists; split; reflexivity|reflexivity].
Qed.
Print Assumptions C85_gr_emission_refuted.

(** Photon species 0: the vector of species is read before its beginning. *)
Theorem C85_photon_zero_refuted : exists ts,
  run false SRPIC 1 1 ts (Ext (Some 0%Z) None) None 0 1 = UB.
Proof. exists [tab 1 1 None None (Some "synchrotron"); tab 0 0 None None None]. reflexivity. Qed.
Print Assumptions C85_photon_zero_refuted.

(** A capacity that is no 32-bit number is cast regardless. *)
Theorem C85_maxnpart_refuted : forall mpi e idx cl so t, ~ (t_mass t == 0)%Q ->
  (t_maxnpart t <= -1 \/ inject_Z (2 ^ 32) <= t_maxnpart t)%Q -> GetParticleSpecies mpi e idx cl so t = UB.
Proof. exact max_ub. Qed.
Print Assumptions C85_maxnpart_refuted.
Example C85_maxnpart_refuted_ex : GetParticleSpecies false SRPIC 1 1 1 (Tab 1 1 (inject_Z 5000000000) None None None None None None None None) = UB.
Proof. reflexivity. Qed.

(** The 256th species gets number 0. *)
Theorem C85_index_refuted : exists ts ss ps s, List.length ts = 256%nat /\ read_species false SRPIC 1 1 1 ts = Ok (ss, ps)
  /\ nth_error ss 255 = Some s /\ sp_index s = 0%Z.
Proof. exists (repeat (tab 1 1 None None None) 256). do 3 eexists. split; [reflexivity|]. split; [vm_compute; reflexivity|]. split; reflexivity. Qed.
Print Assumptions C85_index_refuted.
