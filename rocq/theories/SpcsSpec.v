(** Specification for the species of the input file: the file as the user means it, how it is written,
    and what a step should do. *)
From Coq Require Import ZArith QArith Qround List Bool String Ascii.
From Verif Require Import Base SpcsModel.
Import ListNotations.
Open Scope string_scope.

(** Is the word [n] among [l], in any case? *)
Definition names (n : string) (l : list string) : bool := existsb (fun x => String.eqb (toLower x) n) l.
Definition word (vocabulary : list string) (x : string) : Prop := In (toLower x) vocabulary.
Definition pusher_words := ["photon"; "boris"; "vay"; "gca"].
Definition drag_words := ["synchrotron"; "compton"].
Definition emission_words := ["none"; "synchrotron"; "compton"; "custom"].

Fixpoint no_comma (s : string) : bool :=
  match s with EmptyString => true | String c r => negb (Ascii.eqb c ","%char) && no_comma r end.

(** A species as the user means it.  Pushers and drags: [None] leaves the key out, [Some []] writes
    "none", any other list is written with commas. *)
Record desc := Desc {
  d_mass : Q; d_charge : Q; d_max : Q; d_pushers : option (list string); d_drags : option (list string);
  d_emission : option string; d_tracking : option bool; d_nint : option Z; d_nreal : option Z;
  d_clear : option Z; d_sort : option Z
}.
Definition written (l : option (list string)) : option string :=
  match l with None => None | Some [] => Some "none" | Some l => Some (String.concat "," l) end.
Definition write (d : desc) : table :=
  Tab (d_mass d) (d_charge d) (d_max d) (d_clear d) (d_sort d) (written (d_pushers d)) (d_nreal d) (d_tracking d)
    (d_nint d) (written (d_drags d)) (d_emission d).

Definition massless (d : desc) : Prop := (d_mass d == 0)%Q.
Definition emission_is (d : desc) (n : string) : Prop := exists s, d_emission d = Some s /\ toLower s = n.

Record meaningful (e : engine) (d : desc) : Prop := {
  m_max : (0 <= d_max d < inject_Z (2 ^ 32))%Q;
  m_int : forall n, d_nint d = Some n -> (0 <= n < 2 ^ 16 - 2)%Z;
  m_charge : massless d -> (d_charge d == 0)%Q;
  m_words : forall l, d_pushers d = Some l -> Forall (word pusher_words) l;
  m_photon : forall l, d_pushers d = Some l -> massless d -> Forall (word ["photon"]) l;
  m_conv : forall l, d_pushers d = Some l -> ~ massless d -> l <> [] ->
    names "photon" l = false /\ (names "boris" l || names "vay" l = true);
  m_drags : forall l, d_drags d = Some l -> Forall (word drag_words) l /\ (massless d -> l = []);
  m_emission : forall s, d_emission d = Some s -> word emission_words s;
  m_emits : emission_is d "synchrotron" \/ emission_is d "compton" -> ~ massless d;
  m_gr : e = GRPIC ->
    (forall l, d_pushers d = Some l -> ~ massless d -> l <> [] -> names "vay" l = false /\ names "gca" l = false)
    /\ (forall l, d_drags d = Some l -> l = []) /\ ~ emission_is d "synchrotron" /\ ~ emission_is d "compton"
}.

(** What a step should do to a particle: [b] tells whether the guiding-centre conditions hold. *)
Definition intended (d : desc) (b : bool) : motion :=
  if Qeq_bool (d_mass d) 0 then Free
  else match d_pushers d with
       | None => Boris
       | Some l => if names "gca" l && b then Gca else if names "boris" l then Boris else Vay
       end.

(** A species of photons, by its number in the file. *)
Definition photons (ds : list desc) (k : Z) : Prop :=
  (1 <= k <= 255)%Z /\ exists d, nth_error ds (Z.to_nat (k - 1)) = Some d /\ massless d /\ (d_charge d == 0)%Q.
Definition photons_given (ds : list desc) (x : extra) : Prop :=
  ((exists d, In d ds /\ emission_is d "synchrotron") -> exists k, x_sync x = Some k /\ photons ds k) /\
  ((exists d, In d ds /\ emission_is d "compton") -> exists k, x_comp x = Some k /\ photons ds k).

(** Which species the step may add particles to. *)
Definition receives (d : desc) (x : extra) (pgen : option (list Z)) (l : list Z) : Prop :=
  (emission_is d "synchrotron" -> exists k, x_sync x = Some k /\ l = [k])
  /\ (emission_is d "compton" -> exists k, x_comp x = Some k /\ l = [k])
  /\ (emission_is d "custom" -> pgen = Some l)
  /\ (d_emission d = None \/ emission_is d "none" -> l = []).

(** What holds of a species once the file is accepted. *)
Record sound (mpi : bool) (e : engine) (s : species) : Prop := {
  so_charge : (sp_mass s == 0)%Q -> (sp_charge s == 0)%Q;
  so_drag : (sp_mass s == 0)%Q -> sp_drag s = no_drag;
  so_emission : (sp_mass s == 0)%Q -> sp_emission s = ENone \/ sp_emission s = ECustom;
  so_sr : sp_drag s <> no_drag \/ f_gca (sp_pusher s) = true -> e = SRPIC;
  so_gca : f_gca (sp_pusher s) = true -> f_photon (sp_pusher s) = false;
  so_max : (0 <= sp_maxnpart s < 2 ^ 32)%Z;
  so_track : sp_tracking s = true -> ((if mpi then 2 else 1) <= sp_npld_i s < 2 ^ 16)%Z
}.


(** The process [n] drags the species: named, or implied by the emission when no drag is given. *)
Definition dragged (d : desc) (n : string) : Prop :=
  match d_drags d with Some l => names n l = true | None => emission_is d n end.
