(** Specification for the names of output quantities. *)
From Coq Require Import ZArith List Bool String Ascii DecimalString.
From Verif Require Import SpcsModel NmModel.
Import ListNotations.
Open Scope string_scope.

(** Decimal text of a number, from the standard library. *)
Definition decimal (n : Z) : string := NilZero.string_of_uint (N.to_uint (Z.to_N n)).
(** "_1_2_3" *)
Fixpoint species_text (sp : list Z) : string :=
  match sp with [] => "" | n :: r => "_" ++ decimal n ++ species_text r end.
Fixpoint digits_text (l : list Z) : string := match l with [] => "" | n :: r => decimal n ++ digits_text r end.

(** The letters and digits that stand for an index. *)
Definition index_chars : list ascii := ["0"; "1"; "2"; "3"; "i"; "j"; "x"; "y"; "z"; "t"]%char.
Definition without (l : list ascii) (s : string) : Prop := forall c, In c (list_ascii_of_string s) -> ~ In c l.

Definition is_div (f : fid) : Prop := f = divE_ \/ f = divD_.
(** A spelling of the quantity, in capitals or not. *)
Definition spells (f : fid) (base : string) : Prop :=
  f <> Custom_ /\ toLower base = lookup f /\ (~ is_div f -> without index_chars base).
(** What may follow it: an index and anything, up to the species ("DivE" is not "D" with index i). *)
Definition indices (f : fid) (s : string) : Prop :=
  s = "" \/ (~ is_div f /\ without ["_"]%char s /\ (exists c r, s = String c r /\ In c index_chars)
             /\ ~ (f = D_ /\ In (toLower s) ["ive"; "ivd"])).
Definition a_species (n : Z) : Prop := (1 <= n <= 255)%Z.

(** Components of the quantities other than T, and which quantities have species. *)
Definition standard_comps (S : engine) (f : fid) : list (list Z) :=
  match f with
  | E_ | D_ | B_ | H_ | J_ => [[1]; [2]; [3]]%Z
  | V_ => match S with SRPIC => [[1]; [2]; [3]]%Z | GRPIC => [[0]; [1]; [2]; [3]]%Z end
  | A_ => [[3]]%Z
  | _ => []
  end.
Definition of_species (f : fid) : bool :=
  match f with T_ | Rho_ | Charge_ | N_ | Nppc_ | V_ => true | _ => false end.

(** Indices of T. *)
Definition index_of (c : ascii) : list Z :=
  match c with
  | "t" | "0" => [0] | "x" | "1" => [1] | "y" | "2" => [2] | "z" | "3" => [3] | "i" | "j" => [1; 2; 3] | _ => []
  end%char%Z.
Definition running (c : ascii) : Prop := c = "i"%char \/ c = "j"%char.
Definition tensor_index (a b : ascii) (m n : Z) : Prop :=
  In m (index_of a) /\ In n (index_of b)
  /\ (running a -> running b -> (a = b -> m = n) /\ (a <> b -> (m <= n)%Z)).

(** The name of a dataset. *)
Definition title (f : fid) : string :=
  match f with
  | E_ => "E" | divE_ => "DivE" | D_ => "D" | divD_ => "DivD" | B_ => "B" | H_ => "H" | J_ => "J" | A_ => "A"
  | T_ => "T" | Rho_ => "Rho" | Charge_ => "Charge" | N_ => "N" | Nppc_ => "Nppc" | V_ => "V" | Custom_ => ""
  end.
Definition dataset (f : fid) (c sp : list Z) : string := "f" ++ title f ++ digits_text c ++ species_text sp.
(** Sets of indices and species a dataset can have. *)
Definition good (f : fid) (c sp : list Z) : Prop :=
  f <> Custom_ /\ (is_div f -> c = []) /\ Forall (fun n => 0 <= n <= 3)%Z c /\ Forall (fun n => 0 <= n <= 255)%Z sp
  /\ (of_species f = false -> sp = []).

(** What a request stands for: a field of the problem generator, or components of a quantity for some species. *)
Inductive what := Field (name : string) | Part (f : fid) (c sp : list Z).
Definition asks (o : out) : list what :=
  match o_id o with
  | Custom_ => [Field (o_name o)]
  | f => match o_comp o with [] => [Part f [] (o_species o)] | cs => map (fun c => Part f c (o_species o)) cs end
  end.
Definition called (w : what) : string :=
  match w with Field n => "f" ++ n | Part f c sp => dataset f c sp end.
(** A request for one component of T has digits for indices. *)
Definition digit_chars : list ascii := ["0"; "1"; "2"; "3"]%char.
Definition one_by_letters (o : out) : Prop :=
  o_id o = T_ /\ List.length (o_comp o) = 1
  /\ exists a b r, o_name o = "T" ++ String a (String b r) /\ ~ (In a digit_chars /\ In b digit_chars).
