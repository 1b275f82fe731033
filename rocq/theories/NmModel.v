(** Names of the quantities requested for the field output, and of the datasets written for them.
    src/output/utils/interpret_prompt.cpp:14-93, src/output/fields.cpp:22-85, src/output/fields.h:44-154,
    src/global/enums.h:76-101 and 248-284, src/global/utils/formatting.h:118-135,
    src/output/writer.cpp:146-175, src/framework/domain/metadomain_io.cpp:84-94 and 474-479, 570-574, 696,
    753-757 (the names written).

    Left out: the flags for the conversion of fields (C71), and the message of an error.  An exception of the
    standard library or of ADIOS2 that nobody catches is [Err] as well: the program stops. *)
From Coq Require Import ZArith List Bool String Ascii.
From Verif Require Import Base SpcsModel.
Import ListNotations.
Open Scope string_scope.

(** enums.h:248-284, without INVALID. *)
Inductive fid := E_ | divE_ | D_ | divD_ | B_ | H_ | J_ | A_ | T_ | Rho_ | Charge_ | N_ | Nppc_ | V_ | Custom_.
Definition variants : list fid := [E_; divE_; D_; divD_; B_; H_; J_; A_; T_; Rho_; Charge_; N_; Nppc_; V_; Custom_].
Definition lookup (f : fid) : string :=
  match f with
  | E_ => "e" | divE_ => "dive" | D_ => "d" | divD_ => "divd" | B_ => "b" | H_ => "h" | J_ => "j" | A_ => "a"
  | T_ => "t" | Rho_ => "rho" | Charge_ => "charge" | N_ => "n" | Nppc_ => "nppc" | V_ => "v" | Custom_ => "custom"
  end.
(** enums.h:90-108 *)
Definition pick (s : string) : option fid := find (fun f => String.eqb (lookup f) s) variants.

Definition fid_eqb (a b : fid) : bool := String.eqb (lookup a) (lookup b).

(** name.find_first_of(set), then substr(0, pos): everything before the first character of the set. *)
Fixpoint before (set : ascii -> bool) (s : string) : string :=
  match s with
  | EmptyString => EmptyString
  | String c r => if set c then EmptyString else String c (before set r)
  end.
(** substr(find(c) + 1), if there is one. *)
Fixpoint after (set : ascii -> bool) (s : string) : option string :=
  match s with
  | EmptyString => None
  | String c r => if set c then Some r else after set r
  end.
Definition is_bar (c : ascii) : bool := Ascii.eqb c "_".
Definition is_index (c : ascii) : bool := existsb (Ascii.eqb c) ["0"; "1"; "2"; "3"; "i"; "j"; "x"; "y"; "z"; "t"]%char.

(** formatting.h:130-135 with "_": text between the bars; an empty end is left out, but an empty text is one
    empty piece. *)
Fixpoint split (s : string) : string * list string :=
  match s with
  | EmptyString => ("", [])
  | String c r => let (h, t) := split r in if is_bar c then ("", h :: t) else (String c h, t)
  end.
Definition splitString (s : string) : list string :=
  let (h, t) := split s in h :: drop_empty_last t.

(** std::stoi: white space, a sign, digits; the rest of the text is ignored. *)
Definition is_space (c : ascii) : bool := let n := nat_of_ascii c in (Nat.eqb n 32 || (Nat.leb 9 n && Nat.leb n 13))%bool.
Definition digit (c : ascii) : option Z :=
  let n := nat_of_ascii c in if (Nat.leb 48 n && Nat.leb n 57)%bool then Some (Z.of_nat (n - 48)) else None.
Fixpoint skip_space (s : string) : string :=
  match s with String c r => if is_space c then skip_space r else s | EmptyString => s end.
Fixpoint digits (acc : Z) (s : string) : Z :=
  match s with
  | String c r => match digit c with Some d => digits (10 * acc + d)%Z r | None => acc end
  | EmptyString => acc
  end.
Definition stoi (s : string) : res Z :=
  let s := skip_space s in
  let '(sg, s) := match s with
                  | String c r => if Ascii.eqb c "-" then ((-1)%Z, r) else if Ascii.eqb c "+" then (1%Z, r) else (1%Z, s)
                  | EmptyString => (1%Z, s)
                  end in
  match s with
  | String c _ => match digit c with
                  | Some _ => let v := (sg * digits 0 s)%Z in
                              if ((- 2 ^ 31 <=? v)%Z && (v <? 2 ^ 31)%Z)%bool then Ok v else Err
                  | None => Err
                  end
  | EmptyString => Err
  end.

(** interpret_prompt.cpp:14-23 *)
Fixpoint species_of (l : list string) : res (list Z) :=
  match l with
  | [] => Ok []
  | s :: r => rbind (stoi s) (fun v => rbind (species_of r) (fun vs => Ok ((v mod 256)%Z :: vs)))
  end.
Definition InterpretSpecies (name : string) : res (list Z) :=
  match after is_bar name with
  | Some r => species_of (splitString r)
  | None => Ok []
  end.

(** interpret_prompt.cpp:29-52: one component. *)
Definition comp_int (c : string) : res Z :=
  if String.eqb c "t" then Ok 0%Z else if String.eqb c "x" then Ok 1%Z else if String.eqb c "y" then Ok 2%Z
  else if String.eqb c "z" then Ok 3%Z else if String.eqb c "i" then Ok (-1)%Z else if String.eqb c "j" then Ok (-2)%Z
  else if (String.eqb c "0" || String.eqb c "1" || String.eqb c "2" || String.eqb c "3")%bool then stoi c else Err.
(** interpret_prompt.cpp:64-90: two components, the only case that occurs. *)
Definition InterpretComponents (a b : string) : res (list (list Z)) :=
  rbind (comp_int a) (fun c1 => rbind (comp_int b) (fun c2 =>
    Ok (if (c1 <? 0)%Z then
          flat_map (fun i => if (c2 <? 0)%Z then
                               if (c2 =? c1)%Z then [[i; i]] else map (fun j => [i; j]) (filter (fun j => (i <=? j)%Z) [1; 2; 3]%Z)
                             else [[i; c2]]) [1; 2; 3]%Z
        else if (c2 <? 0)%Z then map (fun j => [c1; j]) [1; 2; 3]%Z else [[c1; c2]]))).

Record out := Out { o_name : string; o_id : fid; o_comp : list (list Z); o_species : list Z }.

(** fields.h:44-66 *)
Definition is_moment (f : fid) : bool := existsb (fid_eqb f) [T_; Rho_; Nppc_; N_; Charge_; V_].
Definition is_field (f : fid) : bool := existsb (fid_eqb f) [E_; B_; D_; H_].

(** substr(pos, len): throws if the position is past the end. *)
Definition substr (s : string) (pos len : nat) : res string :=
  if Nat.leb pos (String.length s) then Ok (substring pos len s) else Err.

(** fields.cpp:22-67 *)
Definition field_id (name : string) : fid :=
  let raw := before is_bar name in
  let raw := if (String.eqb (toLower raw) "dive" || String.eqb (toLower raw) "divd")%bool then raw else before is_index raw in
  match pick (toLower raw) with Some f => f | None => Custom_ end.
Definition components (S : engine) (f : fid) (name : string) : res (list (list Z)) :=
  if (is_field f || fid_eqb f J_)%bool then Ok [[1]; [2]; [3]]%Z
  else match f with
       | V_ => Ok (match S with SRPIC => [[1]; [2]; [3]]%Z | GRPIC => [[0]; [1]; [2]; [3]]%Z end)
       | A_ => Ok [[3]]%Z
       | T_ => rbind (substr name 1 1) (fun a => rbind (substr name 2 1) (fun b => InterpretComponents a b))
       | _ => Ok []
       end.
Definition OutputField (S : engine) (name : string) : res out :=
  let f := field_id name in
  guard (fid_eqb f A_ && match S with GRPIC => false | SRPIC => true end)
    (rbind (if is_moment f then InterpretSpecies name else Ok []) (fun sp =>
     rbind (components S f name) (fun cs => Ok (Out name f cs sp)))).

(** std::to_string of an 8 bit number *)
Definition dig (n : Z) : string := String (ascii_of_nat (48 + Z.to_nat n)) "".
Definition to_string (n : Z) : string :=
  if (n <? 10)%Z then dig n
  else if (n <? 100)%Z then dig (n / 10) ++ dig (n mod 10)
  else dig (n / 100) ++ dig (n / 10 mod 10) ++ dig (n mod 10).
(** fields.h:97-104, 138-145 *)
Definition species_suffix (sp : list Z) : string := concat "" (map (fun s => "_" ++ to_string s) sp).
(** toupper of the character at a position *)
Definition upper1 (c : ascii) : ascii :=
  let n := nat_of_ascii c in if (Nat.leb 97 n && Nat.leb n 122)%bool then ascii_of_nat (n - 32) else c.
Fixpoint upper_at (n : nat) (s : string) : string :=
  match s, n with
  | EmptyString, _ => EmptyString
  | String c r, O => String (upper1 c) r
  | String c r, S k => String c (upper_at k r)
  end.
Definition capitals (s : string) : string :=
  upper_at 0 (if (String.eqb s "dive" || String.eqb s "divd")%bool then upper_at 3 s else s).

(** fields.h:84-114 *)
Definition name_all (o : out) : string :=
  "f" ++ match o_id o with
         | Custom_ => o_name o
         | f => capitals (lookup f ++
                  (match f with
                   | T_ => substring 1 2 (o_name o)
                   | A_ => "3"
                   | _ => if (is_field f || fid_eqb f V_)%bool then "i" else ""
                   end) ++ species_suffix (o_species o))
         end.
(** fields.h:116-153 *)
Definition name_at (o : out) (c : list Z) : string :=
  "f" ++ capitals (lookup (o_id o) ++ concat "" (map to_string c) ++ species_suffix (o_species o)).

(** writer.cpp:156-174 *)
Definition defined (o : out) : list string :=
  match o_comp o with [] => [name_all o] | cs => map (name_at o) cs end.
(** metadomain_io.cpp:477-478, 571-574, 696-697, 757-758 *)
Definition written (o : out) : list string :=
  match o_comp o with [] => [name_all o] | [_] => [name_all o] | cs => map (name_at o) cs end.

(** std::merge, metadomain_io.cpp:88-93: [b] first only where it is smaller. *)
Definition str_lt (a b : string) : bool := match String.compare a b with Lt => true | _ => false end.
Fixpoint merge (a : list string) : list string -> list string :=
  match a with
  | [] => fun b => b
  | x :: a' =>
      (fix go (b : list string) : list string :=
         match b with
         | [] => a
         | y :: b' => if str_lt y x then y :: go b' else x :: merge a' b
         end)
  end.

(** writer.cpp:153-174: DefineVariable throws for a name that is already there. *)
Fixpoint all_outs (S : engine) (l : list string) : res (list out) :=
  match l with
  | [] => Ok []
  | n :: r => rbind (OutputField S n) (fun o => rbind (all_outs S r) (fun os => Ok (o :: os)))
  end.
Fixpoint define (have : list string) (l : list string) : res (list string) :=
  match l with
  | [] => Ok have
  | n :: r => if existsb (String.eqb n) have then Err else define (have ++ [n])%list r
  end.
Definition InitWriter (S : engine) (quantities custom : list string) : res (list out * list string) :=
  rbind (all_outs S (merge quantities custom)) (fun os =>
  rbind (define [] (flat_map defined os)) (fun names => Ok (os, names))).
(** WriteField on every output: an unknown name is an error. *)
Definition Write (os : list out) (names : list string) : res (list string) :=
  let w := flat_map written os in
  if forallb (fun n => existsb (String.eqb n) names) w then Ok w else Err.
