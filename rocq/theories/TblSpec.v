(** Vocabulary for tables. *)
From Coq Require Import ZArith List Bool.
From Verif Require Import Base TblModel.
Import ListNotations.
Open Scope Z_scope.

(** UTF-8. *)
Definition encode1 (c : Z) : list Z :=
  if c <? 128 then [c]
  else if c <? 2048 then [192 + c / 64; 128 + c mod 64]
  else if c <? 65536 then [224 + c / 4096; 128 + c / 64 mod 64; 128 + c mod 64]
  else [240 + c / 262144; 128 + c / 4096 mod 64; 128 + c / 64 mod 64; 128 + c mod 64].
Definition encode (s : list Z) : list Z := flat_map encode1 s.
Definition code_point (c : Z) : Prop := 0 <= c < 1114112.

(** What is seen. *)
Definition visible (t : list tok) : list Z := flat_map (fun k => match k with Text s => s | Ctl _ => [] end) t.

(** Widths of the columns, each starting or ending at its anchor, from position [at_] on: nothing has to be cut. *)
Fixpoint fits (at_ : Z) (widths anchors fillers : list Z) : Prop :=
  match widths, anchors, fillers with
  | w :: ws, a :: more, f :: fs =>
      (a <= 0 -> at_ + (if f =? colon then 2 else 0) <= - a /\ fits (- a + w) ws more fs) /\
      (0 < a -> at_ + w <= a /\ fits a ws more fs)
  | _, _, _ => True
  end.

(** Column [i] is at its place in what is seen. *)
Definition at_anchor (text : list Z) (col : list Z) (a : Z) : Prop :=
  exists before after, text = before ++ col ++ after /\
    (a <= 0 -> strlen_utf8 before = - a) /\ (0 < a -> strlen_utf8 (before ++ col) = a).

(** Sizes that occur. *)
Definition sane (columns : list (list Z)) (anchors fillers : list Z) : Prop :=
  Forall (fun c => Z.of_nat (length c) < 2 ^ 31) columns /\ Forall (fun a => - 2 ^ 31 < a < 2 ^ 31) anchors /\
  Forall (fun f => 0 <= f < 128) fillers.
(** A text in the report. *)
Definition short (s : list Z) : Prop := Z.of_nat (length s) < 2 ^ 30.
