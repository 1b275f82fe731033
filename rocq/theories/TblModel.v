(** Tables of the report: src/global/utils/formatting.h:128-200 (repeat, strlenUTF8,
    alignedTable), src/global/utils/diag.cpp:122-140 (step and time), 184-222 (species).

    A string is its list of bytes.  The output keeps colours apart from text: [Ctl] is not
    visible.  std::size_t has 64 bits; std::string::reserve throws (here [Err]) for 2^63 bytes or
    more; smaller amounts of memory are taken to be available. *)
From Coq Require Import ZArith List Bool.
From Verif Require Import Base.
Import ListNotations.
Open Scope Z_scope.

Definition w64 (x : Z) : Z := x mod 2 ^ 64.
(** formatting.h:133-144. *)
Definition rep (c : Z) (n : Z) : res (list Z) :=
  if n <? 2 ^ 63 then Ok (repeat c (Z.to_nat n)) else Err.
(** formatting.h:150-158; the masks are on the bits of the byte. *)
Definition strlen_utf8 (s : list Z) : Z :=
  fold_left (fun length c => if negb (Z.land c 192 =? 128) then length + 1 else length) s 0.

Inductive tok := Text (s : list Z) | Ctl (s : list Z).
Definition space : Z := 32.
Definition colon : Z := 58.
(** formatting.h:169-200; [cntr]: the column reached.  The vectors are indexed by the number of the
    column without a check. *)
Fixpoint columns_from (bblack reset : list Z) (cntr : Z) (columns colors : list (list Z)) (anchors fillers : list Z)
  : res (list tok) :=
  match columns with
  | [] => Ok []
  | cmn :: columns' =>
      match colors, anchors, fillers with
      | col :: colors', a :: anchors', f :: fillers' =>
          let anch := if a <? 0 then - a else a in
          let leftalign := a <=? 0 in
          let cmn_len := strlen_utf8 cmn in
          rbind (if leftalign then
                   if f =? colon then
                     rbind (rep space (w64 (anch - cntr - 2))) (fun r => Ok ([space; colon] ++ r, w64 (cntr + w64 (anch - cntr))))
                   else
                     rbind (rep f (w64 (anch - cntr))) (fun r => Ok (r, w64 (cntr + w64 (anch - cntr))))
                 else
                   rbind (rep f (w64 (anch - cntr - cmn_len))) (fun r => Ok (r, w64 (cntr + w64 (anch - cntr - cmn_len)))))
            (fun lc =>
               rbind (columns_from bblack reset (w64 (snd lc + cmn_len)) columns' colors' anchors' fillers') (fun rest =>
               Ok ([Ctl bblack; Text (fst lc); Ctl col; Text cmn; Ctl reset] ++ rest)))
      | _, _, _ => UB
      end
  end.
Definition aligned_table (columns colors : list (list Z)) (anchors fillers : list Z) (bblack reset : list Z) : res (list tok) :=
  rbind (columns_from bblack reset 0 columns colors anchors fillers) (fun t =>
  Ok ([Ctl reset] ++ t ++ [Ctl reset; Text [10]])).

(** diag.cpp:210-222 (one process) and 184-207 (MPI).  [head] is the text "species NN (" with the
    number, [count], [pct]... the texts of the numbers. *)
Definition species_text (head label : list Z) : list Z := head ++ label ++ [41].
Definition species_row (head label count pct : list Z) (colors : list (list Z)) (bblack reset : list Z) : res (list tok) :=
  aligned_table [species_text head label; count; pct ++ [37]] colors [-2; 37; 45] [space; 46; space] bblack reset.
Definition species_row_mpi (head label count min_pct max_pct min_count max_count : list Z)
    (colors : list (list Z)) (bblack reset : list Z) : res (list tok) :=
  aligned_table [species_text head label; count; min_pct ++ [37]; max_pct ++ [37]; min_count; max_count] colors
    [-2; 37; 45; -48; 63; -66] [space; 46; space; colon; space; colon] bblack reset.
(** diag.cpp:123-129, 131-137: "Step:" or "Time:", the value, and what follows. *)
Definition step_row (name value more : list Z) (colors : list (list Z)) (bblack reset : list Z) : res (list tok) :=
  aligned_table [name; value; more] colors [0; -6; -32] [space; space; 46] bblack reset.
