(** C93: the tables of the report. *)
From Coq Require Import ZArith List Bool Lia.
From Verif Require Import Base TblModel TblSpec TblProofs.
Import ListNotations.
Open Scope Z_scope.

(** The width of a text in UTF-8 is its number of characters. *)
Theorem C93_width :
  forall s, Forall code_point s -> strlen_utf8 (encode s) = Z.of_nat (length s).
Proof. exact utf8_length. Qed.
Print Assumptions C93_width.
Example C93_width_ex : Forall code_point [181; 115; 8364; 128512] /\
  encode [181; 115; 8364; 128512] = [194; 181; 115; 226; 130; 172; 240; 159; 152; 128].
Proof. split; [repeat constructor; lia|reflexivity]. Qed.

(** If the columns fit, each one starts (or ends) where its anchor says. *)
Theorem C93_columns_at_anchors :
  forall columns colors anchors fillers bblack reset,
  length colors = length columns -> length anchors = length columns -> length fillers = length columns ->
  sane columns anchors fillers -> fits 0 (map strlen_utf8 columns) anchors fillers ->
  exists t, aligned_table columns colors anchors fillers bblack reset = Ok t /\
    forall i col a, nth_error columns i = Some col -> nth_error anchors i = Some a -> at_anchor (visible t) col a.
Proof. exact table_ok. Qed.
Print Assumptions C93_columns_at_anchors.
Example C93_columns_at_anchors_ex :
  sane [[65; 66]; [67]] [-1; 6] [32; 46] /\ fits 0 (map strlen_utf8 [[65; 66]; [67]]) [-1; 6] [32; 46] /\
  (exists t, aligned_table [[65; 66]; [67]] [[]; []] [-1; 6] [32; 46] [] [] = Ok t /\ visible t = [32; 65; 66; 46; 46; 67; 10]).
Proof.
  split; [unfold sane; repeat split; repeat constructor; cbn; lia|]. split; [cbn; lia|]. eexists. split; reflexivity.
Qed.

(** If they do not, an exception is thrown (and ends the run). *)
Theorem C93_too_wide_throws :
  forall columns colors anchors fillers bblack reset,
  length colors = length columns -> length anchors = length columns -> length fillers = length columns ->
  sane columns anchors fillers -> ~ fits 0 (map strlen_utf8 columns) anchors fillers ->
  aligned_table columns colors anchors fillers bblack reset = Err.
Proof. exact table_throws. Qed.
Print Assumptions C93_too_wide_throws.
Example C93_too_wide_throws_ex : ~ fits 0 (map strlen_utf8 [[65; 66]; [67]]) [-1; 3] [32; 46].
Proof. cbn. lia. Qed.

(** The row of a species is printed exactly if its label and its number of particles have at most
    22 characters together.  _partial: every row should be printed. *)
Theorem C93_species_row_partial :
  forall head label count pct colors bblack reset,
  short head -> short label -> short count -> short pct -> strlen_utf8 head = 12 -> strlen_utf8 pct <= 7 -> length colors = 3%nat ->
  (exists t, species_row head label count pct colors bblack reset = Ok t) <-> strlen_utf8 label + strlen_utf8 count <= 22.
Proof. exact species_row_ok. Qed.
Print Assumptions C93_species_row_partial.
(** "species  1 (", label "e-", 150 particles, 3%. *)
Example C93_species_row_ex :
  strlen_utf8 [115; 112; 101; 99; 105; 101; 115; 32; 32; 49; 32; 40] = 12 /\
  (exists t, species_row [115; 112; 101; 99; 105; 101; 115; 32; 32; 49; 32; 40] [101; 45] [49; 53; 48] [51] [[]; []; []] [] [] = Ok t).
Proof. split; [reflexivity|]. eexists. reflexivity. Qed.

(** The same with several processes. *)
Theorem C93_species_row_mpi_partial :
  forall head label count min_pct max_pct min_count max_count colors bblack reset,
  Forall short [head; label; count; min_pct; max_pct; min_count; max_count] ->
  strlen_utf8 head = 12 -> strlen_utf8 min_pct <= 7 ->
  strlen_utf8 max_pct + strlen_utf8 min_count <= 14 -> length colors = 6%nat ->
  (exists t, species_row_mpi head label count min_pct max_pct min_count max_count colors bblack reset = Ok t) <->
  strlen_utf8 label + strlen_utf8 count <= 22.
Proof. exact species_row_mpi_ok. Qed.
Print Assumptions C93_species_row_mpi_partial.
Example C93_species_row_mpi_ex :
  Forall short [[1]; [2]] /\ strlen_utf8 [49; 48; 48] <= 7 /\ strlen_utf8 [49; 48; 48] + strlen_utf8 [49; 46; 48; 48; 101; 43; 48; 52] <= 14.
Proof. split; [repeat constructor; unfold short; cbn; lia|]. cbn. lia. Qed.

(** A label of 15 characters with "1.00e+04" particles ends the run at the first report. *)
Theorem C93_species_row_refuted :
  exists head label count pct, strlen_utf8 head = 12 /\ strlen_utf8 label = 15 /\ strlen_utf8 count = 8 /\ strlen_utf8 pct = 1 /\
  forall bblack reset c1 c2 c3, species_row head label count pct [c1; c2; c3] bblack reset = Err.
Proof.
  exists [115; 112; 101; 99; 105; 101; 115; 32; 32; 49; 32; 40], (repeat 97 15), [49; 46; 48; 48; 101; 43; 48; 52], [51].
  repeat (split; [reflexivity|]). intros. apply species_row_throws; try reflexivity; unfold short; cbn; lia.
Qed.
Print Assumptions C93_species_row_refuted.

(** The rows of step and time: the value may have 26 characters (a step number has at most 20). *)
Theorem C93_step_row :
  forall name value more colors bblack reset,
  Forall short [name; value; more] -> strlen_utf8 name = 5 -> length colors = 3%nat ->
  (exists t, step_row name value more colors bblack reset = Ok t) <-> strlen_utf8 value <= 26.
Proof. exact step_row_ok. Qed.
Print Assumptions C93_step_row.
Example C93_step_row_ex : strlen_utf8 [83; 116; 101; 112; 58] = 5 /\ strlen_utf8 [49; 50; 51] <= 26.
Proof. cbn. lia. Qed.
