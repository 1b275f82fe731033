(** C90: what the output section and the command line ask for is what is done. *)
From Coq Require Import ZArith List Bool String Reals Lra Lia.
From Verif Require Import Base RunModel RunSpec OpModel OpSpec OpProofs OpTop.
Import ListNotations.
Open Scope Z_scope.

Theorem C90_every : forall g c n qs, sound_global g -> sound_category c -> asked g c = Every n ->
  written g c qs = Ok (map (fun q => fst (fst q) mod n =? 0) qs).
Proof. exact every. Qed.
Print Assumptions C90_every.
(** Own steps win over a common time; without own ones the common steps hold. *)
Example C90_every_case :
  let g := GlobalIn (Some 7) (Some 2%R) in let c := CategoryIn (Some 3) None None in
  sound_global g /\ sound_category c /\ asked g c = Every 3 /\ asked (GlobalIn (Some 7) None) (CategoryIn None None (Some true)) = Every 7
  /\ asked (GlobalIn None None) (CategoryIn None None None) = Every 100
  /\ written g c [(2, 0%R, 0%R); (3, 0%R, 0%R); (4, 0%R, 0%R); (6, 0%R, 0%R)] = Ok [false; true; false; true].
Proof.
  assert (A : asked (GlobalIn (Some 7) (Some 2%R)) (CategoryIn (Some 3) None None) = Every 3) by reflexivity.
  assert (G : sound_global (GlobalIn (Some 7) (Some 2%R))) by (split; [cbn; lia|discriminate]).
  assert (C : sound_category (CategoryIn (Some 3) None None)) by (split; [cbn; lia|exact I]).
  cbv zeta. split; [exact G|]. split; [exact C|]. split; [exact A|]. split; [reflexivity|]. split; [reflexivity|].
  rewrite (C90_every _ _ 3 _ G C A). reflexivity.
Qed.

Theorem C90_each : forall g c t dt s0 x0 n0 qs, sound_global g -> sound_category c -> asked g c = Each t -> (0 <= x0)%R -> spaced dt x0 qs ->
  exists bs, written g c ((s0, x0, n0) :: qs) = Ok (true :: bs) /\ List.length bs = List.length qs /\ gaps t (t + dt) (x0 :: answers qs bs)
    /\ (last (map (fun q => snd (fst q)) qs) x0 - last (answers qs bs) x0 < t)%R.
Proof. exact each. Qed.
Print Assumptions C90_each.
(** The common time is inherited, and an own time wins over everything. *)
Example C90_each_case :
  let g := GlobalIn (Some 7) (Some 2%R) in
  sound_global g /\ sound_category (CategoryIn None (Some (-1)%R) None) /\ asked g (CategoryIn None (Some (-1)%R) None) = Each 2
  /\ asked g (CategoryIn (Some 3) (Some 5%R) None) = Each 5 /\ spaced 1 0 [(1, 1%R, 0%R); (2, 2%R, 0%R)].
Proof.
  cbv zeta. split; [split; [cbn; lia|discriminate]|]. split; [split; [exact I|right; reflexivity]|]. unfold asked. cbn [c_enable c_time c_interval g_time g_interval positive_time].
  destruct (Rlt_dec 0 (-1)); [lra|]. destruct (Rlt_dec 0 2); [|lra]. destruct (Rlt_dec 0 5); [|lra].
  split; [reflexivity|]. split; [reflexivity|]. cbn. repeat split; lra.
Qed.

Theorem C90_off : forall g c qs, asked g c = Off -> written g c qs = Ok (map (fun _ => false) qs).
Proof. exact off. Qed.
Print Assumptions C90_off.
(** Also with entries that would otherwise be of no use. *)
Example C90_off_case : asked (GlobalIn (Some 0) None) (CategoryIn None (Some 0%R) (Some false)) = Off.
Proof. reflexivity. Qed.

(** Exactly which files stop the run at its first step. *)
Theorem C90_undefined : forall g c q qs, fits (g_interval g) -> fits (c_interval c) -> written g c (q :: qs) = UB <-> useless g c.
Proof. exact undefined_iff. Qed.
Print Assumptions C90_undefined.
Example C90_undefined_case : useless (GlobalIn (Some 0) None) (CategoryIn None None None) /\ ~ useless (GlobalIn (Some 0) None) (CategoryIn (Some 4) None None).
Proof.
  split.
  - unfold useless, no_steps, no_time. cbn. split; [discriminate|]. split; [now left|]. right. split; [now left|]. split; [reflexivity|]. left. now left.
  - unfold useless, no_steps. cbn. intros (_ & [H|H] & _); discriminate.
Qed.

(** A time of zero, or a negative one other than -1, does not mean "as for all": whatever the common entries, it is a division by zero. *)
Theorem C90_own_time_refuted : forall g t q qs, fits (g_interval g) -> (t <= 0)%R -> t <> (-1)%R ->
  written g (CategoryIn None (Some t) None) (q :: qs) = UB.
Proof. exact own_time. Qed.
Print Assumptions C90_own_time_refuted.
Example C90_own_time_case : fits (g_interval (GlobalIn (Some 10) (Some 2%R))) /\ (0 <= 0)%R /\ 0%R <> (-1)%R.
Proof. split; [cbn; lia|]. split; lra. Qed.

Theorem C90_sampling : forall dim d ghosts l, (1 <= dim <= 3)%nat -> in_range d -> factors dim d ghosts = Ok l <->
  asked_factors dim d = Some l /\ ~ In 0 l /\ (ghosts = true -> forall z, In z l -> z = 1).
Proof. exact sampling. Qed.
Print Assumptions C90_sampling.
Example C90_sampling_case : in_range (DList [4; 2; 7]) /\ factors 2 (DList [4; 2; 7]) false = Ok [4; 2] /\ factors 2 (DList [4; 2; 7]) true = Err
  /\ factors 3 (DInt 5) false = Ok [5; 5; 5] /\ factors 3 (DInt 0) false = Err /\ factors 1 (DList [4; 2; 7; 1]) false = Err.
Proof. split; [repeat constructor; lia|]. repeat split. Qed.

(** A list shorter than the number of directions passes the checks and is then read past its end; nothing else is. *)
Theorem C90_short_refuted : forall dim l ghosts, (1 <= dim <= 3)%nat -> (List.length l < dim)%nat -> Forall (fun z => 0 < z < 2 ^ 32) l ->
  factors dim (DList l) false = UB /\ (factors dim (DList l) ghosts = UB \/ factors dim (DList l) ghosts = Err).
Proof. exact short. Qed.
Print Assumptions C90_short_refuted.
Example C90_short_case : factors 3 (DList [2; 2]) false = UB /\ factors 2 (DList []) true = UB.
Proof. split; reflexivity. Qed.
Theorem C90_only_short : forall dim d ghosts, (1 <= dim <= 3)%nat -> factors dim d ghosts = UB -> exists l, d = DList l /\ (List.length l < dim)%nat.
Proof. exact undefined_sampling. Qed.
Print Assumptions C90_only_short.
Example C90_only_short_case : factors 2 (DList [3]) false = UB.
Proof. reflexivity. Qed.

(** A negative number is not refused: it is a very large one. *)
Theorem C90_negative_refuted : exists d n, factors 1 d false = Ok [4294967295] /\ d = DInt (-1) /\
  interval_of (read_category (GlobalIn None None) (CategoryIn (Some n) None None)) = 4294967291 /\ n = -5.
Proof. exists (DInt (-1)), (-5). repeat split. Qed.
Print Assumptions C90_negative_refuted.

(** The list of species to write is not checked against the number of species. *)
Theorem C90_species_refuted : forall n s, s = 0 \/ (Z.of_nat n < s < 256) -> declare n (read_species n (Some [s])) = UB.
Proof. exact species_unchecked. Qed.
Print Assumptions C90_species_refuted.
Theorem C90_species_default : forall n, (n <= 255)%nat -> declare n (read_species n None) = Ok (map (fun i => Z.of_nat (i + 1)) (seq 0 n)).
Proof. exact species_default. Qed.
Print Assumptions C90_species_default.
Example C90_species_case : declare 3 (read_species 3 None) = Ok [1; 2; 3] /\ declare 3 (read_species 3 (Some [2])) = Ok [2] /\ declare 3 (read_species 3 (Some [0])) = UB
  /\ declare 3 (read_species 3 (Some [4])) = UB /\ declare 3 (read_species 3 (Some [258])) = Ok [2].
Proof. repeat split. Qed.

Theorem C90_input : forall prog pre v post, ~ In "-input"%string pre -> input_file (prog :: pre ++ "-input"%string :: v :: post) = Ok v.
Proof. exact input_given. Qed.
Print Assumptions C90_input.
Theorem C90_input_last : forall prog pre, ~ In "-input"%string pre -> input_file (prog :: pre ++ ["-input"%string]) = Ok "input"%string.
Proof. exact input_last. Qed.
Print Assumptions C90_input_last.
(** Without the option the default is never reached in a defined way. *)
Theorem C90_input_absent_refuted : forall prog args, input_file (prog :: args) = UB <-> ~ In "-input"%string args.
Proof. exact input_absent. Qed.
Print Assumptions C90_input_absent_refuted.
Theorem C90_resuming : forall prog args, is_resuming (prog :: args) = true <->
  exists k, In k ["-continue"; "-restart"; "-resume"; "-checkpoint"]%string /\ In k args.
Proof. exact resuming. Qed.
Print Assumptions C90_resuming.
(** The name of the program does not count; a flag after -input is taken as the file, and still resumes. *)
Example C90_line_case :
  input_file ["./entity.xc"; "-resume"; "-input"; "shock.toml"]%string = Ok "shock.toml"%string
  /\ input_file ["-input"; "a.toml"]%string = UB
  /\ input_file ["e"; "-input"; "-continue"]%string = Ok "-continue"%string /\ is_resuming ["e"; "-input"; "-continue"]%string = true
  /\ is_resuming ["-continue"; "-input"; "a"]%string = false /\ input_file ["e"]%string = UB.
Proof. repeat split. Qed.
