(** C87: names of the quantities requested for output. *)
From Coq Require Import ZArith List Bool String Ascii Permutation.
From Verif Require Import Base SpcsModel NmModel NmSpec NmProofs NmTop NmRun.
Import ListNotations.
Open Scope string_scope.

(** Every spelling of a quantity, with any index behind it and any list of species, is read as that quantity,
    with all of its components and those species. *)
Theorem C87_recognised S f base s sp :
  spells f base -> indices f s -> Forall a_species sp -> f <> T_ -> (f = A_ -> S = GRPIC) ->
  OutputField S (base ++ s ++ species_text sp)
  = Ok (Out (base ++ s ++ species_text sp) f (standard_comps S f) (if of_species f then sp else [])).
Proof. exact (recognised S f base s sp). Qed.
Print Assumptions C87_recognised.

(** For T, the indices say which components: i and j run over space, once over each pair. *)
Theorem C87_tensor S a b r sp :
  In a index_chars -> In b index_chars -> without ["_"]%char r -> Forall a_species sp ->
  exists cs, OutputField S ("T" ++ String a (String b r) ++ species_text sp)
             = Ok (Out ("T" ++ String a (String b r) ++ species_text sp) T_ cs sp)
    /\ NoDup cs /\ forall c, In c cs <-> exists m n, c = [m; n] /\ tensor_index a b m n.
Proof. exact (recognised_T S a b r sp). Qed.
Print Assumptions C87_tensor.

(** A name that is taken for a quantity begins with it, up to an index, the species or the end. *)
Theorem C87_only S name o :
  OutputField S name = Ok o -> o_id o <> Custom_ ->
  exists base s r, name = base ++ s ++ r /\ spells (o_id o) base /\ without ["_"]%char s
    /\ (s = "" \/ exists c t, s = String c t /\ In c index_chars) /\ (r = "" \/ exists t, r = String "_" t).
Proof. exact (only_quantities S name o). Qed.
Print Assumptions C87_only.

(** Datasets of a request: one for each component, named after quantity, component and species. *)
Theorem C87_named S name o : OutputField S name = Ok o -> defined o = map called (asks o).
Proof. exact (named S name o). Qed.
Print Assumptions C87_named.

(** Two datasets with one name are the same component of the same quantity for the same species. *)
Theorem C87_distinct f c sp f' c' sp' :
  good f c sp -> good f' c' sp' -> dataset f c sp = dataset f' c' sp' -> f = f' /\ c = c' /\ sp = sp'.
Proof. exact (dataset_inj f c sp f' c' sp'). Qed.
Print Assumptions C87_distinct.

(** The dataset of a custom field never has the name of the dataset of a quantity. *)
Theorem C87_custom_apart S name o f c sp :
  OutputField S name = Ok o -> o_id o = Custom_ -> good f c sp -> "f" ++ name <> dataset f c sp.
Proof. exact (custom_apart S name o f c sp). Qed.
Print Assumptions C87_custom_apart.

(** No request is lost or repeated when the two lists are put together, sorted or not. *)
Theorem C87_merge quantities custom : Permutation (merge quantities custom) (quantities ++ custom)%list.
Proof. exact (merge_perm quantities custom). Qed.
Print Assumptions C87_merge.

(** The run starts exactly if every name is accepted and no two requests ask for the same thing; then the datasets
    are those asked for. *)
Theorem C87_init S quantities custom os names :
  InitWriter S quantities custom = Ok (os, names) <->
  Forall2 (fun n o => OutputField S n = Ok o) (merge quantities custom) os
  /\ NoDup (flat_map asks os) /\ names = map called (flat_map asks os).
Proof. exact (init_ok S quantities custom os names). Qed.
Print Assumptions C87_init.

(** Every output writes all the datasets, each once and in order, if no single component of T was asked for with
    letters; otherwise it stops with an error. *)
Theorem C87_written S quantities custom os names :
  InitWriter S quantities custom = Ok (os, names) ->
  (Forall (fun o => ~ one_by_letters o) os -> Write os names = Ok names)
  /\ (Exists one_by_letters os -> Write os names = Err).
Proof. exact (written_ok S quantities custom os names). Qed.
Print Assumptions C87_written.

(** Not so: whatever starts can be written. *)
Theorem C87_written_refuted :
  exists S q c os names, InitWriter S q c = Ok (os, names) /\ Write os names = Err.
Proof. exists SRPIC, ["Ttt"], []. do 2 eexists. split; vm_compute; reflexivity. Qed.
Print Assumptions C87_written_refuted.

(** Not so: a name in the list of custom fields is a custom field. *)
Theorem C87_custom_name_refuted :
  exists S c os names, InitWriter S [] [c] = Ok (os, names) /\ c = "Etotal" /\ names = ["fE1"; "fE2"; "fE3"].
Proof. exists SRPIC, "Etotal". do 2 eexists. split; [vm_compute; reflexivity|]. split; reflexivity. Qed.
Print Assumptions C87_custom_name_refuted.

(** Not so: a species that is accepted is the species asked for. *)
Theorem C87_species_refuted :
  exists S o o', OutputField S "N_257" = Ok o /\ o_species o = [1]%Z /\ OutputField S "N_1,2" = Ok o' /\ o_species o' = [1]%Z.
Proof. exists SRPIC. do 2 eexists. repeat split; vm_compute; reflexivity. Qed.
Print Assumptions C87_species_refuted.

(** Not so: names are read without regard to capitals. *)
Theorem C87_capitals_refuted :
  exists S o o', OutputField S "T00" = Ok o /\ o_id o = T_ /\ OutputField S "t00" = Ok o' /\ o_id o' = Custom_.
Proof. exists SRPIC. do 2 eexists. repeat split; vm_compute; reflexivity. Qed.
Print Assumptions C87_capitals_refuted.

(** Instances. *)
Example C87_recognised_case : spells Rho_ "rHo" /\ indices Rho_ "" /\ Forall a_species [1; 12; 255]%Z
  /\ OutputField SRPIC "rHo_1_12_255" = Ok (Out "rHo_1_12_255" Rho_ [] [1; 12; 255]%Z).
Proof.
  split; [|split; [now left|split; [repeat constructor; discriminate|reflexivity]]].
  split; [discriminate|]. split; [reflexivity|]. intros _ c Hc. cbn in Hc. cbn. intuition congruence.
Qed.
Example C87_recognised_case2 : spells D_ "d" /\ indices D_ "i" /\ OutputField GRPIC "di" = Ok (Out "di" D_ [[1]; [2]; [3]]%Z []).
Proof.
  split; [|split; [|reflexivity]].
  - split; [discriminate|]. split; [reflexivity|]. intros _ c Hc. cbn in Hc. cbn. intuition congruence.
  - right. split; [intros [H|H]; discriminate|]. split; [intros c Hc Hb; cbn in *; intuition congruence|].
    split; [exists "i"%char, ""; split; [reflexivity|cbn; tauto]|]. intros [_ H]. cbn in H. intuition discriminate.
Qed.
Example C87_tensor_case : OutputField GRPIC "Tij_2" = Ok (Out "Tij_2" T_ [[1; 1]; [1; 2]; [1; 3]; [2; 2]; [2; 3]; [3; 3]]%Z [2]%Z).
Proof. reflexivity. Qed.
Example C87_named_case : exists o, OutputField SRPIC "V_3_14" = Ok o /\ defined o = ["fV1_3_14"; "fV2_3_14"; "fV3_3_14"].
Proof. eexists. split; reflexivity. Qed.
Example C87_div_case : exists o, OutputField SRPIC "DIVE" = Ok o /\ defined o = ["fDivE"].
Proof. eexists. split; reflexivity. Qed.
Example C87_distinct_case : good T_ [1; 2]%Z [11]%Z /\ good T_ [1; 2]%Z [1; 1]%Z /\ dataset T_ [1; 2]%Z [11]%Z = "fT12_11" /\ dataset T_ [1; 2]%Z [1; 1]%Z = "fT12_1_1".
Proof.
  assert (G : forall sp, Forall (fun n => 0 <= n <= 255)%Z sp -> good T_ [1; 2]%Z sp).
  { intros sp H. split; [discriminate|]. split; [intros [D|D]; discriminate|]. split; [repeat constructor; discriminate|]. split; [exact H|discriminate]. }
  split; [apply G; repeat constructor; discriminate|]. split; [apply G; repeat constructor; discriminate|]. split; reflexivity.
Qed.
Example C87_merge_case : merge ["N"; "E"; "B"] ["mine"; "F"] = ["N"; "E"; "B"; "mine"; "F"].
Proof. reflexivity. Qed.
Example C87_init_case : exists os, InitWriter SRPIC ["N_1"; "N_2"; "T11"; "DivE"] ["mag"; "Gain"] =
  Ok (os, ["fN_1"; "fN_2"; "fT11"; "fDivE"; "fmag"; "fGain"]) /\ Write os ["fN_1"; "fN_2"; "fT11"; "fDivE"; "fmag"; "fGain"] = Ok ["fN_1"; "fN_2"; "fT11"; "fDivE"; "fmag"; "fGain"].
Proof. eexists. split; vm_compute; reflexivity. Qed.
(** The diagonal of T and all of T cannot be asked for together. *)
Example C87_init_clash : InitWriter SRPIC ["Tii"; "Tij"] [] = Err /\ InitWriter SRPIC ["Tii_1"; "Tij_2"] [] <> Err.
Proof. split; [reflexivity|discriminate]. Qed.
