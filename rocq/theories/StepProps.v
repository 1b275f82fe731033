(** Properties C44 and C55. *)
From Coq Require Import ZArith List Reals Lra Lia.
From Verif Require Import Base DecompModel DecompSpec DirsSpec TopoModel TopoSpec HaloModel HaloSpec HaloProofs FieldModel
  StepModel StepSpec StepTop EnergySpec EnergyTop.
Import ListNotations.
Open Scope R_scope.

(** C44: on a periodic box cut into subdomains in any way, for any order of the threads and any
    interleaving of the messages, and any number of steps: every cell of every subdomain, ghost
    cells included, holds the fields of the solution computed on the whole grid. *)
Theorem C44_distributed_run_is_the_reference_solution :
  forall g ls gbc p l Js eE eB em em1 em' F,
  wide g ls -> length gbc = length ls -> all_periodic gbc -> dimension (length ls) -> (2 <= g)%Z -> sdx p <> 0 ->
  periodic (map sumZ ls) F -> agree_active g ls (fun o => phys (length ls) (sdx p) (em o)) F ->
  complete ls eE -> complete ls eB -> first_exchange g ls gbc eE eB em = Some em1 ->
  Forall2 (fun sc Jr => good_sched ls (fst sc) /\ periodic (map sumZ ls) Jr /\
    agree_active g ls (fun o => phys_j (length ls) (sdx p) (snd sc o)) Jr) l Js ->
  field_run g ls gbc p l em1 = Some em' ->
  agree g ls (fun o => phys (length ls) (sdx p) (em' o)) (ref_run p Js F).
Proof. exact run_is_reference. Qed.
Print Assumptions C44_distributed_run_is_the_reference_solution.

(** C44: hence two runs of the same problem on different decompositions have the same fields. *)
Theorem C44_independent_of_the_decomposition :
  forall p Js F g ls gbc l eE eB em em1 em' g' ls' gbc' l' eE' eB' fm fm1 fm',
  wide g ls -> length gbc = length ls -> all_periodic gbc -> dimension (length ls) -> (2 <= g)%Z -> sdx p <> 0 ->
  wide g' ls' -> length gbc' = length ls' -> all_periodic gbc' -> (2 <= g')%Z ->
  map sumZ ls = map sumZ ls' ->
  periodic (map sumZ ls) F ->
  agree_active g ls (fun o => phys (length ls) (sdx p) (em o)) F ->
  agree_active g' ls' (fun o => phys (length ls') (sdx p) (fm o)) F ->
  complete ls eE -> complete ls eB -> first_exchange g ls gbc eE eB em = Some em1 ->
  complete ls' eE' -> complete ls' eB' -> first_exchange g' ls' gbc' eE' eB' fm = Some fm1 ->
  Forall2 (fun sc Jr => good_sched ls (fst sc) /\ periodic (map sumZ ls) Jr /\
    agree_active g ls (fun o => phys_j (length ls) (sdx p) (snd sc o)) Jr) l Js ->
  Forall2 (fun sc Jr => good_sched ls' (fst sc) /\ periodic (map sumZ ls') Jr /\
    agree_active g' ls' (fun o => phys_j (length ls') (sdx p) (snd sc o)) Jr) l' Js ->
  field_run g ls gbc p l em1 = Some em' -> field_run g' ls' gbc' p l' fm1 = Some fm' ->
  forall c d y d' y', In d (domains ls) -> in_extended g y (sub_ncells d) ->
    In d' (domains ls') -> in_extended g' y' (sub_ncells d') ->
    map2 Z.add (sub_offset_ncells d) y = map2 Z.add (sub_offset_ncells d') y' ->
    em' (sub_offset_ndomains d) c (loc g y) = fm' (sub_offset_ndomains d') c (loc g' y').
Proof. exact decompositions_agree. Qed.
Print Assumptions C44_independent_of_the_decomposition.

(** C44: whatever the currents, a run can complete. *)
Theorem C44_runs_can_complete :
  forall g ls gbc p curs em, length gbc = length ls -> paired_flds gbc -> dimension (length ls) ->
  exists l em', map snd l = curs /\ Forall (fun sc => good_sched ls (fst sc)) l /\ field_run g ls gbc p l em = Some em'.
Proof. exact field_run_completes. Qed.
Print Assumptions C44_runs_can_complete.

(** C55: in vacuum the energy of the reference solution is the same after any number of steps. *)
Theorem C55_vacuum_energy_is_conserved :
  forall p N n F, Forall (fun n => 0 < n)%Z N -> plain (tune p) -> sdx p <> 0 -> periodic N F ->
  energy N (sdt p / sdx p) (ref_run p (vacuum n) F) = energy N (sdt p / sdx p) F.
Proof. intros p N n F HN HP Hh HF. exact (proj1 (energy_run p N HN HP Hh n F HF)). Qed.
Print Assumptions C55_vacuum_energy_is_conserved.

(** C55: what this quantity is: both fields at the same time, and a term of second order. *)
Theorem C55_energy_formula :
  forall N l F, energy N l F = inner N (elec F) (elec F) + inner N (magn_at l F) (magn_at l F)
     - l * l / 4 * inner N (curl fwd (elec F)) (curl fwd (elec F)).
Proof. exact energy_is. Qed.
Print Assumptions C55_energy_formula.

(** C55: below the Courant limit the fields stay bounded for ever. *)
Theorem C55_courant_condition_gives_stability :
  forall p N n F, Forall (fun n => 0 < n)%Z N -> plain (tune p) -> sdx p <> 0 -> periodic N F -> (length N <= 3)%nat ->
  let l := sdt p / sdx p in INR (length N) * (l * l) < 1 ->
  let F' := ref_run p (vacuum n) F in
  inner N (elec F') (elec F') <= energy N l F / (1 - INR (length N) * (l * l)) /\
  inner N (magn_at l F') (magn_at l F') <= energy N l F.
Proof. intros p N n F HN HP Hh HF HD. exact (stable p N HN HP Hh n F HF HD). Qed.
Print Assumptions C55_courant_condition_gives_stability.

(** C55: and so do those of the code, on any decomposition. *)
Theorem C55_code_is_stable :
  forall g ls gbc p curs l eE eB em em1 em' F,
  wide g ls -> length gbc = length ls -> all_periodic gbc -> dimension (length ls) -> (2 <= g)%Z -> sdx p <> 0 ->
  Forall (fun l => l <> []) ls -> plain (tune p) ->
  let r := sdt p / sdx p in INR (length ls) * (r * r) < 1 ->
  periodic (map sumZ ls) F -> agree_active g ls (fun o => phys (length ls) (sdx p) (em o)) F ->
  complete ls eE -> complete ls eB -> first_exchange g ls gbc eE eB em = Some em1 ->
  Forall (fun sc => good_sched ls (fst sc)) l -> map snd l = curs -> Forall (fun c => forall o k x, c o k x = 0) curs ->
  field_run g ls gbc p l em1 = Some em' ->
  rsum (cells 0 ls) (fun c => let f a := phys (length ls) (sdx p) (em' (sub_offset_ndomains (fst c))) (E a) (loc g (snd c)) in
     f 0%nat * f 0%nat + f 1%nat * f 1%nat + f 2%nat * f 2%nat)
  <= energy (map sumZ ls) r F / (1 - INR (length ls) * (r * r)).
Proof. exact code_stable. Qed.
Print Assumptions C55_code_is_stable.

(** A box of 7 cells cut into 3 and 4, with one non-zero value of Ex2. *)
Definition ex_F : fields := fun c x =>
  match c, x with Ex2, [i] => if Z.eqb (i mod 7) 0 then 1 else 0 | _, _ => 0 end.
Definition ex_p : solver := {| tune := Build_fcoef 0 0 0 0 0 0 0 0 0 0 0; sdt := / 2; sdx := 1; scur := 0 |}.
Example C44_case :
  wide 2 [[3; 4]%Z] /\ all_periodic [(F_PERIODIC, F_PERIODIC)] /\ dimension (length [[3; 4]%Z]) /\
  periodic [7%Z] ex_F /\
  agree_active 2 [[3; 4]%Z] (fun o => phys 1 1 (fun c x => ex_F c (map2 Z.add (if Z.eqb (nth 0 o 0%Z) 0 then [0%Z] else [3%Z]) (map (fun i => i - 2)%Z x)))) ex_F /\
  ref_step ex_p (fun _ _ => 0) ex_F Bx3 [0%Z] = / 2 /\
  ref_step ex_p (fun _ _ => 0) ex_F Ex2 [0%Z] = / 2.
Proof.
  split; [|split; [|split; [|split; [|split; [|split]]]]].
  - split; [discriminate|]. repeat (apply Forall_cons || apply Forall_nil); split; (discriminate || reflexivity).
  - repeat constructor.
  - unfold dimension. simpl. lia.
  - intros c [|i [|? ?]] [|j [|? ?]] Hx Hy Hm; try discriminate. cbn in Hm. injection Hm as Hm. unfold ex_F.
    rewrite Hm. reflexivity.
  - intros d c y Hd Hy. vm_compute in Hd. destruct Hd as [<-|[<-|[]]]; inversion Hy as [|i ? y' ? H1 H2]; subst; inversion H2; subst;
      unfold phys, unit_of, loc; cbn [sub_offset_ndomains sub_offset_ncells map map2 nth Z.eqb];
      replace (i + 2 - 2)%Z with i by ring; destruct (Nat.ltb _ _); ring.
  - unfold ref_step, ref_currents, ref_ampere, ref_faraday, curl, tuned, across, fwd, bwd, ex_p, ex_F. cbn. field.
  - unfold ref_step, ref_currents, ref_ampere, ref_faraday, curl, tuned, across, fwd, bwd, ex_p, ex_F. cbn. field.
Qed.
Example C55_case : plain (tune ex_p) /\ INR 1 * (sdt ex_p / sdx ex_p * (sdt ex_p / sdx ex_p)) < 1 /\
  energy [7%Z] (/ 2) ex_F = 1.
Proof.
  split; [|split].
  - intros a b. destruct a as [|[|[|a]]]; destruct b as [|[|[|b]]]; split; reflexivity.
  - cbn. lra.
  - unfold energy, inner, total, rsum.
    replace (box _) with [[0]; [1]; [2]; [3]; [4]; [5]; [6]]%Z by reflexivity.
    unfold elec, magn, magn_after, curl, fwd, magn, ex_F. cbn. field.
Qed.
