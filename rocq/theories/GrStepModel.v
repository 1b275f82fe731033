(** One step of the GR engine, src/engines/grpic/grpic.hpp:66-634, as the list of operations it
    performs on its field arrays, and the kernels of src/kernels/aux_fields_gr.hpp that the
    field-solver model does not contain.

    The first part keeps the operations abstract: which array is read, which is written, by
    which fraction of the time step.  The second part gives the bodies of the auxiliary-field
    and time-average kernels (exact reals, two dimensions: the engine has no other). *)
From Coq Require Import ZArith List Bool Reals.
From Verif Require Import Base FieldModel MetModel KsModel.
Import ListNotations.
Open Scope Z_scope.

(* ---------------------------------------------------------------------- *)
(** * Which operations, in which order *)

(** The six field arrays and two current arrays of src/framework/containers/fields.h:58-101, by
    what the step keeps in them: em::D, em::B, em0::D, em0::B, aux::E, aux::H, cur::J, cur0::J. *)
Inductive slot := SD | SB | SD0 | SB0 | SE | SH | SJ | SJ0.
Definition slot_eq_dec (a b : slot) : {a = b} + {a <> b}.
Proof. decide equality. Defined.

(** gr_getE, gr_getH: fieldsolvers.h:37-44. *)
Inductive gr_getE := E_D0_B | E_D_B0.
Inductive gr_getH := H_D_B0 | H_D0_B0.

(** [frac]: fraction of the time step in quarters (HALF = 2, ONE = 4). *)
Inductive instr :=
| TimeAverageDB                                  (* utils.h:46-52 *)
| TimeAverageJ                                   (* utils.h:55-61 *)
| ComputeAuxE (md : gr_getE)                     (* fieldsolvers.h:79-99 *)
| ComputeAuxH (md : gr_getH)                     (* fieldsolvers.h:102-122 *)
| Faraday (md : gr_faraday_mode) (frac : Z)      (* fieldsolvers.h:125-162 *)
| Ampere (md : gr_ampere_mode) (frac : Z)        (* fieldsolvers.h:165-218 *)
| AmpereCurrents (md : gr_ampere_mode)           (* fieldsolvers.h:221-262; aux and main only *)
| Exchange (l : list slot)                       (* CommunicateFields, then FieldBoundaries *)
| ParticlePush                                   (* reads em::D, em0::B: particle_pusher.h *)
| CurrentsDeposit                                (* cur0 zeroed, deposited, synchronised, filtered: 417-440 *)
| CommunicateParticles
| SwapFields                                     (* utils.h:32-35 *)
| CopyFields                                     (* utils.h:41-43 *)
| SortParticles.

(** Start-up, grpic.hpp:74-302. *)
Definition gr_start (fieldsolver : bool) : list instr :=
  if fieldsolver then
    [ Exchange [SB; SB0; SD; SD0];               (* 96-103 *)
      CopyFields;                                (* 111 *)
      ComputeAuxE E_D_B0; ComputeAuxH H_D_B0;    (* 119-120 *)
      Exchange [SH; SE];                         (* 125-131 *)
      Faraday FarAux 2;                          (* 138-142 *)
      Exchange [SB; SB0];                        (* 147-153 *)
      Ampere AmpInit 2;                          (* 160-164 *)
      Exchange [SD; SD0];                        (* 169-175 *)
      ComputeAuxE E_D_B0; ComputeAuxH H_D_B0;    (* 183-184 *)
      Exchange [SH; SE];                         (* 189-195 *)
      Faraday FarMain 4;                         (* 204-208 *)
      Exchange [SB; SB0];                        (* 212-218 *)
      Ampere AmpAux 4;                           (* 225 *)
      Exchange [SD; SD0];                        (* 229-235 *)
      ComputeAuxH H_D0_B0;                       (* 242 *)
      Exchange [SH];                             (* 246-252 *)
      Ampere AmpMain 4;                          (* 260 *)
      Exchange [SD; SD0];                        (* 264-270 *)
      SwapFields ]                               (* 277 *)
  else [CopyFields].                             (* 300 *)

Definition opt (b : bool) (l : list instr) : list instr := if b then l else [].

(** The rest of the step, grpic.hpp:320-617. *)
Definition gr_main (fieldsolver deposit : bool) : list instr :=
  opt fieldsolver
    [ TimeAverageDB;                             (* 329 *)
      ComputeAuxE E_D0_B;                        (* 335 *)
      Exchange [SE];                             (* 339-350 *)
      Faraday FarAux 4;                          (* 359 *)
      Exchange [SB; SB0];                        (* 363-374 *)
      ComputeAuxH H_D_B0;                        (* 383 *)
      Exchange [SH] ]                            (* 387-398 *)
  ++ [ParticlePush]                              (* 409 *)
  ++ opt deposit [CurrentsDeposit]               (* 417-440 *)
  ++ [CommunicateParticles]                      (* 443 *)
  ++ opt fieldsolver
    (opt deposit [TimeAverageJ]                  (* 455 *)
     ++ [ ComputeAuxE E_D_B0;                    (* 462 *)
          Exchange [SE];                         (* 466-477 *)
          Faraday FarMain 4;                     (* 487 *)
          Exchange [SB; SB0];                    (* 494-502 *)
          Ampere AmpAux 4 ]                      (* 511 *)
     ++ opt deposit [AmpereCurrents AmpAux]      (* 521-524 *)
     ++ [ Exchange [SD; SD0];                    (* 532-540 *)
          ComputeAuxH H_D0_B0;                   (* 549 *)
          Exchange [SH];                         (* 553-564 *)
          Ampere AmpMain 4 ]                     (* 574 *)
     ++ opt deposit [AmpereCurrents AmpMain]     (* 584-587 *)
     ++ [ SwapFields;                            (* 596 *)
          Exchange [SD; SD0] ])                  (* 603-611 *)
  ++ [SortParticles].                            (* 616 *)

(** step_forward, grpic.hpp:66-634. *)
Definition step_forward (fieldsolver deposit : bool) (step : nat) : list instr :=
  match step with O => gr_start fieldsolver | S _ => [] end ++ gr_main fieldsolver deposit.

(** What the operations do to the values the arrays hold.  [V]: an array, [P]: the particles. *)
Record gr_ops (V P : Type) := GrOps {
  o_avg : V -> V -> V;                   (* array updated, other array *)
  o_getE : V -> V -> V -> V;             (* D, B, old E *)
  o_getH : V -> V -> V -> V;             (* D, B, old H *)
  o_far : Z -> V -> V -> V -> V;         (* frac, B in, old B out, E *)
  o_amp : Z -> V -> V -> V -> V;         (* frac, D in, old D out, H *)
  o_addJ : V -> V -> V;                  (* D, J *)
  o_ex : slot -> V -> V;
  o_push : V -> V -> P -> P;             (* D, B, particles *)
  o_dep : P -> V;
  o_prt : P -> P                         (* communication, sorting *)
}.
Arguments GrOps {V P}.
Arguments o_avg {V P}. Arguments o_getE {V P}. Arguments o_getH {V P}. Arguments o_far {V P}.
Arguments o_amp {V P}. Arguments o_addJ {V P}. Arguments o_ex {V P}. Arguments o_push {V P}.
Arguments o_dep {V P}. Arguments o_prt {V P}.

Section Exec.
  Context {V P : Type} (o : gr_ops V P).
  Definition gstate : Type := (slot -> V) * P.

  Definition put (s : slot -> V) (k : slot) (v : V) : slot -> V :=
    fun k' => if slot_eq_dec k' k then v else s k'.

  Definition exec (s : gstate) (i : instr) : gstate :=
    let (f, p) := s in
    match i with
    | TimeAverageDB => (put (put f SD0 (o_avg o (f SD0) (f SD))) SB0 (o_avg o (f SB0) (f SB)), p)
    | TimeAverageJ => (put f SJ (o_avg o (f SJ) (f SJ0)), p)
    | ComputeAuxE E_D0_B => (put f SE (o_getE o (f SD0) (f SB) (f SE)), p)
    | ComputeAuxE E_D_B0 => (put f SE (o_getE o (f SD) (f SB0) (f SE)), p)
    | ComputeAuxH H_D_B0 => (put f SH (o_getH o (f SD) (f SB0) (f SH)), p)
    | ComputeAuxH H_D0_B0 => (put f SH (o_getH o (f SD0) (f SB0) (f SH)), p)
    | Faraday FarAux c => (put f SB0 (o_far o c (f SB0) (f SB0) (f SE)), p)
    | Faraday FarMain c => (put f SB0 (o_far o c (f SB) (f SB0) (f SE)), p)
    | Ampere AmpAux c => (put f SD0 (o_amp o c (f SD0) (f SD0) (f SH)), p)
    | Ampere AmpMain c => (put f SD0 (o_amp o c (f SD) (f SD0) (f SH)), p)
    | Ampere AmpInit c => (put f SD (o_amp o c (f SD) (f SD) (f SH)), p)
    | AmpereCurrents AmpAux => (put f SD0 (o_addJ o (f SD0) (f SJ)), p)
    | AmpereCurrents AmpMain => (put f SD0 (o_addJ o (f SD0) (f SJ0)), p)
    | AmpereCurrents AmpInit => (f, p)
    | Exchange l => (fold_left (fun f k => put f k (o_ex o k (f k))) l f, p)
    | ParticlePush => (f, o_push o (f SD) (f SB0) p)
    | CurrentsDeposit => (put f SJ0 (o_dep o p), p)
    | CommunicateParticles | SortParticles => (f, o_prt o p)
    | SwapFields =>
        (put (put (put (put (put (put f SD (f SD0)) SD0 (f SD)) SB (f SB0)) SB0 (f SB))
              SJ (f SJ0)) SJ0 (f SJ), p)
    | CopyFields => (put (put f SD0 (f SD)) SB0 (f SB), p)
    end.
  Definition execs (l : list instr) (s : gstate) : gstate := fold_left exec l s.

  (** [n] steps of a run that starts at step 0 (Engine::run, engines/engine.hpp:240-300). *)
  Fixpoint gr_run (fieldsolver deposit : bool) (n : nat) (s : gstate) : gstate :=
    match n with
    | O => s
    | S k => execs (step_forward fieldsolver deposit k) (gr_run fieldsolver deposit k s)
    end.
End Exec.

(* ---------------------------------------------------------------------- *)
(** * The kernels of aux_fields_gr.hpp *)

Open Scope R_scope.

Section AuxKernels.
  Variables (g : Z) (M : grmet).
  Notation "'h13' x" := (m_h_ M 1 3 x) (at level 10).

  (** ComputeAuxE_kernel, aux_fields_gr.hpp:48-114; [df], [bf]: the arrays passed as D and B
      (fieldsolvers.h:81-95); E is written to aux. *)
  Definition aux_E (df bf : arr) (m : gr_fields) (i1 i2 : Z) : gr_fields :=
    let a := coord g i1 in let b := coord g i2 in
    let w x := m_sqrt_det_h_tilde M x in
    let Df c j1 j2 := m (df, c) [j1; j2] in
    let Bf c j1 j2 := m (bf, c) [j1; j2] in
    let D1_half := (w (a - half, b) * h13 (a - half, b) * Df Ex1 (i1 - 1)%Z i2
                    + w (a + half, b) * h13 (a + half, b) * Df Ex1 i1 i2) / (2 * w (a, b)) in
    let B2_half := (w (a - half, b) * m_sqrt_det_h M (a - half, b) * m_beta1 M (a - half, b) * Bf Bx2 (i1 - 1)%Z i2
                    + w (a + half, b) * m_sqrt_det_h M (a + half, b) * m_beta1 M (a + half, b) * Bf Bx2 i1 i2)
                   / (2 * w (a, b)) in
    let b' := b + half in
    let B3_half := (w (a - half, b') * m_sqrt_det_h M (a - half, b') * m_beta1 M (a - half, b') * Bf Bx3 (i1 - 1)%Z i2
                    + w (a + half, b') * m_sqrt_det_h M (a + half, b') * m_beta1 M (a + half, b') * Bf Bx3 i1 i2)
                   / (2 * w (a, b')) in
    let D3_half := (w (a, b) * h13 (a, b) * Df Ex3 i1 i2
                    + w (a + 1, b) * h13 (a + 1, b) * Df Ex3 (i1 + 1)%Z i2) / (2 * w (a + half, b)) in
    let D1_cov := m_h_ M 1 1 (a + half, b) * Df Ex1 i1 i2 + D3_half in
    let D2_cov := m_h_ M 2 2 (a, b + half) * Df Ex2 i1 i2 in
    let D3_cov := m_h_ M 3 3 (a, b) * Df Ex3 i1 i2 + D1_half in
    let m := gset m (Aux, Ex1) [i1; i2] (m_alpha M (a + half, b) * D1_cov) in
    let m := gset m (Aux, Ex2) [i1; i2] (m_alpha M (a, b + half) * D2_cov - B3_half) in
    gset m (Aux, Ex3) [i1; i2] (m_alpha M (a, b) * D3_cov + B2_half).

  (** ComputeAuxH_kernel, aux_fields_gr.hpp:154-226. *)
  Definition aux_H (df bf : arr) (m : gr_fields) (i1 i2 : Z) : gr_fields :=
    let a := coord g i1 in let b := coord g i2 in
    let w x := m_sqrt_det_h_tilde M x in
    let s x := m_sqrt_det_h M x in
    let be x := m_beta1 M x in
    let Df c j1 j2 := m (df, c) [j1; j2] in
    let Bf c j1 j2 := m (bf, c) [j1; j2] in
    let b' := b + half in
    let B1_half := (w (a, b') * h13 (a, b') * Bf Bx1 i1 i2
                    + w (a + 1, b') * h13 (a + 1, b') * Bf Bx1 (i1 + 1)%Z i2) / (2 * w (a + half, b')) in
    let D2_half := (w (a, b') * s (a, b') * be (a, b') * Df Ex2 i1 i2
                    + w (a + 1, b') * s (a + 1, b') * be (a + 1, b') * Df Ex2 (i1 + 1)%Z i2)
                   / (2 * w (a + half, b')) in
    let D3_half := (w (a, b) * s (a, b) * be (a, b) * Df Ex3 i1 i2
                    + w (a + 1, b) * s (a + 1, b) * be (a + 1, b) * Df Ex3 (i1 + 1)%Z i2)
                   / (2 * w (a + half, b)) in
    let B3_half := (w (a - half, b') * h13 (a - half, b') * Bf Bx3 (i1 - 1)%Z i2
                    + w (a + half, b') * h13 (a + half, b') * Bf Bx3 i1 i2) / (2 * w (a, b')) in
    let B1_cov := m_h_ M 1 1 (a, b') * Bf Bx1 i1 i2 + B3_half in
    let B2_cov := m_h_ M 2 2 (a + half, b) * Bf Bx2 i1 i2 in
    let B3_cov := m_h_ M 3 3 (a + half, b') * Bf Bx3 i1 i2 + B1_half in
    let m := gset m (Aux, Bx1) [i1; i2] (m_alpha M (a, b') * B1_cov) in
    let m := gset m (Aux, Bx2) [i1; i2] (m_alpha M (a + half, b) * B2_cov + D3_half) in
    gset m (Aux, Bx3) [i1; i2] (m_alpha M (a + half, b') * B3_cov - D2_half).
End AuxKernels.

(** Arrays passed by fieldsolvers.h:81-95 and 104-118. *)
Definition getE_args (md : gr_getE) : arr * arr := match md with E_D0_B => (Em0, Em) | E_D_B0 => (Em, Em0) end.
Definition getH_args (md : gr_getH) : arr * arr := match md with H_D_B0 => (Em, Em0) | H_D0_B0 => (Em0, Em0) end.
Definition auxE_body (g : Z) (M : grmet) (md : gr_getE) : gr_fields -> list Z -> gr_fields :=
  body2 (let '(d, b) := getE_args md in aux_E g M d b).
Definition auxH_body (g : Z) (M : grmet) (md : gr_getH) : gr_fields -> list Z -> gr_fields :=
  body2 (let '(d, b) := getH_args md in aux_H g M d b).

(** TimeAverageDB_kernel, aux_fields_gr.hpp:248-271. *)
Definition avgDB_body (m : gr_fields) (x : list Z) : gr_fields :=
  fold_left (fun m c => gset m (Em0, c) x (half * (m (Em0, c) x + m (Em, c) x)))
    [Bx1; Bx2; Bx3; Ex1; Ex2; Ex3] m.

(** TimeAverageJ_kernel, aux_fields_gr.hpp:286-303: [true] is cur0, [false] is cur. *)
Definition jloc_eq_dec (a b : bool * jcomp) : {a = b} + {a <> b}.
Proof. decide equality. apply jcomp_eq_dec. apply bool_dec. Defined.
Definition gr_currents := mem (bool * jcomp).
Definition avgJ_body (m : gr_currents) (x : list Z) : gr_currents :=
  fold_left (fun m c => set jloc_eq_dec m (false, c) x (half * (m (true, c) x + m (false, c) x)))
    [Jx1; Jx2; Jx3] m.

(** CurrentsAmpere_kernel, ampere_gr.hpp:143-170, adding the current array [j] to D in em0
    (fieldsolvers.h:237-258). *)
Definition currents_gr (g : Z) (mt : metric2) (ax_lo ax_hi : bool) (i2max : Z) (coeff : R)
    (j : jcomp -> list Z -> R) (m : gr_fields) (x : list Z) : gr_fields :=
  match x with
  | [i1; i2] =>
    let a := coord g i1 in let b := coord g i2 in
    let plus m c v := gset m (Em0, c) x (m (Em0, c) x + v) in
    let ex2 m := plus m Ex2 (j Jx2 x * coeff * (1 / sdh mt a (b + half))) in
    if (i2 =? g)%Z && ax_lo then
      ex2 (plus m Ex1 (j Jx1 x * half * coeff / polar_area mt (a + half)))
    else if (i2 =? i2max)%Z && ax_hi then
      plus m Ex1 (j Jx1 x * half * coeff / polar_area mt (a + half))
    else
      plus (ex2 (plus m Ex1 (j Jx1 x * coeff * (1 / sdh mt (a + half) b)))) Ex3
        (j Jx3 x * coeff * (1 / sdh mt a b))
  | _ => m
  end.

(** The metric as the Faraday and Ampere kernels see it. *)
Definition met2 (M : grmet) : metric2 :=
  {| sdh := fun a b => m_sqrt_det_h M (a, b);
     h11 := fun a b => m_h_ M 1 1 (a, b); h22 := fun a b => m_h_ M 2 2 (a, b); h33 := fun a b => m_h_ M 3 3 (a, b);
     polar_area := m_polar_area M |}.
