(** Fields set by the problem generator: src/archetypes/field_setter.h (SetEMFields_kernel,
    CustomSetEMFields_kernel), their launches in src/engines/engine.hpp:143-157 and
    src/archetypes/utils.h:171-188 (UpdateEMFields).  Exact reals. *)
From Coq Require Import ZArith List Bool Reals.
From Verif Require Import Base ListLemmas FieldModel HaloSpec MatchModel.
Import ListNotations.
Open Scope R_scope.

(** ** SetEMFields_kernel *)
Section Initial.
  (** [ph]: metric.convert<Cd, Ph>; [tu]: metric.transform<i, T, U>; [setter c]: the function the
      generator has for the component, if any.  Positions as in MatchModel [where_]: the kernel
      writes them out in the same way, lines 68-104, 118-157, 207-254 and 159-191, 255-287. *)
  Variables (g : Z) (ph : list R -> list R) (tu : nat -> list R -> R -> R) (setter : comp -> option (list R -> R)).

  Definition has (c : comp) : bool := match setter c with Some _ => true | None => false end.
  (** Lines 63-110, 114-158, 201-254. *)
  Definition set_sr (m : fields) (x : list Z) : fields :=
    fold_left (fun m c => match setter c with
                          | Some f => let p := where_ g c x in fset m c x (tu (number c) p (f (ph p)))
                          | None => m
                          end) [Ex1; Ex2; Ex3; Bx1; Bx2; Bx3] m.
  (** Lines 158-191, 255-287: each triple only if all three functions are there; no conversion. *)
  Definition set_gr_triple (cs : list comp) (m : fields) (x : list Z) : fields :=
    if forallb has cs then
      fold_left (fun m c => match setter c with Some f => fset m c x (f (ph (where_ g c x))) | None => m end) cs m
    else m.
  Definition set_gr (m : fields) (x : list Z) : fields :=
    set_gr_triple [Bx1; Bx2; Bx3] (set_gr_triple [Ex1; Ex2; Ex3] m x) x.
End Initial.
(** engine.hpp:143-157: over the active cells; in one dimension of general relativity the kernel
    aborts (line 105). *)
Definition active_cells (g : Z) (n : list Z) : list (list Z) := map (loc g) (HaloSpec.box (map (fun k => (0, k)%Z) n)).
Definition init_fields (gr : bool) (g : Z) (ph : list R -> list R) (tu : nat -> list R -> R -> R) (setter : comp -> option (list R -> R))
    (n : list Z) (order : list (list Z) -> list (list Z)) (m : fields) : res fields :=
  match n with
  | [_] => if gr then Err else Ok (par_for (set_sr g ph tu setter) (order (active_cells g n)) m)
  | [_; _] | [_; _; _] => Ok (par_for (if gr then set_gr g ph setter else set_sr g ph tu setter) (order (active_cells g n)) m)
  | _ => Err
  end.

(** ** CustomSetEMFields_kernel *)
(** One entry of e_U or b_U: the factor is one over the first number; component; offsets of the
    elements that are added. *)
Definition row := (Z * comp * list (list Z))%type.
(** The rows of e_U and b_U in dimension 1, lines 334-340, 377-383. *)
Definition stencil1 (c : comp) : list row :=
  match c with
  | Ex1 | Bx2 | Bx3 => [
      (1, Ex1, [[0]]);
      (2, Ex2, [[0]; [1]]);
      (2, Ex3, [[0]; [1]]);
      (2, Bx1, [[0]; [1]]);
      (1, Bx2, [[0]]);
      (1, Bx3, [[0]]) ]%Z
  | Ex2 | Ex3 | Bx1 => [
      (2, Ex1, [[0]; [(-1)]]);
      (1, Ex2, [[0]]);
      (1, Ex3, [[0]]);
      (1, Bx1, [[0]]);
      (2, Bx2, [[0]; [(-1)]]);
      (2, Bx3, [[0]; [(-1)]]) ]%Z
  end.
(** The rows of e_U and b_U in dimension 2, lines 442-451, 478-487, 512-519, 540-548. *)
Definition stencil2 (c : comp) : list row :=
  match c with
  | Ex1 | Bx2 => [
      (1, Ex1, [[0; 0]]);
      (4, Ex2, [[0; 0]; [1; 0]; [0; (-1)]; [1; (-1)]]);
      (2, Ex3, [[0; 0]; [1; 0]]);
      (4, Bx1, [[0; 0]; [1; 0]; [0; (-1)]; [1; (-1)]]);
      (1, Bx2, [[0; 0]]);
      (2, Bx3, [[0; 0]; [0; (-1)]]) ]%Z
  | Ex2 | Bx1 => [
      (4, Ex1, [[0; 0]; [(-1); 0]; [0; 1]; [(-1); 1]]);
      (1, Ex2, [[0; 0]]);
      (2, Ex3, [[0; 0]; [0; 1]]);
      (1, Bx1, [[0; 0]]);
      (4, Bx2, [[0; 0]; [(-1); 0]; [0; 1]; [(-1); 1]]);
      (2, Bx3, [[0; 0]; [(-1); 0]]) ]%Z
  | Ex3 => [
      (2, Ex1, [[0; 0]; [(-1); 0]]);
      (2, Ex2, [[0; 0]; [0; (-1)]]);
      (1, Ex3, [[0; 0]]);
      (2, Bx1, [[0; 0]; [0; (-1)]]);
      (2, Bx2, [[0; 0]; [(-1); 0]]);
      (4, Bx3, [[0; 0]; [(-1); 0]; [0; (-1)]; [(-1); (-1)]]) ]%Z
  | Bx3 => [
      (2, Ex1, [[0; 0]; [0; 1]]);
      (2, Ex2, [[0; 0]; [1; 0]]);
      (4, Ex3, [[0; 0]; [1; 0]; [0; 1]; [1; 1]]);
      (2, Bx1, [[0; 0]; [1; 0]]);
      (2, Bx2, [[0; 0]; [0; 1]]);
      (1, Bx3, [[0; 0]]) ]%Z
  end.
(** The rows of e_U and b_U in dimension 3, lines 577-801. *)
Definition stencil3 (c : comp) : list row :=
  match c with
  | Ex1 => [
      (1, Ex1, [[0; 0; 0]]);
      (4, Ex2, [[0; 0; 0]; [1; 0; 0]; [0; (-1); 0]; [1; (-1); 0]]);
      (4, Ex3, [[0; 0; 0]; [1; 0; 0]; [0; 0; (-1)]; [1; 0; (-1)]]);
      (8, Bx1, [[0; 0; 0]; [1; 0; 0]; [0; (-1); 0]; [1; (-1); 0]; [0; 0; (-1)]; [1; 0; (-1)]; [0; (-1); (-1)]; [1; (-1); (-1)]]);
      (2, Bx2, [[0; 0; 0]; [0; 0; (-1)]]);
      (2, Bx3, [[0; 0; 0]; [0; (-1); 0]]) ]%Z
  | Ex2 => [
      (4, Ex1, [[0; 0; 0]; [(-1); 0; 0]; [0; 1; 0]; [(-1); 1; 0]]);
      (1, Ex2, [[0; 0; 0]]);
      (4, Ex3, [[0; 0; 0]; [0; 1; 0]; [0; 0; (-1)]; [0; 1; (-1)]]);
      (2, Bx1, [[0; 0; 0]; [0; 0; (-1)]]);
      (8, Bx2, [[0; 0; 0]; [(-1); 0; 0]; [0; 1; 0]; [(-1); 1; 0]; [0; 0; (-1)]; [(-1); 0; (-1)]; [0; 1; (-1)]; [(-1); 1; (-1)]]);
      (2, Bx3, [[0; 0; 0]; [(-1); 0; 0]]) ]%Z
  | Ex3 => [
      (4, Ex1, [[0; 0; 0]; [(-1); 0; 0]; [0; 0; 1]; [(-1); 0; 1]]);
      (4, Ex2, [[0; 0; 0]; [0; (-1); 0]; [0; 0; 1]; [0; (-1); 1]]);
      (1, Ex3, [[0; 0; 0]]);
      (2, Bx1, [[0; 0; 0]; [0; (-1); 0]]);
      (2, Bx2, [[0; 0; 0]; [(-1); 0; 0]]);
      (8, Bx3, [[0; 0; 0]; [(-1); 0; 0]; [0; 0; 1]; [(-1); 0; 1]; [0; (-1); 0]; [(-1); (-1); 0]; [0; (-1); 1]; [(-1); (-1); 1]]) ]%Z
  | Bx1 => [
      (8, Ex1, [[0; 0; 0]; [(-1); 0; 0]; [0; 1; 0]; [(-1); 1; 0]; [0; 0; 1]; [(-1); 0; 1]; [0; 1; 1]; [(-1); 1; 1]]);
      (2, Ex2, [[0; 0; 0]; [0; 0; 1]]);
      (2, Ex3, [[0; 0; 0]; [0; 1; 0]]);
      (1, Bx1, [[0; 0; 0]]);
      (4, Bx2, [[0; 0; 0]; [(-1); 0; 0]; [0; 1; 0]; [(-1); 1; 0]]);
      (4, Bx3, [[0; 0; 0]; [(-1); 0; 0]; [0; 0; 1]; [(-1); 0; 1]]) ]%Z
  | Bx2 => [
      (2, Ex1, [[0; 0; 0]; [0; 0; 1]]);
      (8, Ex2, [[0; 0; 0]; [1; 0; 0]; [0; (-1); 0]; [1; (-1); 0]; [0; 0; 1]; [1; 0; 1]; [0; (-1); 1]; [1; (-1); 1]]);
      (2, Ex3, [[0; 0; 0]; [1; 0; 0]]);
      (4, Bx1, [[0; 0; 0]; [1; 0; 0]; [0; (-1); 0]; [1; (-1); 0]]);
      (1, Bx2, [[0; 0; 0]]);
      (4, Bx3, [[0; 0; 0]; [0; (-1); 0]; [0; 0; 1]; [0; (-1); 1]]) ]%Z
  | Bx3 => [
      (2, Ex1, [[0; 0; 0]; [0; 1; 0]]);
      (2, Ex2, [[0; 0; 0]; [1; 0; 0]]);
      (8, Ex3, [[0; 0; 0]; [1; 0; 0]; [0; 1; 0]; [1; 1; 0]; [0; 0; (-1)]; [1; 0; (-1)]; [0; 1; (-1)]; [1; 1; (-1)]]);
      (4, Bx1, [[0; 0; 0]; [1; 0; 0]; [0; 0; (-1)]; [1; 0; (-1)]]);
      (4, Bx2, [[0; 0; 0]; [0; 1; 0]; [0; 0; (-1)]; [0; 1; (-1)]]);
      (1, Bx3, [[0; 0; 0]]) ]%Z
  end.
Definition stencil (x : list Z) (c : comp) : list row :=
  match x with [_] => stencil1 c | [_; _] => stencil2 c | [_; _; _] => stencil3 c | _ => [] end.
Definition eval_row (b : fields) (x : list Z) (r : row) : R :=
  let '(den, c, offs) := r in 1 / IZR den * fold_right (fun o s => b c (map2 Z.add x o) + s) 0 offs.

Section Custom.
  (** [tt]: metric.transform<U, T> of a vector at a position; [setter c x_Ph e_T b_T]: whether to set
      the component, and to what.  [buffer]: the member of that name, if it refers to an array. *)
  Variables (g : Z) (ph : list R -> list R) (tu : nat -> list R -> R -> R) (tt : list R -> list R -> list R).
  Variables (setter : comp -> option (list R -> list R -> list R -> bool * R)) (buffer : option fields).

  (** One component, for example lines 323-356; reading an array that is not there is undefined. *)
  Definition custom1 (x : list Z) (rm : res fields) (c : comp) : res fields :=
    rbind rm (fun m => match setter c with
      | None => Ok m
      | Some f => match buffer with
                  | None => UB
                  | Some b =>
                      let p := where_ g c x in
                      let u := map (eval_row b x) (stencil x c) in
                      let '(flag, v) := f (ph p) (tt p (firstn 3 u)) (tt p (skipn 3 u)) in
                      Ok (if flag then fset m c x (tu (number c) p v) else m)
                  end
      end).
  (** Lines 320-418, 420-558, 560-815, in the order of the branches. *)
  Definition custom_body (rm : res fields) (x : list Z) : res fields :=
    fold_left (custom1 x)
      (match x with
       | [_] => [Ex1; Bx2; Bx3; Ex2; Ex3; Bx1]
       | [_; _] => [Ex1; Bx2; Ex2; Bx1; Ex3; Bx3]
       | _ => [Ex1; Ex2; Ex3; Bx1; Bx2; Bx3]
       end) rm.
  Definition custom_run (cells : list (list Z)) (m : fields) : res fields := fold_left custom_body cells (Ok m).
End Custom.
(** The constructor, lines 312-318: the argument [buffer] has no name and the member [buffer] is
    default-constructed. *)
Definition custom_buffer (argument : fields) : option fields := None.
(** utils.h:171-184. *)
Definition update_em_fields (g : Z) (ph : list R -> list R) (tu : nat -> list R -> R -> R) (tt : list R -> list R -> list R)
    (setter : comp -> option (list R -> list R -> list R -> bool * R)) (n : list Z) (order : list (list Z) -> list (list Z)) (em : fields) : res fields :=
  let bckp := em in
  custom_run g ph tu tt setter (custom_buffer bckp) (order (active_cells g n)) em.
