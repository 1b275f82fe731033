(** Directions and particle send tags: src/global/arch/directions.h and
    src/global/arch/mpi_tags.h.  A direction is a list of D integers. *)
From Coq Require Import ZArith List Bool.
From Verif Require Import Base.
Import ListNotations.
Open Scope Z_scope.

(** src/global/arch/directions.h:173, 180-189, 206-233, [Directions<D>::all]. *)
Definition all_dirs (D : nat) : list (list Z) :=
  match D with
  | 1%nat => [ [-1]; [1] ]
  | 2%nat => [ [-1; -1]; [-1; 0]; [-1; 1]; [0; -1]; [0; 1]; [1; -1]; [1; 0]; [1; 1] ]
  | 3%nat =>
      [ [-1; -1; -1]; [-1; -1; 0]; [-1; -1; 1]; [-1; 0; -1]; [-1; 0; 0]; [-1; 0; 1];
        [-1; 1; -1]; [-1; 1; 0]; [-1; 1; 1]; [0; -1; -1]; [0; -1; 0]; [0; -1; 1];
        [0; 0; -1]; [0; 0; 1]; [0; 1; -1]; [0; 1; 0]; [0; 1; 1]; [1; -1; -1];
        [1; -1; 0]; [1; -1; 1]; [1; 0; -1]; [1; 0; 0]; [1; 0; 1]; [1; 1; -1];
        [1; 1; 0]; [1; 1; 1] ]
  | _ => []
  end.

(** src/global/arch/directions.h:174, 190-195, 234-241, [Directions<D>::orth]. *)
Definition orth_dirs (D : nat) : list (list Z) :=
  match D with
  | 1%nat => [ [-1]; [1] ]
  | 2%nat => [ [-1; 0]; [0; -1]; [0; 1]; [1; 0] ]
  | 3%nat => [ [-1; 0; 0]; [0; -1; 0]; [0; 0; -1]; [0; 0; 1]; [0; 1; 0]; [1; 0; 0] ]
  | _ => []
  end.

(** src/global/arch/directions.h:175, 196-201, 242-256, [Directions<D>::unique]. *)
Definition unique_dirs (D : nat) : list (list Z) :=
  match D with
  | 1%nat => [ [1] ]
  | 2%nat => [ [0; 1]; [1; 1]; [1; 0]; [-1; 1] ]
  | 3%nat =>
      [ [0; 0; 1]; [0; 1; 0]; [1; 0; 0]; [1; 1; 0]; [-1; 1; 0]; [0; 1; 1]; [0; -1; 1];
        [1; 0; 1]; [-1; 0; 1]; [1; 1; 1]; [-1; 1; 1]; [1; -1; 1]; [1; 1; -1] ]
  | _ => []
  end.

(** src/global/arch/directions.h:51-57, unary minus. *)
Definition opp_dir (d : list Z) : list Z := map Z.opp d.

(** src/global/arch/directions.h:80-90, [get_assoc_orth]: loop over the entries, index [i],
    in a direction of total length [D]. *)
Fixpoint assoc_orth_from (D i : nat) (d : list Z) : list (list Z) :=
  match d with
  | [] => []
  | a :: d' =>
      if a =? 0 then assoc_orth_from D (S i) d'
      else (repeat 0 i ++ [a] ++ repeat 0 (D - S i)) :: assoc_orth_from D (S i) d'
  end.
Definition assoc_orth (d : list Z) : list (list Z) := assoc_orth_from (length d) 0 d.

(** src/global/arch/directions.h:92-104, [get_sign]. *)
Fixpoint get_sign_from (sign : Z) (d : list Z) : res Z :=
  match d with
  | [] => if sign =? 0 then Err else Ok sign
  | a :: d' =>
      if a =? 0 then get_sign_from sign d'
      else if negb (sign =? 0) then Err else get_sign_from a d'
  end.
Definition get_sign (d : list Z) : res Z := get_sign_from 0 d.

(** src/global/arch/directions.h:106-125, [get_dim]; the result is the 0-based number of the
    dimension.  Note the test [dir > 0] at line 110. *)
Fixpoint get_dim_from (i dir : Z) (d : list Z) : res Z :=
  match d with
  | [] => if dir =? -1 then Err
          else if (dir =? 0) || (dir =? 1) || (dir =? 2) then Ok dir else Err
  | a :: d' =>
      if a =? 0 then get_dim_from (i + 1) dir d'
      else if 0 <? dir then Err else get_dim_from (i + 1) i d'
  end.
Definition get_dim (d : list Z) : res Z := get_dim_from 0 (-1) d.

(** src/global/arch/directions.h:150-169, [hash]. C++ integer division truncates. *)
Definition hash2 (a b : Z) : Z := Z.quot ((2 + a + b) * (3 + a + b)) 2 + b.
Definition hash (d : list Z) : Z :=
  match d with
  | [a] => a
  | [a; b] => hash2 a b
  | [a; b; c] =>
      let k1 := hash2 a b in Z.quot ((2 + k1 + c) * (3 + k1 + c)) 2 + c
  | _ => 0
  end.

(** src/global/arch/mpi_tags.h:36-37, 53-60, 88-113: named tag constants. *)
Definition im1 := 2.       Definition ip1 := 3.
Definition im1_jm1 := 2.   Definition im1_j_0 := 3.   Definition im1_jp1 := 4.
Definition i_0_jm1 := 5.   Definition i_0_jp1 := 6.
Definition ip1_jm1 := 7.   Definition ip1_j_0 := 8.   Definition ip1_jp1 := 9.
Definition im1_jm1_km1 := 2.  Definition im1_jm1_k_0 := 3.  Definition im1_jm1_kp1 := 4.
Definition im1_j_0_km1 := 5.  Definition im1_j_0_k_0 := 6.  Definition im1_j_0_kp1 := 7.
Definition im1_jp1_km1 := 8.  Definition im1_jp1_k_0 := 9.  Definition im1_jp1_kp1 := 10.
Definition i_0_jm1_km1 := 11. Definition i_0_jm1_k_0 := 12. Definition i_0_jm1_kp1 := 13.
Definition i_0_j_0_km1 := 14. Definition i_0_j_0_kp1 := 15.
Definition i_0_jp1_km1 := 16. Definition i_0_jp1_k_0 := 17. Definition i_0_jp1_kp1 := 18.
Definition ip1_jm1_km1 := 19. Definition ip1_jm1_k_0 := 20. Definition ip1_jm1_kp1 := 21.
Definition ip1_j_0_km1 := 22. Definition ip1_j_0_k_0 := 23. Definition ip1_j_0_kp1 := 24.
Definition ip1_jp1_km1 := 25. Definition ip1_jp1_k_0 := 26. Definition ip1_jp1_kp1 := 27.

(** src/global/arch/mpi_tags.h:39-48, 62-83, 115-172, [dir2tag]: chains of comparisons. *)
Definition dir2tag_table (D : nat) : list (list Z * Z) :=
  match D with
  | 1%nat => [ ([-1], im1); ([1], ip1) ]
  | 2%nat => [ ([-1; -1], im1_jm1); ([-1; 0], im1_j_0); ([-1; 1], im1_jp1);
               ([0; -1], i_0_jm1); ([0; 1], i_0_jp1);
               ([1; -1], ip1_jm1); ([1; 0], ip1_j_0); ([1; 1], ip1_jp1) ]
  | 3%nat =>
      [ ([-1; -1; -1], im1_jm1_km1); ([-1; -1; 0], im1_jm1_k_0); ([-1; -1; 1], im1_jm1_kp1);
        ([-1; 0; -1], im1_j_0_km1); ([-1; 0; 0], im1_j_0_k_0); ([-1; 0; 1], im1_j_0_kp1);
        ([-1; 1; -1], im1_jp1_km1); ([-1; 1; 0], im1_jp1_k_0); ([-1; 1; 1], im1_jp1_kp1);
        ([0; -1; -1], i_0_jm1_km1); ([0; -1; 0], i_0_jm1_k_0); ([0; -1; 1], i_0_jm1_kp1);
        ([0; 0; -1], i_0_j_0_km1); ([0; 0; 1], i_0_j_0_kp1);
        ([0; 1; -1], i_0_jp1_km1); ([0; 1; 0], i_0_jp1_k_0); ([0; 1; 1], i_0_jp1_kp1);
        ([1; -1; -1], ip1_jm1_km1); ([1; -1; 0], ip1_jm1_k_0); ([1; -1; 1], ip1_jm1_kp1);
        ([1; 0; -1], ip1_j_0_km1); ([1; 0; 0], ip1_j_0_k_0); ([1; 0; 1], ip1_j_0_kp1);
        ([1; 1; -1], ip1_jp1_km1); ([1; 1; 0], ip1_jp1_k_0); ([1; 1; 1], ip1_jp1_kp1) ]
  | _ => []
  end.

Fixpoint lookup_dir (t : list (list Z * Z)) (d : list Z) : res Z :=
  match t with
  | [] => Err
  | (e, tag) :: t' =>
      if list_eq_dec Z.eq_dec e d then Ok tag else lookup_dir t' d
  end.
Definition dir2tag (d : list Z) : res Z := lookup_dir (dir2tag_table (length d)) d.

(** src/global/arch/mpi_tags.h:24-29, [tag2dir]. *)
Definition tag2dir (D : nat) (tag : Z) : res (list Z) :=
  if (tag - 2 <? 0) || (Z.of_nat (length (all_dirs D)) <=? tag - 2) then Err
  else Ok (nth (Z.to_nat (tag - 2)) (all_dirs D) []).

(** Conversion of a C++ [bool] to an integer in arithmetic. *)
Definition b2z (b : bool) : Z := if b then 1 else 0.

(** src/global/arch/mpi_tags.h:175-180. *)
Definition send_tag1 (tag : Z) (im ip : bool) : Z :=
  (b2z im * (im1 - 1) + b2z ip * (ip1 - 1) + 1) * tag.

(** src/global/arch/mpi_tags.h:182-193. *)
Definition send_tag2 (tag : Z) (im ip jm jp : bool) : Z :=
  (b2z (im && jm) * (im1_jm1 - 1) +
   b2z (im && jp) * (im1_jp1 - 1) +
   b2z (ip && jm) * (ip1_jm1 - 1) +
   b2z (ip && jp) * (ip1_jp1 - 1) +
   b2z (im && negb jp && negb jm) * (im1_j_0 - 1) +
   b2z (ip && negb jp && negb jm) * (ip1_j_0 - 1) +
   b2z (jm && negb ip && negb im) * (i_0_jm1 - 1) +
   b2z (jp && negb ip && negb im) * (i_0_jp1 - 1) + 1) * tag.

(** src/global/arch/mpi_tags.h:195-232. *)
Definition send_tag3 (tag : Z) (im ip jm jp km kp : bool) : Z :=
  (b2z (im && jm && km) * (im1_jm1_km1 - 1) +
   b2z (im && jm && kp) * (im1_jm1_kp1 - 1) +
   b2z (im && jp && km) * (im1_jp1_km1 - 1) +
   b2z (im && jp && kp) * (im1_jp1_kp1 - 1) +
   b2z (ip && jm && km) * (ip1_jm1_km1 - 1) +
   b2z (ip && jm && kp) * (ip1_jm1_kp1 - 1) +
   b2z (ip && jp && km) * (ip1_jp1_km1 - 1) +
   b2z (ip && jp && kp) * (ip1_jp1_kp1 - 1) +
   b2z (im && jm && negb km && negb kp) * (im1_jm1_k_0 - 1) +
   b2z (im && jp && negb km && negb kp) * (im1_jp1_k_0 - 1) +
   b2z (ip && jm && negb km && negb kp) * (ip1_jm1_k_0 - 1) +
   b2z (ip && jp && negb km && negb kp) * (ip1_jp1_k_0 - 1) +
   b2z (im && negb jm && negb jp && km) * (im1_j_0_km1 - 1) +
   b2z (im && negb jm && negb jp && kp) * (im1_j_0_kp1 - 1) +
   b2z (ip && negb jm && negb jp && km) * (ip1_j_0_km1 - 1) +
   b2z (ip && negb jm && negb jp && kp) * (ip1_j_0_kp1 - 1) +
   b2z (negb im && negb ip && jm && km) * (i_0_jm1_km1 - 1) +
   b2z (negb im && negb ip && jm && kp) * (i_0_jm1_kp1 - 1) +
   b2z (negb im && negb ip && jp && km) * (i_0_jp1_km1 - 1) +
   b2z (negb im && negb ip && jp && kp) * (i_0_jp1_kp1 - 1) +
   b2z (negb im && negb ip && negb jm && negb jp && km) * (i_0_j_0_km1 - 1) +
   b2z (negb im && negb ip && negb jm && negb jp && kp) * (i_0_j_0_kp1 - 1) +
   b2z (negb im && negb ip && jm && negb km && negb kp) * (i_0_jm1_k_0 - 1) +
   b2z (negb im && negb ip && jp && negb km && negb kp) * (i_0_jp1_k_0 - 1) +
   b2z (im && negb jm && negb jp && negb km && negb kp) * (im1_j_0_k_0 - 1) +
   b2z (ip && negb jm && negb jp && negb km && negb kp) * (ip1_j_0_k_0 - 1) + 1) * tag.

(** Use in the particle pushers (src/kernels/pushers/sr.hpp:793-813,
    src/kernels/pushers/gr.hpp:844-862) and in src/archetypes/moving_window.h:225-240: [x] are the cell indices, [n] the numbers of active cells. *)
Definition retag (tag : Z) (x n : list Z) : res Z :=
  match x, n with
  | [i1], [n1] => Ok (send_tag1 tag (i1 <? 0) (n1 <=? i1))
  | [i1; i2], [n1; n2] =>
      Ok (send_tag2 tag (i1 <? 0) (n1 <=? i1) (i2 <? 0) (n2 <=? i2))
  | [i1; i2; i3], [n1; n2; n3] =>
      Ok (send_tag3 tag (i1 <? 0) (n1 <=? i1) (i2 <? 0) (n2 <=? i2) (i3 <? 0) (n3 <=? i3))
  | _, _ => UB
  end.
